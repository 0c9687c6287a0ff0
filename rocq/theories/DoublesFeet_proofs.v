(** Proofs about the planning of the feet with doubles. *)
From Coq Require Import Reals ZArith List Bool Lia Lra.
From Verif Require Import Base Geom3 Tools_model Spline_model Swing_model Swing_proofs Geometry_model Footsteps_model Wpg_model Wpg_spec Wpg_proofs Wpg_proofs2 Wpg_proofs3 Wpg_proofs4 Wpg_proofs5
  WpgPlan_spec WpgPlan_proofs WpgPlan_proofs4 WpgPlan_props Doubles_model Doubles_spec Doubles_proofs DoublesSwing_model DoublesSwing_spec DoublesSwing_proofs DoublesSwing_props DoublesFeet_model DoublesFeet_spec.
Import ListNotations.
Open Scope R_scope.

(** ** The knots of a swing that is made *)
Lemma add_points_keep l : forall s s', cs_angular s = false -> add_points s l = Ok s' -> cs_points s' = cs_points s ++ map to_point l.
Proof.
  induction l as [|[[t x] d] l IH]; intros s s' A E; cbn [add_points map] in *; [injection E as <-; now rewrite app_nil_r|].
  unfold add_point in E. rewrite A in E. destruct (last_point (cs_points s)) as [q|].
  - destruct (Rle_dec t (sp_t q)); [discriminate|]. apply IH in E; [|reflexivity]. rewrite E. cbn [cs_points]. now rewrite <- app_assoc.
  - apply IH in E; [|reflexivity]. rewrite E. cbn [cs_points]. now rewrite <- app_assoc.
Qed.

Lemma swing_goes ts D h r s e el v w : d_make_cswing ts D h r s e el v = Ok w -> goes w ts (d_add ts (d_mul (d_sub 1 el) D)) e.
Proof.
  intros E. unfold d_make_cswing in E. cbv zeta in E. set (te := d_add ts (d_mul (d_sub 1 el) D)) in *. set (apex := filter _ _) in E.
  bind E x Ex. bind E y Ey. bind E z Ez. injection E as <-. apply add_points_keep in Ex, Ey, Ez; try reflexivity. cbn [new_spline cs_points app] in Ex, Ey, Ez.
  unfold goes. cbn [cw_x cw_y cw_z]. split; [exists (vx s), (vx v), []; exact Ex|]. split; [exists (vy s), (vy v), []; exact Ey|].
  exists (vz s), (vz v), (map to_point (map (fun t => (t, h, 0)) apex)). rewrite Ez. cbn [map to_point fst snd]. now rewrite map_app.
Qed.

Lemma default_double p s : walk_timings p s -> is_double (d_default_duration p s).
Proof. intros ((A & _) & _). unfold d_default_duration. destruct (is_both s); [apply double_is|exact A]. Qed.

Lemma lands_in_time p s : walk_timings p s -> u_elapsed_ratio s = 0 \/ u_time_ratio s = 1 ->
  d_mul (d_sub 1 (u_elapsed_ratio s)) (d_virt_duration p s) = d_remaining_duration p s.
Proof.
  intros W H. pose proof (default_double p s W) as D. unfold d_remaining_duration, d_virt_duration. destruct H as [ -> | -> ].
  - assert (d_sub 1 0 = 1) as -> by (unfold d_sub; rewrite Rminus_0_r; apply double_id, is_double_1).
    unfold d_mul. rewrite !Rmult_1_l. rewrite (double_id _ D). apply double_id, double_is.
  - unfold d_mul. rewrite !Rmult_1_r. rewrite (double_id _ D). symmetry. apply double_id, double_is.
Qed.

(** ** The times at which the yaws end *)
Definition ends_at (s : cubic_spline) (t : R) : Prop := exists l, last_point (cs_points s) = Some l /\ sp_t l = t.

Lemma spline_add_inv s t x dx s' : spline_add s t x dx = Ok s' -> ends_at s' t /\ forall t0, ends_at s t0 -> t0 < t.
Proof.
  unfold spline_add, add_point, ends_at. destruct (last_point (cs_points s)) as [l|] eqn:El.
  - destruct (Rle_dec t (sp_t l)) as [?|G]; [discriminate|]. intros E. injection E as <-. cbn [cs_points]. split.
    + eexists. split; [apply last_point_snoc|]. reflexivity.
    + intros t0 (l' & E & <-). injection E as <-. lra.
  - intros E. injection E as <-. cbn [cs_points]. split; [eexists; split; [apply last_point_snoc|reflexivity]|]. intros t0 (l' & E & _). discriminate.
Qed.
Lemma yaw_add_inv j sd t x dx k : yaw_add j sd t x dx = Ok k ->
  ends_at (foot_yaw k sd) t /\ (forall t0, ends_at (foot_yaw j sd) t0 -> t0 < t) /\ foot_yaw k (other_side sd) = foot_yaw j (other_side sd).
Proof.
  intros E. unfold yaw_add in E. bind E s Es. injection E as <-. apply spline_add_inv in Es as (A & B). destruct sd; cbn; auto.
Qed.
Lemma trunk_add_feet j t x dx k : trunk_add j t x dx = Ok k -> forall sd, foot_yaw k sd = foot_yaw j sd.
Proof. intros E. unfold trunk_add in E. bind E s Es. injection E as <-. now intros []. Qed.

Lemma add_supports_inv j t s k : feet_ok s -> add_supports j t s = Ok k ->
  (forall f, In f (u_footsteps s) -> ends_at (foot_yaw k (f_side f)) t) /\
  (forall f t0, In f (u_footsteps s) -> ends_at (foot_yaw j (f_side f)) t0 -> t0 < t) /\
  (forall f, u_footsteps s = [f] -> foot_yaw k (other_side (f_side f)) = foot_yaw j (other_side (f_side f))).
Proof.
  intros Hf E. unfold add_supports in E. destruct Hf as [(f & Ef)|(f & h & Ef & Hs)]; rewrite Ef in *; cbn [add_footsteps] in E.
  - bind E k1 E1. injection E as <-. apply yaw_add_inv in E1 as (A & B & C). split; [intros f' [ <- | [] ]; exact A|]. split; [intros f' t0 [ <- | [] ]; apply B|].
    intros f' [= <-]. exact C.
  - bind E k1 E1. bind E k2 E2. injection E as <-. apply yaw_add_inv in E1 as (A & B & C). apply yaw_add_inv in E2 as (A2 & B2 & C2). rewrite Hs in *. rewrite other_other in C2. split; [|split].
    + intros f' [ <- | [ <- | [] ] ]; [now rewrite C2|rewrite Hs; exact A2].
    + intros f' t0 [ <- | [ <- | [] ] ]; [apply B|]. rewrite Hs. rewrite <- C. apply B2.
    + intros f' H. discriminate H.
Qed.

(** ** One part *)
(** The swing of a part, once planned. *)
Definition swings (p : wparams) (i : nat) (parts : list part) (q : part) (w : cswing) : Prop :=
  forall f, u_footsteps (pt_support q) = [f] -> exists next T, nth_error parts (i + 1) = Some next /\ footstep_frame (pt_support next) (other_side (f_side f)) = Ok T /\
    goes w (pt_start q) (d_add (pt_start q) (d_mul (d_sub 1 (match i with O => u_elapsed_ratio (pt_support q) | S _ => 0 end)) (d_virt_duration (w_base p) (pt_support q)))) (fr_t T).

Lemma sgl_inv p j i old k f q : d_plan_sgl_support p j i old = Ok k -> nth_error (j_parts j) i = Some q -> u_footsteps (pt_support q) = [f] ->
  exists w, j_parts k = replace (j_parts j) i (set_swing q w) /\ keeps j k /\ swings p i (j_parts j) q w /\
    (forall sd, ends_at (foot_yaw k sd) (pt_end q)) /\ (forall t0, ends_at (foot_yaw j (f_side f)) t0 -> t0 < pt_end q).
Proof.
  intros E Hq Ef. unfold d_plan_sgl_support in E. rewrite (at_index_ok _ _ _ Hq) in E. cbn [obind] in E. rewrite Ef in E. cbn [at_index nth_error obind] in E. cbv zeta in E.
  bind E nx Enx. apply at_index_inv in Enx. bind E Te ETe. bind E j1 E1. bind E j2 E2. bind E j3 E3.
  assert (X : exists w, j_parts j1 = replace (j_parts j) i (set_swing q w) /\ keeps j j1 /\ swings p i (j_parts j) q w /\ foot_yaw j1 (f_side f) = foot_yaw j (f_side f)).
  { destruct i as [|i]; [destruct old as [o|]; [|discriminate E1]|].
    - bind E1 T0 ET0. bind E1 v0 Ev0. bind E1 w Ew. bind E1 y0 Ey0. bind E1 dy0 Edy0. exists w. pose proof (yaw_add_keeps _ _ _ _ _ _ E1) as (K & P). apply yaw_add_inv in E1 as (_ & _ & C).
      split; [exact P|]. split; [exact (keeps_trans _ _ _ (set_swing_keeps _ _ _ w Hq) K)|]. split.
      + intros f' Hf'. rewrite Ef in Hf'. injection Hf' as <-. exists nx, Te. split; [exact Enx|]. split; [exact ETe|]. exact (swing_goes _ _ _ _ _ _ _ _ _ Ew).
      + rewrite other_other in C. rewrite C. now destruct (f_side f).
    - bind E1 pv Epv. bind E1 T0 ET0. bind E1 w Ew. injection E1 as <-. exists w. split; [reflexivity|]. split; [exact (set_swing_keeps _ _ _ w Hq)|]. split.
      + intros f' Hf'. rewrite Ef in Hf'. injection Hf' as <-. exists nx, Te. split; [exact Enx|]. split; [exact ETe|]. exact (swing_goes _ _ _ _ _ _ _ _ _ Ew).
      + now destruct (f_side f). }
  destruct X as (w & P1 & K1 & S1 & F1). exists w. pose proof (yaw_add_keeps _ _ _ _ _ _ E2) as (K2 & P2). apply yaw_add_inv in E2 as (A2 & _ & C2). rewrite other_other in C2.
  assert (K3 : keeps j2 j3 /\ j_parts j3 = j_parts j2 /\ forall sd, foot_yaw j3 sd = foot_yaw j2 sd).
  { destruct (has_double_support (w_base p)); [injection E3 as <-; split; [apply keeps_refl|split; reflexivity]|]. pose proof (trunk_add_keeps _ _ _ _ _ E3) as (K & P). split; [exact K|]. split; [exact P|]. exact (trunk_add_feet _ _ _ _ _ E3). }
  destruct K3 as (K3 & P3 & F3). pose proof (add_supports_keeps _ _ _ _ E) as (K4 & P4). apply add_supports_inv in E as (A4 & B4 & C4); [|left; eauto].
  split; [congruence|]. split; [exact (keeps_trans _ _ _ (keeps_trans _ _ _ K1 K2) (keeps_trans _ _ _ K3 K4))|]. split; [exact S1|]. split.
  - apply (two_sides (fun sd => ends_at (foot_yaw k sd) (pt_end q)) (f_side f)); [apply A4; rewrite Ef; now left|]. rewrite (C4 f Ef), F3. exact A2.
  - intros t0 H. apply (B4 f t0); [rewrite Ef; now left|]. now rewrite F3, C2, F1.
Qed.

Lemma dbl_inv j i k q : plan_dbl_support j i = Ok k -> nth_error (j_parts j) i = Some q -> feet_ok (pt_support q) -> length (u_footsteps (pt_support q)) <> 1%nat ->
  j_parts k = j_parts j /\ keeps j k /\ (forall sd, ends_at (foot_yaw k sd) (pt_end q)) /\
  (forall f t0, In f (u_footsteps (pt_support q)) -> ends_at (foot_yaw j (f_side f)) t0 -> t0 < pt_end q).
Proof.
  intros E Hq Hf H1. pose proof (plan_dbl_keeps _ _ _ E) as (K & P). unfold plan_dbl_support in E. rewrite (at_index_ok _ _ _ Hq) in E. cbn [obind] in E. bind E j1 E1. bind E f Ef.
  apply add_supports_inv in E1 as (A & B & _); [|exact Hf]. split; [exact P|]. split; [exact K|]. split; [|exact B]. intros sd. rewrite (trunk_add_feet _ _ _ _ _ E).
  destruct Hf as [(f0 & E0)|(f0 & h & E0 & Hs)]; rewrite E0 in *; [now destruct H1|].
  apply (two_sides (fun sd => ends_at (foot_yaw j1 sd) (pt_end q)) (f_side f0)); [apply A; now left|rewrite <- Hs; apply A; right; now left].
Qed.

Lemma swings_same p i l m q q' w : Forall2 same_walk l m -> same_walk q q' -> swings p i m q' w -> swings p i l q w.
Proof.
  intros F (Q1 & Q2 & Q3 & _) H f Ef. destruct (H f ltac:(congruence)) as (nx & T & Hn & HT & G). destruct (Forall2_nth _ _ _ _ _ F Hn) as (nx0 & Hn0 & _ & _ & N3 & _).
  exists nx0, T. rewrite <- N3. rewrite Q1, Q3 in G. auto.
Qed.

Lemma loop_inv p old : forall n j i k a b, d_plan_feet_loop n p j i old = Ok k -> (forall q, In q (j_parts j) -> feet_ok (pt_support q)) -> contiguous a (j_parts j) b ->
  (forall q f, nth_error (j_parts j) i = Some q -> In f (u_footsteps (pt_support q)) -> ends_at (foot_yaw j (f_side f)) (pt_start q)) ->
  keeps j k /\ (forall m, (m < i)%nat -> nth_error (j_parts k) m = nth_error (j_parts j) m) /\
  forall m q, (i <= m < i + n)%nat -> nth_error (j_parts k) m = Some q -> pt_start q < pt_end q /\ swings p m (j_parts k) q (pt_swing q).
Proof.
  induction n as [|n IH]; intros j i k a b E Hf C Hs; cbn [d_plan_feet_loop] in E; [injection E as <-; split; [apply keeps_refl|]; split; [reflexivity|intros; lia]|].
  bind E q Eq. apply at_index_inv in Eq. bind E j' E'. pose proof (Hf q (nth_error_In _ _ Eq)) as Fq.
  assert (X : keeps j j' /\ (forall m, m <> i -> nth_error (j_parts j') m = nth_error (j_parts j) m) /\ (forall sd, ends_at (foot_yaw j' sd) (pt_end q)) /\ pt_start q < pt_end q /\
    exists q', nth_error (j_parts j') i = Some q' /\ same_walk q q' /\ swings p i (j_parts j) q (pt_swing q')).
  { destruct (Nat.eqb_spec (length (u_footsteps (pt_support q))) 1) as [L|L].
    - assert (exists f, u_footsteps (pt_support q) = [f]) as (f & Ef). { destruct (u_footsteps (pt_support q)) as [|f [|f' r]]; cbn in L; try discriminate; eauto. }
      destruct (sgl_inv _ _ _ _ _ _ _ E' Eq Ef) as (w & P & K & Sw & A & B). split; [exact K|]. split; [intros m Hm; rewrite P; now apply replace_other|]. split; [exact A|].
      split; [apply B; apply Hs; [exact Eq|rewrite Ef; now left]|]. exists (set_swing q w). split; [rewrite P; apply replace_same; apply nth_error_Some; congruence|]. split; [repeat split|exact Sw].
    - destruct (dbl_inv _ _ _ _ E' Eq Fq L) as (P & K & A & B). split; [exact K|]. split; [intros; now rewrite P|]. split; [exact A|].
      assert (exists f, In f (u_footsteps (pt_support q))) as (f & Ef). { destruct Fq as [(f & Ef)|(f & g & Ef & _)]; rewrite Ef; exists f; now left. }
      split; [apply (B f); [exact Ef|]; apply Hs; auto|]. exists q. rewrite P. split; [exact Eq|]. split; [apply same_walk_refl|]. intros f' Ef'. rewrite Ef' in L. now destruct L. }
  destruct X as (K & Oth & A & T & q' & Hq' & Sq & Sw). pose proof K as (_ & _ & _ & _ & _ & _ & _ & F).
  destruct (IH j' (i + 1)%nat k a b E) as (K2 & B2 & G2).
  - intros x Hx. apply In_nth_error in Hx as (m & Hm). destruct (Forall2_nth _ _ _ _ _ F Hm) as (x0 & Hx0 & _ & _ & S3 & _). rewrite S3. apply Hf. eapply nth_error_In; eauto.
  - exact (same_contiguous _ _ _ _ F C).
  - intros x f Hx Hfx. pose proof (contiguous_next _ _ _ _ _ C Eq) as N. destruct (Forall2_nth _ _ _ _ _ F Hx) as (x0 & Hx0 & S1 & _). rewrite Hx0 in N. rewrite S1, N. apply A.
  - split; [exact (keeps_trans _ _ _ K K2)|]. split; [intros m Hm; rewrite B2 by lia; apply Oth; lia|].
    intros m x Hm Hx. destruct (Nat.eq_dec m i) as [->|D]; [|apply G2; [lia|exact Hx]]. rewrite B2 in Hx by lia. rewrite Hq' in Hx. injection Hx as <-. pose proof Sq as (Q1 & Q2 & _). rewrite Q1, Q2. split; [exact T|].
    pose proof (keeps_trans _ _ _ K K2) as (_ & _ & _ & _ & _ & _ & _ & F').
    apply (swings_same p i (j_parts k) (j_parts j) q' q (pt_swing q')); [|destruct Sq as (? & ? & ? & ?); repeat split; congruence|exact Sw].
    clear -F'. induction F' as [|x y l m (? & ? & ? & ?) _ IH]; constructor; [repeat split; congruence|exact IH].
Qed.

(** ** A new walk can be planned *)
Definition d_part_ok (p : wparams) (parts : list part) (i : nat) (q : part) : Prop :=
  feet_ok (pt_support q) /\ pt_start q < pt_end q /\
  (forall f, u_footsteps (pt_support q) = [f] -> sound_swing (pt_start q) (d_virt_duration (w_base p) (pt_support q)) (w_rise_ratio p) 0 /\
     exists i' qn qp, i = S i' /\ nth_error parts (i + 1) = Some qn /\ stands_on (pt_support qn) (other_side (f_side f)) /\
     nth_error parts i' = Some qp /\ stands_on (pt_support qp) (other_side (f_side f))).
Definition d_parts_ok (p : wparams) (parts : list part) : Prop := forall i q, nth_error parts i = Some q -> d_part_ok p parts i q.

Lemma d_parts_ok_same p l m : Forall2 same_walk l m -> d_parts_ok p l -> d_parts_ok p m.
Proof.
  intros F H i q Hq. destruct (Forall2_nth _ _ _ _ _ F Hq) as (q0 & Hq0 & S1 & S2 & S3 & _). destruct (H i q0 Hq0) as (A & B & E). unfold d_part_ok. rewrite S1, S2, S3.
  do 2 (split; [assumption|]). intros f Ef. destruct (E f Ef) as (Sw & i' & qn & qp & -> & Hn & Sn & Hp & Sp).
  destruct (Forall2_nth_l _ _ _ _ _ F Hn) as (qn' & Hn' & _ & _ & N3 & _). destruct (Forall2_nth_l _ _ _ _ _ F Hp) as (qp' & Hp' & _ & _ & P3 & _).
  split; [exact Sw|]. exists i', qn', qp'. rewrite N3, P3. auto.
Qed.

Lemma d_sgl_total p j i q f t qn qp old : nth_error (j_parts j) (S i) = Some q -> u_footsteps (pt_support q) = [f] -> all_by j t -> t < pt_end q ->
  nth_error (j_parts j) (S i + 1) = Some qn -> stands_on (pt_support qn) (other_side (f_side f)) ->
  nth_error (j_parts j) i = Some qp -> stands_on (pt_support qp) (other_side (f_side f)) ->
  sound_swing (pt_start q) (d_virt_duration (w_base p) (pt_support q)) (w_rise_ratio p) 0 ->
  exists k, d_plan_sgl_support p j (S i) old = Ok k /\ all_by k (pt_end q).
Proof.
  intros Hq Ef [B1 B2] Ht Hn Sn Hp Sp Sw. unfold d_plan_sgl_support. rewrite (at_index_ok _ _ _ Hq). cbn [obind]. rewrite Ef. cbn [at_index nth_error obind]. cbv zeta.
  rewrite (at_index_ok _ _ _ Hn). cbn [obind]. destruct (stands_frame _ _ Sn) as (Te & ETe). rewrite ETe. cbn [obind].
  rewrite (at_index_ok _ _ _ Hp). cbn [obind]. destruct (stands_frame _ _ Sp) as (T0 & ET0). rewrite ET0. cbn [obind].
  destruct (C191_partial (pt_start q) (d_virt_duration (w_base p) (pt_support q)) (w_foot_height p) (w_rise_ratio p) (fr_t T0) (fr_t Te) 0 v3_zero Sw) as (w & _ & _ & Ew & _). rewrite Ew. cbn [obind].
  set (j1 := set_parts j (replace (j_parts j) (S i) (set_swing q w))).
  destruct (yaw_add_total j1 (other_side (f_side f)) t (pt_end q) (frame_yaw (fr_R Te)) 0 (B1 _) Ht) as (j2 & E2 & Y1 & Y2 & Y3). rewrite E2. cbn [obind].
  assert (J3 : exists j3, (if has_double_support (w_base p) then Ok j2 else trunk_add j2 (pt_end q) (frame_yaw (fr_R Te)) 0) = Ok j3 /\
    (forall sd, foot_yaw j3 sd = foot_yaw j2 sd) /\ ends_by (j_trunk j3) (pt_end q)).
  { destruct (has_double_support (w_base p)).
    - exists j2. split; [reflexivity|]. split; [reflexivity|]. rewrite Y3. eapply ends_by_later; [exact B2|lra].
    - destruct (trunk_add_total j2 t (pt_end q) (frame_yaw (fr_R Te)) 0) as (j3 & E3 & C1 & C2); [rewrite Y3; exact B2|exact Ht|]. eauto. }
  destruct J3 as (j3 & E3 & C1 & C2). rewrite E3. cbn [obind].
  destruct (add_supports_total j3 (pt_support q) t (pt_end q)) as (k & Ek & A1 & A2 & A3); [left; eauto| |exact Ht|].
  { rewrite Ef. intros f' [ <- | [] ]. rewrite C1. rewrite other_other in Y2. rewrite Y2. apply B1. }
  exists k. split; [exact Ek|]. split; [|now rewrite A3].
  apply (two_sides (fun sd => ends_by (foot_yaw k sd) (pt_end q)) (f_side f)); [apply A1; rewrite Ef; now left|].
  rewrite A2; [now rewrite C1|]. intros (f' & Hf' & Hs). rewrite Ef in Hf'. destruct Hf' as [ <- | [] ]. destruct (f_side f); discriminate Hs.
Qed.

Lemma d_loop_total p : forall n j i t a b, d_parts_ok p (j_parts j) -> contiguous a (j_parts j) b -> (i + n = length (j_parts j))%nat ->
  all_by j t -> (forall q, nth_error (j_parts j) i = Some q -> t <= pt_start q) -> exists k, d_plan_feet_loop n p j i None = Ok k.
Proof.
  induction n as [|n IH]; intros j i t a b H C Hi B Ht; cbn [d_plan_feet_loop]; [eauto|].
  destruct (nth_error (j_parts j) i) as [q|] eqn:Hq; [|apply nth_error_None in Hq; lia]. rewrite (at_index_ok _ _ _ Hq). cbn [obind].
  destruct (H i q Hq) as (Hf & Hl & Hs). specialize (Ht q eq_refl).
  assert (K : exists k, (if Nat.eqb (length (u_footsteps (pt_support q))) 1 then d_plan_sgl_support p j i None else plan_dbl_support j i) = Ok k /\ all_by k (pt_end q) /\ keeps j k).
  { destruct (Nat.eqb_spec (length (u_footsteps (pt_support q))) 1) as [E1|E1].
    - assert (exists f, u_footsteps (pt_support q) = [f]) as (f & Ef).
      { destruct (u_footsteps (pt_support q)) as [|f [|f' r]]; cbn in E1; try discriminate; eauto. }
      destruct (Hs f Ef) as (Sw & i' & qn & qp & -> & Hn & Sn & Hp & Sp).
      destruct (d_sgl_total p j i' q f t qn qp None Hq Ef B ltac:(lra) Hn Sn Hp Sp Sw) as (k & Ek & Bk). exists k. split; [exact Ek|]. split; [exact Bk|].
      destruct (sgl_inv _ _ _ _ _ _ _ Ek Hq Ef) as (w & _ & Kp & _). exact Kp.
    - assert (length (u_footsteps (pt_support q)) = 2%nat). { destruct Hf as [(f & E)|(f & h & E & _)]; rewrite E in *; cbn in *; [lia|reflexivity]. }
      destruct (plan_dbl_total j i q t Hq Hf H0 B ltac:(lra)) as (k & Ek & Bk). exists k. split; [exact Ek|]. split; [exact Bk|]. exact (proj1 (plan_dbl_keeps _ _ _ Ek)). }
  destruct K as (k & Ek & Bk & Kk). rewrite Ek. cbn [obind]. pose proof Kk as (_ & _ & _ & _ & _ & _ & _ & Kp).
  apply (IH k (i + 1)%nat (pt_end q) a b).
  - exact (d_parts_ok_same _ _ _ Kp H).
  - exact (same_contiguous _ _ _ _ Kp C).
  - rewrite <- (Forall2_len' _ _ _ Kp). lia.
  - exact Bk.
  - intros q' Hq'. destruct (Forall2_nth _ _ _ _ _ Kp Hq') as (q0 & Hq0 & S1 & _). pose proof (contiguous_next _ _ _ _ _ C Hq) as N. rewrite Hq0 in N. lra.
Qed.

Lemma d_feet_total p j a b : j_parts j <> [] -> d_parts_ok p (j_parts j) -> contiguous (j_start j) (j_parts j) b ->
  j_left j = new_spline a -> j_right j = new_spline a -> j_trunk j = new_spline a -> exists k, d_plan_feet_trajectories p j None = Ok k.
Proof.
  intros N H C E1 E2 E3. unfold d_plan_feet_trajectories. destruct (nth_error (j_parts j) 0) as [q|] eqn:Hq; [|destruct (j_parts j); [congruence|discriminate Hq]].
  rewrite (at_index_ok _ _ _ Hq). cbn [obind]. destruct (H 0%nat q Hq) as (Hf & Hl & Hs).
  assert (Z : forall t, ends_by (new_spline a) t) by (intros t l E; discriminate E).
  destruct (add_supports_total j (pt_support q) (j_start j - 1) (j_start j) Hf) as (k & Ek & A1 & A2 & A3); [intros f _; destruct (f_side f); cbn; [rewrite E1|rewrite E2]; apply Z|lra|].
  rewrite Ek. cbn [obind]. destruct (feet_frame _ Hf) as (f & Ef). rewrite Ef. cbn [obind].
  destruct (trunk_add_total k (j_start j - 1) (j_start j) (frame_yaw (fr_R f)) 0) as (k2 & Ek2 & C1 & C2); [rewrite A3, E3; apply Z|lra|]. rewrite Ek2. cbn [obind].
  apply add_supports_keeps in Ek as [K1 P1]. apply trunk_add_keeps in Ek2 as [K2 P2].
  apply (d_loop_total p _ k2 0%nat (j_start j) (j_start j) b); rewrite ?P2, ?P1; auto.
  - split; [|exact C1]. intros sd. rewrite C2. destruct Hf as [(f0 & E)|(f0 & h & E & Hsd)].
    + destruct (Hs f0 E) as (_ & i' & _ & _ & Ei & _). discriminate Ei.
    + rewrite E in A1. apply (two_sides (fun sd => ends_by (foot_yaw k sd) (j_start j)) (f_side f0)); [apply A1; now left|rewrite <- Hsd; apply A1; right; now left].
  - intros q' Hq'. rewrite Hq in Hq'. injection Hq' as <-. destruct (j_parts j); [discriminate Hq|]. cbn in Hq. injection Hq as ->. destruct C as [C _]. lra.
Qed.

(** What any planned walk satisfies. *)
Lemma feet_inv p j old k b : d_plan_feet_trajectories p j old = Ok k -> (forall q, In q (j_parts j) -> feet_ok (pt_support q)) -> contiguous (j_start j) (j_parts j) b ->
  keeps j k /\ forall m q, nth_error (j_parts k) m = Some q -> pt_start q < pt_end q /\ swings p m (j_parts k) q (pt_swing q).
Proof.
  intros E Hf C. unfold d_plan_feet_trajectories in E. bind E q Eq. apply at_index_inv in Eq. bind E j1 E1. bind E j2 E2. pose proof (add_supports_keeps _ _ _ _ E1) as (K1 & P1).
  apply add_supports_inv in E1 as (A & _ & _); [|apply Hf; eapply nth_error_In; eauto].
  assert (X : keeps j1 j2 /\ j_parts j2 = j_parts j1 /\ forall sd, foot_yaw j2 sd = foot_yaw j1 sd).
  { destruct old as [o|]; [bind E2 y Ey; bind E2 dy Edy|bind E2 f Ef]; pose proof (trunk_add_keeps _ _ _ _ _ E2) as (K & P); (split; [exact K|]; split; [exact P|]; exact (trunk_add_feet _ _ _ _ _ E2)). }
  destruct X as (K2 & P2 & F2).
  destruct (loop_inv p old _ _ _ _ (j_start j) b E) as (K3 & _ & G).
  - intros x. rewrite P2, P1. apply Hf.
  - rewrite P2, P1. exact C.
  - intros x f Hx Hfx. rewrite P2, P1 in Hx. rewrite Eq in Hx. injection Hx as <-. rewrite F2. replace (pt_start q) with (j_start j); [apply A; exact Hfx|].
    destruct (j_parts j); [discriminate Eq|]. cbn in Eq. injection Eq as ->. destruct C as [C _]. now symmetry.
  - split; [exact (keeps_trans _ _ _ K1 (keeps_trans _ _ _ K2 K3))|]. intros m x Hx. apply G; [|exact Hx]. pose proof K3 as (_ & _ & _ & _ & _ & _ & _ & F3).
    assert (m < length (j_parts k))%nat by (apply nth_error_Some; congruence). rewrite <- (Forall2_len' _ _ _ F3), P2, P1 in H. lia.
Qed.
