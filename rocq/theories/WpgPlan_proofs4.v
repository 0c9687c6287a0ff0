(** Proofs that planning the CoM trajectory and the feet succeeds. *)
From Coq Require Import Reals Lra Lia List ZArith Bool Psatz.
From Verif Require Import Base Linalg Geom3 Tools_model Expression_model Expression_spec Expression_proofs Problem_model Problem_spec Problem_proofs
  Problem_proofs2 Problem_proofs3 Problem_props Polynom_model Polynom_spec Polynom_props Integrator_model Integrator_spec Integrator_proofs
  Lipm_model Lipm_spec Lipm_proofs Lipm_props Spline_model Swing_model Swing_props Geometry_model Footsteps_model Wpg_model Wpg_spec Wpg_proofs Wpg_proofs2
  Wpg_proofs3 Wpg_proofs4 Wpg_proofs5 Wpg_props KinCons_spec Kin_proofs KinCons_proofs WpgPlan_spec WpgPlan_proofs WpgPlan_proofs2 WpgPlan_proofs3.
Import ListNotations.
Open Scope R_scope.

(** ** Independence of the hard equalities *)

Lemma combination_filter cs mu : forall k j, combination cs mu k j = combination (filter hard_eq cs) mu k j.
Proof.
  induction cs as [|c cs IH]; intros k j; [reflexivity|]. cbn [combination filter]. unfold hard_eq at 1.
  destruct (c_prio c) eqn:E1; [apply IH|]. destruct (c_type c) eqn:E2; [|apply IH]. cbn [combination]. rewrite E1, E2, IH. reflexivity.
Qed.
Lemma rows_filter cs : hard_equality_rows cs = hard_equality_rows (filter hard_eq cs).
Proof.
  induction cs as [|c cs IH]; [reflexivity|]. cbn [hard_equality_rows filter]. unfold hard_eq at 1.
  destruct (c_prio c) eqn:E1; [apply IH|]. destruct (c_type c) eqn:E2; [|apply IH]. cbn [hard_equality_rows]. rewrite E1, E2, IH. reflexivity.
Qed.

Definition coefficient (c : pconstraint) (i j : nat) : R := if Nat.ltb j (cols (c_expr c)) then mat_at (eA (c_expr c)) i j else 0.
Lemma made_linear c t p w n m f N x i : made c t p w n m f -> (m <= N)%nat -> (i < n)%nat ->
  Rsum N (fun j => coefficient c i j * x j) = f x i - f (fun _ => 0) i.
Proof.
  intros (_ & _ & _ & _ & _ & H & F) Hm Hi. rewrite <- !F by exact Hi. unfold row, coefficient. rewrite H.
  rewrite (Rsum_zero_ext m (fun j => mat_at (eA (c_expr c)) i j * 0)) by (intros; ring).
  replace N with (m + (N - m))%nat by lia. rewrite Rsum_split. rewrite (Rsum_zero_ext (N - m)).
  - rewrite (Rsum_ext m _ (fun j => mat_at (eA (c_expr c)) i j * x j)); [ring|]. intros j Hj. rewrite (proj2 (Nat.ltb_lt _ _) Hj). reflexivity.
  - intros j Hj. rewrite (proj2 (Nat.ltb_ge _ _)) by lia. ring.
Qed.

Lemma six_squares a b c d e f : a * a + b * b + (c * c + d * d) + (e * e + f * f) = 0 -> a = 0 /\ b = 0 /\ c = 0 /\ d = 0 /\ e = 0 /\ f = 0.
Proof.
  intros H. pose proof (Rle_0_sqr a). pose proof (Rle_0_sqr b). pose proof (Rle_0_sqr c). pose proof (Rle_0_sqr d). pose proof (Rle_0_sqr e). pose proof (Rle_0_sqr f).
  unfold Rsqr in *. repeat split; apply Rsqr_0_uniq; unfold Rsqr; lra.
Qed.

Lemma free_independent pb : free_stop (filter hard_eq (p_cons pb)) (p_n pb) -> independent_equalities pb.
Proof.
  intros [E|(Sx & Sy & k & (cp & cv & ca & m0 & m1 & m2 & a & b & E & A & B & C & Mp & Mv & Ma) & F)] mu Hmu j Hj.
  - rewrite rows_filter, E in Hj. cbn in Hj. lia.
  - rewrite rows_filter, E in Hj.
    pose proof Mp as (P1 & P2 & _ & P4 & _). pose proof Mv as (V1 & V2 & _ & V4 & _). pose proof Ma as (A1 & A2 & _ & A4 & _).
    cbn [hard_equality_rows] in Hj. rewrite P1, P2, P4, V1, V2, V4, A1, A2, A4 in Hj.
    set (z := fun _ : nat => 0).
    destruct (F (fun d => Sx z k d + mu (2 * d)%nat) (fun d => Sy z k d + mu (2 * d + 1)%nat)) as (x & Hx).
    assert (Z : Rsum (p_n pb) (fun j => combination (p_cons pb) mu 0 j * x j) = 0) by (apply Rsum_zero_ext; intros i Hi; rewrite Hmu by exact Hi; ring).
    assert (Q : Rsum (p_n pb) (fun j => combination (p_cons pb) mu 0 j * x j)
      = (mu 0%nat * Rsum (p_n pb) (fun j => coefficient cp 0 j * x j) + mu 1%nat * Rsum (p_n pb) (fun j => coefficient cp 1 j * x j))
      + (mu 2%nat * Rsum (p_n pb) (fun j => coefficient cv 0 j * x j) + mu 3%nat * Rsum (p_n pb) (fun j => coefficient cv 1 j * x j))
      + (mu 4%nat * Rsum (p_n pb) (fun j => coefficient ca 0 j * x j) + mu 5%nat * Rsum (p_n pb) (fun j => coefficient ca 1 j * x j))).
    { rewrite <- !Rsum_scal_l, <- !Rsum_plus. apply Rsum_ext. intros i Hi. rewrite combination_filter, E. cbn [combination]. rewrite P1, P2, P4, V1, V2, V4, A1, A2, A4.
      cbn [Rsum Nat.add]. fold (coefficient cp 0 i) (coefficient cp 1 i) (coefficient cv 0 i) (coefficient cv 1 i) (coefficient ca 0 i) (coefficient ca 1 i). ring. }
    rewrite Z in Q.
    rewrite (made_linear _ _ _ _ _ _ _ _ x 0 Mp A ltac:(lia)), (made_linear _ _ _ _ _ _ _ _ x 1 Mp A ltac:(lia)) in Q.
    rewrite (made_linear _ _ _ _ _ _ _ _ x 0 Mv B ltac:(lia)), (made_linear _ _ _ _ _ _ _ _ x 1 Mv B ltac:(lia)) in Q.
    rewrite (made_linear _ _ _ _ _ _ _ _ x 0 Ma C ltac:(lia)), (made_linear _ _ _ _ _ _ _ _ x 1 Ma C ltac:(lia)) in Q.
    fold z in Q. destruct (Hx 0%nat ltac:(lia)) as [X0 Y0]. destruct (Hx 1%nat ltac:(lia)) as [X1 Y1]. destruct (Hx 2%nat ltac:(lia)) as [X2 Y2].
    rewrite X0, Y0, X1, Y1, X2, Y2 in Q. cbn [Nat.mul Nat.add] in Q.
    destruct (six_squares (mu 0%nat) (mu 1%nat) (mu 2%nat) (mu 3%nat) (mu 4%nat) (mu 5%nat)) as (H0 & H1 & H2 & H3 & H4 & H5); [rewrite Q; ring|].
    destruct j as [|[|[|[|[|[|j]]]]]]; [assumption..|lia].
Qed.

Section WithLibraries.
Variable L : libs.
Hypothesis He : exp_correct (l_mexp L).
Hypothesis Hqr : qr_correct (l_qr L).
Hypothesis Hqp : qp_correct (l_qp L).
Hypothesis Hqr' : ~ qr_fails (l_qr L).
Hypothesis Hqp' : ~ qp_fails (l_qp L).
Variable g : wpg.
Hypothesis Ho : g_omega_2 g <> 0.
Hypothesis Hw1 : 0 < g_zmp_weight g.
Hypothesis Hw2 : 0 < g_stop_weight g.
Hypothesis Hw3 : 0 < w_zmp_weight (g_params g).

Let P := w_base (g_params g).

Lemma attribute_total pbf pb' : solve pbf (l_qr L) (l_qp L) = (pb', Ok tt) ->
  forall Ix Iy i t supports ss ls qs te, segs L g pbf Ix Iy i t supports ss ls qs te -> exists parts, attribute L g pb' qs ls = Ok parts.
Proof.
  intros Hs. induction 1 as [|Ix Iy i t s s' l q rest ss ls qs te d Sx Sy Ux Uy polygon Hd Pd H J Hst Hn Hdt Hrem Hq Hpoly Hgood Hrest (parts & IH)]; cbn [attribute]; [eauto|].
  assert (Pdt : 0 < lp_dt l) by (rewrite Hdt; apply Rdiv_lt_0_compat; [lra|now apply lt_0_INR]).
  destruct (lipm_motion L He pbf pb' l Sx Sy Ux Uy H Hs Pdt Hn) as (l1 & tr & X & Y & Et & V & _). rewrite Et. cbn [obind fst snd].
  unfold lt_dcm, lt_pos, lt_vel. change 0%Z with (Z.of_nat 0). change 1%Z with (Z.of_nat 1). rewrite !V by lia. cbn [obind]. rewrite IH. cbn [obind]. eauto.
Qed.

(** plan_com answers, and says whether the walk is possible. *)
Lemma plan_com_total j supports p v a :
  (forall s, In s supports -> feet_ok s /\ polygon_ok (l_hull L) s /\ time_ok P s) -> ends_ok P supports ->
  exists b j1 ss, plan_com L g j supports p v a = Ok (b, j1, ss) /\
    (b = true <-> g_soft g = true \/ walkable (l_hull L) (g_params g) (g_omega_2 g) supports
       (fun d => nth d [fst p; fst v; fst a] 0) (fun d => nth d [snd p; snd v; snd a] 0)).
Proof.
  intros F En. set (Ix := const_state (fst p) (fst v) (fst a)). set (Iy := const_state (snd p) (snd v) (snd a)).
  destruct (com_loop_total L He g Ho Hw1 Hw2 Hw3 (j_start j) p v a supports (j_start j) new_problem None Ix Iy 0%nat F En)
    as (pbf & new & ss & ls & qs & te & E & C & _ & Rg & Rw & Re & S & A & B & Q); [auto|]. cbn [new_problem p_cons app p_reg p_rewrite p_n] in C, Rg, Rw.
  change (Ix ?x ?i) with (fun d => nth d [fst p; fst v; fst a] 0) in B. change (Iy ?x ?i) with (fun d => nth d [snd p; snd v; snd a] 0) in B.
  unfold plan_com. rewrite E. cbn [obind]. cbv zeta.
  destruct (Re [] ltac:(constructor)) as (sizes & Hre).
  assert (W : Problem_spec.well_formed pbf).
  { intros c Hc. rewrite C in Hc. pose proof (proj1 (Forall_forall _ _) S c Hc) as (S1 & S2 & S3 & _). auto. }
  assert (In' : independent_equalities pbf) by (apply free_independent; rewrite C; exact Q).
  assert (Wt : forall c, In c (p_cons pbf) -> c_prio c = Soft -> 0 < c_weight c).
  { intros c Hc. rewrite C in Hc. now pose proof (proj1 (Forall_forall _ _) S c Hc) as (_ & _ & _ & S4). }
  assert (NU : snd (solve pbf (l_qr L) (l_qp L)) <> UB) by (apply (C82_options_partial pbf sizes); auto).
  assert (Rp : 0 < p_reg pbf) by (rewrite Rg; cbn; lra).
  assert (Can : (exists x, hard_holds (p_cons pbf) x) -> exists pb', solve pbf (l_qr L) (l_qp L) = (pb', Ok tt)).
  { intros Hx. destruct (C83_feasible_problems_are_solved pbf sizes (l_qr L) (l_qp L)) as [H|[H|H]]; auto; contradiction. }
  assert (Dl : Forall (fun s => forall d, lasts (w_base (g_params g)) s d -> 0 < d) supports).
  { apply Forall_forall. intros s Hs d Hd. destruct (F s Hs) as (_ & _ & Ht). destruct (time_lasts _ _ Ht) as (d' & Hd' & H). rewrite (lasts_det _ _ _ _ Hd Hd'). exact H. }
  destruct (com_loop_spec L He g Ho _ _ _ _ _ _ _ _ _ _ _ _ _ Dl E Ix Iy 0%nat ltac:(repeat split; reflexivity)) as (_ & _ & Sg).
  destruct (solve pbf (l_qr L) (l_qp L)) as [pb' [[]|e|]] eqn:Es.
  - destruct (attribute_total pbf pb' Es _ _ _ _ _ _ _ _ _ Sg) as (parts & Ep). rewrite Ep. cbn [obind]. do 3 eexists. split; [reflexivity|]. split; [intros _|reflexivity].
    destruct (g_soft g) eqn:Hg; [now left|right]. destruct (B eq_refl) as [B1 _]. apply (B1 (vat (p_x pb'))). rewrite <- C. exact (C20_feasible pbf _ _ pb' Hqr Hqp Es).
  - do 3 eexists. split; [reflexivity|]. split; [discriminate|]. intros H. exfalso. destruct Can as (pb'' & E'); [|rewrite E' in Es; discriminate].
    rewrite C. destruct (g_soft g) eqn:Hg.
    + exists (fun _ => 0). intros c Hc Hh. pose proof (proj1 (Forall_forall _ _) (A eq_refl) c Hc) as X. cbn in X. congruence.
    + destruct H as [H|H]; [discriminate H|]. destruct (B eq_refl) as [_ B2]. destruct (B2 (fun _ => 0) H) as (x & _ & Hx). eauto.
  - cbn in NU. congruence.
Qed.
End WithLibraries.

(** ** The feet *)

Definition ends_by (s : cubic_spline) (t : R) : Prop := forall l, last_point (cs_points s) = Some l -> sp_t l <= t.

Lemma last_point_snoc l p : last_point (l ++ [p]) = Some p.
Proof. unfold last_point. now rewrite rev_app_distr. Qed.
Lemma spline_add_total s t t' x dx : ends_by s t -> t < t' -> exists s', spline_add s t' x dx = Ok s' /\ ends_by s' t'.
Proof.
  intros H Ht. unfold spline_add, add_point, ends_by in *. destruct (last_point (cs_points s)) as [l|] eqn:El.
  - specialize (H l eq_refl). destruct (Rle_dec t' (sp_t l)); [lra|]. eexists. split; [reflexivity|]. cbn [cs_points]. intros l' Hl. rewrite last_point_snoc in Hl. injection Hl as <-. cbn. lra.
  - eexists. split; [reflexivity|]. cbn [cs_points]. intros l' Hl. rewrite last_point_snoc in Hl. injection Hl as <-. cbn. lra.
Qed.
Lemma yaw_add_total j sd t t' x dx : ends_by (foot_yaw j sd) t -> t < t' ->
  exists k, yaw_add j sd t' x dx = Ok k /\ ends_by (foot_yaw k sd) t' /\ foot_yaw k (other_side sd) = foot_yaw j (other_side sd) /\ j_trunk k = j_trunk j.
Proof.
  intros H Ht. destruct (spline_add_total _ _ _ x dx H Ht) as (s & E & B). unfold yaw_add. rewrite E. cbn [obind]. eexists. split; [reflexivity|]. destruct sd; cbn; auto.
Qed.
Lemma trunk_add_total j t t' x dx : ends_by (j_trunk j) t -> t < t' ->
  exists k, trunk_add j t' x dx = Ok k /\ ends_by (j_trunk k) t' /\ forall sd, foot_yaw k sd = foot_yaw j sd.
Proof.
  intros H Ht. destruct (spline_add_total _ _ _ x dx H Ht) as (s & E & B). unfold trunk_add. rewrite E. cbn [obind]. eexists. split; [reflexivity|]. split; [exact B|]. now intros [].
Qed.

Definition all_by (j : wtraj) (t : R) : Prop := (forall sd, ends_by (foot_yaw j sd) t) /\ ends_by (j_trunk j) t.

Lemma ends_by_later s t t' : ends_by s t -> t <= t' -> ends_by s t'.
Proof. intros H Ht l E. specialize (H l E). lra. Qed.

Lemma two_sides (Q : side -> Prop) sd : Q sd -> Q (other_side sd) -> forall x, Q x.
Proof. intros A B x. destruct sd, x; assumption. Qed.

Lemma other_other sd : other_side (other_side sd) = sd.
Proof. now destruct sd. Qed.

Lemma add_supports_total j s t t' : feet_ok s -> (forall f, In f (u_footsteps s) -> ends_by (foot_yaw j (f_side f)) t) -> t < t' -> exists k, add_supports j t' s = Ok k /\
  (forall f, In f (u_footsteps s) -> ends_by (foot_yaw k (f_side f)) t') /\ (forall sd, ~ stands_on s sd -> foot_yaw k sd = foot_yaw j sd) /\ j_trunk k = j_trunk j.
Proof.
  intros Hf Hb Ht. unfold add_supports, stands_on. destruct Hf as [(f & E)|(f & h & E & Hs)]; rewrite E in *; cbn [add_footsteps].
  - destruct (yaw_add_total j (f_side f) t t' (frame_yaw (fr_R (f_frame f))) 0 (Hb f (or_introl eq_refl)) Ht) as (k & Ek & B & O & Tr). rewrite Ek. cbn [obind]. exists k. split; [reflexivity|].
    split; [intros f' [<-|[]]; exact B|]. split; [|exact Tr]. intros sd Hn. assert (sd = other_side (f_side f)) as ->; [|exact O].
    destruct sd, (f_side f) eqn:Es; try reflexivity; exfalso; apply Hn; exists f; (split; [now left|exact Es]).
  - destruct (yaw_add_total j (f_side f) t t' (frame_yaw (fr_R (f_frame f))) 0 (Hb f (or_introl eq_refl)) Ht) as (k & Ek & B & O & Tr). rewrite Ek. cbn [obind].
    destruct (yaw_add_total k (f_side h) t t' (frame_yaw (fr_R (f_frame h))) 0) as (k2 & Ek2 & B2 & O2 & Tr2); [rewrite Hs, O, <- Hs; apply Hb; right; now left|exact Ht|].
    rewrite Ek2. cbn [obind]. exists k2. split; [reflexivity|]. split; [|split; [|congruence]].
    + intros f' [<-|[<-|[]]]; [|exact B2]. rewrite Hs, other_other in O2. now rewrite O2.
    + intros sd Hn. exfalso. apply Hn. destruct sd, (f_side f) eqn:Es; cbn in Hs; [exists f|exists h|exists h|exists f]; (split; [cbn; auto|assumption]).
Qed.

Lemma plan_dbl_total j i q t : nth_error (j_parts j) i = Some q -> feet_ok (pt_support q) -> length (u_footsteps (pt_support q)) = 2%nat -> all_by j t -> t < pt_end q ->
  exists k, plan_dbl_support j i = Ok k /\ all_by k (pt_end q).
Proof.
  intros Hq Hf H2 [B1 B2] Ht. unfold plan_dbl_support. rewrite (at_index_ok _ _ _ Hq). cbn [obind].
  destruct (add_supports_total j (pt_support q) t (pt_end q) Hf (fun f _ => B1 (f_side f)) Ht) as (k & Ek & A1 & A2 & A3). rewrite Ek. cbn [obind].
  destruct (feet_frame _ Hf) as (f & Ef). rewrite Ef. cbn [obind].
  destruct (trunk_add_total k t (pt_end q) (frame_yaw (fr_R f)) 0) as (k2 & Ek2 & C1 & C2); [now rewrite A3|exact Ht|]. rewrite Ek2. exists k2. split; [reflexivity|]. split; [|exact C1].
  intros sd. rewrite C2. destruct Hf as [(f0 & E)|(f0 & h & E & Hs)]; [rewrite E in H2; discriminate H2|]. rewrite E in A1.
  apply (two_sides (fun sd => ends_by (foot_yaw k sd) (pt_end q)) (f_side f0)); [apply A1; now left|rewrite <- Hs; apply A1; right; now left].
Qed.

Lemma stands_frame s sd : stands_on s sd -> exists T, footstep_frame s sd = Ok T.
Proof.
  intros (f & Hf & Hs). unfold footstep_frame. destruct (find (fun f => side_eqb (f_side f) sd) (u_footsteps s)) as [f'|] eqn:E; [eauto|].
  exfalso. pose proof (find_none _ _ E f Hf) as H. cbn in H. rewrite Hs in H. now destruct sd.
Qed.

Lemma plan_sgl_total p j i q f t qn qp old : nth_error (j_parts j) (S i) = Some q -> u_footsteps (pt_support q) = [f] -> all_by j t -> t < pt_end q ->
  nth_error (j_parts j) (S i + 1) = Some qn -> stands_on (pt_support qn) (other_side (f_side f)) ->
  nth_error (j_parts j) i = Some qp -> stands_on (pt_support qp) (other_side (f_side f)) ->
  (exists d, support_default_duration (w_base p) (pt_support q) = Ok d /\ 0 < d) -> 0 < u_time_ratio (pt_support q) -> w_rise_ratio p < 1 ->
  exists k, plan_sgl_support p j (S i) old = Ok k /\ all_by k (pt_end q).
Proof.
  intros Hq Ef [B1 B2] Ht Hn Sn Hp Sp (d & Ed & Hd) Htr Hr. unfold plan_sgl_support. rewrite (at_index_ok _ _ _ Hq). cbn [obind]. rewrite Ef. cbn [at_index nth_error obind]. cbv zeta.
  rewrite (at_index_ok _ _ _ Hn). cbn [obind]. destruct (stands_frame _ _ Sn) as (Te & ETe). rewrite ETe. cbn [obind]. rewrite Ed. cbn [obind].
  rewrite (at_index_ok _ _ _ Hp). cbn [obind]. destruct (stands_frame _ _ Sp) as (T0 & ET0). rewrite ET0. cbn [obind].
  destruct (proj1 (C59_success (pt_start q) (d * u_time_ratio (pt_support q)) (w_foot_height p) (w_rise_ratio p) (fr_t T0) (fr_t Te) 0 v3_zero
    ltac:(now apply Rmult_lt_0_compat) ltac:(lra)) Hr) as (w & Ew). rewrite Ew. cbn [obind].
  set (j1 := set_parts j (replace (j_parts j) (S i) (set_swing q w))).
  destruct (yaw_add_total j1 (other_side (f_side f)) t (pt_end q) (frame_yaw (fr_R Te)) 0 (B1 _) Ht) as (j2 & E2 & Y1 & Y2 & Y3). rewrite E2. cbn [obind].
  assert (J3 : exists j3, (if has_double_support (w_base p) then Ok j2 else trunk_add j2 (pt_end q) (frame_yaw (fr_R Te)) 0) = Ok j3 /\
    (forall sd, foot_yaw j3 sd = foot_yaw j2 sd) /\ ends_by (j_trunk j3) (pt_end q)).
  { destruct (has_double_support (w_base p)).
    - exists j2. split; [reflexivity|]. split; [reflexivity|]. rewrite Y3. eapply ends_by_later; [exact B2|lra].
    - destruct (trunk_add_total j2 t (pt_end q) (frame_yaw (fr_R Te)) 0) as (j3 & E3 & C1 & C2); [rewrite Y3; exact B2|exact Ht|]. eauto. }
  destruct J3 as (j3 & E3 & C1 & C2). rewrite E3. cbn [obind].
  destruct (add_supports_total j3 (pt_support q) t (pt_end q)) as (k & Ek & A1 & A2 & A3); [left; eauto| |exact Ht|].
  { rewrite Ef. intros f' [<-|[]]. rewrite C1. rewrite other_other in Y2. rewrite Y2. apply B1. }
  exists k. split; [exact Ek|]. split; [|now rewrite A3].
  apply (two_sides (fun sd => ends_by (foot_yaw k sd) (pt_end q)) (f_side f)); [apply A1; rewrite Ef; now left|].
  rewrite A2; [now rewrite C1|]. intros (f' & Hf' & Hs). rewrite Ef in Hf'. destruct Hf' as [<-|[]]. destruct (f_side f); discriminate Hs.
Qed.

(** What planning the feet asks of the parts. *)
Definition part_ok (p : wparams) (parts : list part) (i : nat) (q : part) : Prop :=
  feet_ok (pt_support q) /\ pt_start q < pt_end q /\
  (exists d, support_default_duration (w_base p) (pt_support q) = Ok d /\ 0 < d) /\ 0 < u_time_ratio (pt_support q) /\
  (forall f, u_footsteps (pt_support q) = [f] -> exists i' qn qp, i = S i' /\ nth_error parts (i + 1) = Some qn /\ stands_on (pt_support qn) (other_side (f_side f)) /\
     nth_error parts i' = Some qp /\ stands_on (pt_support qp) (other_side (f_side f))).
Definition parts_ok (p : wparams) (parts : list part) : Prop := forall i q, nth_error parts i = Some q -> part_ok p parts i q.

Lemma parts_ok_same p l m : Forall2 same_walk l m -> parts_ok p l -> parts_ok p m.
Proof.
  intros F H i q Hq. destruct (Forall2_nth _ _ _ _ _ F Hq) as (q0 & Hq0 & S1 & S2 & S3 & _). destruct (H i q0 Hq0) as (A & B & C & D & E). unfold part_ok. rewrite S1, S2, S3.
  do 4 (split; [assumption|]). intros f Ef. destruct (E f Ef) as (i' & qn & qp & -> & Hn & Sn & Hp & Sp).
  destruct (Forall2_nth_l _ _ _ _ _ F Hn) as (qn' & Hn' & _ & _ & N3 & _). destruct (Forall2_nth_l _ _ _ _ _ F Hp) as (qp' & Hp' & _ & _ & P3 & _).
  exists i', qn', qp'. rewrite N3, P3. auto.
Qed.

Lemma contiguous_next : forall l a b i q, contiguous a l b -> nth_error l i = Some q ->
  match nth_error l (i + 1) with Some q' => pt_start q' = pt_end q | None => True end.
Proof.
  induction l as [|p l IH]; intros a b i q C H; [destruct i; discriminate H|]. destruct C as [C1 C2]. destruct i as [|i]; cbn in *.
  - injection H as ->. destruct l as [|p' l]; [exact I|]. now destruct C2.
  - exact (IH _ _ _ _ C2 H).
Qed.

Lemma plan_feet_loop_total p : w_rise_ratio p < 1 -> forall n j i t a b, parts_ok p (j_parts j) -> contiguous a (j_parts j) b -> (i + n = length (j_parts j))%nat ->
  all_by j t -> (forall q, nth_error (j_parts j) i = Some q -> t <= pt_start q) -> exists k, plan_feet_loop n p j i None = Ok k.
Proof.
  intros Hr. induction n as [|n IH]; intros j i t a b H C Hi B Ht; cbn [plan_feet_loop]; [eauto|].
  destruct (nth_error (j_parts j) i) as [q|] eqn:Hq; [|apply nth_error_None in Hq; lia]. rewrite (at_index_ok _ _ _ Hq). cbn [obind].
  destruct (H i q Hq) as (Hf & Hl & Hd & Htr & Hs). specialize (Ht q eq_refl).
  assert (K : exists k, (if Nat.eqb (length (u_footsteps (pt_support q))) 1 then plan_sgl_support p j i None else plan_dbl_support j i) = Ok k /\ all_by k (pt_end q) /\ keeps j k).
  { destruct (Nat.eqb_spec (length (u_footsteps (pt_support q))) 1) as [E1|E1].
    - assert (exists f, u_footsteps (pt_support q) = [f]) as (f & Ef).
      { destruct (u_footsteps (pt_support q)) as [|f [|f' r]]; cbn in E1; try discriminate; eauto. }
      destruct (Hs f Ef) as (i' & qn & qp & -> & Hn & Sn & Hp & Sp).
      destruct (plan_sgl_total p j i' q f t qn qp None Hq Ef B ltac:(lra) Hn Sn Hp Sp Hd Htr Hr) as (k & Ek & Bk). exists k. split; [exact Ek|]. split; [exact Bk|]. exact (plan_sgl_keeps _ _ _ _ _ Ek).
    - assert (length (u_footsteps (pt_support q)) = 2%nat). { destruct Hf as [(f & E)|(f & h & E & _)]; rewrite E in *; cbn in *; [lia|reflexivity]. }
      destruct (plan_dbl_total j i q t Hq Hf H0 B ltac:(lra)) as (k & Ek & Bk). exists k. split; [exact Ek|]. split; [exact Bk|]. exact (proj1 (plan_dbl_keeps _ _ _ Ek)). }
  destruct K as (k & Ek & Bk & Kk). rewrite Ek. cbn [obind]. pose proof Kk as (_ & _ & _ & _ & _ & _ & _ & Kp).
  apply (IH k (i + 1)%nat (pt_end q) a b).
  - exact (parts_ok_same _ _ _ Kp H).
  - exact (same_contiguous _ _ _ _ Kp C).
  - rewrite <- (Forall2_len' _ _ _ Kp). lia.
  - exact Bk.
  - intros q' Hq'. destruct (Forall2_nth _ _ _ _ _ Kp Hq') as (q0 & Hq0 & S1 & _). pose proof (contiguous_next _ _ _ _ _ C Hq) as N. rewrite Hq0 in N. lra.
Qed.

Lemma plan_feet_total p j a b : w_rise_ratio p < 1 -> j_parts j <> [] -> parts_ok p (j_parts j) -> contiguous (j_start j) (j_parts j) b ->
  j_left j = new_spline a -> j_right j = new_spline a -> j_trunk j = new_spline a -> exists k, plan_feet_trajectories p j None = Ok k.
Proof.
  intros Hr N H C E1 E2 E3. unfold plan_feet_trajectories. destruct (nth_error (j_parts j) 0) as [q|] eqn:Hq; [|destruct (j_parts j); [congruence|discriminate Hq]].
  rewrite (at_index_ok _ _ _ Hq). cbn [obind]. destruct (H 0%nat q Hq) as (Hf & Hl & _ & _ & Hs).
  assert (Z : forall t, ends_by (new_spline a) t) by (intros t l E; discriminate E).
  destruct (add_supports_total j (pt_support q) (j_start j - 1) (j_start j) Hf) as (k & Ek & A1 & A2 & A3); [intros f _; destruct (f_side f); cbn; [rewrite E1|rewrite E2]; apply Z|lra|].
  rewrite Ek. cbn [obind]. destruct (feet_frame _ Hf) as (f & Ef). rewrite Ef. cbn [obind].
  destruct (trunk_add_total k (j_start j - 1) (j_start j) (frame_yaw (fr_R f)) 0) as (k2 & Ek2 & C1 & C2); [rewrite A3, E3; apply Z|lra|]. rewrite Ek2. cbn [obind].
  apply add_supports_keeps in Ek as [K1 P1]. apply trunk_add_keeps in Ek2 as [K2 P2].
  apply (plan_feet_loop_total p Hr _ k2 0%nat (j_start j) (j_start j) b); rewrite ?P2, ?P1; auto.
  - split; [|exact C1]. intros sd. rewrite C2. destruct Hf as [(f0 & E)|(f0 & h & E & Hsd)].
    + destruct (Hs f0 E) as (i' & _ & _ & Ei & _). discriminate Ei.
    + rewrite E in A1. apply (two_sides (fun sd => ends_by (foot_yaw k sd) (j_start j)) (f_side f0)); [apply A1; now left|rewrite <- Hsd; apply A1; right; now left].
  - intros q' Hq'. rewrite Hq in Hq'. injection Hq' as <-. destruct (j_parts j); [discriminate Hq|]. cbn in Hq. injection Hq as ->. destruct C as [C _]. lra.
Qed.
