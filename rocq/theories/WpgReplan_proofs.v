(** Replanning: proofs. *)
From Coq Require Import Reals Lra Lia List ZArith Bool.
From Verif Require Import Base Angle Linalg Geom3 Tools_model Spline_model Spline_spec Spline_proofs Spline_props Swing_model Swing_spec Swing_proofs Swing_props
  Geometry_model Footsteps_model Wpg_model Wpg_spec Wpg_proofs Wpg_proofs2 Wpg_proofs3 Wpg_proofs4 Wpg_proofs5 WpgPlan_spec WpgPlan_proofs4 WpgFeet_proofs WpgReplan_spec.
Import ListNotations.
Open Scope R_scope.

(** ** The feet, after an old walk *)

Lemma plan_sgl_first_total p j q f qn o : nth_error (j_parts j) 0 = Some q -> u_footsteps (pt_support q) = [f] -> j_start j < pt_end q ->
  ends_by (foot_yaw j (f_side f)) (j_start j) -> ends_by (foot_yaw j (other_side (f_side f))) (j_start j - 1) -> ends_by (j_trunk j) (j_start j) ->
  nth_error (j_parts j) 1 = Some qn -> stands_on (pt_support qn) (other_side (f_side f)) -> reads_foot o (other_side (f_side f)) (j_start j) ->
  (exists d, support_default_duration (w_base p) (pt_support q) = Ok d /\ 0 < d) -> 0 < u_time_ratio (pt_support q) -> u_elapsed_ratio (pt_support q) < 1 -> w_rise_ratio p < 1 ->
  exists k, plan_sgl_support p j 0 (Some o) = Ok k /\ all_by k (pt_end q).
Proof.
  intros Hq Ef Ht B1 B0 B2 Hn Sn ((T0 & ET0) & (v & Ev) & (y & Ey) & (dy & Edy)) (d & Ed & Hd) Htr He Hr. unfold plan_sgl_support. rewrite (at_index_ok _ _ _ Hq). cbn [obind]. rewrite Ef. cbn [at_index nth_error obind]. cbv zeta.
  cbn [Nat.add]. rewrite (at_index_ok _ _ _ Hn). cbn [obind]. destruct (stands_frame _ _ Sn) as (Te & ETe). rewrite ETe. cbn [obind]. rewrite Ed. cbn [obind].
  rewrite ET0, Ev, Ey, Edy. cbn [obind].
  destruct (proj1 (C59_success (pt_start q) (d * u_time_ratio (pt_support q)) (w_foot_height p) (w_rise_ratio p) (fr_t T0) (fr_t Te) (u_elapsed_ratio (pt_support q)) v
    ltac:(now apply Rmult_lt_0_compat) He) Hr) as (w & Ew). rewrite Ew. cbn [obind].
  set (j0 := set_parts j (replace (j_parts j) 0 (set_swing q w))).
  destruct (yaw_add_total j0 (other_side (f_side f)) (j_start j - 1) (j_start j) y dy B0 ltac:(lra)) as (j1 & E1 & X1 & X2 & X3). rewrite E1. cbn [obind].
  destruct (yaw_add_total j1 (other_side (f_side f)) (j_start j) (pt_end q) (frame_yaw (fr_R Te)) 0 X1 Ht) as (j2 & E2 & Y1 & Y2 & Y3). rewrite E2. cbn [obind].
  assert (J3 : exists j3, (if has_double_support (w_base p) then Ok j2 else trunk_add j2 (pt_end q) (frame_yaw (fr_R Te)) 0) = Ok j3 /\
    (forall sd, foot_yaw j3 sd = foot_yaw j2 sd) /\ ends_by (j_trunk j3) (pt_end q)).
  { assert (B2' : ends_by (j_trunk j2) (j_start j)) by (rewrite Y3, X3; exact B2). destruct (has_double_support (w_base p)).
    - exists j2. split; [reflexivity|]. split; [reflexivity|]. eapply ends_by_later; [exact B2'|lra].
    - destruct (trunk_add_total j2 (j_start j) (pt_end q) (frame_yaw (fr_R Te)) 0 B2' Ht) as (j3 & E3 & C1 & C2). eauto. }
  destruct J3 as (j3 & E3 & C1 & C2). rewrite E3. cbn [obind]. rewrite other_other in X2, Y2.
  destruct (add_supports_total j3 (pt_support q) (j_start j) (pt_end q)) as (k & Ek & A1 & A2 & A3); [left; eauto| |exact Ht|].
  { rewrite Ef. intros f' [<-|[]]. rewrite C1, Y2, X2. exact B1. }
  exists k. split; [exact Ek|]. split; [|now rewrite A3].
  apply (two_sides (fun sd => ends_by (foot_yaw k sd) (pt_end q)) (f_side f)); [apply A1; rewrite Ef; now left|].
  rewrite A2; [now rewrite C1|]. intros (f' & Hf' & Hs). rewrite Ef in Hf'. destruct Hf' as [<-|[]]. destruct (f_side f); discriminate Hs.
Qed.

(** What planning the feet after the walk [o] asks of the parts. *)
Definition part_ok' (p : wparams) (o : wtraj) (t : R) (parts : list part) (i : nat) (q : part) : Prop :=
  feet_ok (pt_support q) /\ pt_start q < pt_end q /\ u_elapsed_ratio (pt_support q) < 1 /\
  (exists d, support_default_duration (w_base p) (pt_support q) = Ok d /\ 0 < d) /\ 0 < u_time_ratio (pt_support q) /\
  (forall f, u_footsteps (pt_support q) = [f] -> exists qn, nth_error parts (i + 1) = Some qn /\ stands_on (pt_support qn) (other_side (f_side f)) /\
     match i with
     | O => reads_foot o (other_side (f_side f)) t
     | S i' => exists qp, nth_error parts i' = Some qp /\ stands_on (pt_support qp) (other_side (f_side f))
     end).
Definition parts_ok' (p : wparams) (o : wtraj) (t : R) (parts : list part) : Prop := forall i q, nth_error parts i = Some q -> part_ok' p o t parts i q.

Lemma parts_ok_same' p o t l m : Forall2 same_walk l m -> parts_ok' p o t l -> parts_ok' p o t m.
Proof.
  intros F H i q Hq. destruct (Forall2_nth _ _ _ _ _ F Hq) as (q0 & Hq0 & S1 & S2 & S3 & _). destruct (H i q0 Hq0) as (A & B & B' & C & D & E). unfold part_ok'. rewrite S1, S2, S3.
  do 5 (split; [assumption|]). intros f Ef. destruct (E f Ef) as (qn & Hn & Sn & I).
  destruct (Forall2_nth_l _ _ _ _ _ F Hn) as (qn' & Hn' & _ & _ & N3 & _). exists qn'. rewrite N3. split; [exact Hn'|]. split; [exact Sn|]. destruct i as [|i']; [exact I|].
  destruct I as (qp & Hp & Sp). destruct (Forall2_nth_l _ _ _ _ _ F Hp) as (qp' & Hp' & _ & _ & P3 & _).
  exists qp'. rewrite P3. auto.
Qed.

Lemma length_one (s : support) : length (u_footsteps s) = 1%nat -> exists f, u_footsteps s = [f].
Proof. intros E. destruct (u_footsteps s) as [|f [|f' r]]; cbn in E; try discriminate; eauto. Qed.
Lemma length_two s : feet_ok s -> length (u_footsteps s) <> 1%nat -> length (u_footsteps s) = 2%nat.
Proof. intros [(f & E)|(f & h & E & _)]; rewrite E; cbn; [lia|reflexivity]. Qed.

Lemma plan_feet_loop_total' p o t0 : w_rise_ratio p < 1 -> forall n j i t a b, parts_ok' p o t0 (j_parts j) -> contiguous a (j_parts j) b -> (S i + n = length (j_parts j))%nat ->
  all_by j t -> (forall q, nth_error (j_parts j) (S i) = Some q -> t <= pt_start q) -> exists k, plan_feet_loop n p j (S i) (Some o) = Ok k.
Proof.
  intros Hr. induction n as [|n IH]; intros j i t a b H C Hi B Ht; cbn [plan_feet_loop]; [eauto|].
  destruct (nth_error (j_parts j) (S i)) as [q|] eqn:Hq; [|apply nth_error_None in Hq; lia]. rewrite (at_index_ok _ _ _ Hq). cbn [obind].
  destruct (H (S i) q Hq) as (Hf & Hl & _ & Hd & Htr & Hs). specialize (Ht q eq_refl).
  assert (K : exists k, (if Nat.eqb (length (u_footsteps (pt_support q))) 1 then plan_sgl_support p j (S i) (Some o) else plan_dbl_support j (S i)) = Ok k /\ all_by k (pt_end q) /\ keeps j k).
  { destruct (Nat.eqb_spec (length (u_footsteps (pt_support q))) 1) as [E1|E1].
    - destruct (length_one _ E1) as (f & Ef). destruct (Hs f Ef) as (qn & Hn & Sn & qp & Hp & Sp).
      destruct (plan_sgl_total p j i q f t qn qp (Some o) Hq Ef B ltac:(lra) Hn Sn Hp Sp Hd Htr Hr) as (k & Ek & Bk). exists k. split; [exact Ek|]. split; [exact Bk|]. exact (plan_sgl_keeps _ _ _ _ _ Ek).
    - destruct (plan_dbl_total j (S i) q t Hq Hf (length_two _ Hf E1) B ltac:(lra)) as (k & Ek & Bk). exists k. split; [exact Ek|]. split; [exact Bk|]. exact (proj1 (plan_dbl_keeps _ _ _ Ek)). }
  destruct K as (k & Ek & Bk & Kk). rewrite Ek. cbn [obind]. pose proof Kk as (_ & _ & _ & _ & _ & _ & _ & Kp).
  replace (S i + 1)%nat with (S (S i)) by lia. apply (IH k (S i) (pt_end q) a b).
  - exact (parts_ok_same' _ _ _ _ _ Kp H).
  - exact (same_contiguous _ _ _ _ Kp C).
  - rewrite <- (Forall2_len' _ _ _ Kp). lia.
  - exact Bk.
  - intros q' Hq'. destruct (Forall2_nth _ _ _ _ _ Kp Hq') as (q0 & Hq0 & S1 & _). pose proof (contiguous_next _ _ _ _ _ C Hq) as N. replace (S i + 1)%nat with (S (S i)) in N by lia. rewrite Hq0 in N. lra.
Qed.

Lemma plan_feet_total' p j o a b : w_rise_ratio p < 1 -> j_parts j <> [] -> parts_ok' p o (j_start j) (j_parts j) -> contiguous (j_start j) (j_parts j) b ->
  j_left j = new_spline a -> j_right j = new_spline a -> j_trunk j = new_spline a -> reads_trunk o (j_start j) -> exists k, plan_feet_trajectories p j (Some o) = Ok k.
Proof.
  intros Hr N H C E1 E2 E3 ((y & Ey) & (dy & Edy)). unfold plan_feet_trajectories. destruct (nth_error (j_parts j) 0) as [q|] eqn:Hq; [|destruct (j_parts j); [congruence|discriminate Hq]].
  rewrite (at_index_ok _ _ _ Hq). cbn [obind]. destruct (H 0%nat q Hq) as (Hf & Hl & He & Hd & Htr & Hs).
  assert (Z : forall t, ends_by (new_spline a) t) by (intros t l E; discriminate E).
  assert (Zf : forall sd, foot_yaw j sd = new_spline a) by (intros []; cbn; assumption).
  destruct (add_supports_total j (pt_support q) (j_start j - 1) (j_start j) Hf) as (k & Ek & A1 & A2 & A3); [intros f _; rewrite Zf; apply Z|lra|].
  rewrite Ek. cbn [obind]. rewrite Ey. cbn [obind]. rewrite Edy. cbn [obind].
  destruct (trunk_add_total k (j_start j - 1) (j_start j) y dy) as (k2 & Ek2 & C1 & C2); [rewrite A3, E3; apply Z|lra|]. rewrite Ek2. cbn [obind].
  apply add_supports_keeps in Ek as [K1 P1]. apply trunk_add_keeps in Ek2 as [K2 P2].
  assert (Pj : j_parts k2 = j_parts j) by congruence. assert (Sj : j_start k2 = j_start j) by (destruct K1 as (X & _), K2 as (Y & _); congruence).
  assert (S0 : pt_start q = j_start j) by (destruct (j_parts j); [discriminate Hq|]; cbn in Hq; injection Hq as ->; exact (proj1 C)).
  destruct (length (j_parts j)) as [|n] eqn:Hn; [apply length_zero_iff_nil in Hn; congruence|]. cbn [plan_feet_loop]. rewrite Pj, (at_index_ok _ _ _ Hq). cbn [obind].
  assert (K : exists k, (if Nat.eqb (length (u_footsteps (pt_support q))) 1 then plan_sgl_support p k2 0 (Some o) else plan_dbl_support k2 0) = Ok k /\ all_by k (pt_end q) /\ keeps k2 k).
  { destruct (Nat.eqb_spec (length (u_footsteps (pt_support q))) 1) as [L1|L1].
    - destruct (length_one _ L1) as (f & Ef). destruct (Hs f Ef) as (qn & Hqn & Sn & Rd). rewrite Ef in A1.
      destruct (plan_sgl_first_total p k2 q f qn o) as (k3 & Ek3 & Bk3); rewrite ?Pj, ?Sj, ?C2; try assumption; try lra.
      + apply A1. now left.
      + rewrite A2; [rewrite Zf; apply Z|]. intros (f' & Hf' & Hs'). rewrite Ef in Hf'. destruct Hf' as [<-|[]]. destruct (f_side f); discriminate Hs'.
      + exists k3. split; [exact Ek3|]. split; [exact Bk3|]. exact (plan_sgl_keeps _ _ _ _ _ Ek3).
    - destruct (plan_dbl_total k2 0 q (j_start j)) as (k3 & Ek3 & Bk3); [now rewrite Pj|exact Hf|exact (length_two _ Hf L1)| |lra|].
      + split; [|exact C1]. intros sd. rewrite C2. destruct Hf as [(f0 & E)|(f0 & h & E & Hsd)]; [rewrite E in L1; now elim L1|].
        rewrite E in A1. apply (two_sides (fun sd => ends_by (foot_yaw k sd) (j_start j)) (f_side f0)); [apply A1; now left|rewrite <- Hsd; apply A1; right; now left].
      + exists k3. split; [exact Ek3|]. split; [exact Bk3|]. exact (proj1 (plan_dbl_keeps _ _ _ Ek3)). }
  destruct K as (k3 & Ek3 & Bk3 & K3). rewrite Ek3. cbn [obind Nat.add]. pose proof K3 as (_ & _ & _ & _ & _ & _ & _ & Kp). rewrite Pj in Kp.
  apply (plan_feet_loop_total' p o (j_start j) Hr n k3 0%nat (pt_end q) (j_start j) b).
  - exact (parts_ok_same' _ _ _ _ _ Kp H).
  - exact (same_contiguous _ _ _ _ Kp C).
  - rewrite <- (Forall2_len' _ _ _ Kp), Hn. lia.
  - exact Bk3.
  - intros q' Hq'. destruct (Forall2_nth _ _ _ _ _ Kp Hq') as (q0 & Hq0 & S1 & _). pose proof (contiguous_next _ _ _ _ _ C Hq) as Nx. cbn [Nat.add] in Nx. rewrite Hq0 in Nx. lra.
Qed.

(** ** The splines of a walk can always be read *)

Definition splines_ok (j : wtraj) : Prop := (forall sd, reachable (foot_yaw j sd)) /\ reachable (j_trunk j).

Lemma spline_add_reachable s t x dx s' : reachable s -> spline_add s t x dx = Ok s' -> reachable s'.
Proof. intros H E. unfold spline_add in E. destruct (add_point s t x dx) as [s1 [[]|e|]] eqn:Ea; try discriminate E. injection E as <-. exact (reachable_add _ _ _ _ _ H Ea). Qed.
Lemma yaw_add_splines j sd t x dx k : splines_ok j -> yaw_add j sd t x dx = Ok k -> splines_ok k.
Proof.
  intros [H1 H2] E. unfold yaw_add in E. bind E s Es. injection E as <-. pose proof (spline_add_reachable _ _ _ _ _ (H1 sd) Es) as Hs.
  pose proof (H1 Left) as Hl. pose proof (H1 Right) as Hr. destruct sd; split; try exact H2; intros []; assumption.
Qed.
Lemma trunk_add_splines j t x dx k : splines_ok j -> trunk_add j t x dx = Ok k -> splines_ok k.
Proof.
  intros [H1 H2] E. unfold trunk_add in E. bind E s Es. injection E as <-. pose proof (spline_add_reachable _ _ _ _ _ H2 Es) as Hs.
  pose proof (H1 Left) as Hl. pose proof (H1 Right) as Hr. split; [|exact Hs]. intros []; assumption.
Qed.
Lemma add_footsteps_splines t : forall l j k, splines_ok j -> add_footsteps j t l = Ok k -> splines_ok k.
Proof.
  induction l as [|f l IH]; intros j k H E; cbn [add_footsteps] in E; [injection E as <-; exact H|]. bind E j1 E1. exact (IH _ _ (yaw_add_splines _ _ _ _ _ _ H E1) E).
Qed.
Lemma set_parts_splines j l : splines_ok j -> splines_ok (set_parts j l).
Proof. intros [H1 H2]. split; [|exact H2]. intros sd. specialize (H1 sd). destruct sd; exact H1. Qed.
Lemma plan_sgl_splines p j i old k : splines_ok j -> plan_sgl_support p j i old = Ok k -> splines_ok k.
Proof.
  intros H E. unfold plan_sgl_support in E. bind E q Eq. bind E f Ef. cbv zeta in E. bind E qn En. bind E Te ETe. bind E d Ed. bind E j1 E1. bind E j2 E2. bind E j3 E3.
  apply add_footsteps_splines with (2 := E). assert (H1 : splines_ok j1).
  { destruct i as [|i].
    - destruct old as [o|]; [|discriminate E1]. bind E1 T0 ET. bind E1 v Ev. bind E1 w Ew. bind E1 y Ey. bind E1 dy Edy. apply yaw_add_splines with (2 := E1). now apply set_parts_splines.
    - bind E1 qp Ep. bind E1 T0 ET. bind E1 w Ew. injection E1 as <-. now apply set_parts_splines. }
  pose proof (yaw_add_splines _ _ _ _ _ _ H1 E2) as H2. destruct (has_double_support _); [injection E3 as <-; exact H2|exact (trunk_add_splines _ _ _ _ _ H2 E3)].
Qed.
Lemma plan_dbl_splines j i k : splines_ok j -> plan_dbl_support j i = Ok k -> splines_ok k.
Proof.
  intros H E. unfold plan_dbl_support in E. bind E q Eq. bind E j1 E1. bind E f Ef. apply trunk_add_splines with (2 := E). exact (add_footsteps_splines _ _ _ _ H E1).
Qed.
Lemma plan_loop_splines p old : forall n j i k, splines_ok j -> plan_feet_loop n p j i old = Ok k -> splines_ok k.
Proof.
  induction n as [|n IH]; intros j i k H E; cbn [plan_feet_loop] in E; [injection E as <-; exact H|]. bind E q Eq. bind E j1 E1. apply IH with (2 := E).
  destruct (Nat.eqb _ 1); [exact (plan_sgl_splines _ _ _ _ _ H E1)|exact (plan_dbl_splines _ _ _ H E1)].
Qed.
Lemma plan_feet_splines p j old k : splines_ok j -> plan_feet_trajectories p j old = Ok k -> splines_ok k.
Proof.
  intros H E. unfold plan_feet_trajectories in E. bind E q Eq. bind E j1 E1. bind E j2 E2. apply plan_loop_splines with (2 := E).
  pose proof (add_footsteps_splines _ _ _ _ H E1) as H1. destruct old as [o|]; [bind E2 y Ey; bind E2 dy Edy|bind E2 f Ef]; exact (trunk_add_splines _ _ _ _ _ H1 E2).
Qed.

Lemma spline_reads s t : reachable s -> (exists y, snd (pos s t) = Ok y) /\ (exists dy, snd (vel s t) = Ok dy).
Proof. intros H. split; unfold pos, vel; [destruct (C33_queries s t VValue H) as (_ & E & _)|destruct (C33_queries s t VSpeed H) as (_ & E & _)]; exact E. Qed.
Lemma reads_trunk_ok j t : splines_ok j -> reads_trunk j t.
Proof. intros [_ H]. destruct (spline_reads _ t H) as [(y & Ey) D]. split; [|exact D]. unfold get_yaw_world_trunk. rewrite Ey. cbn [obind]. eauto. Qed.
Lemma reads_foot_ok j sd t : splines_ok j -> (exists F, get_T_world_foot j sd t = Ok F) -> (exists v, get_v_world_foot j sd t = Ok v) -> reads_foot j sd t.
Proof.
  intros [H _] A B. destruct (spline_reads _ t (H sd)) as [(y & Ey) D]. split; [exact A|]. split; [exact B|]. split; [|exact D]. unfold get_yaw_world_foot. rewrite Ey. cbn [obind]. eauto.
Qed.

(** ** The old walk from a time on *)

Lemma trim_later p t0 t : forall l, (forall q, In q l -> t < pt_start q) -> trim_parts p t0 t l = Ok l.
Proof.
  induction l as [|q l IH]; intros H; cbn [trim_parts]; [reflexivity|]. unfold trim_part. pose proof (H q (or_introl eq_refl)). destruct (Rle_dec (pt_start q) t) as [X|X]; [lra|]. cbn [obind].
  rewrite IH by (intros q' Hq'; apply H; now right). reflexivity.
Qed.
