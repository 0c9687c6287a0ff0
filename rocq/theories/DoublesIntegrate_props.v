(** Theorems about repeated calls of RobotWrapper::integrate with doubles: C195. *)
From Coq Require Import Reals ZArith List Bool Lia Lra.
From Flocq Require Import Core.
From Verif Require Import Base Doubles_model Doubles_spec Doubles_proofs DoublesClip_props DoublesLimits_proofs DoublesIntegrate_model DoublesIntegrate_spec DoublesIntegrate_proofs DoublesIntegrate_proofs2.
Open Scope R_scope.

(** At constant speed, the position after n calls is q + n * speed * dt up to n + 1 roundings, and the speed is kept. *)
Theorem C195_position_partial n dt q v : is_double q -> sized v -> sized dt ->
  let s := after n dt (DJState q (Some v) None) in drifts (n + 1) n q (v * dt) (dq s) /\ dqd s = Some v /\ dqdd s = None.
Proof. intros Q V D. cbv zeta. destruct (after_steady n dt q v) as (E1 & E2 & E3). rewrite E3, Nat.add_1_r. split; [now apply adds_drift_mul|]. auto. Qed.
Print Assumptions C195_position_partial.

(** At constant acceleration, so is the speed. *)
Theorem C195_speed_partial n dt q v a : is_double v -> sized a -> sized dt ->
  let s := after n dt (DJState q (Some v) (Some a)) in (exists v', dqd s = Some v' /\ drifts (n + 1) n v (dt * a) v') /\ dqdd s = Some a.
Proof. intros Q V D. cbv zeta. destruct (after_speed n dt q v a) as (E1 & E2). rewrite E1, Nat.add_1_r. split; [|exact E2]. eexists. split; [reflexivity|]. now apply adds_drift_mul. Qed.
Print Assumptions C195_speed_partial.

(** A robot whose speed is not set does not move. *)
Theorem C195_unset n dt q : is_double q -> dq (after n dt (DJState q None None)) = q.
Proof.
  intros Q. assert (H : dq (after n dt (DJState q None None)) = q /\ dqdd (after n dt (DJState q None None)) = None /\ (dqd (after n dt (DJState q None None)) = None \/ dqd (after n dt (DJState q None None)) = Some 0)).
  { induction n as [|n (I1 & I2 & I3)]; [auto|]. cbn [after]. unfold d_integrate. rewrite I1, I2. cbn [dq dqd dqdd].
    assert (E : d_add q (d_mul 0 dt) = q) by (unfold d_mul, d_add; rewrite Rmult_0_l, double_0, Rplus_0_r; now apply double_id). destruct I3 as [ -> | -> ]; rewrite E; auto. }
  apply H.
Qed.
Print Assumptions C195_unset.

(** A joint that moves by less than 2^-55 of its position in one call never moves, however many calls there are. *)
Theorem C195_stuck_behaviour n dt q v : is_double q -> Rabs (d_mul v dt) <= Rabs q / 2 ^ 55 -> dq (after n dt (DJState q (Some v) None)) = q.
Proof. intros Q H. destruct (after_steady n dt q v) as (_ & _ & ->). now apply adds_lost. Qed.
Print Assumptions C195_stuck_behaviour.

Lemma ex_slow_sized : sized (/ 2 ^ 50) /\ sized (/ 2 ^ 10) /\ d_mul (/ 2 ^ 50) (/ 2 ^ 10) = / 2 ^ 60.
Proof.
  assert (P : forall k, (k <= 100)%nat -> is_double (/ 2 ^ k) /\ / 2 ^ 100 <= / 2 ^ k).
  { intros k K. split; [exists 1%Z, (- Z.of_nat k)%Z; split; [|split; lia]; rewrite <- bpow_power, bpow_inv; ring|]. apply Rinv_le_contravar; [apply pow_lt; lra|apply Rle_pow; [lra|lia]]. }
  split; [|split].
  - destruct (P 50%nat ltac:(lia)) as (A & B). split; [exact A|right]. rewrite Rabs_right by lra. exact B.
  - destruct (P 10%nat ltac:(lia)) as (A & B). split; [exact A|right]. rewrite Rabs_right by lra. exact B.
  - unfold d_mul. rewrite <- Rinv_mult, <- pow_add. apply double_id, (P 60%nat). lia.
Qed.

(** So the joint need not move by n * speed * dt, even up to a half: a joint at 1, of speed 2^-50, integrated with dt = 2^-10, does not move. *)
Theorem C195_refuted : ~ (forall n dt q v, is_double q -> sized v -> sized dt -> Rabs (dq (after n dt (DJState q (Some v) None)) - (q + INR n * (v * dt))) <= / 2 * Rabs (INR n * (v * dt))).
Proof.
  intros H. destruct ex_slow_sized as (V & D & M). specialize (H 1%nat _ 1 _ is_double_1 V D). rewrite (C195_stuck_behaviour 1 _ 1 _ is_double_1) in H.
  - replace (INR 1) with 1 in H by reflexivity. replace (1 - (1 + 1 * (/ 2 ^ 50 * / 2 ^ 10))) with (- (/ 2 ^ 60)) in H by (rewrite <- Rinv_mult, <- pow_add; cbn [Nat.add]; lra).
    rewrite Rmult_1_l, <- Rinv_mult, <- pow_add, Rabs_Ropp in H. cbn [Nat.add] in H. assert (0 < / 2 ^ 60) by (apply Rinv_0_lt_compat, pow_lt; lra). rewrite Rabs_right in H by lra. lra.
  - rewrite M, Rabs_R1. rewrite Rabs_right; lra.
Qed.
Print Assumptions C195_refuted.

(** The same joint meets the hypotheses of C195_position_partial, C195_speed_partial and C195_stuck_behaviour; one of speed 1 moves. *)
Example C195_example : is_double 1 /\ sized 1 /\ sized (/ 2 ^ 50) /\ sized (/ 2 ^ 10) /\ Rabs (d_mul (/ 2 ^ 50) (/ 2 ^ 10)) <= Rabs 1 / 2 ^ 55 /\
  dq (after 2 1 (DJState 1 (Some 1) None)) = 3.
Proof.
  destruct ex_slow_sized as (V & D & M). split; [exact is_double_1|]. split; [split; [exact is_double_1|right; rewrite Rabs_R1; lra]|]. split; [exact V|]. split; [exact D|].
  split; [rewrite M, Rabs_R1; rewrite Rabs_right; lra|]. cbn [after d_integrate dq dqd dqdd]. assert (d_mul 1 1 = 1) as -> by (unfold d_mul; rewrite Rmult_1_l; apply double_id, is_double_1).
  assert (d_add 1 1 = 2) as -> by (unfold d_add; replace (1 + 1) with (IZR 2) by lra; apply double_id, is_double_int; lia). unfold d_add. replace (2 + 1) with (IZR 3) by lra. apply double_id, is_double_int. lia.
Qed.

(** At constant acceleration each call adds to the position the speed it has just computed times dt: after n calls the position is
    q + n * speed * dt + n (n + 1) / 2 * acceleration * dt^2, up to 2 n + 2 roundings and the smallest doubles. *)
Theorem C195_accelerated_partial n dt q v a : is_double q -> is_double v -> sized a -> sized dt ->
  let N := INR n in
  Rabs (dq (after n dt (DJState q (Some v) (Some a))) - (q + N * v * dt + N * (N + 1) / 2 * a * dt * dt)) <=
    ((1 + / 2 ^ 53) ^ (2 * n + 2) - 1) * (Rabs q + N * Rabs (v * dt) + N * (N + 1) / 2 * Rabs (a * dt * dt)) + (1 + / 2 ^ 53) ^ n * (N * / 2 ^ 1075).
Proof.
  intros Q V A D N. destruct (after_accelerated n dt q v a Q V A D n (le_n n)) as (_ & H). rewrite <- pow_add in H. replace (n + (n + 2))%nat with (2 * n + 2)%nat in H by lia. exact H.
Qed.
Print Assumptions C195_accelerated_partial.
