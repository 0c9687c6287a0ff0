(** Proofs about a history of solves of DynamicsSolver. *)
From Coq Require Import Reals List ZArith Bool String Lra Lia Psatz.
From Verif Require Import Base Linalg Geom3 Expression_model Robot_model Robot_spec Problem_model Problem_spec KinTasks_model Kin_model DynTasks_model Dyn_model Dyn_spec Dyn_props DynHistory_spec.
Import ListNotations.
Open Scope R_scope.

(** ** One joint and its upper limit *)

(** What a solve does to a position and a velocity. *)
Definition pushed (dt a upper q v q' v' : R) : Prop := q' = q + dt * v' /\ (if Rlt_dec upper q then v' <= v - dt * a else v' <= braking_speed a (upper - q)).
(** What remains true: over the limit, the next solve cannot go over [a dt^2] either. *)
Definition contained (dt a upper q v : R) : Prop := q <= upper \/ (v < 2 * (dt * a) /\ q - upper <= a * dt * dt /\ q - upper + dt * (v - dt * a) <= a * dt * dt).

Lemma contained_step dt a upper q v q' v' : 0 < dt -> 0 < a -> contained dt a upper q v -> pushed dt a upper q v q' v' -> contained dt a upper q' v'.
Proof.
  intros T A C (E & H). destruct (Rle_dec q' upper) as [L|L]; [now left|]. right. assert (P : 0 < dt * a) by now apply Rmult_lt_0_compat. destruct (Rlt_dec upper q) as [O|O].
  - destruct C as [C|(C1 & C2 & C3)]; [lra|]. assert (V : dt * v' <= dt * (v - dt * a)) by (apply Rmult_le_compat_l; lra). assert (W : dt * (v' - dt * a) <= 0).
    { rewrite <- (Rmult_0_r dt). apply Rmult_le_compat_l; lra. } repeat split; lra.
  - set (D := upper - q) in *. assert (D0 : 0 <= D) by (unfold D; lra). assert (X : D < dt * v') by (unfold D; lra).
    assert (V : 0 < v'). { apply Rnot_le_lt. intros N. assert (dt * v' <= dt * 0) by (apply Rmult_le_compat_l; lra). lra. }
    unfold braking_speed in H. assert (S : v' * v' <= 2 * D * a).
    { rewrite <- (sqrt_sqrt (2 * D * a)) by (apply Rmult_le_pos; lra). apply Rmult_le_compat; lra. }
    split; [|split].
    + apply Rmult_lt_reg_l with v'; [exact V|]. assert (D * a < dt * v' * a) by (apply Rmult_lt_compat_r; lra). lra.
    + apply Rmult_le_reg_l with (2 * a); [lra|]. pose proof (Rle_0_sqr (v' - dt * a)) as Q. unfold Rsqr in Q. replace (q' - upper) with (dt * v' - D) by (unfold D; lra). nra.
    + apply Rmult_le_reg_l with (2 * a); [lra|]. pose proof (Rle_0_sqr (v' - 2 * (dt * a))) as Q. unfold Rsqr in Q. replace (q' - upper) with (dt * v' - D) by (unfold D; lra). nra.
Qed.

Lemma contained_bound dt a upper q v : 0 < dt -> 0 < a -> contained dt a upper q v -> q <= upper + a * dt * dt.
Proof. intros T A [H|H]; [|lra]. assert (0 < a * dt * dt) by (repeat apply Rmult_lt_0_compat; assumption). lra. Qed.

Lemma contained_back dt a upper q0 v0 q1 v1 q2 v2 q3 v3 : 0 < dt -> 0 < a -> contained dt a upper q0 v0 ->
  pushed dt a upper q0 v0 q1 v1 -> pushed dt a upper q1 v1 q2 v2 -> pushed dt a upper q2 v2 q3 v3 -> q0 <= upper \/ q1 <= upper \/ q2 <= upper \/ q3 <= upper.
Proof.
  intros T A C (E1 & H1) (E2 & H2) (E3 & H3). destruct (Rle_dec q0 upper) as [|N0]; [auto|]. destruct (Rle_dec q1 upper) as [|N1]; [auto|]. destruct (Rle_dec q2 upper) as [|N2]; [auto|].
  destruct (Rlt_dec upper q0); [|lra]. destruct (Rlt_dec upper q1); [|lra]. destruct (Rlt_dec upper q2); [|lra]. right. right. right.
  destruct C as [C|(C1 & C2 & C3)]; [lra|]. assert (dt * v1 <= dt * (v0 - dt * a)) by (apply Rmult_le_compat_l; lra). assert (dt * v2 <= dt * 0) by (apply Rmult_le_compat_l; lra).
  assert (dt * v3 <= dt * (- (dt * a))) by (apply Rmult_le_compat_l; lra). lra.
Qed.

(** With periods that differ: the distance over the limit and the distance to stop. *)
Definition stoppable (longest a upper q v : R) : Prop := q <= upper \/ q - upper + Rmax v 0 * Rmax v 0 / (2 * a) <= 2 * a * longest * longest.
Lemma stoppable_step longest dt a upper q v q' v' : 0 < dt <= longest -> 0 < a -> stoppable longest a upper q v -> pushed dt a upper q v q' v' -> stoppable longest a upper q' v'.
Proof.
  intros (T & TL) A C (E & H). destruct (Rle_dec q' upper) as [L|L]; [now left|]. right. assert (P : 0 < dt * a) by now apply Rmult_lt_0_compat.
  assert (Div : forall x y, x <= 2 * a * y -> x / (2 * a) <= y) by (intros x y X; apply Rmult_le_reg_r with (2 * a); [lra|]; replace (x / (2 * a) * (2 * a)) with x by (field; lra); lra).
  destruct (Rlt_dec upper q) as [O|O].
  - destruct C as [C|C]; [lra|]. destruct (Rle_dec v' 0) as [N|N].
    + rewrite (Rmax_right v' 0) by exact N. assert (dt * v' <= dt * 0) by (apply Rmult_le_compat_l; lra). assert (0 <= Rmax v 0 * Rmax v 0 / (2 * a)).
      { apply Rmult_le_pos; [apply Rle_0_sqr|]. left. apply Rinv_0_lt_compat. lra. } replace (0 * 0 / (2 * a)) with 0 by (field; lra). lra.
    + rewrite (Rmax_left v' 0) by lra. rewrite (Rmax_left v 0) in C by lra. assert (K : (v' * v' - v * v) / (2 * a) <= - (dt * v')).
      { apply Div. assert ((v' + dt * a) * (v' + dt * a) <= v * v) by (apply Rmult_le_compat; lra). pose proof (Rle_0_sqr (dt * a)) as Q. unfold Rsqr in Q. lra. }
      replace (v' * v' / (2 * a)) with (v * v / (2 * a) + (v' * v' - v * v) / (2 * a)) by (field; lra). lra.
  - set (D := upper - q) in *. assert (D0 : 0 <= D) by (unfold D; lra). assert (X : D < dt * v') by (unfold D; lra).
    assert (V : 0 < v'). { apply Rnot_le_lt. intros N. assert (dt * v' <= dt * 0) by (apply Rmult_le_compat_l; lra). lra. }
    unfold braking_speed in H. assert (S : v' * v' <= 2 * D * a).
    { rewrite <- (sqrt_sqrt (2 * D * a)) by (apply Rmult_le_pos; lra). apply Rmult_le_compat; lra. }
    assert (W : v' <= 2 * (dt * a)). { apply Rmult_le_reg_l with v'; [exact V|]. assert (D * a <= dt * v' * a) by (apply Rmult_le_compat_r; lra). lra. }
    rewrite (Rmax_left v' 0) by lra. assert (v' * v' / (2 * a) <= D) by (apply Div; lra). assert (dt * v' <= dt * (2 * (dt * a))) by (apply Rmult_le_compat_l; lra).
    assert (dt * dt <= longest * longest) by (apply Rmult_le_compat; lra). assert (2 * a * (dt * dt) <= 2 * a * (longest * longest)) by (apply Rmult_le_compat_l; lra). unfold D in *. lra.
Qed.
Lemma stoppable_bound longest a upper q v : 0 < a -> stoppable longest a upper q v -> q <= upper + 2 * a * longest * longest.
Proof.
  intros A [H|H].
  - pose proof (Rle_0_sqr longest) as Q. unfold Rsqr in Q. assert (0 <= 2 * a * (longest * longest)) by (apply Rmult_le_pos; lra). lra.
  - assert (0 <= Rmax v 0 * Rmax v 0 / (2 * a)). { apply Rmult_le_pos; [apply Rle_0_sqr|]. left. apply Rinv_0_lt_compat. lra. } lra.
Qed.

(** ** The robot *)

Section Robot.
Context (pn : pin) (log3 : mat3 -> vec3) (jlog : mat3 -> mat3) (qr : mat -> qr_result) (qp : qp_problem -> qp_result) (dt : R) (d : nat) (safe : R).
Context (Qr : qr_correct qr) (Qp : qp_correct qp).
Notation position r := (vat (st_q (r_state r)) (S d)).
Notation speed r := (vat (st_qd (r_state r)) d).
Notation upper r := (vat (m_upper (r_model r)) (S d)).
Notation lower r := (vat (m_lower (r_model r)) (S d)).

Lemma moved_pushed r r' : 0 < dt -> joint_of_dof (r_model r) d -> integrates pn (r_model r) -> moved pn log3 jlog qr qp dt d safe r r' ->
  r_model r' = r_model r /\ pushed dt safe (upper r) (position r) (speed r) (position r') (speed r') /\
  pushed dt safe (- lower r) (- position r) (- speed r) (- position r') (- speed r').
Proof.
  intros T (Hd & j & Ij & Jq & Jv & Iv & Iq) Hi (s & s' & res & (Ds & Jl & Et & Es) & E & Hs). pose proof (dn_N _ _ _ _ _ Ds) as N.
  destruct (C68_limits pn log3 jlog qr qp s r true s' r' res Ds Qr Qp E Hs) as (W & _).
  destruct (C72_integrated pn log3 jlog qr qp s r s' r' res Ds ltac:(lia) Hi Qr Qp E Hs) as (_ & Em & _ & V & P). split; [exact Em|].
  specialize (P j Ij Jq Jv). rewrite Iq, Iv in P. destruct (V d ltac:(lia)) as (_ & V'). clear V.
  pose proof (wl_upper _ _ _ _ W Jl d ltac:(lia)) as U. pose proof (wl_lower _ _ _ _ W Jl d ltac:(lia)) as L. cbv zeta in U, L. rewrite <- Et in *. rewrite <- Es. unfold pushed. rewrite P, V'.
  split; (split; [ring|]).
  - destruct (Rlt_dec (upper r) (position r)); [|exact U]. assert (ds_dt s * vat (dr_qdd res) d <= ds_dt s * - safe_at s d) by (apply Rmult_le_compat_l; lra). lra.
  - destruct (Rlt_dec (- lower r) (- position r)); destruct (Rlt_dec (position r) (lower r)); try lra.
    + assert (ds_dt s * safe_at s d <= ds_dt s * vat (dr_qdd res) d) by (apply Rmult_le_compat_l; lra). lra.
    + replace (- lower r - - position r) with (position r - lower r) by ring. lra.
Qed.

Lemma still_or_moved r s i s' r' o : limited pn log3 jlog dt d safe s r -> dsolve pn log3 jlog qr qp s r i = (s', r', o) -> r' = r \/ moved pn log3 jlog qr qp dt d safe r r'.
Proof.
  intros Ls E. destruct (C72_failure pn log3 jlog qr qp s r i s' r' o (proj1 Ls) E) as (_ & F1 & F2 & F3). destruct i; [|left; auto]. destruct o as [res| |]; try (left; apply F2; discriminate).
  destruct (dr_success res) eqn:Hs; [|left; now apply (F1 res)]. right. exists s, s', res. auto.
Qed.

Lemma driven_contained r0 r : joint_of_dof (r_model r0) d -> integrates pn (r_model r0) -> 0 < dt -> 0 < safe -> lower r0 <= position r0 <= upper r0 -> driven pn log3 jlog qr qp dt d safe r0 r ->
  r_model r = r_model r0 /\ contained dt safe (upper r) (position r) (speed r) /\ contained dt safe (- lower r) (- position r) (- speed r).
Proof.
  intros Hj Hi T A B H. induction H as [|r s i s' r' o H (M & U & L) Ls E]; [split; [reflexivity|]; split; left; lra|].
  destruct (still_or_moved r s i s' r' o Ls E) as [->|K]; [auto|]. rewrite <- M in Hj, Hi. destruct (moved_pushed r r' T Hj Hi K) as (M' & PU & PL). rewrite M'. split; [exact M|].
  split; [apply (contained_step _ _ _ _ _ _ _ T A U PU)|apply (contained_step _ _ _ _ _ _ _ T A L PL)].
Qed.
End Robot.

Lemma upto_stoppable pn log3 jlog qr qp longest d safe r0 r : qr_correct qr -> qp_correct qp -> joint_of_dof (r_model r0) d -> integrates pn (r_model r0) -> 0 < safe ->
  vat (m_lower (r_model r0)) (S d) <= vat (st_q (r_state r0)) (S d) <= vat (m_upper (r_model r0)) (S d) -> driven_upto pn log3 jlog qr qp longest d safe r0 r ->
  r_model r = r_model r0 /\ stoppable longest safe (vat (m_upper (r_model r)) (S d)) (vat (st_q (r_state r)) (S d)) (vat (st_qd (r_state r)) d) /\
  stoppable longest safe (- vat (m_lower (r_model r)) (S d)) (- vat (st_q (r_state r)) (S d)) (- vat (st_qd (r_state r)) d).
Proof.
  intros Qr Qp Hj Hi A B H. induction H as [|r dt s i s' r' o H (M & U & L) T Ls E]; [split; [reflexivity|]; split; left; lra|].
  destruct (still_or_moved pn log3 jlog qr qp dt d safe r s i s' r' o Ls E) as [->|K]; [auto|]. rewrite <- M in Hj, Hi.
  destruct (moved_pushed pn log3 jlog qr qp dt d safe Qr Qp r r' (proj1 T) Hj Hi K) as (M' & PU & PL). rewrite M'. split; [exact M|].
  split; [apply (stoppable_step _ _ _ _ _ _ _ _ T A U PU)|apply (stoppable_step _ _ _ _ _ _ _ _ T A L PL)].
Qed.
