(** Theorems about a history of solves of DynamicsSolver with the joint limits enabled: C197. *)
From Coq Require Import Reals List ZArith Bool String Lra Lia.
From Verif Require Import Base Linalg Geom3 Expression_model Robot_model Robot_spec Problem_model Problem_spec Backends_proofs KinTasks_model Kin_model Kin_proofs6 DynTasks_model Dyn_model Dyn_spec Dyn_example Dyn_props
  DynHistory_spec DynHistory_proofs.
Import ListNotations.
Open Scope R_scope.

(** However many solves there are, a joint that was within its limits is never over them by more than qdd_safe dt^2. *)
Theorem C197_contained pn log3 jlog qr qp dt d safe r0 r : qr_correct qr -> qp_correct qp -> joint_of_dof (r_model r0) d -> integrates pn (r_model r0) -> 0 < dt -> 0 < safe ->
  let lower := vat (m_lower (r_model r0)) (S d) in let upper := vat (m_upper (r_model r0)) (S d) in
  lower <= vat (st_q (r_state r0)) (S d) <= upper -> driven pn log3 jlog qr qp dt d safe r0 r ->
  lower - safe * dt * dt <= vat (st_q (r_state r)) (S d) <= upper + safe * dt * dt.
Proof.
  intros Qr Qp Hj Hi T A lower upper B H. destruct (driven_contained pn log3 jlog qr qp dt d safe Qr Qp r0 r Hj Hi T A B H) as (M & U & L).
  apply contained_bound in U; [|exact T|exact A]. apply contained_bound in L; [|exact T|exact A]. rewrite M in U, L. unfold lower, upper. lra.
Qed.
Print Assumptions C197_contained.

(** If dt changes from a solve to the next, it is never over them by more than 2 qdd_safe dt^2, for the longest dt. *)
Theorem C197_any_period pn log3 jlog qr qp longest d safe r0 r : qr_correct qr -> qp_correct qp -> joint_of_dof (r_model r0) d -> integrates pn (r_model r0) -> 0 < safe ->
  let lower := vat (m_lower (r_model r0)) (S d) in let upper := vat (m_upper (r_model r0)) (S d) in
  lower <= vat (st_q (r_state r0)) (S d) <= upper -> driven_upto pn log3 jlog qr qp longest d safe r0 r ->
  lower - 2 * safe * longest * longest <= vat (st_q (r_state r)) (S d) <= upper + 2 * safe * longest * longest.
Proof.
  intros Qr Qp Hj Hi A lower upper B H. destruct (upto_stoppable pn log3 jlog qr qp longest d safe r0 r Qr Qp Hj Hi A B H) as (M & U & L).
  apply stoppable_bound in U; [|exact A]. apply stoppable_bound in L; [|exact A]. rewrite M in U, L. unfold lower, upper. lra.
Qed.
Print Assumptions C197_any_period.

(** A joint that is over a limit after such a history is back before it after at most three more solves that succeed and integrate. *)
Theorem C197_back pn log3 jlog qr qp dt d safe r0 r1 r2 r3 r4 : qr_correct qr -> qp_correct qp -> joint_of_dof (r_model r0) d -> integrates pn (r_model r0) -> 0 < dt -> 0 < safe ->
  let lower := vat (m_lower (r_model r0)) (S d) in let upper := vat (m_upper (r_model r0)) (S d) in let q r := vat (st_q (r_state r)) (S d) in
  lower <= q r0 <= upper -> driven pn log3 jlog qr qp dt d safe r0 r1 ->
  moved pn log3 jlog qr qp dt d safe r1 r2 -> moved pn log3 jlog qr qp dt d safe r2 r3 -> moved pn log3 jlog qr qp dt d safe r3 r4 ->
  (upper < q r1 -> q r2 <= upper \/ q r3 <= upper \/ q r4 <= upper) /\ (q r1 < lower -> lower <= q r2 \/ lower <= q r3 \/ lower <= q r4).
Proof.
  intros Qr Qp Hj Hi T A lower upper q B H S1 S2 S3. destruct (driven_contained pn log3 jlog qr qp dt d safe Qr Qp r0 r1 Hj Hi T A B H) as (M & U & L).
  rewrite <- M in Hj, Hi. destruct (moved_pushed pn log3 jlog qr qp dt d safe Qr Qp r1 r2 T Hj Hi S1) as (M1 & U1 & L1). rewrite <- M1 in Hj, Hi.
  destruct (moved_pushed pn log3 jlog qr qp dt d safe Qr Qp r2 r3 T Hj Hi S2) as (M2 & U2 & L2). rewrite <- M2 in Hj, Hi.
  destruct (moved_pushed pn log3 jlog qr qp dt d safe Qr Qp r3 r4 T Hj Hi S3) as (_ & U3 & L3). rewrite M2, M1 in U3, L3. rewrite M1 in U2, L2.
  pose proof (contained_back _ _ _ _ _ _ _ _ _ _ _ T A U U1 U2 U3) as KU. pose proof (contained_back _ _ _ _ _ _ _ _ _ _ _ T A L L1 L2 L3) as KL. rewrite M in KU, KL. fold upper in KU. fold lower in KL.
  split; intros O; unfold q in *.
  - destruct KU as [K|K]; [lra|exact K].
  - destruct KL as [K|[K|[K|K]]]; [lra|left|right; left|right; right]; lra.
Qed.
Print Assumptions C197_back.

(** The robot of C72 meets the hypotheses: its head, at 1/2 and of limits -1 and 2, is moved by a solve with dt = 0.1. *)
Example C197_example : joint_of_dof (r_model dex_robot) 6 /\ integrates dex_pin (r_model dex_robot) /\ qr_correct perfect_qr /\ qp_correct perfect_qp /\
  vat (m_lower (r_model dex_robot)) 7 <= vat (st_q (r_state dex_robot)) 7 <= vat (m_upper (r_model dex_robot)) 7 /\
  exists r, driven dex_pin dex_log dex_jlog perfect_qr perfect_qp (1 / 10) 6 1 dex_robot r /\ moved dex_pin dex_log dex_jlog perfect_qr perfect_qp (1 / 10) 6 1 dex_robot r /\
    driven_upto dex_pin dex_log dex_jlog perfect_qr perfect_qp (2 / 10) 6 1 dex_robot r /\ vat (st_qd (r_state r)) 6 = 11 / 100.
Proof.
  destruct C72_example as (Ds & Hi & _ & s' & r' & res & E & Hs & V). split.
  { split; [cbn; lia|]. eexists. split; [right; left; reflexivity|]. repeat split. }
  split; [exact Hi|]. split; [exact perfect_qr_correct|]. split; [exact perfect_qp_correct|]. split; [cbn; lra|].
  assert (L : limited dex_pin dex_log dex_jlog (1 / 10) 6 1 (dex true 1) dex_robot) by (split; [exact Ds|]; repeat split).
  exists r'. split; [apply (driven_solve _ _ _ _ _ _ _ _ _ dex_robot (dex true 1) true s' r' (Ok res)); [constructor|exact L|exact E]|].
  split; [exists (dex true 1), s', res; auto|]. split; [|exact V].
  apply (upto_solve _ _ _ _ _ _ _ _ _ dex_robot (1 / 10) (dex true 1) true s' r' (Ok res)); [constructor|lra|exact L|exact E].
Qed.

(** The constraints of a solve allow a joint to go over its limit and stay over it after the next solve: positions 3/8 then 7/8 for the limit 0, with dt = qdd_safe = 1. *)
Example C197_over_example : pushed 1 1 0 (- (9 / 8)) 0 (3 / 8) (3 / 2) /\ pushed 1 1 0 (3 / 8) (3 / 2) (7 / 8) (1 / 2) /\ contained 1 1 0 (7 / 8) (1 / 2).
Proof.
  split; [|split].
  - split; [lra|]. destruct (Rlt_dec 0 (- (9 / 8))); [lra|]. unfold braking_speed. replace (2 * (0 - - (9 / 8)) * 1) with (Rsqr (3 / 2)) by (unfold Rsqr; lra). rewrite sqrt_Rsqr; lra.
  - split; [lra|]. destruct (Rlt_dec 0 (3 / 8)); lra.
  - right. lra.
Qed.
