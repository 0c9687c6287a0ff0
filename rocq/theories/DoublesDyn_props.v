(** Theorems about the velocity limit of a joint in DynamicsSolver with doubles: C196. *)
From Coq Require Import Reals ZArith List Bool Lia Lra.
From Flocq Require Import Core.
From Verif Require Import Base Doubles_model Doubles_spec Doubles_proofs DoublesClip_props DoublesLimits_model DoublesLimits_spec DoublesLimits_proofs DoublesIntegrate_model DoublesDyn_model DoublesDyn_spec DoublesDyn_proofs.
Import ListNotations.
Open Scope R_scope.

(** However many solves are integrated, the speed of the joint exceeds its limit by at most 2^-50 of it and six times the tolerance of the back-end. *)
Theorem C196_history_partial limit tolerance q v s : is_double limit -> is_double v -> Rabs v <= limit -> 0 <= tolerance -> solves limit tolerance (DJState q (Some v) None) s ->
  exists w, dqd s = Some w /\ Rabs w <= limit * (1 + / 2 ^ 50) + 6 * tolerance.
Proof.
  intros L V H T S. pose proof (Rabs_pos v). apply Rabs_le_inv in H. destruct (solves_moves limit tolerance q v s L V ltac:(lra) T S) as (w & E & M). exists w. split; [exact E|].
  apply (moves_between false 0 (DJoint (- limit) limit 0) (2 * tolerance)) in M.
  - destruct M as (M1 & M2). cbn [dj_lower dj_upper] in *. apply Rabs_le. lra.
  - split; [now apply is_double_opp|]. split; [exact L|]. cbn [dj_lower dj_upper]. lra.
  - exact V.
  - lra.
  - unfold between. cbn [dj_lower dj_upper]. lra.
Qed.
Print Assumptions C196_history_partial.

(** Whatever the speed, even over the limit, the velocity limits of the joint can be satisfied in the next solve, without tolerance, if dt is not 0. *)
Theorem C196_satisfiable limit v dt : is_double limit -> is_double v -> is_double dt -> 0 <= limit -> dt <> 0 ->
  exists rows qdd, d_velocity_constraints dt limit v = Ok rows /\ satisfies 0 rows qdd.
Proof.
  intros L V D P N. destruct (d_velocity_constraints dt limit v) as [rows| |] eqn:E; try (unfold d_velocity_constraints in E; destruct (Req_EM_T dt 0); [contradiction|discriminate E]).
  exists rows, (d_sub limit v / dt). split; [reflexivity|]. destruct (velocity_satisfies dt limit v rows 0 (d_sub limit v / dt) D L V E) as (_ & X). apply X.
  replace (dt * (d_sub limit v / dt)) with (d_sub limit v) by (field; exact N). split; [|lra].
  assert (A : d_sub (- limit) v <= d_sub limit v) by (apply double_le; lra). assert (B : d_sub (- limit) v = - d_sub v (- limit)) by (unfold d_sub; rewrite <- double_opp; f_equal; ring). lra.
Qed.
Print Assumptions C196_satisfiable.

(** A joint of speed -0.41 with a limit of 1.6, accelerated to its limit in one solve with dt = 0.125, has a speed over 1.6. *)
Definition ex_limit : R := 7205759403792794 / 2 ^ 52.
Definition ex_speed : R := - (7385903388887613 / 2 ^ 54).
Lemma ex_values : double (16 / 10) = ex_limit /\ double (- (41 / 100)) = ex_speed /\ d_sub ex_limit ex_speed = 4526117625507349 / 2 ^ 51 /\ d_add ex_speed (4526117625507349 / 2 ^ 51) = 7205759403792795 / 2 ^ 52.
Proof.
  split; [unfold ex_limit; at_double 52%nat 7205759403792794%Z; reflexivity|]. split; [unfold ex_speed; rewrite double_opp; f_equal; at_double 54%nat 7385903388887613%Z; reflexivity|].
  split; [unfold d_sub, ex_limit, ex_speed; at_double 51%nat 4526117625507349%Z; reflexivity|]. unfold d_add, ex_speed. at_double 52%nat 7205759403792795%Z. reflexivity.
Qed.
Lemma ex_doubles : is_double ex_limit /\ is_double ex_speed /\ is_double (/ 8).
Proof.
  destruct ex_values as (A & B & _). split; [rewrite <- A; apply double_is|]. split; [rewrite <- B; apply double_is|].
  exists 1%Z, (-3)%Z. split; [|split; lia]. change (-3)%Z with (- Z.of_nat 3)%Z. rewrite <- bpow_power, bpow_inv. lra.
Qed.
Lemma ex_solves q tol : 0 <= tol -> exists s, solves ex_limit tol (DJState q (Some ex_speed) None) s /\ dqd s = Some (7205759403792795 / 2 ^ 52).
Proof.
  intros T. destruct ex_values as (_ & _ & E3 & E4). destruct ex_doubles as (L & V & D). set (x := 4526117625507349 / 2 ^ 51) in *.
  destruct (d_velocity_constraints (/ 8) ex_limit ex_speed) as [rows| |] eqn:E; try (unfold d_velocity_constraints in E; destruct (Req_EM_T (/ 8) 0); [lra|discriminate E]).
  exists (d_solved (/ 8) (8 * x) (DJState q (Some ex_speed) None)). split.
  - apply (solves_one _ _ _ (DJState q (Some ex_speed) None) ex_speed (/ 8) rows); [constructor|reflexivity|exact E|exact D|]. destruct (velocity_satisfies (/ 8) ex_limit ex_speed rows tol (8 * x) D L V E) as (_ & X). apply X. clear X.
    replace (/ 8 * (8 * x)) with x by field. rewrite E3. split; [|lra]. assert (0 <= d_sub ex_speed (- ex_limit)) by (apply double_pos; unfold ex_speed, ex_limit; lra). unfold x. lra.
  - unfold d_solved, d_integrate. cbn [dq dqd dqdd]. f_equal. rewrite <- E4. f_equal. unfold d_mul. replace (/ 8 * (8 * x)) with x by field. rewrite <- E3. apply double_id, double_is.
Qed.

Theorem C196_refuted : ~ (forall limit q v s, is_double limit -> is_double v -> Rabs v <= limit -> solves limit 0 (DJState q (Some v) None) s -> exists w, dqd s = Some w /\ Rabs w <= limit).
Proof.
  intros H. destruct (ex_solves 0 0 (Rle_refl 0)) as (s & S & E). destruct ex_doubles as (L & V & _).
  destruct (H ex_limit 0 ex_speed s L V ltac:(unfold ex_limit, ex_speed; rewrite Rabs_Ropp, Rabs_right; lra) S) as (w & E' & W). rewrite E in E'. injection E' as <-.
  unfold ex_limit in W. rewrite Rabs_right in W by lra. lra.
Qed.
Print Assumptions C196_refuted.

(** This joint meets the hypotheses of C196_history_partial and C196_satisfiable. *)
Example C196_example : is_double ex_limit /\ is_double ex_speed /\ is_double (/ 8) /\ Rabs ex_speed <= ex_limit /\ 0 <= ex_limit /\ / 8 <> 0 /\
  exists s, solves ex_limit (/ 1000) (DJState 0 (Some ex_speed) None) s /\ dqd s <> Some ex_speed.
Proof.
  destruct ex_doubles as (L & V & D). split; [exact L|]. split; [exact V|]. split; [exact D|]. split; [unfold ex_limit, ex_speed; rewrite Rabs_Ropp, Rabs_right; lra|].
  split; [unfold ex_limit; lra|]. split; [lra|]. destruct (ex_solves 0 (/ 1000) ltac:(lra)) as (s & S & E). exists s. split; [exact S|]. rewrite E. intros [= X]. unfold ex_speed in X. lra.
Qed.
