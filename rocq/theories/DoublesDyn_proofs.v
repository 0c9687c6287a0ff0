(** Proofs about the velocity limit of a joint in DynamicsSolver with doubles. *)
From Coq Require Import Reals ZArith List Bool Lia Lra.
From Flocq Require Import Core.
From Verif Require Import Base Doubles_model Doubles_spec Doubles_proofs DoublesSwing_proofs DoublesLimits_model DoublesLimits_spec DoublesLimits_proofs DoublesIntegrate_model DoublesDyn_model DoublesDyn_spec.
Import ListNotations.
Open Scope R_scope.

Lemma row_through a b : is_double a -> is_double b -> d_row_opp (d_row_sub (a, b) (0, 0)) = (- a, - b).
Proof.
  intros A B. unfold d_row_opp, d_row_sub, d_row_add, d_row_mul. cbn [fst snd]. assert (d_mul 0 (-1) = 0) as -> by (unfold d_mul; rewrite Rmult_0_l; apply double_0).
  unfold d_add. rewrite !Rplus_0_r, !double_id by assumption. now rewrite !mul_opp.
Qed.

Lemma velocity_satisfies dt limit v rows tol x : is_double dt -> is_double limit -> is_double v -> d_velocity_constraints dt limit v = Ok rows ->
  dt <> 0 /\ (satisfies tol rows x <-> - d_sub v (- limit) - tol <= dt * x <= d_sub limit v + tol).
Proof.
  intros D L V. unfold d_velocity_constraints. destruct (Req_EM_T dt 0) as [|N]; [discriminate|]. intros [= <-]. split; [exact N|]. unfold d_velocity_rows. cbn [map].
  unfold d_row_le. rewrite !row_through by (try apply double_is; try apply is_double_opp; exact D).
  assert (E1 : - d_add (- limit) v = d_sub limit v) by (unfold d_add, d_sub; rewrite <- double_opp; f_equal; ring).
  assert (E2 : - d_sub (- limit) v = d_sub v (- limit)) by (unfold d_sub; rewrite <- double_opp; f_equal; ring). rewrite E1, E2. unfold satisfies. split.
  - intros H. pose proof (Forall_inv H) as H1. pose proof (Forall_inv (Forall_inv_tail H)) as H2. cbn [fst snd] in *. lra.
  - intros H. apply Forall_cons; [cbn [fst snd]; lra|]. apply Forall_cons; [cbn [fst snd]; lra|apply Forall_nil].
Qed.

Lemma round_near s x tol : is_double s -> 0 <= tol -> x <= s + tol -> double x <= s + 2 * tol.
Proof.
  intros D T H. apply Rle_trans with (double (s + tol)); [now apply double_le|]. pose proof (double_nearest (s + tol) s D) as E. replace (s - (s + tol)) with (- tol) in E by ring.
  rewrite Rabs_Ropp, (Rabs_right tol) in E by lra. apply Rabs_le_inv in E. lra.
Qed.

(** The speed moves as a joint between its limits does (C193), with twice the tolerance. *)
Lemma solves_moves limit tol q v s : is_double limit -> is_double v -> 0 <= limit -> 0 <= tol -> solves limit tol (DJState q (Some v) None) s ->
  exists w, dqd s = Some w /\ moves true false 0 (DJoint (- limit) limit 0) (2 * tol) v w.
Proof.
  intros L V P T H. induction H as [|s w dt rows qdd H IH E C D S]; [exists v; split; [reflexivity|constructor]|].
  destruct IH as (w' & E' & M). rewrite E in E'. injection E' as <-. pose proof (moves_double _ _ _ _ _ _ _ V M) as W.
  destruct (velocity_satisfies dt limit w rows tol qdd D L W C) as (_ & X). apply X in S. clear X.
  unfold d_solved, d_integrate. cbn [dq dqd dqdd]. rewrite E. eexists. split; [reflexivity|].
  set (j := DJoint (- limit) limit 0). destruct (d_limits true false 0 j w) as [r| |] eqn:R; try discriminate R.
  apply (moves_solve _ _ _ _ _ _ w r); [exact M|exact R|apply double_is|].
  apply (satisfies_iff _ _ _ _ _ _ _ _ W (L : is_double (dj_upper j)) (is_double_opp _ L : is_double (dj_lower j)) R). split; [intros _|discriminate]. cbn [j dj_lower dj_upper].
  pose proof (round_near (d_sub limit w) (dt * qdd) tol (double_is _) T ltac:(lra)) as U. pose proof (round_near (d_sub w (- limit)) (- (dt * qdd)) tol (double_is _) T ltac:(lra)) as K.
  rewrite double_opp in K. unfold d_mul. lra.
Qed.
