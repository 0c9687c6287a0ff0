(** A dynamics solver for which a solution exists: the hypotheses of the theorems about it can be met. *)
From Coq Require Import Reals List ZArith Bool String Lra Lia.
From Verif Require Import Base Linalg Geom3 Tools_model Geometry_model Expression_model Expression_spec Expression_proofs Problem_model Problem_spec
  Problem_proofs Problem_proofs2 Problem_proofs3 Problem_props Backends_proofs Polynom_model Robot_model Robot_spec Robot_props KinTasks_model Kin_model Kin_spec Kin_proofs
  Kin_proofs3 Kin_proofs6 DynTasks_model Dyn_model Dyn_spec Dyn_proofs Dyn_proofs2 Dyn_proofs3 Dyn_proofs4 Dyn_proofs5 Dyn_proofs6 Dyn_proofs7.
Import ListNotations.
Open Scope R_scope.

(** With back-ends that never fail. *)
Lemma perfect_dsolve pn log3 jlog s r : dready pn log3 jlog s r -> p_rewrite (ds_problem s) = true -> 0 < p_reg (ds_problem s) ->
  (forall M Js tau, mass_matrix pn r = Ok M -> contact_matrices pn log3 jlog s r Js -> independent_rows (unknowns (ds_N s) Js) (equality_coefficients pn log3 jlog s r M Js tau)) ->
  (forall M Js tau, mass_matrix pn r = Ok M -> contact_matrices pn log3 jlog s r Js -> exists x, dallowed pn log3 jlog s r M Js tau x) ->
  exists s' res, dr_success res = true /\ dsolve pn log3 jlog perfect_qr perfect_qp s r false = (s', r, Ok res).
Proof.
  intros Rd Hw Hr Hi Ha. destruct (dsolve_complete pn log3 jlog perfect_qr perfect_qp s r Rd perfect_qr_correct perfect_qp_correct Hw Hr Hi Ha) as [H|[H|H]].
  - exact H.
  - destruct (perfect_qr_never_fails H).
  - destruct (perfect_qp_never_fails H).
Qed.

(** The robot of C74: a base and a head, which is at 1/2, has the limits -1 and 2, and turns at the speed 1/10. Gravity pulls with the force 10. *)
Definition dex_bias : vec := Vec 7 (fun k => if Nat.eqb k 2 then 10 else 0).
Definition dex_pin : pin := Pin (pn_frame ex_pin3) (pn_jac ex_pin3) (pn_djac ex_pin3) (pn_integrate ex_pin3) (pn_difference ex_pin3)
  (pn_neutral ex_pin3) (pn_com ex_pin3) (pn_comjac ex_pin3) (pn_dcomjac ex_pin3) (pn_centroidal ex_pin3) (pn_crba ex_pin3)
  (fun _ => dex_bias) (fun _ _ => dex_bias) (pn_joint_jac ex_pin3) (pn_joint_djac ex_pin3).
Definition dex_speed : vec := Vec 7 (fun k => if Nat.eqb k 6 then 1 / 10 else 0).
Definition dex_robot : robot := Robot ex_model (State ex_q dex_speed (zeros 7)) (ex_q, dex_speed).
Definition dex_log (_ : mat3) : vec3 := v3_zero.
Definition dex_jlog (_ : mat3) : mat3 := m3_id.

(** The settings of a solver. *)
Definition dex_settings (s : dsolver) (dt : R) (limits vs : bool) (damping : R) (tasks : list dtask) (contacts : list contact) : dsolver :=
  DSolver (ds_N s) dt (ds_problem s) false limits limits vs limits damping (ds_gravity_only s) (ds_torque_cost s) (ds_extra s)
    (ds_qdd_safe s) (ds_overridden s) tasks contacts (ds_cons s).
Definition dex_base : dsolver := DSolver 7 0 (Problem 0 [] [] (1 / 100000000) false true (Vec 0 (fun _ => 0)) (Vec 0 (fun _ => 0)))
    false false false false false 0 false (1 / 1000) (Vec 0 (fun _ => 0)) [(6%nat, 1)] [] [] [] [].
Lemma dex_new : new_dsolver dex_robot = Ok dex_base.
Proof. reflexivity. Qed.

(** The head is asked to go to 8/10; the base stands on a planar contact. *)
Definition dex_task : dtask := DTask (DJoints [("head"%string, (8 / 10, 0, 0))]) PHard 1 1 (-1).
Definition dex_contact : contact := Contact (CPlanar 1 1 true 1 1) true 1 0 0 0 (Vec 0 (fun _ => 0)).
Definition dex (vs : bool) (damping : R) : dsolver := dex_settings dex_base (1 / 10) true vs damping [dex_task] [dex_contact].

Lemma dex_well_formed : well_formed_robot dex_robot.
Proof. destruct ex_well_formed as (H & _). split; [exact H|]. repeat split. Qed.

Lemma dex_task_update : exists e, dtask_update dex_pin dex_log dex_jlog 7 dex_robot dex_task = Ok e /\
  e = rows_equation 7 [((fun j => if Nat.eqb j 6 then 1 else 0), (1 * (8 / 10 - 1 / 2) + get_kd 1 (-1) * (0 - 1 / 10) + 0, 8 / 10 - 1 / 2, 0 - 1 / 10))].
Proof. eexists. split; reflexivity. Qed.
Lemma critical : get_kd 1 (-1) = 2.
Proof. unfold get_kd. destruct (Rlt_dec (-1) 0); [|lra]. rewrite sqrt_1. ring. Qed.

Lemma dex_sound vs d : dsound dex_pin dex_log dex_jlog (dex vs d) dex_robot.
Proof.
  constructor.
  - reflexivity.
  - exact dex_well_formed.
  - repeat split.
  - intros t e [[<-|[]] H]. destruct dex_task_update as (e' & H' & ->). cbn [ds_N dex dex_settings dex_base] in H. rewrite H' in H. injection H as <-. split; reflexivity.
  - intros c f k w [<-|[]] _ H. discriminate H.
  - intros c tau cs c' [].
  - constructor.
Qed.

Lemma dex_ready vs d : dready dex_pin dex_log dex_jlog (dex vs d) dex_robot.
Proof.
  constructor.
  - apply dex_sound.
  - cbn; lia.
  - left. reflexivity.
  - intros _. cbn. lra.
  - intros k x [].
  - cbn. lra.
  - intros t [<-|[]]. destruct dex_task_update as (e' & H' & _). split; [eexists; exact H'|]. split; discriminate.
  - intros c [<-|[]] _. cbn. repeat split; try reflexivity; lra.
  - intros c tau [].
Qed.

Lemma dex_matrices vs d Js : contact_matrices dex_pin dex_log dex_jlog (dex vs d) dex_robot Js -> exists J, Js = [Some J] /\ mrows J = 6%nat /\
  forall i k, (i < 6)%nat -> (k < 7)%nat -> mat_at J i k = if Nat.eqb i k then 1 else 0.
Proof.
  intros H. inversion H as [|c J l Js' Hc F E1 E2]; subst. inversion F; subst. destruct J as [J|]; [|discriminate]. destruct Hc as (_ & _ & Hr & Hj).
  exists J. split; [reflexivity|]. split; [exact Hr|]. intros i k Hi Hk. rewrite Hj by assumption. destruct (Nat.ltb i 3); reflexivity.
Qed.

Definition dex_M : mat := Mat 7 7 (fun i j => if Nat.eqb i j then (if Nat.eqb i 6 then 12 else 2) else 1).
Lemma dex_mass M : mass_matrix dex_pin dex_robot = Ok M -> mrows M = 7%nat /\ mcols M = 7%nat /\ forall i j, (i < 7)%nat -> (j < 7)%nat -> mat_at M i j = mat_at dex_M i j.
Proof.
  intros H. injection H as <-. split; [reflexivity|]. split; [reflexivity|]. intros i j Hi Hj.
  do 7 (destruct i as [|i]; [do 7 (destruct j as [|j]; [cbn; lra|]); lia|]). lia.
Qed.

(** The torques of the example. *)
Lemma dex_torques vs d M J x k : mass_matrix dex_pin dex_robot = Ok M -> mrows J = 6%nat ->
  (forall i k, (i < 6)%nat -> (k < 7)%nat -> mat_at J i k = if Nat.eqb i k then 1 else 0) -> (k < 7)%nat ->
  torques_of dex_pin (dex vs d) dex_robot M [Some J] x k =
    (x 0%nat + x 1%nat + x 2%nat + x 3%nat + x 4%nat + x 5%nat + x 6%nat + (if Nat.eqb k 6 then 11 else 1) * x k) + d * vat dex_speed k + vat dex_bias k -
    (if Nat.ltb k 6 then x (7 + k)%nat else 0).
Proof.
  intros HM Hr HJ Hk. destruct (dex_mass M HM) as (_ & _ & Hm). unfold torques_of. cbn [contacts_effort ds_N dex dex_settings dex_base]. unfold effort_of, damping_of, bias_of. rewrite Hr.
  rewrite (Rsum_ext 7 _ (fun j => mat_at dex_M k j * x j)) by (intros j Hj; rewrite Hm by (try exact Hk; exact Hj); reflexivity).
  rewrite (Rsum_ext 6 _ (fun a => (if Nat.eqb a k then 1 else 0) * x (7 + a)%nat)) by (intros a Ha; rewrite HJ by (try exact Hk; exact Ha); reflexivity).
  cbn [ds_damping ds_gravity_only ds_extra vlen dex dex_settings dex_base].
  do 7 (destruct k as [|k]; [cbn; ring|]). lia.
Qed.

Lemma dex_unknowns J : mrows J = 6%nat -> unknowns 7 [Some J] = 13%nat.
Proof. intros H. unfold unknowns. cbn [List.length place]. rewrite H. reflexivity. Qed.

Lemma dex_independent vs d M Js tau : mass_matrix dex_pin dex_robot = Ok M -> contact_matrices dex_pin dex_log dex_jlog (dex vs d) dex_robot Js ->
  independent_rows (unknowns (ds_N (dex vs d)) Js) (equality_coefficients dex_pin dex_log dex_jlog (dex vs d) dex_robot M Js tau).
Proof.
  intros HM HJs. destruct (dex_matrices vs d Js HJs) as (J & -> & Hr & HJ). change (ds_N (dex vs d)) with 7%nat. rewrite dex_unknowns by exact Hr.
  unfold equality_coefficients. cbn [ds_masked_fbase dex dex_settings ds_contacts ds_N ds_tasks ds_cons dex_base map wrench_equalities app flat_map].
  unfold task_equalities. destruct dex_task_update as (e & Ee & He). cbn [dt_priority dex_task]. fold dex_task. cbn [ds_N dex dex_settings dex_base].
  rewrite Ee. subst e. cbn [co_kind dex_contact app map seq de_A rows_equation mrows List.length].
  intros mu H. cbn [List.length] in *.
  assert (C : forall k j, (k < 6)%nat -> (j < 13)%nat -> coefficients (fun x => torques_of dex_pin (dex vs d) dex_robot M [Some J] x k) j =
    (if Nat.ltb j 7 then 1 + (if Nat.eqb j k then 1 else 0) else if Nat.eqb j (7 + k) then -1 else 0)).
  { intros k j Hk Hj. unfold coefficients. rewrite !(dex_torques vs d M J _ k HM Hr HJ) by lia. unfold unit_row.
    do 6 (destruct k as [|k]; [do 13 (destruct j as [|j]; [cbn; ring|]); lia|]). lia. }
  assert (T : forall j, (7 <= j < 13)%nat -> coefficients (fun x => dresidual dex_task
      (rows_equation 7 [((fun j : nat => if Nat.eqb j 6 then 1 else 0), (1 * (8 / 10 - 1 / 2) + get_kd 1 (-1) * (0 - 1 / 10) + 0, 8 / 10 - 1 / 2, 0 - 1 / 10))])
      x (torques_of dex_pin (dex vs d) dex_robot M [Some J] x) 0) j = 0).
  { intros j Hj. unfold coefficients, dresidual, unit_row. cbn. do 7 (destruct j as [|j]; [lia|]). cbn. ring. }
  assert (T6 : coefficients (fun x => dresidual dex_task
      (rows_equation 7 [((fun j : nat => if Nat.eqb j 6 then 1 else 0), (1 * (8 / 10 - 1 / 2) + get_kd 1 (-1) * (0 - 1 / 10) + 0, 8 / 10 - 1 / 2, 0 - 1 / 10))])
      x (torques_of dex_pin (dex vs d) dex_robot M [Some J] x) 0) 6 = 1).
  { unfold coefficients, dresidual, unit_row. cbn. ring. }
  assert (Z : forall k, (k < 6)%nat -> mu (S k) = 0).
  { intros k Hk. specialize (H (7 + k)%nat ltac:(lia)). cbn [Rsum nth] in H. rewrite !C in H by lia. rewrite T in H by lia.
    do 6 (destruct k as [|k]; [cbn in H |- *; lra|]). lia. }
  assert (Z0 : mu 0%nat = 0).
  { specialize (H 6%nat ltac:(lia)). cbn [Rsum nth] in H. rewrite T6 in H.
    rewrite (Z 0%nat), (Z 1%nat), (Z 2%nat), (Z 3%nat), (Z 4%nat), (Z 5%nat) in H by lia. lra. }
  intros [|k] Hk; [exact Z0|]. apply Z. lia.
Qed.

(** The head accelerates with 1/10, and the contact holds the robot. *)
Definition dex_x (k : nat) : R := nth k [0; 0; 0; 0; 0; 0; 1 / 10; 1 / 10; 1 / 10; 101 / 10; 1 / 10; 1 / 10; 1 / 10] 0.
Lemma dex_allowed vs d M Js tau : 0 <= d <= 1 -> mass_matrix dex_pin dex_robot = Ok M -> contact_matrices dex_pin dex_log dex_jlog (dex vs d) dex_robot Js ->
  dallowed dex_pin dex_log dex_jlog (dex vs d) dex_robot M Js tau dex_x.
Proof.
  intros Hd HM HJs. destruct (dex_matrices vs d Js HJs) as (J & -> & Hr & HJ). constructor.
  - discriminate.
  - intros _ j Hj. rewrite (dex_torques vs d M J _ j HM Hr HJ) by lia. do 6 (destruct j as [|j]; [cbn; lra|]). lia.
  - intros [|[|i]] c J' Hc HJ'; try discriminate. injection Hc as <-. unfold contact_valid, wrench_in. cbn [co_kind dex_contact place ds_N dex dex_settings dex_base co_mu].
    unfold friction_ok, dex_x. cbn [nth Nat.add]. unfold Rabs. destruct (Rcase_abs (1 / 10)); lra.
  - assert (T6 : torques_of dex_pin (dex vs d) dex_robot M [Some J] dex_x 6 = 12 / 10 + d / 10).
    { rewrite (dex_torques vs d M J _ 6 HM Hr HJ) by lia. cbn. lra. }
    assert (S3 : 1 <= sqrt 3) by (rewrite <- sqrt_1 at 1; apply sqrt_le_1_alt; lra).
    constructor.
    + intros _ k Hk. assert (k = 6%nat) by (cbn in Hk; lia). subst k. rewrite T6. cbn. apply Rabs_le. lra.
    + intros _ _ k Hk. assert (k = 6%nat) by (cbn in Hk; lia). subst k. cbn. apply Rabs_le. lra.
    + intros _ k Hk. assert (k = 6%nat) by (cbn in Hk; lia). subst k. cbv zeta. rewrite T6. cbn. apply Rabs_le. lra.
    + intros _ k Hk. assert (k = 6%nat) by (cbn in Hk; lia). subst k. cbn. destruct (Rlt_dec 2 (1 / 2)); [lra|]. unfold braking_speed. replace (2 * (2 - 1 / 2) * 1) with 3 by lra. lra.
    + intros _ k Hk. assert (k = 6%nat) by (cbn in Hk; lia). subst k. cbn. destruct (Rlt_dec (1 / 2) (-1)); [lra|]. unfold braking_speed.
      match goal with |- context [sqrt ?a] => pose proof (sqrt_pos a) end. lra.
  - intros t e [[<-|[]] H] _ k Hk. destruct dex_task_update as (e' & H' & E). cbn [ds_N dex dex_settings dex_base] in H. rewrite H' in H. injection H as <-. subst e'.
    cbn in Hk. assert (k = 0%nat) by lia. subst k. unfold dresidual. cbn. rewrite critical. lra.
  - intros c cs [].
Qed.

Lemma dex_solved vs d : 0 <= d <= 1 -> exists s' res, dr_success res = true /\
  dsolve dex_pin dex_log dex_jlog perfect_qr perfect_qp (dex vs d) dex_robot false = (s', dex_robot, Ok res).
Proof.
  intros Hd. apply perfect_dsolve; [apply dex_ready|reflexivity|cbn; lra|apply dex_independent|]. intros M Js tau HM HJ. exists dex_x. now apply dex_allowed.
Qed.
