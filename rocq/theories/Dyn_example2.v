(** The example of Dyn_example, with other tasks and other kinematics. *)
From Coq Require Import Reals List ZArith Bool String Lra Lia Sorted.
From Verif Require Import Base Linalg Geom3 Tools_model Geometry_model Expression_model Expression_spec Expression_proofs Problem_model Problem_spec
  Problem_proofs Problem_proofs2 Problem_proofs3 Backends_proofs Polynom_model Robot_model Robot_spec Robot_props KinTasks_model Kin_model Kin_spec Kin_proofs
  Kin_proofs3 Kin_proofs6 Kin_proofs7 DynTasks_model Dyn_model Dyn_spec Dyn_proofs Dyn_proofs2 Dyn_proofs3 Dyn_proofs4 Dyn_proofs5 Dyn_proofs6 Dyn_proofs7 Dyn_proofs8 Dyn_example.
Import ListNotations.
Open Scope R_scope.

Section OtherTask.
(** The kinematics: the placements, the Jacobians of the frames other than 1, and the center of mass. *)
Variable frames : vec -> nat -> frame.
Variable jac : vec -> nat -> ref -> mat.
Variable djac : vec -> vec -> nat -> ref -> mat.
Variable com : vec -> vec3.
Variable comjac : vec -> mat.
Variable dcomjac : vec -> vec -> mat.
Definition gpin : pin := Pin frames (fun q f k => if Nat.eqb f 1 then pn_jac dex_pin q f k else jac q f k) djac (pn_integrate dex_pin) (pn_difference dex_pin)
  (pn_neutral dex_pin) com comjac dcomjac (pn_centroidal dex_pin) (pn_crba dex_pin)
  (fun _ => dex_bias) (fun _ _ => dex_bias) (pn_joint_jac dex_pin) (pn_joint_djac dex_pin).

Variable t : dtask.
Variable e : dyn_equation.
Definition gex (vs : bool) (damping : R) : dsolver := dex_settings dex_base (1 / 10) true vs damping [t] [dex_contact].

Hypothesis Hu : dtask_update gpin dex_log dex_jlog 7 dex_robot t = Ok e.
Hypothesis Hs : dshaped 7 e.
Hypothesis Hr1 : mrows (de_A e) = 1%nat.
Hypothesis Hp : dt_priority t = PHard.

Lemma gex_sound vs d : dsound gpin dex_log dex_jlog (gex vs d) dex_robot.
Proof.
  constructor.
  - reflexivity.
  - exact dex_well_formed.
  - repeat split.
  - intros t' e' [[<-|[]] H]. cbn [ds_N gex dex_settings dex_base] in H. rewrite Hu in H. injection H as <-. exact Hs.
  - intros c f k w [<-|[]] _ H. discriminate H.
  - intros c tau cs c' [].
  - constructor.
Qed.

Lemma gex_ready vs d : dready gpin dex_log dex_jlog (gex vs d) dex_robot.
Proof.
  constructor.
  - apply gex_sound.
  - cbn; lia.
  - left. reflexivity.
  - intros _. cbn. lra.
  - intros k x [].
  - cbn. lra.
  - intros t' [<-|[]]. split; [exists e; exact Hu|]. rewrite Hp. split; discriminate.
  - intros c [<-|[]] _. cbn. repeat split; try reflexivity; lra.
  - intros c tau [].
Qed.

Lemma gex_matrices vs d Js : contact_matrices gpin dex_log dex_jlog (gex vs d) dex_robot Js -> exists J, Js = [Some J] /\ mrows J = 6%nat /\
  forall i k, (i < 6)%nat -> (k < 7)%nat -> mat_at J i k = if Nat.eqb i k then 1 else 0.
Proof.
  intros H. inversion H as [|c J l Js' Hc F E1 E2]; subst. inversion F; subst. destruct J as [J|]; [|discriminate]. destruct Hc as (_ & _ & Hr & Hj).
  exists J. split; [reflexivity|]. split; [exact Hr|]. intros i k Hi Hk. rewrite Hj by assumption. destruct (Nat.ltb i 3); reflexivity.
Qed.

Definition gtorque (d : R) (x : nat -> R) (k : nat) : R :=
  (x 0%nat + x 1%nat + x 2%nat + x 3%nat + x 4%nat + x 5%nat + x 6%nat + (if Nat.eqb k 6 then 11 else 1) * x k) + d * vat dex_speed k + vat dex_bias k -
    (if Nat.ltb k 6 then x (7 + k)%nat else 0).
Lemma gex_torques vs d M J x k : mass_matrix gpin dex_robot = Ok M -> mrows J = 6%nat ->
  (forall i k, (i < 6)%nat -> (k < 7)%nat -> mat_at J i k = if Nat.eqb i k then 1 else 0) -> (k < 7)%nat ->
  torques_of gpin (gex vs d) dex_robot M [Some J] x k = gtorque d x k.
Proof.
  intros HM Hr HJ Hk. destruct (dex_mass M HM) as (_ & _ & Hm). unfold torques_of. cbn [contacts_effort ds_N gex dex_settings dex_base]. unfold effort_of, damping_of, bias_of, gtorque. rewrite Hr.
  rewrite (Rsum_ext 7 _ (fun j => mat_at dex_M k j * x j)) by (intros j Hj; rewrite Hm by (try exact Hk; exact Hj); reflexivity).
  rewrite (Rsum_ext 6 _ (fun a => (if Nat.eqb a k then 1 else 0) * x (7 + a)%nat)) by (intros a Ha; rewrite HJ by (try exact Hk; exact Ha); reflexivity).
  cbn [ds_damping ds_gravity_only ds_extra vlen gex dex_settings dex_base].
  do 7 (destruct k as [|k]; [cbn; ring|]). lia.
Qed.

(** The equation of the task: it does not depend on the wrench, it depends on the acceleration of the head, and dex_x is a solution. *)
Variable vs : bool.
Variable d : R.
Hypothesis Hd : 0 <= d <= 1.
Hypothesis Hrow : forall tau : (nat -> R) -> nat -> R, (forall x k, (k < 7)%nat -> tau x k = gtorque d x k) ->
  (forall j, (7 <= j < 13)%nat -> coefficients (fun x => dresidual t e x (tau x) 0) j = 0) /\ coefficients (fun x => dresidual t e x (tau x) 0) 6 <> 0 /\
  dresidual t e dex_x (tau dex_x) 0 = 0.

Lemma gex_independent M Js tau : mass_matrix gpin dex_robot = Ok M -> contact_matrices gpin dex_log dex_jlog (gex vs d) dex_robot Js ->
  independent_rows (unknowns (ds_N (gex vs d)) Js) (equality_coefficients gpin dex_log dex_jlog (gex vs d) dex_robot M Js tau).
Proof.
  intros HM HJs. destruct (gex_matrices vs d Js HJs) as (J & -> & Hr & HJ). change (ds_N (gex vs d)) with 7%nat. rewrite dex_unknowns by exact Hr.
  unfold equality_coefficients. cbn [ds_masked_fbase gex dex_settings ds_contacts ds_N ds_tasks ds_cons dex_base map wrench_equalities app flat_map].
  unfold task_equalities. rewrite Hp. cbn [ds_N gex dex_settings dex_base]. fold (gex vs d).
  rewrite Hu, Hr1. cbn [co_kind dex_contact app map seq List.length].
  intros mu H. cbn [List.length] in *.
  assert (C : forall k j, (k < 6)%nat -> (j < 13)%nat -> coefficients (fun x => torques_of gpin (gex vs d) dex_robot M [Some J] x k) j =
    (if Nat.ltb j 7 then 1 + (if Nat.eqb j k then 1 else 0) else if Nat.eqb j (7 + k) then -1 else 0)).
  { intros k j Hk Hj. unfold coefficients. rewrite !(gex_torques vs d M J _ k HM Hr HJ) by lia. unfold unit_row, gtorque.
    do 6 (destruct k as [|k]; [do 13 (destruct j as [|j]; [cbn; ring|]); lia|]). lia. }
  destruct (Hrow (torques_of gpin (gex vs d) dex_robot M [Some J])) as (T & T6 & _); [intros x k Hk; now apply gex_torques|].
  assert (Z : forall k, (k < 6)%nat -> mu (S k) = 0).
  { intros k Hk. specialize (H (7 + k)%nat ltac:(lia)). cbn [Rsum nth] in H. rewrite !C in H by lia. rewrite T in H by lia.
    do 6 (destruct k as [|k]; [cbn in H |- *; lra|]). lia. }
  assert (Z0 : mu 0%nat = 0).
  { specialize (H 6%nat ltac:(lia)). cbn [Rsum nth] in H. 
    rewrite (Z 0%nat), (Z 1%nat), (Z 2%nat), (Z 3%nat), (Z 4%nat), (Z 5%nat) in H by lia.
    match type of H with context [mu 0%nat * ?c] => assert (E : mu 0%nat * c = 0) by lra; destruct (Rmult_integral _ _ E) as [|X]; [assumption|contradiction] end. }
  intros [|k] Hk; [exact Z0|]. apply Z. lia.
Qed.

Lemma gex_allowed M Js tau : mass_matrix gpin dex_robot = Ok M -> contact_matrices gpin dex_log dex_jlog (gex vs d) dex_robot Js ->
  dallowed gpin dex_log dex_jlog (gex vs d) dex_robot M Js tau dex_x.
Proof.
  intros HM HJs. destruct (gex_matrices vs d Js HJs) as (J & -> & Hr & HJ). constructor.
  - discriminate.
  - intros _ j Hj. rewrite (gex_torques vs d M J _ j HM Hr HJ) by lia. unfold gtorque. do 6 (destruct j as [|j]; [cbn; lra|]). lia.
  - intros [|[|i]] c J' Hc HJ'; try discriminate. injection Hc as <-. unfold contact_valid, wrench_in. cbn [co_kind dex_contact place ds_N gex dex_settings dex_base co_mu].
    unfold friction_ok, dex_x. cbn [nth Nat.add]. unfold Rabs. destruct (Rcase_abs (1 / 10)); lra.
  - assert (T6 : torques_of gpin (gex vs d) dex_robot M [Some J] dex_x 6 = 12 / 10 + d / 10).
    { rewrite (gex_torques vs d M J _ 6 HM Hr HJ) by lia. unfold gtorque. cbn. lra. }
    assert (S3 : 1 <= sqrt 3) by (rewrite <- sqrt_1 at 1; apply sqrt_le_1_alt; lra).
    constructor.
    + intros _ k Hk. assert (k = 6%nat) by (cbn in Hk; lia). subst k. rewrite T6. cbn. apply Rabs_le. lra.
    + intros _ _ k Hk. assert (k = 6%nat) by (cbn in Hk; lia). subst k. cbn. apply Rabs_le. lra.
    + intros _ k Hk. assert (k = 6%nat) by (cbn in Hk; lia). subst k. cbv zeta. rewrite T6. cbn. apply Rabs_le. lra.
    + intros _ k Hk. assert (k = 6%nat) by (cbn in Hk; lia). subst k. cbn. destruct (Rlt_dec 2 (1 / 2)); [lra|]. unfold braking_speed. replace (2 * (2 - 1 / 2) * 1) with 3 by lra. lra.
    + intros _ k Hk. assert (k = 6%nat) by (cbn in Hk; lia). subst k. cbn. destruct (Rlt_dec (1 / 2) (-1)); [lra|]. unfold braking_speed.
      match goal with |- context [sqrt ?a] => pose proof (sqrt_pos a) end. lra.
  - intros t' e' [[<-|[]] H] _ k Hk. cbn [ds_N gex dex_settings dex_base] in H. rewrite Hu in H. injection H as <-. assert (k = 0%nat) by lia. subst k.
    apply (Hrow (torques_of gpin (gex vs d) dex_robot M [Some J])). intros x k Hk'. now apply gex_torques.
  - intros c cs [].
Qed.

Lemma gex_solved : exists s' res, dr_success res = true /\
  dsolve gpin dex_log dex_jlog perfect_qr perfect_qp (gex vs d) dex_robot false = (s', dex_robot, Ok res).
Proof.
  apply perfect_dsolve; [apply gex_ready|reflexivity|cbn; lra|apply gex_independent|]. intros M Js tau HM HJ. exists dex_x. now apply gex_allowed.
Qed.

End OtherTask.

(** A task about the accelerations whose only row is on the head. *)
Lemma head_row t e d c : about_tau (dt_kind t) = false -> mcols (de_A e) = 7%nat -> (forall j, (j < 7)%nat -> mat_at (de_A e) 0 j = if Nat.eqb j 6 then c else 0) -> c <> 0 ->
  vat (de_b e) 0 = c / 10 ->
  forall tau : (nat -> R) -> nat -> R, (forall x k, (k < 7)%nat -> tau x k = gtorque d x k) ->
  (forall j, (7 <= j < 13)%nat -> coefficients (fun x => dresidual t e x (tau x) 0) j = 0) /\ coefficients (fun x => dresidual t e x (tau x) 0) 6 <> 0 /\
  dresidual t e dex_x (tau dex_x) 0 = 0.
Proof.
  intros Ht Hc Ha Hn Hb tau _. assert (E : forall x, dresidual t e x (tau x) 0 = c * x 6%nat - c / 10).
  { intros x. unfold dresidual. rewrite Ht, Hc, Hb. rewrite (Rsum_delta 7 6); [rewrite Ha by lia; cbn; reflexivity|lia|]. intros j Hj Hne. rewrite Ha by exact Hj.
    apply Nat.eqb_neq in Hne. rewrite Hne. ring. }
  split; [|split].
  - intros j Hj. unfold coefficients. rewrite !E. unfold unit_row. destruct (Nat.eqb_spec 6 j); [lia|]. ring.
  - unfold coefficients. rewrite !E. unfold unit_row. cbn. lra.
  - rewrite E. unfold dex_x. cbn. field.
Qed.
