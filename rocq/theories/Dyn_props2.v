(** More properties of the dynamics solver (C124 to C129): optimality, feasibility, robots without joints, external wrenches, torque tasks, gears. *)
From Coq Require Import Reals List ZArith Bool String Lra Lia Sorted.
From Verif Require Import Base Linalg Geom3 Tools_model Geometry_model Expression_model Expression_spec Expression_proofs Problem_model Problem_spec
  Problem_proofs Problem_proofs2 Problem_proofs3 Problem_props Backends_proofs Polynom_model Robot_model Robot_spec Robot_proofs Robot_props KinTasks_model Kin_model Kin_spec Kin_proofs
  Kin_proofs3 Kin_proofs6 Kin_proofs7 DynTasks_model DynTasks_spec Dyn_model Dyn_spec Dyn_proofs Dyn_proofs2 Dyn_proofs3 Dyn_proofs4 Dyn_proofs5 Dyn_proofs6 Dyn_proofs7 Dyn_proofs8 Dyn_example
  Dyn_example2 Dyn_props Tasks_spec Tasks_proofs DynTasks_proofs DynTasks_props.
Import ListNotations.
Open Scope R_scope.

(** ** C124 Optimality *)

(** The result is read from unknowns that are allowed, and of the least cost among those that are: the torques of the joints times torque_cost, the soft tasks, the
    weights of the contacts, the soft constraints, and the regularization. *)
Theorem C124_optimal pn log3 jlog qr qp s r i s' r' res : dsound pn log3 jlog s r -> qr_correct qr -> qp_correct qp -> p_sparse (ds_problem s) = false ->
  dsolve pn log3 jlog qr qp s r i = (s', r', Ok res) -> dr_success res = true ->
  exists M Js tau x, mass_matrix pn r = Ok M /\ contact_matrices pn log3 jlog s r Js /\ denotes tau (ds_N s) (unknowns (ds_N s) Js) (torques_of pn s r M Js) /\
    (forall k, (k < ds_N s)%nat -> vat (dr_qdd res) k = x k /\ vat (dr_tau res) k = torques_of pn s r M Js x k) /\
    (forall k c J a, nth_error (ds_contacts s') k = Some c -> nth_error Js k = Some (Some J) -> (a < mrows J)%nat -> vat (co_wrench c) a = wrench_in (ds_N s) Js x k a) /\
    dallowed pn log3 jlog s r M Js tau x /\
    forall y, dallowed pn log3 jlog s r M Js tau y ->
      dpenalties pn log3 jlog s r M Js tau x + p_reg (ds_problem s) / 2 * Rsum (unknowns (ds_N s) Js) (fun j => Rsqr (x j)) <=
      dpenalties pn log3 jlog s r M Js tau y + p_reg (ds_problem s) / 2 * Rsum (unknowns (ds_N s) Js) (fun j => Rsqr (y j)).
Proof.
  intros Hd Hqr Hqp Hsp H Hs. destruct (dsolve_success pn log3 jlog qr qp s r i s' r' res Hd H Hs) as (b & M & Js & x & _ & V & _).
  pose proof (dsolved_allowed _ _ _ _ _ _ _ _ _ _ _ _ _ Hqr Hqp V) as Al. pose proof (dsolved_optimum _ _ _ _ _ _ _ _ _ _ _ _ _ Hqr Hqp Hsp V) as Op.
  destruct V as [F V1 V2 V3 [T1 T2] [Q1 Q2] [S1 S2] V7 V8 V9]. exists M, Js, (db_tau b), (vat x). split; [apply F|]. split; [apply F|]. split; [apply F|].
  split; [intros k Hk; split; [now apply Q2|now apply T2]|]. split; [intros k c J a Hc HJ Ha; exact (V9 k c J a Hc HJ Ha)|]. split; [exact Al|exact Op].
Qed.
Print Assumptions C124_optimal.

Example C124_example : dsound dex_pin dex_log dex_jlog (dex true 1) dex_robot /\ p_sparse (ds_problem (dex true 1)) = false /\
  exists s' res, dsolve dex_pin dex_log dex_jlog perfect_qr perfect_qp (dex true 1) dex_robot false = (s', dex_robot, Ok res) /\ dr_success res = true.
Proof. split; [apply dex_sound|]. split; [reflexivity|]. destruct (dex_solved true 1 ltac:(lra)) as (s' & res & Hs & E). exists s', res. auto. Qed.

(** ** C129 The solver succeeds when it can *)

(** When everything can be evaluated, when the equalities are not redundant and when some unknowns are allowed, the solve succeeds, unless the linear algebra or the
    QP solver fails. *)
Theorem C129_succeeds pn log3 jlog qr qp s r : dready pn log3 jlog s r -> qr_correct qr -> qp_correct qp -> p_rewrite (ds_problem s) = true -> 0 < p_reg (ds_problem s) ->
  (forall M Js tau, mass_matrix pn r = Ok M -> contact_matrices pn log3 jlog s r Js -> independent_rows (unknowns (ds_N s) Js) (equality_coefficients pn log3 jlog s r M Js tau)) ->
  (forall M Js tau, mass_matrix pn r = Ok M -> contact_matrices pn log3 jlog s r Js -> exists x, dallowed pn log3 jlog s r M Js tau x) ->
  (exists s' res, dr_success res = true /\ dsolve pn log3 jlog qr qp s r false = (s', r, Ok res)) \/ qr_fails qr \/ qp_fails qp.
Proof. apply dsolve_complete. Qed.
Print Assumptions C129_succeeds.

(** When nothing is allowed, it fails. *)
Theorem C129_infeasible pn log3 jlog qr qp s r i s' r' res : dsound pn log3 jlog s r -> qr_correct qr -> qp_correct qp ->
  (forall M Js tau x, mass_matrix pn r = Ok M -> contact_matrices pn log3 jlog s r Js -> ~ dallowed pn log3 jlog s r M Js tau x) ->
  dsolve pn log3 jlog qr qp s r i = (s', r', Ok res) -> dr_success res = false /\ r' = r.
Proof.
  intros Hd Hqr Hqp Hno H. destruct (dr_success res) eqn:Hs.
  - exfalso. destruct (dsolve_success pn log3 jlog qr qp s r i s' r' res Hd H Hs) as (b & M & Js & x & _ & V & _).
    pose proof (dsolved_allowed _ _ _ _ _ _ _ _ _ _ _ _ _ Hqr Hqp V) as Al. destruct V as [F _ _ _ _ _ _ _ _ _]. exact (Hno M Js _ _ (df_mass _ _ _ _ _ _ _ _ F) (df_matrices _ _ _ _ _ _ _ _ F) Al).
  - split; [reflexivity|]. destruct (C72_failure pn log3 jlog qr qp s r i s' r' (Ok res) Hd H) as (_ & A & _). now destruct (A res eq_refl Hs).
Qed.
Print Assumptions C129_infeasible.

Example C129_example : dready dex_pin dex_log dex_jlog (dex true 0) dex_robot /\ p_rewrite (ds_problem (dex true 0)) = true /\ 0 < p_reg (ds_problem (dex true 0)) /\
  (forall M Js tau, mass_matrix dex_pin dex_robot = Ok M -> contact_matrices dex_pin dex_log dex_jlog (dex true 0) dex_robot Js ->
     independent_rows (unknowns (ds_N (dex true 0)) Js) (equality_coefficients dex_pin dex_log dex_jlog (dex true 0) dex_robot M Js tau)) /\
  (forall M Js tau, mass_matrix dex_pin dex_robot = Ok M -> contact_matrices dex_pin dex_log dex_jlog (dex true 0) dex_robot Js ->
     exists x, dallowed dex_pin dex_log dex_jlog (dex true 0) dex_robot M Js tau x).
Proof.
  split; [apply dex_ready|]. split; [reflexivity|]. split; [cbn; lra|]. split; [apply dex_independent|]. intros M Js tau HM HJ. exists dex_x. apply dex_allowed; [lra|exact HM|exact HJ].
Qed.

(** ** C125 Robots without joints *)

Lemma solve_shaped pb qr qp pb' : solve pb qr qp = (pb', Ok tt) -> Forall (well_shaped (p_n pb)) (p_cons pb).
Proof.
  intros Es. destruct (solve_cases pb qr qp) as [(p1 & e1 & E1 & _)|[(p1 & E1)|(a & p1 & vs & Ea & _)]]; [congruence|congruence|]. unfold assemble in Ea. bindall Ea.
  match goal with E1 : objective_loop _ _ _ _ _ _ = Ok _ |- _ => 
    match type of E1 with objective_loop ?sp ?n ?rd ?cs ?P ?q = _ => destruct (objective_loop_cases sp n rd cs P q) as [[W _]|[_ W]]; [|congruence] end end.
  cbn [Problem_proofs2.reset set_cons p_n p_cons] in W. rewrite Forall_map in W. exact W.
Qed.
Lemma built_torques pn log3 jlog s r b M Js : dbuild pn log3 jlog s r = Ok b -> dform pn log3 jlog s r b M Js ->
  exists c, In c (p_cons (db_problem b)) /\ rows (c_expr c) = (ds_N s - 6)%nat.
Proof.
  intros H F. pose proof (df_tau _ _ _ _ _ _ _ _ F) as D. unfold dbuild in H. cbn [add_variable clear_variables clear_constraints set_vars set_cons p_n p_vars p_cons app Nat.add] in H.
  bind H qdd Eq. bind H cs0 E0. bind H es Ees. bind H tau0 Et0. bind H x Ex. destruct x as [[pb fs] cs1]. cbn [fst snd] in H.
  bind H tau1 Et1. bind H tau Et. bind H cs2 E2. bind H cs3 E3. bind H cs4 E4. bind H cs5 E5. bind H e Ee. bind H c6 E6. injection H as <-. cbn [db_tau db_problem] in *.
  destruct (slice_from tau _ _ _ 6 e D Ee) as [H6 De]. pose proof (made_eqd _ _ _ _ _ _ De E6) as M6. apply (made_configure _ _ _ _ _ _ _ Soft (ds_torque_cost s)) in M6.
  exists (configure_prio c6 Soft (ds_torque_cost s)). split; [|destruct M6 as (_ & _ & _ & R & _); exact R].
  match goal with |- context [add_constraints ?pb ?l] => destruct (add_constraints_spec l pb) as (_ & _ & A3 & _) end. rewrite A3. apply in_or_app. right.
  rewrite !app_assoc. apply in_or_app. right. now left.
Qed.

(** The torques of the joints are minimised by a constraint with N - 6 rows. The problem refuses a constraint without rows: a body that floats without joints cannot
    be solved, whatever its tasks and its contacts. *)
Theorem C125_no_joints_behaviour pn log3 jlog qr qp s r i s' r' res : dsound pn log3 jlog s r -> ds_N s = 6%nat ->
  dsolve pn log3 jlog qr qp s r i = (s', r', Ok res) -> dr_success res = false /\ r' = r.
Proof.
  intros Hd H6 H. destruct (dr_success res) eqn:Hs.
  - exfalso. destruct (dsolve_success pn log3 jlog qr qp s r i s' r' res Hd H Hs) as (b & M & Js & x & Eb & V & _). destruct (dv_solve _ _ _ _ _ _ _ _ _ _ _ _ _ V) as (pb & Es & _).
    pose proof (solve_shaped _ _ _ _ Es) as W. destruct (built_torques _ _ _ _ _ _ _ _ Eb (dv_form _ _ _ _ _ _ _ _ _ _ _ _ _ V)) as (c & Hc & Hr).
    rewrite Forall_forall in W. destruct (W c Hc) as [P _]. lia.
  - split; [reflexivity|]. destruct (C72_failure pn log3 jlog qr qp s r i s' r' (Ok res) Hd H) as (_ & A & _). now destruct (A res eq_refl Hs).
Qed.
Print Assumptions C125_no_joints_behaviour.

(** A floating body: in free fall, it is allowed any torque-free acceleration. *)
Definition body_model : rmodel := RModel 7 6 [Joint "root_joint" 0 7 0 6] ["universe"; "base"]%string frame_id (zeros 7) (zeros 7) (zeros 6) (zeros 6) (zeros 6) (zeros 6) [0; 5].
Definition body_q : vec := Vec 7 (fun k => if Nat.eqb k 6 then 1 else 0).
Definition body : robot := Robot body_model (State body_q (zeros 6) (zeros 6)) (body_q, zeros 6).
Definition body_pin : pin := Pin (fun _ _ => frame_id) (fun _ _ _ => Mat 6 6 (fun i j => if Nat.eqb i j then 1 else 0)) (fun _ _ _ _ => Mat 6 6 (fun _ _ => 0))
  (fun q v => q) (fun q q' => zeros 6) body_q (fun _ => v3_zero) (fun _ => Mat 3 6 (fun _ _ => 0)) (fun _ _ => Mat 3 6 (fun _ _ => 0))
  (fun _ => Mat 6 6 (fun _ _ => 0)) (fun _ => Mat 6 6 (fun i j => if Nat.eqb i j then 1 else 0))
  (fun _ => Vec 6 (fun k => if Nat.eqb k 2 then 10 else 0)) (fun _ _ => Vec 6 (fun k => if Nat.eqb k 2 then 10 else 0)) (fun _ _ _ => Mat 6 6 (fun i j => if Nat.eqb i j then 1 else 0))
  (fun _ _ _ _ => Mat 6 6 (fun _ _ => 0)).
Definition body_solver : dsolver := DSolver 6 0 (Problem 0 [] [] (1 / 100000000) false true (Vec 0 (fun _ => 0)) (Vec 0 (fun _ => 0)))
    false false false false false 0 false (1 / 1000) (Vec 0 (fun _ => 0)) [] [] [] [] [].
Lemma body_new : new_dsolver body = Ok body_solver.
Proof. reflexivity. Qed.
Lemma body_built : exists b, dbuild body_pin dex_log dex_jlog body_solver body = Ok b /\ Forall (stackable (p_n (db_problem b))) (p_cons (db_problem b)).
Proof. eexists. split; [reflexivity|]. cbn. repeat constructor. Qed.
Lemma body_sound : dsound body_pin dex_log dex_jlog body_solver body.
Proof.
  constructor; try (intros; cbn in *; contradiction).
  - reflexivity.
  - split; [|repeat split]. split; [|split; [|split; [|split]]].
    + cbn. repeat constructor; cbn; intuition discriminate.
    + cbn. intuition discriminate.
    + intros j [<-|[]]; cbn; lia.
    + intros j k [<-|[]] [<-|[]] Hn; cbn in *; congruence.
    + cbn. auto 10.
  - repeat split.
  - intros t e [[] _].
  - constructor.
Qed.
(** The free fall. *)
Definition body_x (k : nat) : R := if Nat.eqb k 2 then -10 else 0.
Lemma body_allowed M Js tau : mass_matrix body_pin body = Ok M -> contact_matrices body_pin dex_log dex_jlog body_solver body Js ->
  dallowed body_pin dex_log dex_jlog body_solver body M Js tau body_x.
Proof.
  intros HM HJs. inversion HJs; subst. constructor; try (intros; cbn in *; contradiction).
  - discriminate.
  - intros _ j Hj. injection HM as <-. unfold torques_of, bias_of, damping_of, effort_of. cbn [contacts_effort body_solver ds_N ds_damping ds_gravity_only ds_extra vlen].
    do 6 (destruct j as [|j]; [cbn; lra|]). lia.
  - intros [|i] c J Hc; discriminate.
  - constructor; intros H; try discriminate H.
  - intros t e [[] _].
Qed.

(** Free fall is allowed to a body without joints, tasks or contacts, and the solve of the solver just made for it fails, even with back-ends that never fail. *)
Theorem C125_no_joints_refuted : exists pn log3 jlog s r s' res, new_dsolver r = Ok s /\ dsound pn log3 jlog s r /\ ds_N s = 6%nat /\
  (exists x, forall M Js tau, mass_matrix pn r = Ok M -> contact_matrices pn log3 jlog s r Js -> dallowed pn log3 jlog s r M Js tau x) /\
  dsolve pn log3 jlog perfect_qr perfect_qp s r false = (s', r, Ok res) /\ dr_success res = false.
Proof.
  exists body_pin, dex_log, dex_jlog, body_solver, body. destruct body_built as (b & Eb & St).
  destruct (dsolve_cases body_pin dex_log dex_jlog perfect_qr perfect_qp body_solver body false body_sound)
    as [(e & Eb' & E)|[(Eb' & E)|[(b' & pb & Eb' & Es & E)|[(b' & pb & Eb' & Es & E)|(s1 & res1 & b' & M & Js & x & Eb' & V & E)]]]]; try congruence.
  - exfalso. rewrite Eb in Eb'. injection Eb' as <-.
    assert (W : ~ Forall (well_shaped (p_n (db_problem b))) (p_cons (db_problem b))).
    { intros W. assert (exists M Js, dform body_pin dex_log dex_jlog body_solver body b M Js) as (M & Js & F) by (apply built_form; [apply body_sound|exact Eb]).
      destruct (built_torques _ _ _ _ _ _ _ _ Eb F) as (c & Hc & Hr). rewrite Forall_forall in W. destruct (W c Hc) as [P _]. cbn in Hr. lia. }
    pose proof (solve_ill_formed _ perfect_qr perfect_qp St W) as X. rewrite Es in X. discriminate X.
  - exists (dset_problem body_solver pb), failed. split; [exact body_new|]. split; [exact body_sound|]. split; [reflexivity|].
    split; [exists body_x; apply body_allowed|]. split; [exact E|reflexivity].
  - exfalso. destruct (C125_no_joints_behaviour _ _ _ _ _ _ _ _ _ _ _ body_sound eq_refl E) as [X _].
    pose proof (dv_success _ _ _ _ _ _ _ _ _ _ _ _ _ V). congruence.
Qed.
Print Assumptions C125_no_joints_refuted.

(** ** C126 External wrenches *)

(** An external wrench contact gets exactly the wrench the user gave: with the equation of motion (C67), it is what is applied to the robot. *)
Theorem C126_applied pn log3 jlog qr qp s r i s' r' res k c f fr w : dsound pn log3 jlog s r -> qr_correct qr -> qp_correct qp ->
  dsolve pn log3 jlog qr qp s r i = (s', r', Ok res) -> dr_success res = true ->
  nth_error (ds_contacts s) k = Some c -> co_active c = true -> co_kind c = CExternal f fr w ->
  exists c', nth_error (ds_contacts s') k = Some c' /\ co_kind c' = CExternal f fr w /\ vlen (co_wrench c') = vlen w /\ forall a, (a < vlen w)%nat -> vat (co_wrench c') a = vat w a.
Proof.
  intros Hd Hqr Hqp H Hs Hc Ha K. destruct (dsolve_success pn log3 jlog qr qp s r i s' r' res Hd H Hs) as (b & M & Js & x & _ & V & _).
  destruct V as [F V1 V2 V3 _ _ _ _ [V8 V8'] V9]. destruct (V8' k c Hc) as (c1 & E1 & E2). exists c1. split; [exact E1|].
  pose proof (C69_valid pn log3 jlog qr qp s r i s' r' res Hd Hqr Hqp H Hs k c c1 Hc E1) as Cv. rewrite Ha in Cv. destruct Cv as [C1 C2].
  split; [rewrite C1; exact K|]. unfold contact_valid in C2. rewrite K in C2.
  destruct (Forall2_nth_l _ _ _ _ _ (df_matrices _ _ _ _ _ _ _ _ F) Hc) as (J & HJ & HcJ). cbv beta in HcJ. rewrite HJ in E2. destruct J as [J|].
  - destruct E2 as [_ L]. destruct HcJ as [_ HcJ]. unfold contact_matrix in HcJ. rewrite K in HcJ.
    split; [|exact C2]. pose proof (dn_external _ _ _ _ _ Hd c f fr w (nth_error_In _ _ Hc) Ha K) as E3. rewrite E3, L. now destruct HcJ as [_ ->].
  - congruence.
Qed.
Print Assumptions C126_applied.

(** The robot of the example, held by a force that balances its weight. *)
Definition wext : vec := Vec 6 (fun k => if Nat.eqb k 2 then 10 else 0).
Definition hold : contact := Contact (CExternal 1 Local wext) true 1 0 0 0 (Vec 0 (fun _ => 0)).
Definition held : dsolver := dex_settings dex_base (1 / 10) true true 0 [] [hold].
Definition held_x (k : nat) : R := if Nat.eqb k 9 then 10 else 0.
Lemma held_sound : dsound dex_pin dex_log dex_jlog held dex_robot.
Proof.
  constructor.
  - reflexivity.
  - exact dex_well_formed.
  - repeat split.
  - intros t e [[] _].
  - intros c f k w [<-|[]] _ H. injection H as <- <- <-. reflexivity.
  - intros c tau cs c' [].
  - constructor.
Qed.
Lemma held_ready : dready dex_pin dex_log dex_jlog held dex_robot.
Proof.
  constructor.
  - apply held_sound.
  - cbn; lia.
  - left. reflexivity.
  - intros _. cbn. lra.
  - intros k x [].
  - cbn. lra.
  - intros t [].
  - intros c [<-|[]] _. cbn. split; [reflexivity|lia].
  - intros c tau [].
Qed.
Lemma held_matrices Js : contact_matrices dex_pin dex_log dex_jlog held dex_robot Js -> exists J, Js = [Some J] /\ mrows J = 6%nat /\
  forall i k, (i < 6)%nat -> (k < 7)%nat -> mat_at J i k = if Nat.eqb i k then 1 else 0.
Proof.
  intros H. inversion H as [|c J l Js' Hc F E1 E2]; subst. inversion F; subst. destruct J as [J|]; [|discriminate]. destruct Hc as (_ & _ & Hj). cbn [co_kind hold] in Hj. subst J.
  eexists. split; [reflexivity|]. split; [reflexivity|]. intros i k Hi Hk. reflexivity.
Qed.
Lemma held_torques M J x k : mass_matrix dex_pin dex_robot = Ok M -> mrows J = 6%nat ->
  (forall i k, (i < 6)%nat -> (k < 7)%nat -> mat_at J i k = if Nat.eqb i k then 1 else 0) -> (k < 7)%nat ->
  torques_of dex_pin held dex_robot M [Some J] x k = gtorque 0 x k.
Proof.
  intros HM Hr HJ Hk. destruct (dex_mass M HM) as (_ & _ & Hm). unfold torques_of. cbn [contacts_effort ds_N held dex_settings dex_base]. unfold effort_of, damping_of, bias_of, gtorque. rewrite Hr.
  rewrite (Rsum_ext 7 _ (fun j => mat_at dex_M k j * x j)) by (intros j Hj; rewrite Hm by (try exact Hk; exact Hj); reflexivity).
  rewrite (Rsum_ext 6 _ (fun a => (if Nat.eqb a k then 1 else 0) * x (7 + a)%nat)) by (intros a Ha; rewrite HJ by (try exact Hk; exact Ha); reflexivity).
  cbn [ds_damping ds_gravity_only ds_extra vlen held dex_settings dex_base].
  do 7 (destruct k as [|k]; [cbn; ring|]). lia.
Qed.
Lemma held_independent M Js tau : mass_matrix dex_pin dex_robot = Ok M -> contact_matrices dex_pin dex_log dex_jlog held dex_robot Js ->
  independent_rows (unknowns (ds_N held) Js) (equality_coefficients dex_pin dex_log dex_jlog held dex_robot M Js tau).
Proof.
  intros HM HJs. destruct (held_matrices Js HJs) as (J & -> & Hr & HJ). change (ds_N held) with 7%nat. rewrite dex_unknowns by exact Hr.
  unfold equality_coefficients. cbn [ds_masked_fbase held dex_settings ds_contacts ds_N ds_tasks ds_cons dex_base map wrench_equalities app flat_map co_kind hold].
  rewrite Hr. cbn [seq map app List.length].
  intros mu H. cbn [List.length] in *.
  assert (C : forall k j, (k < 6)%nat -> (j < 13)%nat -> coefficients (fun x => torques_of dex_pin held dex_robot M [Some J] x k) j =
    (if Nat.ltb j 7 then 1 + (if Nat.eqb j k then 1 else 0) else if Nat.eqb j (7 + k) then -1 else 0)).
  { intros k j Hk Hj. unfold coefficients. rewrite !(held_torques M J _ k HM Hr HJ) by lia. unfold unit_row, gtorque.
    do 6 (destruct k as [|k]; [do 13 (destruct j as [|j]; [cbn; ring|]); lia|]). lia. }
  assert (W : forall a j, (j < 13)%nat -> coefficients (fun x : nat -> R => x (7 + a)%nat - vat wext a) j = if Nat.eqb j (7 + a) then 1 else 0).
  { intros a j Hj. unfold coefficients, unit_row. rewrite (Nat.eqb_sym j). destruct (Nat.eqb (7 + a) j); ring. }
  assert (G : forall j, (j < 13)%nat -> Rsum 12 (fun k => mu k * (if Nat.ltb k 6 then (if Nat.eqb j (7 + k) then 1 else 0)
     else (if Nat.ltb j 7 then 1 + (if Nat.eqb j (k - 6) then 1 else 0) else if Nat.eqb j (7 + (k - 6)) then -1 else 0))) = 0).
  { intros j Hj. specialize (H j Hj). cbn [Rsum nth] in H. rewrite !C, !W in H by lia. etransitivity; [|exact H]. clear H. do 13 (destruct j as [|j]; [cbn; ring|]). lia. }
  pose proof (G 0%nat ltac:(lia)) as G0. pose proof (G 1%nat ltac:(lia)) as G1. pose proof (G 2%nat ltac:(lia)) as G2. pose proof (G 3%nat ltac:(lia)) as G3.
  pose proof (G 4%nat ltac:(lia)) as G4. pose proof (G 5%nat ltac:(lia)) as G5. pose proof (G 6%nat ltac:(lia)) as G6. pose proof (G 7%nat ltac:(lia)) as G7.
  pose proof (G 8%nat ltac:(lia)) as G8. pose proof (G 9%nat ltac:(lia)) as G9. pose proof (G 10%nat ltac:(lia)) as G10. pose proof (G 11%nat ltac:(lia)) as G11.
  pose proof (G 12%nat ltac:(lia)) as G12. cbn in G0, G1, G2, G3, G4, G5, G6, G7, G8, G9, G10, G11, G12.
  intros k Hk. do 12 (destruct k as [|k]; [lra|]). lia.
Qed.
Lemma held_allowed M Js tau : mass_matrix dex_pin dex_robot = Ok M -> contact_matrices dex_pin dex_log dex_jlog held dex_robot Js ->
  dallowed dex_pin dex_log dex_jlog held dex_robot M Js tau held_x.
Proof.
  intros HM HJs. destruct (held_matrices Js HJs) as (J & -> & Hr & HJ). constructor.
  - discriminate.
  - intros _ j Hj. rewrite (held_torques M J _ j HM Hr HJ) by lia. unfold gtorque. do 6 (destruct j as [|j]; [cbn; lra|]). lia.
  - intros [|[|i]] c J' Hc HJ'; try discriminate. injection Hc as <-. unfold contact_valid, wrench_in. cbn [co_kind hold place ds_N held dex_settings dex_base].
    intros a Ha. cbn in Ha. do 6 (destruct a as [|a]; [reflexivity|]). lia.
  - assert (T6 : torques_of dex_pin held dex_robot M [Some J] held_x 6 = 0).
    { rewrite (held_torques M J _ 6 HM Hr HJ) by lia. unfold gtorque. cbn. lra. }
    assert (S3 : 1 <= sqrt 3) by (rewrite <- sqrt_1 at 1; apply sqrt_le_1_alt; lra).
    constructor.
    + intros _ k Hk. assert (k = 6%nat) by (cbn in Hk; lia). subst k. rewrite T6. cbn. apply Rabs_le. lra.
    + intros _ _ k Hk. assert (k = 6%nat) by (cbn in Hk; lia). subst k. cbn. apply Rabs_le. lra.
    + intros _ k Hk. assert (k = 6%nat) by (cbn in Hk; lia). subst k. cbv zeta. rewrite T6. cbn. apply Rabs_le. lra.
    + intros _ k Hk. assert (k = 6%nat) by (cbn in Hk; lia). subst k. cbn. destruct (Rlt_dec 2 (1 / 2)); [lra|]. unfold braking_speed. replace (2 * (2 - 1 / 2) * 1) with 3 by lra. lra.
    + intros _ k Hk. assert (k = 6%nat) by (cbn in Hk; lia). subst k. cbn. destruct (Rlt_dec (1 / 2) (-1)); [lra|]. unfold braking_speed.
      match goal with |- context [sqrt ?a] => pose proof (sqrt_pos a) end. lra.
  - intros t e [[] _].
  - intros c cs [].
Qed.
Example C126_example : dsound dex_pin dex_log dex_jlog held dex_robot /\ nth_error (ds_contacts held) 0 = Some hold /\ co_active hold = true /\ co_kind hold = CExternal 1 Local wext /\
  exists s' res, dr_success res = true /\ dsolve dex_pin dex_log dex_jlog perfect_qr perfect_qp held dex_robot false = (s', dex_robot, Ok res).
Proof.
  split; [exact held_sound|]. do 3 (split; [reflexivity|]). apply perfect_dsolve; [apply held_ready|reflexivity|cbn; lra|apply held_independent|].
  intros M Js tau HM HJ. exists held_x. now apply held_allowed.
Qed.

(** ** C127 Torque tasks *)

(** A hard torque task gives to its joints exactly the torques it was set to, plus kp times the position, minus kd times the velocity. The last call of set_torque
    for a joint is the one that counts, and reset_torque removes the joint from the task. *)
Theorem C127_torques pn log3 jlog qr qp s r i s' r' res t l name a : dsound pn log3 jlog s r -> qr_correct qr -> qp_correct qp ->
  dsolve pn log3 jlog qr qp s r i = (s', r', Ok res) -> dr_success res = true ->
  In t (ds_tasks s) -> dt_priority t = PHard -> dt_kind t = DTorque l -> In (name, a) l ->
  exists k q qd, get_joint_v_offset r name = Ok k /\ get_joint r name = Ok q /\ get_joint_velocity r name = Ok qd /\
    vat (dr_tau res) k = tt_torque a + tt_kp a * q - tt_kd a * qd.
Proof.
  intros Hd Hqr Hqp H Hs Ht Hp K Hi. destruct (C73_satisfied pn log3 jlog qr qp s r i s' r' res t Hd Hqr Hqp H Hs Ht Hp) as (_ & e & He & R).
  unfold dtask_update in He. rewrite K in He. destruct (In_nth_error _ _ Hi) as [j Hj].
  destruct (torque_residual _ _ _ _ _ _ _ (vat (dr_tau res)) He Hj) as (L & k & q & qd & Hk & Hq & Hv & _ & E). exists k, q, qd. do 3 (split; [assumption|]).
  specialize (R j). unfold dresidual in R. rewrite K in R. cbn [about_tau] in R. rewrite E in R.
  assert (j < List.length l)%nat by (apply nth_error_Some; congruence). specialize (R ltac:(lia)). lra.
Qed.
Print Assumptions C127_torques.
Theorem C127_set_torque l joint torque kp kd name :
  name_find name (set_torque l joint torque kp kd) = if String.eqb name joint then Some (TargetTau torque kp kd) else name_find name l.
Proof.
  unfold set_torque. induction l as [|[a u] l IH]; cbn [name_put name_find].
  - destruct (String.eqb name joint); reflexivity.
  - destruct (String.eqb_spec joint a) as [->|].
    + cbn [name_find]. destruct (String.eqb name a); reflexivity.
    + cbn [name_find]. destruct (String.eqb_spec name a) as [->|]; [|exact IH]. destruct (String.eqb_spec a joint); [congruence|reflexivity].
Qed.
Print Assumptions C127_set_torque.
Theorem C127_reset_torque l joint name : name_find name (reset_torque l joint) = if String.eqb name joint then None else name_find name l.
Proof.
  unfold reset_torque. induction l as [|[n a] l IH]; cbn; [now destruct (String.eqb name joint)|].
  destruct (String.eqb_spec n joint) as [->|Hn]; cbn.
  - rewrite IH. destruct (String.eqb_spec name joint) as [E|Hne]; reflexivity.
  - rewrite IH. destruct (String.eqb_spec name n) as [->|Hne]; [|reflexivity]. destruct (String.eqb_spec n joint); congruence.
Qed.
Print Assumptions C127_reset_torque.

(** In the example, the head has to give the torque 8/10 + 1 * 1/2 - 1 * 1/10 = 12/10. *)
Definition torque_targets : list (string * target_tau) := set_torque (set_torque [] "head" 5 0 0) "head" (8 / 10) 1 1.
Definition torque_task : dtask := DTask (DTorque torque_targets) PHard 1 1 (-1).
Lemma torque_row : forall tau : (nat -> R) -> nat -> R, (forall x k, (k < 7)%nat -> tau x k = gtorque 0 x k) -> forall e,
  dtask_update tpin dex_log dex_jlog 7 dex_robot torque_task = Ok e ->
  (forall j, (7 <= j < 13)%nat -> coefficients (fun x => dresidual torque_task e x (tau x) 0) j = 0) /\ coefficients (fun x => dresidual torque_task e x (tau x) 0) 6 <> 0 /\
  dresidual torque_task e dex_x (tau dex_x) 0 = 0.
Proof.
  intros tau Ht e He. assert (D : forall x, dresidual torque_task e x (tau x) 0 = gtorque 0 x 6 - 12 / 10).
  { intros x. unfold dresidual. injection He as <-. cbn [about_tau dt_kind torque_task rows_equation de_A de_b mrows mcols mat_at vat map nth fst snd List.length].
    rewrite (Rsum_delta 7 6); [rewrite Ht by lia; cbn; lra|lia|]. intros j Hj Hne. do 7 (destruct j as [|j]; [try lia; cbn; ring|]). lia. }
  split; [|split].
  - intros j Hj. unfold coefficients. rewrite !D. unfold unit_row, gtorque. do 7 (destruct j as [|j]; [lia|]). do 6 (destruct j as [|j]; [cbn; ring|]). lia.
  - unfold coefficients. rewrite !D. unfold unit_row, gtorque. cbn. lra.
  - rewrite D. unfold gtorque, dex_x. cbn. field.
Qed.
Example C127_example : exists s, dsound tpin dex_log dex_jlog s dex_robot /\ In torque_task (ds_tasks s) /\ In ("head"%string, TargetTau (8 / 10) 1 1) torque_targets /\
  exists s' res, dsolve tpin dex_log dex_jlog perfect_qr perfect_qp s dex_robot false = (s', dex_robot, Ok res) /\ dr_success res = true /\ vat (dr_tau res) 6 = 12 / 10.
Proof.
  assert (U : exists e, dtask_update tpin dex_log dex_jlog 7 dex_robot torque_task = Ok e /\ dshaped 7 e /\ mrows (de_A e) = 1%nat).
  { eexists. split; [reflexivity|]. split; [split; reflexivity|reflexivity]. }
  destruct U as (e & Hu & Hs & H1).
  destruct (g_solved _ _ _ _ _ _ torque_task e Hu Hs H1 eq_refl (fun tau Ht => torque_row tau Ht e Hu)) as (s' & res & E & Hsu & So & Hin & Mo). fold tpin in E, So.
  exists (gex torque_task true 0). split; [exact So|]. split; [exact Hin|]. split; [now left|]. exists s', res. split; [exact E|]. split; [exact Hsu|].
  destruct (C127_torques tpin dex_log dex_jlog perfect_qr perfect_qp _ _ _ _ _ _ _ torque_targets "head" (TargetTau (8 / 10) 1 1) So perfect_qr_correct perfect_qp_correct E Hsu Hin eq_refl eq_refl
    ltac:(now left)) as (k & q & qd & Hk & Hq & Hv & R).
  injection Hk as <-. injection Hq as <-. injection Hv as <-. rewrite R. cbn. lra.
Qed.

(** ** C128 Gears *)

(** add_gear writes the ratio of its own pair of joints, as in the kinematics (C65). But set_gear, in a dynamics task, removes the gears of all the targets. *)
Theorem C128_set_gear_behaviour r a b x g' : set_dgear r a b x = Ok g' -> exists t s, get_joint_v_offset r a = Ok t /\ get_joint_v_offset r b = Ok s /\
  forall t' s', ratio_of g' t' s' = if Nat.eqb t' t && Nat.eqb s' s then Some x else None.
Proof. intros H. destruct (add_gear_ratio _ _ _ _ _ _ H) as (t & s & Ht & Hs & E). exists t, s. split; [exact Ht|]. split; [exact Hs|]. intros t' s'. rewrite E. reflexivity. Qed.
Print Assumptions C128_set_gear_behaviour.

(** What holds: the gear that is set is the only one of its target, as in the kinematics. Missing: the gears of the other targets are lost. *)
Theorem C128_set_gear_partial r a b x g' : set_dgear r a b x = Ok g' -> exists t s, get_joint_v_offset r a = Ok t /\ get_joint_v_offset r b = Ok s /\
  forall s', ratio_of g' t s' = if Nat.eqb s' s then Some x else None.
Proof. intros H. destruct (C128_set_gear_behaviour _ _ _ _ _ H) as (t & s & Ht & Hs & E). exists t, s. split; [exact Ht|]. split; [exact Hs|]. intros s'. rewrite E, Nat.eqb_refl. reflexivity. Qed.
Print Assumptions C128_set_gear_partial.

(** Two gears, set one after the other for two targets: the first one is lost in the dynamics, and kept in the kinematics. *)
Theorem C128_set_gear_refuted : exists r a a' b x x' g g' t s, dgears_made r g /\ a <> a' /\ get_joint_v_offset r a = Ok t /\ get_joint_v_offset r b = Ok s /\
  set_dgear r a b x = Ok g /\ ratio_of g t s = Some x /\ set_dgear r a' b x' = Ok g' /\ ratio_of g' t s = None /\
  exists k, set_gear r g a' b x' = Ok k /\ ratio_of k t s = Some x.
Proof.
  set (m := RModel 9 8 [Joint "root_joint" 0 7 0 6; Joint "elbow" 7 1 6 1; Joint "wrist" 8 1 7 1] ["universe"; "base"]%string
    frame_id (zeros 9) (zeros 9) (zeros 8) (zeros 8) (zeros 8) (zeros 8) []).
  exists (Robot m (State (zeros 9) (zeros 8) (zeros 8)) (zeros 9, zeros 8)), "wrist"%string, "elbow"%string, "root_joint"%string, 2, 3. do 2 eexists. exists 7%nat, 0%nat.
  split; [apply dgm_set with [] "wrist"%string "root_joint"%string 2; [constructor|reflexivity]|]. split; [discriminate|]. do 6 (split; [reflexivity|]). eexists. split; reflexivity.
Qed.
Print Assumptions C128_set_gear_refuted.
