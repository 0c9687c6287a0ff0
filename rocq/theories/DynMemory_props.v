(** Properties of what a dynamics solver leaves in its tasks and in its contacts (C181): the errors of the tasks are those of the last call that looked at them, and
    the wrench of a contact is the one of the last solution in which it was active, even if it is not active anymore. *)
From Coq Require Import Reals List ZArith Bool String Lra Lia Sorted FunctionalExtensionality.
From Verif Require Import Base Linalg Geom3 Tools_model Geometry_model Expression_model Expression_spec Expression_proofs Problem_model Problem_spec
  Problem_proofs Problem_proofs2 Problem_proofs3 Backends_proofs Polynom_model Robot_model Robot_spec Robot_proofs Robot_props KinTasks_model Kin_model Kin_spec Kin_proofs
  Kin_proofs3 Kin_proofs6 Kin_proofs7 DynTasks_model DynTasks_spec Dyn_model Dyn_spec Dyn_proofs Dyn_proofs2 Dyn_proofs3 Dyn_proofs4 Dyn_proofs5 Dyn_proofs6 Dyn_proofs7 Dyn_proofs8 Dyn_example
  Dyn_example2 Tasks_spec Tasks_proofs DynTasks_proofs Dyn_props2 DynContacts_model DynMemory_model DynMemory_spec DynMemory_proofs.
Import ListNotations.
Open Scope R_scope.

(** ** The errors of the tasks *)

(** What task.error and task.derror give, after any program: the values for the target and the robot of the last solve or dump_status that computed them, whatever
    happened to the target and to the robot since; nothing (empty vectors) if there was none since the task was added. *)
Theorem C181_errors_behaviour pn log3 jlog qr qp s r l b k v : dm_run pn log3 jlog qr qp (new_dbench s r) l = Some b -> reported b k = Some v ->
  last_looked pn log3 jlog qr qp (new_dbench s r) l k v \/ (v = empty_error /\ never_looked pn log3 jlog qr qp (new_dbench s r) l k).
Proof. apply error_history. Qed.
Print Assumptions C181_errors_behaviour.

(** After a dump_status that ends normally, each error is the current one. *)
Theorem C181_dump pn log3 jlog qr qp s r l b : dm_run pn log3 jlog qr qp (new_dbench s r) l = Some b ->
  forall b' x, dm_step pn log3 jlog qr qp b MDump = (b', Ok x) ->
  dm_solver b' = dm_solver b /\ dm_robot b' = dm_robot b /\
  forall k, (k < List.length (ds_tasks (dm_solver b)))%nat -> exists v, reported b' k = Some v /\ error_now pn log3 jlog b' k v.
Proof.
  intros H b' x E. pose proof (run_paired pn log3 jlog qr qp s r l b H) as P. unfold paired in P. cbn [dm_step] in E.
  destruct (update_memory pn log3 jlog (ds_N (dm_solver b)) (dm_robot b) (ds_tasks (dm_solver b)) (dm_errors b)) as [mem o] eqn:Eu.
  destruct o as [[]|e|]; cbn [obind] in E; try discriminate. injection E as <- <-. split; [reflexivity|]. split; [reflexivity|]. intros k Hk.
  destruct (nth_error (ds_tasks (dm_solver b)) k) as [t|] eqn:Et; [|apply nth_error_None in Et; lia].
  destruct (memory_all pn log3 jlog (ds_N (dm_solver b)) (dm_robot b) (ds_tasks (dm_solver b)) (dm_errors b) k t) as (e & He & Hn); [congruence|now rewrite Eu|exact Et|].
  rewrite Eu in Hn. cbn [fst] in Hn. exists (de_error e, de_derror e). unfold reported. cbn [dm_errors]. rewrite Hn. split; [reflexivity|]. exists t, e. auto.
Qed.
Print Assumptions C181_dump.

(** After a solve that does not raise, even one that reports a failure, each error is that of the state from which the solver solved: the robot may have moved since
    (solve(true)), and the errors do not tell it. *)
Theorem C181_solve pn log3 jlog qr qp s r l b i : dm_run pn log3 jlog qr qp (new_dbench s r) l = Some b ->
  forall b' x, dm_step pn log3 jlog qr qp b (MSolve i) = (b', Ok x) ->
  forall k, (k < List.length (ds_tasks (dm_solver b)))%nat -> exists v, reported b' k = Some v /\ error_now pn log3 jlog b k v.
Proof.
  intros H b' x E k Hk. pose proof (run_paired pn log3 jlog qr qp s r l b H) as P. unfold paired in P. cbn [dm_step] in E.
  destruct (dsolve pn log3 jlog qr qp (dm_solver b) (dm_robot b) i) as [[s' r'] o] eqn:Ed. destruct (dsolve_contacts pn log3 jlog qr qp _ _ _ _ _ _ Ed) as (_ & _ & D).
  destruct o as [res|e|]; cbn [obind] in E; try discriminate. destruct (D res eq_refl) as (B & es & Ees). rewrite B in E. injection E as <- <-.
  destruct (nth_error (ds_tasks (dm_solver b)) k) as [t|] eqn:Et; [|apply nth_error_None in Et; lia].
  destruct (memory_all pn log3 jlog (ds_N (dm_solver b)) (dm_robot b) (ds_tasks (dm_solver b)) (dm_errors b) k t) as (e & He & Hn); [congruence|exact (memory_ok pn log3 jlog _ _ _ _ _ Ees)|exact Et|].
  exists (de_error e, de_derror e). unfold reported. cbn [dm_errors]. rewrite Hn. split; [reflexivity|]. exists t, e. auto.
Qed.
Print Assumptions C181_solve.

(** ** What these errors mean *)

(** The error and its derivative, along each axis selected by the mask, for a robot that follows any motion: here a position, and the target may move. *)
Theorem C181_position pn log3 jlog b k v t f x dx ddx m q qd t0 qdd target dtarget : error_now pn log3 jlog b k v -> ds_N (dm_solver b) = m_nv (r_model (dm_robot b)) ->
  nth_error (ds_tasks (dm_solver b)) k = Some t -> dt_kind t = DPosition f x dx ddx m ->
  in_motion (dm_robot b) q qd t0 qdd -> frame_contract pn (r_model (dm_robot b)) q qd t0 f -> twice target dtarget t0 ddx -> target t0 = x -> dtarget t0 = dx ->
  exists error derror, (forall u, error u = v3_sub (target u) (fr_t (pn_frame pn (q u) f))) /\ (forall u, v3_deriv error u (derror u)) /\
    forall a, (a < List.length (m_indices m))%nat ->
      vat (fst v) a = v3_dot (mask_axis m (frame_axis (fr_R (pn_frame pn (q t0) f))) a) (error t0) /\
      vat (snd v) a = v3_dot (mask_axis m (frame_axis (fr_R (pn_frame pn (q t0) f))) a) (derror t0).
Proof.
  intros (t' & e & Ht & He & ->) HN Hk Kd Mo Fc Tt Ex Edx. assert (t' = t) as -> by congruence. unfold dtask_update in He. rewrite Kd in He.
  destruct (position_residual pn _ _ _ _ _ _ _ _ _ _ _ _ _ _ _ _ HN He Mo Fc Tt Ex Edx) as (L & er & de & dd & A & [B _] & C). exists er, de. split; [exact A|]. split; [exact B|].
  intros a Ha. rewrite <- L in Ha. destruct (C a Ha) as (_ & E1 & E2). auto.
Qed.
Print Assumptions C181_position.

(** The center of mass. *)
Theorem C181_com pn log3 jlog b k v t x dx ddx m q qd t0 qdd target dtarget : error_now pn log3 jlog b k v ->
  nth_error (ds_tasks (dm_solver b)) k = Some t -> dt_kind t = DCom x dx ddx m ->
  in_motion (dm_robot b) q qd t0 qdd -> com_contract pn (r_model (dm_robot b)) q qd t0 -> twice target dtarget t0 ddx -> target t0 = x -> dtarget t0 = dx ->
  exists error derror, (forall u, error u = v3_sub (target u) (pn_com pn (q u))) /\ (forall u, v3_deriv error u (derror u)) /\
    forall a, (a < List.length (m_indices m))%nat ->
      vat (fst v) a = v3_dot (mask_axis m (row3 (m_R_local m)) a) (error t0) /\ vat (snd v) a = v3_dot (mask_axis m (row3 (m_R_local m)) a) (derror t0).
Proof.
  intros (t' & e & Ht & He & ->) Hk Kd Mo Fc Tt Ex Edx. assert (t' = t) as -> by congruence. unfold dtask_update in He. rewrite Kd in He.
  pose proof (com_twice pn (dm_robot b) q qd t0 qdd Mo Fc) as Tp. pose proof (twice_sub _ _ _ _ _ _ _ Tt Tp) as Te.
  exists (fun u => v3_sub (target u) (pn_com pn (q u))), (fun u => v3_sub (dtarget u) (rows3 (pn_comjac pn (q u)) 0 (qd u))).
  split; [reflexivity|]. split; [exact (proj1 Te)|]. intros a Ha. destruct Mo as [Se Eq Ed [S1 S2] Sd]. destruct Fc as [C1 C2]. destruct (C1 t0) as (J1 & J2 & _).
  unfold com_dynamics in He. bind He w Ev. bind He bias Eb. apply times3_inv in Ev. destruct Ev as (_ & _ & Ev).
  assert (FJ : com_jacobian pn (dm_robot b) = pn_comjac pn (q t0)) by (unfold com_jacobian; rewrite Eq; reflexivity).
  assert (HC : com_world pn (dm_robot b) = pn_com pn (q t0)) by (unfold com_world; rewrite Se, Eq; reflexivity).
  rewrite <- (masked_size _ _ _ _ _ _ He) in Ha. rewrite FJ in *. destruct (masked_residual _ _ _ _ _ _ (fun _ => 0) a He J1 Ha) as (_ & E2 & E3). cbn [fst snd].
  rewrite E2, E3, HC, Ev, Ex, Edx, <- Ed. split; reflexivity.
Qed.
Print Assumptions C181_com.

(** An orientation: the logarithm of the rotation from the frame to its target; the derivative is said to be the target angular velocity minus that of the frame. *)
Theorem C181_orientation pn log3 jlog b k v t f Rt w dw m q qd t0 qdd : error_now pn log3 jlog b k v -> ds_N (dm_solver b) = m_nv (r_model (dm_robot b)) ->
  nth_error (ds_tasks (dm_solver b)) k = Some t -> dt_kind t = DOrientation f Rt w dw m ->
  in_motion (dm_robot b) q qd t0 qdd -> frame_contract_world pn (r_model (dm_robot b)) q qd t0 f ->
  exists omega, (forall u, m3_deriv (fun v => fr_R (pn_frame pn (q v) f)) u (m3_mul (skew (omega u)) (fr_R (pn_frame pn (q u) f)))) /\
    forall a, (a < List.length (m_indices m))%nat ->
      vat (fst v) a = v3_dot (mask_axis m (frame_axis Rt) a) (log3 (m3_mul Rt (m3_t (fr_R (pn_frame pn (q t0) f))))) /\
      vat (snd v) a = v3_dot (mask_axis m (frame_axis Rt) a) (v3_sub w (omega t0)).
Proof.
  intros (t' & e & Ht & He & ->) HN Hk Kd Mo Fc. assert (t' = t) as -> by congruence. unfold dtask_update in He. rewrite Kd in He.
  exists (fun u => rows3 (pn_jac pn (q u) f World) 3 (qd u)). split; [intros u; apply (proj1 Fc u)|]. intros a Ha.
  destruct Mo as [Se Eq Ed [S1 S2] Sd]. destruct Fc as [C1 C2]. destruct (C1 t0) as (J1 & J2 & _).
  assert (FJ : frame_jacobian pn (dm_robot b) f World = pn_jac pn (q t0) f World) by (unfold frame_jacobian; rewrite Se, Eq; reflexivity).
  unfold orientation_dynamics in He. bind He T ET. bind He J EJ. bind He dJ EdJ. bind He w0 Ev. bind He bias Eb.
  assert (HT : T = pn_frame pn (q t0) f) by (unfold get_T_world_frame in ET; apply guard_inv in ET; destruct ET as [_ ET]; rewrite Se in ET; cbn in ET; congruence).
  destruct (block_size _ _ _ _ _ _ EJ) as [RJ CJ]. apply times3_inv in Ev. destruct Ev as (_ & _ & Ev).
  rewrite FJ in *. rewrite (block_apply3 _ _ _ _ _ EJ) in Ev by congruence.
  pose proof (masked_size _ _ _ _ _ _ He) as Sz. cbn [with_local m_indices] in Sz.
  assert (Ax : mask_axis (with_local m (m3_t Rt)) (row3 (m_R_local (with_local m (m3_t Rt)))) a = mask_axis m (frame_axis Rt) a).
  { unfold masked_equation in He. bind He A EA. apply (mask_axis_local m Rt a J A EA RJ). exact Ha. }
  rewrite <- Sz in Ha. destruct (masked_residual _ _ _ _ _ _ (fun _ => 0) a He RJ Ha) as (_ & E2 & E3). cbn [fst snd].
  rewrite E2, E3, Ax, Ev, HT, <- Ed. split; reflexivity.
Qed.
Print Assumptions C181_orientation.

(** The joints: one value for each joint that has a target, in the order of the task. *)
Theorem C181_joints pn log3 jlog b k v t l i name x dx a : error_now pn log3 jlog b k v ->
  nth_error (ds_tasks (dm_solver b)) k = Some t -> dt_kind t = DJoints l -> nth_error l i = Some (name, (x, dx, a)) ->
  vlen (fst v) = List.length l /\ vlen (snd v) = List.length l /\
  exists q iv, get_joint (dm_robot b) name = Ok q /\ get_joint_v_offset (dm_robot b) name = Ok iv /\
    vat (fst v) i = x - q /\ vat (snd v) i = dx - vat (st_qd (r_state (dm_robot b))) iv.
Proof.
  intros (t' & e & Ht & He & ->) Hk Kd Hi. assert (t' = t) as -> by congruence. unfold dtask_update in He. rewrite Kd in He.
  unfold joints_dynamics in He. bind He rs Er. injection He as <-. destruct (joints_drows_spec _ _ _ _ _ _ Er) as [L Sp]. destruct (Sp i name x dx a Hi) as (iv & q & Hiv & Hq & _ & Hn).
  cbn [fst snd rows_equation de_error de_derror vlen vat]. rewrite map_length. split; [exact L|]. split; [exact L|]. exists q, iv. split; [exact Hq|]. split; [exact Hiv|].
  assert (Hl : (i < List.length rs)%nat) by (apply nth_error_Some; congruence).
  set (F := fun y : nat * (R * R * R) => ((fun j => if Nat.eqb j (fst y) then 1 else 0), snd y) : (nat -> R) * (R * R * R)).
  match goal with |- context [nth i (map _ rs) ?d] => rewrite (nth_map_default F rs i d (0%nat, (0, 0, 0)) Hl) end.
  rewrite (nth_error_nth rs i (0%nat, (0, 0, 0)) Hn). unfold F. cbn [fst snd]. split; reflexivity.
Qed.
Print Assumptions C181_joints.

(** The gears: for each target, its position and its velocity minus those that its sources ask for, with the positions read at the index of the velocity plus one. *)
Theorem C181_gears pn log3 jlog b k v t g i target l : error_now pn log3 jlog b k v ->
  nth_error (ds_tasks (dm_solver b)) k = Some t -> dt_kind t = DGear g -> nth_error g i = Some (target, l) ->
  vlen (fst v) = List.length g /\ vlen (snd v) = List.length g /\
  vat (fst v) i = vat (st_q (r_state (dm_robot b))) (target + 1) - driven l (fun s => vat (st_q (r_state (dm_robot b))) (s + 1)%nat) /\
  vat (snd v) i = vat (st_qd (r_state (dm_robot b))) target - driven l (vat (st_qd (r_state (dm_robot b)))).
Proof.
  intros (t' & e & Ht & He & ->) Hk Kd Hi. assert (t' = t) as -> by congruence. unfold dtask_update in He. rewrite Kd in He.
  unfold gear_dynamics in He. bind He rs Er. injection He as <-. destruct (gear_drows_spec _ _ _ _ _ _ _ Er) as [L Sp].
  destruct (Sp i target l Hi) as ([row [[bb er] de]] & Hr & Hn). cbn [fst snd rows_equation de_error de_derror vlen vat].
  match goal with |- context [nth i rs ?d] => rewrite (nth_error_nth rs i d Hn) end. cbn [fst snd]. split; [exact L|]. split; [exact L|].
  unfold gear_drow in Hr. bind Hr x Ex. bind Hr y Ey. apply guard_inv in Hr. destruct Hr as [_ Hr]. bind Hr s Es. destruct s as [[row1 sq] sd]. injection Hr as <- <- <- <-.
  destruct (gear_dsources_spec _ _ _ _ _ _ _ _ _ _ 0 Es) as (_ & -> & ->). apply vec_get_spec in Ex, Ey. destruct Ex as [_ ->]. destruct Ey as [_ ->]. split; ring.
Qed.
Print Assumptions C181_gears.

(** The torques: an error that is always zero. *)
Theorem C181_torques pn log3 jlog b k v t l i : error_now pn log3 jlog b k v ->
  nth_error (ds_tasks (dm_solver b)) k = Some t -> dt_kind t = DTorque l -> (i < List.length l)%nat ->
  vlen (fst v) = List.length l /\ vlen (snd v) = List.length l /\ vat (fst v) i = 0 /\ vat (snd v) i = 0.
Proof.
  intros (t' & e & Ht & He & ->) Hk Kd Hi. assert (t' = t) as -> by congruence. unfold dtask_update in He. rewrite Kd in He.
  unfold torque_dynamics in He. bind He rs Er. injection He as <-. destruct (torque_rows_spec _ _ _ _ Er) as [L Sp].
  destruct (nth_error l i) as [[name tt]|] eqn:En; [|apply nth_error_None in En; lia]. destruct (Sp i name tt En) as (iv & q & qd & _ & _ & _ & _ & Hn).
  cbn [fst snd rows_equation de_error de_derror vlen vat]. match goal with |- context [nth i rs ?d] => rewrite (nth_error_nth rs i d Hn) end. auto.
Qed.
Print Assumptions C181_torques.

(** ** The wrenches of the contacts *)

(** What contact.wrench gives, after any program: the wrench of the last solution in which the contact was active; an empty vector if there was none. *)
Theorem C181_wrench_behaviour pn log3 jlog qr qp s r l b k w : dm_run pn log3 jlog qr qp (new_dbench s r) l = Some b -> wrench_of b k = Some w ->
  last_wrench pn log3 jlog qr qp (new_dbench s r) l k w \/ (vlen w = 0%nat /\ never_pushed pn log3 jlog qr qp (new_dbench s r) l k).
Proof. apply wrench_history. Qed.
Print Assumptions C181_wrench_behaviour.

Lemma solve_flags pb qr qp : p_rewrite (fst (solve pb qr qp)) = p_rewrite pb /\ p_reg (fst (solve pb qr qp)) = p_reg pb.
Proof.
  unfold solve. destruct (assemble (set_cons pb (map reset_active (p_cons pb))) qr) as [a|e|]; [|split; reflexivity|split; reflexivity].
  destruct (qp_sizes_ok (a_qp a)); [|split; reflexivity]. unfold finish. destruct (q_inf (qp (a_qp a))); [split; reflexivity|]. cbv zeta.
  match goal with |- context [if equality_violated ?x ?y then _ else _] => destruct (equality_violated x y); [split; reflexivity|] end.
  match goal with |- context [if x_has_nan ?x ?y then _ else _] => destruct (x_has_nan x y); [split; reflexivity|] end.
  match goal with |- context [update_variables ?x ?y] => destruct (update_variables x y) end; split; reflexivity.
Qed.

Lemma solved_state pn log3 jlog qr qp s r s1 r1 res : dready pn log3 jlog s r -> dsolve pn log3 jlog qr qp s r false = (s1, r1, Ok res) -> dr_success res = true ->
  exists pb cs, s1 = dset_contacts (dset_problem s pb) cs /\ p_rewrite pb = p_rewrite (ds_problem s) /\ p_reg pb = p_reg (ds_problem s) /\ Forall2 wrench_only (ds_contacts s) cs.
Proof.
  intros Rd H Hs. destruct (dready_built pn log3 jlog s r Rd) as (b & M & Js & Eb & F & _ & _ & Er). pose proof (df_reg _ _ _ _ _ _ _ _ F) as Eg.
  pose proof (dsolve_contacts pn log3 jlog qr qp _ _ _ _ _ _ H) as (_ & [(? & ? & ? & _ & _ & _ & Wo)|[_ X]] & _); [|rewrite (X _ _ _ H) in Hs; discriminate].
  unfold dsolve in H. rewrite Eb in H. destruct (solve_flags (db_problem b) qr qp) as [S1 S2]. destruct (solve (db_problem b) qr qp) as [pb o]. cbn [fst] in S1, S2.
  destruct o as [u|e|]; [|destruct e; try discriminate; injection H as _ _ <-; discriminate|discriminate].
  match type of H with context [match ?o with Ok _ => _ | Throw _ => _ | UB => _ end] => destruct o as [[w res']|e|] end; try discriminate.
  injection H as <- <- <-. exists pb, (fst w). split; [reflexivity|]. split; [congruence|]. split; [congruence|]. exact Wo.
Qed.

(** The robot of the example when the force that held it is withdrawn: it falls. *)
Definition drop_x (k : nat) : R := if Nat.eqb k 6 then 10 / 78 else if Nat.eqb k 2 then 110 / 78 - 10 else if Nat.ltb k 6 then 110 / 78 else 0.
Definition let_go (w : vec) : contact := Contact (CExternal 1 Local wext) false 1 0 0 0 w.
Definition dropped (pb : problem) (w : vec) : dsolver := dset_problem (dex_settings dex_base (1 / 10) true true 0 [] [let_go w]) pb.
Lemma dropped_ready pb w : dready dex_pin dex_log dex_jlog (dropped pb w) dex_robot.
Proof.
  constructor.
  - constructor.
    + reflexivity.
    + exact dex_well_formed.
    + repeat split.
    + intros t e [[] _].
    + intros c f k v [<-|[]] A; discriminate.
    + intros c tau cs c' [].
    + constructor.
  - cbn; lia.
  - left. reflexivity.
  - intros _. cbn. lra.
  - intros k x [].
  - cbn. lra.
  - intros t [].
  - intros c [<-|[]] A; discriminate.
  - intros c tau [].
Qed.
Lemma dropped_torques pb w M x k : mass_matrix dex_pin dex_robot = Ok M -> (k < 7)%nat ->
  torques_of dex_pin (dropped pb w) dex_robot M [None] x k =
    (x 0%nat + x 1%nat + x 2%nat + x 3%nat + x 4%nat + x 5%nat + x 6%nat + (if Nat.eqb k 6 then 11 else 1) * x k) + vat dex_bias k.
Proof.
  intros HM Hk. destruct (dex_mass M HM) as (_ & _ & Hm). unfold torques_of. cbn [contacts_effort ds_N dropped dset_problem dex_settings dex_base]. unfold damping_of, bias_of.
  rewrite (Rsum_ext 7 _ (fun j => mat_at dex_M k j * x j)) by (intros j Hj; rewrite Hm by (try exact Hk; exact Hj); reflexivity).
  cbn [ds_damping ds_gravity_only ds_extra vlen dropped dset_problem dex_settings dex_base].
  do 7 (destruct k as [|k]; [cbn; ring|]). lia.
Qed.
Lemma dropped_matrices pb w Js : contact_matrices dex_pin dex_log dex_jlog (dropped pb w) dex_robot Js -> Js = [None].
Proof.
  intros H. inversion H as [|c J l Js' Hc F E1 E2]; subst. inversion F; subst. destruct J as [J|]; [|reflexivity]. destruct Hc as [Hc _]. discriminate.
Qed.
Lemma dropped_independent pb w M Js tau : mass_matrix dex_pin dex_robot = Ok M -> contact_matrices dex_pin dex_log dex_jlog (dropped pb w) dex_robot Js ->
  independent_rows (unknowns (ds_N (dropped pb w)) Js) (equality_coefficients dex_pin dex_log dex_jlog (dropped pb w) dex_robot M Js tau).
Proof.
  intros HM HJs. rewrite (dropped_matrices pb w Js HJs). change (ds_N (dropped pb w)) with 7%nat. change (unknowns 7 [None]) with 7%nat.
  unfold equality_coefficients. cbn [ds_masked_fbase dropped dset_problem dex_settings ds_contacts ds_N ds_tasks ds_cons dex_base map wrench_equalities app flat_map co_kind let_go seq List.length].
  intros mu H. cbn [List.length] in *.
  assert (C : forall k j, (k < 6)%nat -> (j < 7)%nat -> coefficients (fun x => torques_of dex_pin (dropped pb w) dex_robot M [None] x k) j = 1 + (if Nat.eqb j k then 1 else 0)).
  { intros k j Hk Hj. unfold coefficients. rewrite !(dropped_torques pb w M _ k HM) by lia. unfold unit_row.
    do 6 (destruct k as [|k]; [do 7 (destruct j as [|j]; [cbn; ring|]); lia|]). lia. }
  assert (G : forall j, (j < 7)%nat -> Rsum 6 (fun k => mu k * (1 + (if Nat.eqb j k then 1 else 0))) = 0).
  { intros j Hj. specialize (H j Hj). cbn [Rsum nth] in H |- *. rewrite !C in H by lia. exact H. }
  pose proof (G 0%nat ltac:(lia)) as G0. pose proof (G 1%nat ltac:(lia)) as G1. pose proof (G 2%nat ltac:(lia)) as G2. pose proof (G 3%nat ltac:(lia)) as G3.
  pose proof (G 4%nat ltac:(lia)) as G4. pose proof (G 5%nat ltac:(lia)) as G5. pose proof (G 6%nat ltac:(lia)) as G6. cbn in G0, G1, G2, G3, G4, G5, G6.
  intros k Hk. do 6 (destruct k as [|k]; [lra|]). lia.
Qed.
Lemma dropped_allowed pb w M Js tau : mass_matrix dex_pin dex_robot = Ok M -> contact_matrices dex_pin dex_log dex_jlog (dropped pb w) dex_robot Js ->
  dallowed dex_pin dex_log dex_jlog (dropped pb w) dex_robot M Js tau drop_x.
Proof.
  intros HM HJs. rewrite (dropped_matrices pb w Js HJs). constructor.
  - discriminate.
  - intros _ j Hj. rewrite (dropped_torques pb w M _ j HM) by lia. do 6 (destruct j as [|j]; [cbn; lra|]). lia.
  - intros [|[|i]] c J' Hc HJ'; discriminate.
  - assert (T6 : torques_of dex_pin (dropped pb w) dex_robot M [None] drop_x 6 = 0).
    { rewrite (dropped_torques pb w M _ 6 HM) by lia. unfold drop_x. cbn. lra. }
    assert (S3 : 1 <= sqrt 3) by (rewrite <- sqrt_1 at 1; apply sqrt_le_1_alt; lra).
    constructor.
    + intros _ k Hk. assert (k = 6%nat) by (cbn in Hk; lia). subst k. rewrite T6. cbn. apply Rabs_le. lra.
    + intros _ _ k Hk. assert (k = 6%nat) by (cbn in Hk; lia). subst k. cbn. apply Rabs_le. lra.
    + intros _ k Hk. assert (k = 6%nat) by (cbn in Hk; lia). subst k. cbv zeta. rewrite T6. cbn. apply Rabs_le. lra.
    + intros _ k Hk. assert (k = 6%nat) by (cbn in Hk; lia). subst k. cbn. destruct (Rlt_dec 2 (1 / 2)); [lra|]. unfold braking_speed. replace (2 * (2 - 1 / 2) * 1) with 3 by lra. lra.
    + intros _ k Hk. assert (k = 6%nat) by (cbn in Hk; lia). subst k. cbn. destruct (Rlt_dec (1 / 2) (-1)); [lra|]. unfold braking_speed.
      match goal with |- context [sqrt ?a] => pose proof (sqrt_pos a) end. lra.
  - intros t e [[] _].
  - intros c cs [].
Qed.

(** A contact that the user disables keeps the wrench that it had, even after a solve that found a solution without it: here a robot that was held and that falls,
    with a contact that still tells a force of 10. *)
Definition drop_start : dbench := new_dbench (dex_settings dex_base (1 / 10) true true 0 [] []) dex_robot.
Definition drop_program : list dcall := [MAddContact (ExternalWrench 1 Local); MSetContact 0 (Wrench wext); MSolve false; MSetContact 0 (Active false)].
Theorem C181_inactive_refuted : exists b b' c w,
  dm_run dex_pin dex_log dex_jlog perfect_qr perfect_qp drop_start drop_program = Some b /\
  nth_error (ds_contacts (dm_solver b)) 0 = Some c /\ co_active c = false /\
  dm_step dex_pin dex_log dex_jlog perfect_qr perfect_qp b (MSolve false) = (b', Ok true) /\
  wrench_of b' 0 = Some w /\ vlen w = 6%nat /\ vat w 2 = 10.
Proof.
  destruct C126_example as (Hs & Hn & Ha & Hk & s1 & res & Hr & E1).
  destruct (C126_applied _ _ _ _ _ _ _ _ _ _ _ _ _ _ _ _ Hs perfect_qr_correct perfect_qp_correct E1 Hr Hn Ha Hk) as (c1 & N1 & K1 & L1 & W1).
  destruct (solved_state _ _ _ _ _ _ _ _ _ _ held_ready E1 Hr) as (pb & cs & -> & F1 & F2 & Wo). cbn [ds_contacts dset_contacts] in N1, Wo. change (ds_contacts held) with [hold] in Wo.
  inversion Wo as [|? c1' ? ? Hw Wn]; subst. inversion Wn; subst. cbn [nth_error] in N1. injection N1 as ->. unfold wrench_only in Hw. cbn [co_active hold] in Hw.
  set (w := co_wrench c1) in *. clearbody w.
  destruct (perfect_dsolve dex_pin dex_log dex_jlog (dropped pb w) dex_robot (dropped_ready pb w)) as (s2 & res2 & Hr2 & E2);
    [exact F1|cbn [ds_problem dropped dset_problem]; rewrite F2; cbn; lra|intros; now apply dropped_independent|intros M Js tau HM HJ; exists drop_x; now apply dropped_allowed|].
  destruct (solved_state _ _ _ _ _ _ _ _ _ _ (dropped_ready pb w) E2 Hr2) as (pb2 & cs2 & -> & _ & _ & Wo2). change (ds_contacts (dropped pb w)) with [let_go w] in Wo2.
  inversion Wo2 as [|? c2 ? ? Hw2 Wn2]; subst. inversion Wn2; subst. unfold wrench_only in Hw2. cbn [co_active let_go] in Hw2. subst c2.
  eexists. eexists. exists (let_go w), w.
  assert (St : dm_run dex_pin dex_log dex_jlog perfect_qr perfect_qp drop_start drop_program = Some (DBench (dropped pb w) dex_robot [])).
  { unfold drop_program. cbn [dm_run].
    change (dm_step dex_pin dex_log dex_jlog perfect_qr perfect_qp drop_start (MAddContact (ExternalWrench 1 Local))) with
      (DBench (dset_contacts (dm_solver drop_start) [make_contact (ExternalWrench 1 Local)]) dex_robot [], Ok true). cbv iota.
    match goal with |- context [dm_step ?a ?b ?c ?d ?e ?f (MSetContact 0 (Wrench wext))] =>
      change (dm_step a b c d e f (MSetContact 0 (Wrench wext))) with (DBench held dex_robot [], Ok true) end. cbv iota.
    cbn [dm_step dm_solver dm_robot]. rewrite E1. cbn [obind dm_errors].
    change (ds_tasks held) with (@nil dtask). cbn [update_memory fst]. destruct (before_update held dex_robot); cbn [dm_solver ds_contacts dset_contacts replace_nth dm_robot]; reflexivity. }
  split; [exact St|]. split; [reflexivity|]. split; [reflexivity|]. split.
  - cbn [dm_step dm_solver dm_robot]. rewrite E2. cbn [obind]. rewrite Hr2. reflexivity.
  - split; [reflexivity|]. split; [exact L1|]. exact (W1 2%nat ltac:(cbn; lia)).
Qed.
Print Assumptions C181_inactive_refuted.

(** A task asks the head of the example to go from 1/2 to 8/10; after dump_status its error is 3/10. Its target becomes 1/2: there is no error anymore, but the task
    still tells 3/10. *)
Definition stay_task : dtask := DTask (DJoints [("head"%string, (1 / 2, 0, 0))]) PHard 1 1 (-1).
Definition stale_program : list dcall := [MAddTask dex_task; MDump; MSetTask 0 stay_task].
Theorem C181_stale_refuted qr qp : exists b v v', dm_run dex_pin dex_log dex_jlog qr qp drop_start stale_program = Some b /\
  reported b 0 = Some v /\ vlen (fst v) = 1%nat /\ vat (fst v) 0 = 3 / 10 /\ error_now dex_pin dex_log dex_jlog b 0 v' /\ vlen (fst v') = 1%nat /\ vat (fst v') 0 = 0.
Proof.
  eexists. eexists. eexists. split; [unfold stale_program, drop_start; cbn; reflexivity|]. split; [unfold reported; cbn; reflexivity|]. split; [reflexivity|]. split; [cbn; lra|].
  split; [exists stay_task; eexists; split; [reflexivity|]; split; [cbn; reflexivity|reflexivity]|]. split; [reflexivity|]. cbn. lra.
Qed.
Print Assumptions C181_stale_refuted.
