(** Claims C172 (torques by joint) and C173 (set_joints). *)
From Coq Require Import Reals List Arith Bool String Lia Lra.
From Verif Require Import Base Linalg Geom3 Robot_model Robot_spec Robot_proofs Robot_props KinTasks_model DynTasks_model Dyn_model Dyn_spec Dyn_props Dyn_example Backends_proofs
  Problem_spec Humanoid_model Humanoid_spec Humanoid_props2 KinReg_proofs Dicts_model Dicts_spec Dicts_proofs.
Import ListNotations.
Open Scope R_scope.

(** ** C172 Torques by joint *)

(** The dictionary of the static torques has, for each joint, an effort that balances gravity together with a wrench at the frame. *)
Theorem C172_static pn inv r f : inverts inv -> jacobian_sized pn r f -> dynamics_sized pn r -> well_formed_robot r ->
  invertible (base_jacobian_t (frame_jacobian pn r f LocalWorldAligned)) ->
  exists d tau w, static_gravity_compensation_torques_dict pn inv r f = Ok d /\ by_joint r d tau /\
    (forall k, (k < 6)%nat -> tau k = 0) /\
    (forall k, (k < m_nv (r_model r))%nat -> tau k + wrench_effort (frame_jacobian pn r f LocalWorldAligned) w k = vat (generalized_gravity pn r) k).
Proof.
  intros Hi HJ Hd Hr Hv. destruct (C76_static_gravity pn inv r f Hi HJ Hd Hv) as (tau & w & E & L & Z & B). destruct Hr as (W & _).
  destruct (dict_made 0 r tau W) as (d & Ed & Bd).
  { intros j Hj _. destruct W as (_ & _ & Hs & _). destruct (Hs j Hj) as (_ & _ & H1 & H2). rewrite L. lia. }
  exists d, (vat tau), w. unfold static_gravity_compensation_torques_dict. rewrite E. cbn [obind]. split; [exact Ed|]. split; [|split; assumption].
  destruct Bd as [N D]. split; [exact N|]. intros name x. rewrite D. split; intros (Hn & j & A1 & A2 & A3); (split; [exact Hn|]; exists j; rewrite Nat.sub_0_r in *; auto).
Qed.
Print Assumptions C172_static.

(** The dictionary of the torques for an acceleration with a fixed frame: the effort of each joint is that of the vector of claim C109, which has no place
    for the floating base. *)
Theorem C172_fixed_frame pn inv r qdd_a f : inverts inv -> jacobian_sized pn r f -> dynamics_sized pn r -> well_formed_robot r -> floating_base r ->
  vlen qdd_a = (m_nv (r_model r) - 6)%nat -> invertible (base_jacobian_t (frame_jacobian pn r f LocalWorldAligned)) ->
  exists d tau M w, torques_from_acceleration_with_fixed_frame_dict pn inv r qdd_a f = Ok d /\ by_joint r d tau /\ mass_matrix pn r = Ok M /\
    (forall k, (k < 6)%nat -> vat (non_linear_effects pn r) k = wrench_effort (frame_jacobian pn r f LocalWorldAligned) w k) /\
    (forall k, (6 <= k < m_nv (r_model r))%nat ->
       Rsum (m_nv (r_model r) - 6) (fun j => mat_at M k (6 + j) * vat qdd_a j) + vat (non_linear_effects pn r) k =
       tau k + wrench_effort (frame_jacobian pn r f LocalWorldAligned) w k).
Proof.
  intros Hi HJ Hd Hr Hf Lq Hv. destruct (C109_behaviour pn inv r qdd_a f Hi HJ Hd Hr Lq Hv) as (tau & M & w & E & EM & L & U & A). destruct Hr as (W & _).
  destruct (dict_made 6 r tau W) as (d & Ed & Bd).
  { intros j Hj Hn. destruct (after_base r j W Hf Hj Hn). rewrite L. lia. }
  exists d, (fun k => vat tau (k - 6)), M, w. unfold torques_from_acceleration_with_fixed_frame_dict. rewrite E. cbn [obind].
  split; [exact Ed|]. split; [exact Bd|]. split; [exact EM|]. split; [exact U|]. intros k Hk. specialize (A (k - 6)%nat ltac:(lia)).
  replace (6 + (k - 6))%nat with k in A by lia. exact A.
Qed.
Print Assumptions C172_fixed_frame.

(** Without velocities, when the joints are not to be accelerated, the two functions return the same dictionary. *)
Theorem C172_at_rest pn inv r qdd_a f : inverts inv -> jacobian_sized pn r f -> dynamics_sized pn r -> well_formed_robot r -> floating_base r ->
  vlen qdd_a = (m_nv (r_model r) - 6)%nat -> invertible (base_jacobian_t (frame_jacobian pn r f LocalWorldAligned)) ->
  (forall k, (k < m_nv (r_model r) - 6)%nat -> vat qdd_a k = 0) ->
  (forall k, vat (pn_nle pn (st_q (r_state r)) (st_qd (r_state r))) k = vat (pn_gravity pn (st_q (r_state r))) k) ->
  exists d, static_gravity_compensation_torques_dict pn inv r f = Ok d /\ exists d', torques_from_acceleration_with_fixed_frame_dict pn inv r qdd_a f = Ok d' /\
    forall name x, In (name, x) d <-> In (name, x) d'.
Proof.
  intros Hi HJ Hd Hr Hf Lq Hv Hz Hg. destruct (C109_behaviour pn inv r qdd_a f Hi HJ Hd Hr Lq Hv) as (_ & M & _ & _ & EM & _).
  pose proof (fixed_explicit pn inv r qdd_a f M Hi HJ Hd Hr Lq Hv EM) as E1. pose proof (static_explicit pn inv r f Hi HJ Hd Hv) as E2. cbv zeta in E1, E2. destruct Hr as (W & _).
  unfold static_gravity_compensation_torques_dict, torques_from_acceleration_with_fixed_frame_dict. rewrite E1, E2. cbn [obind].
  match goal with |- exists d, torques_by_joint 0 r ?a = _ /\ exists d', torques_by_joint 6 r ?b = _ /\ _ => set (t0 := a); set (t6 := b) end.
  destruct (dict_made 0 r t0 W) as (d & Ed & Nd & Bd).
  { intros j Hj _. destruct W as (_ & _ & Hs & _). destruct (Hs j Hj) as (_ & _ & H1 & H2). cbn [t0 vlen]. lia. }
  destruct (dict_made 6 r t6 W) as (d' & Ed' & Nd' & Bd').
  { intros j Hj Hn. destruct (after_base r j W Hf Hj Hn). cbn [t6 vlen]. lia. }
  exists d. split; [exact Ed|]. exists d'. split; [exact Ed'|].
  assert (T : forall j, In j (m_joints (r_model r)) -> jt_name j <> "root_joint"%string -> vat t0 (jt_idx_v j - 0) = vat t6 (jt_idx_v j - 6)).
  { intros j Hj Hn. destruct (after_base r j W Hf Hj Hn) as [H1 H2]. cbn [t0 t6 vat]. rewrite Nat.sub_0_r. replace (6 + (jt_idx_v j - 6))%nat with (jt_idx_v j) by lia.
    rewrite (Rsum_zero_ext (m_nv (r_model r) - 6)) by (intros i Hi'; rewrite Hz by exact Hi'; ring).
    replace (vat (non_linear_effects pn r) (jt_idx_v j)) with (vat (generalized_gravity pn r) (jt_idx_v j)) by (symmetry; apply Hg).
    assert (F : forall u v : nat -> R, (forall i, u i = v i) -> forall k, wrench_effort (frame_jacobian pn r f LocalWorldAligned) u k = wrench_effort (frame_jacobian pn r f LocalWorldAligned) v k).
    { intros u v Huv k. unfold wrench_effort. apply Rsum_ext. intros i _. rewrite Huv. reflexivity. }
    rewrite (F _ (fun i => Rsum 6 (fun l => mat_at (inv (base_jacobian_t (frame_jacobian pn r f LocalWorldAligned))) i l * vat (non_linear_effects pn r) l))); [ring|].
    intros i. apply Rsum_ext. intros l _. f_equal. symmetry. apply Hg. }
  intros name x. rewrite Bd, Bd'. split; intros (Hn & j & A1 & A2 & A3); (split; [exact Hn|]; exists j; split; [exact A1|]; split; [exact A2|]);
    rewrite A3; [|symmetry]; apply T; try exact A1; congruence.
Qed.
Print Assumptions C172_at_rest.

(** The dictionary of the torques of a humanoid has the efforts of claim C140. *)
Theorem C172_humanoid pn inv h acc_a f (b : bool) tau : get_torques pn inv h acc_a f b = Ok tau -> vlen tau = m_nv (r_model (hr_robot h)) -> well_formed_robot (hr_robot h) ->
  exists d, get_torques_dict pn inv h acc_a f b = Ok d /\ by_joint (hr_robot h) d (vat tau).
Proof.
  intros E L (W & _). destruct (dict_made 0 (hr_robot h) tau W) as (d & Ed & N & D).
  { intros j Hj _. destruct W as (_ & _ & Hs & _). destruct (Hs j Hj) as (_ & _ & H1 & H2). rewrite L. lia. }
  exists d. unfold get_torques_dict. rewrite E. split; [exact Ed|]. split; [exact N|]. intros name x. rewrite D.
  split; intros (Hn & j & A1 & A2 & A3); (split; [exact Hn|]; exists j; rewrite Nat.sub_0_r in *; auto).
Qed.
Print Assumptions C172_humanoid.

(** The dictionary of the torques of the dynamics solver has the torques of its solution, for the robot of the solver. *)
Theorem C172_dynamics pn log3 jlog qr qp s r i s' r' res : dsound pn log3 jlog s r -> dsolve pn log3 jlog qr qp s r i = (s', r', Ok res) -> dr_success res = true ->
  exists d, tau_dict res r = Ok d /\ by_joint r d (vat (dr_tau res)).
Proof.
  intros Hd H Hs. destruct (C67_behaviour pn log3 jlog qr qp s r i s' r' res Hd H Hs) as (_ & _ & _ & _ & _ & _ & L & _). destruct Hd as [HN [W _] _ _ _ _ _].
  destruct (dict_made 0 r (dr_tau res) W) as (d & Ed & N & D).
  { intros j Hj _. destruct W as (_ & _ & Hw & _). destruct (Hw j Hj) as (_ & _ & H1 & H2). rewrite L, HN. lia. }
  exists d. split; [exact Ed|]. split; [exact N|]. intros name x. rewrite D.
  split; intros (Hn & j & A1 & A2 & A3); (split; [exact Hn|]; exists j; rewrite Nat.sub_0_r in *; auto).
Qed.
Print Assumptions C172_dynamics.

(** A robot with a head: its dictionary has one item. *)
Example C172_example : inverts some_inverse /\ jacobian_sized ex_pin2 ex_robot 2 /\ dynamics_sized ex_pin2 ex_robot /\ well_formed_robot ex_robot /\ floating_base ex_robot /\
  invertible (base_jacobian_t (frame_jacobian ex_pin2 ex_robot 2 LocalWorldAligned)) /\
  exists d, static_gravity_compensation_torques_dict ex_pin2 some_inverse ex_robot 2 = Ok d /\ map fst d = ["head"%string].
Proof.
  destruct C76_example as (A & B & C & D & _). pose proof ex_well_formed as W.
  do 4 (split; [assumption|]). split. { exists (Joint "root_joint" 0 7 0 6). cbn. auto. }
  split; [exact D|]. pose proof (static_explicit ex_pin2 some_inverse ex_robot 2 A B C D) as E. cbv zeta in E.
  unfold static_gravity_compensation_torques_dict. rewrite E. cbn [obind].
  eexists. split; [|shelve]. unfold torques_by_joint. cbn [ex_robot ex_model r_model m_joints joint_names map jt_name filter String.eqb Ascii.eqb Bool.eqb negb fold_left].
  cbn [obind get_joint_v_offset joint_of find_joint find r_model m_joints jt_name String.eqb Ascii.eqb Bool.eqb jt_idx_v guard Nat.leb vec_get vlen Nat.ltb Nat.sub].
  reflexivity. Unshelve. reflexivity.
Qed.

(** ** C173 set_joints *)

(** The targets after set_joints(d): those of d, where they are numbers; the others are not changed. The items whose key is not a string or whose value is
    not a number are skipped, and no exception is raised. *)
Theorem C173_set_joints l d joint : different_keys d ->
  joints_get (set_joints l d) joint = match given d joint with Some x => Ok x | None => joints_get l joint end.
Proof. intros H. unfold joints_get, set_joints. rewrite update_find by exact H. destruct (given d joint); reflexivity. Qed.
Print Assumptions C173_set_joints.

(** In the kinematics, set_joints is the same as calling set_joint for each item. *)
Theorem C173_kinematics l items : set_joints l (clean items) = fold_left (fun l e => joints_set l (fst e) (snd e)) items l.
Proof. apply update_clean. Qed.
Print Assumptions C173_kinematics.

(** In the dynamics, set_joint on the three maps is the function of the model of the tasks (claim C73). *)
Theorem C173_set_joint m joint x v a : NoDup (map fst (jm_joints m)) -> targets_read (maps_set_joint m joint x v a) = joints_dset (targets_read m) joint x v a.
Proof. apply read_set. Qed.
Print Assumptions C173_set_joint.

(** In the dynamics, set_joints keeps the velocity and the acceleration each joint had; a joint without target gets those that were set for it before, or 0. *)
Theorem C173_dynamics_behaviour m d joint : different_keys d ->
  name_find joint (targets_read (maps_set_joints m d)) =
  match given d joint with
  | Some x => Some (x, (match name_find joint (jm_djoints m) with Some v => v | None => 0 end), (match name_find joint (jm_ddjoints m) with Some a => a | None => 0 end))
  | None => name_find joint (targets_read m)
  end.
Proof.
  intros H. rewrite !read_find. unfold maps_set_joints. cbn [jm_joints jm_djoints jm_ddjoints]. rewrite update_find by exact H. destruct (given d joint); reflexivity.
Qed.
Print Assumptions C173_dynamics_behaviour.

(** set_joints_velocities gives their velocities to the joints that have a target, and changes nothing else. *)
Theorem C173_velocities m d joint : different_keys d ->
  name_find joint (targets_read (maps_set_joints_velocities m d)) =
  match name_find joint (targets_read m) with
  | Some (x, v, a) => Some (x, match given d joint with Some v' => v' | None => v end, a)
  | None => None
  end.
Proof.
  intros H. rewrite !read_find. unfold maps_set_joints_velocities. cbn [jm_joints jm_djoints jm_ddjoints]. rewrite update_find by exact H.
  destruct (name_find joint (jm_joints m)); [|reflexivity]. destruct (given d joint); reflexivity.
Qed.
Print Assumptions C173_velocities.

(** So that it is the same as calling set_joint for each item when none of these joints had a velocity or an acceleration. *)
Theorem C173_dynamics_partial m items joint : different_keys (clean items) -> NoDup (map fst (jm_joints m)) ->
  (forall e, In e items -> (name_find (fst e) (jm_djoints m) = None \/ name_find (fst e) (jm_djoints m) = Some 0) /\ (name_find (fst e) (jm_ddjoints m) = None \/ name_find (fst e) (jm_ddjoints m) = Some 0)) ->
  name_find joint (targets_read (maps_set_joints m (clean items))) =
  name_find joint (fold_left (fun l e => joints_dset l (fst e) (snd e) 0 0) items (targets_read m)).
Proof.
  intros Hk ND Hz. rewrite C173_dynamics_behaviour by exact Hk.
  assert (F : forall items l, different_keys (clean items) ->
    name_find joint (fold_left (fun l e => joints_dset l (fst e) (snd e) 0 0) items l) = match given (clean items) joint with Some x => Some (x, 0, 0) | None => name_find joint l end).
  { clear. unfold different_keys. induction items as [|[k x] items IH]; intros l H; [reflexivity|]. cbn [clean map flat_map fst snd app fold_left given] in *.
    inversion H as [|? ? Hn ND]; subst. rewrite (IH _ ND). unfold joints_dset. rewrite put_find, String.eqb_sym. destruct (String.eqb_spec k joint) as [->|]; [|reflexivity].
    replace (given (clean items) joint) with (@None R); [reflexivity|]. symmetry. clear -Hn. induction items as [|[k y] items IH]; [reflexivity|].
    cbn [clean map flat_map fst snd app In given] in *. destruct (String.eqb_spec k joint); [tauto|apply IH; tauto]. }
  rewrite (F items _ Hk). destruct (given (clean items) joint) as [x|] eqn:G; [|reflexivity].
  assert (Hin : In (joint, x) items).
  { clear -G. induction items as [|[k y] items IH]; [discriminate|]. cbn [clean map fst snd given] in G. destruct (String.eqb_spec k joint) as [->|]; [injection G as ->; left; reflexivity|right; apply IH; exact G]. }
  destruct (Hz _ Hin) as [Z1 Z2]. cbn [fst] in Z1, Z2. destruct Z1 as [->| ->], Z2 as [->| ->]; reflexivity.
Qed.
Print Assumptions C173_dynamics_partial.

(** It is not when one had. *)
Theorem C173_dynamics_refuted : exists m items joint, different_keys (clean items) /\ NoDup (map fst (jm_joints m)) /\
  name_find joint (targets_read (maps_set_joints m (clean items))) <>
  name_find joint (fold_left (fun l e => joints_dset l (fst e) (snd e) 0 0) items (targets_read m)).
Proof.
  exists (maps_set_joint (JointMaps [] [] []) "knee" 1 2 0), [("knee"%string, 3)], "knee"%string.
  split; [repeat constructor; intros []|]. split; [repeat constructor; intros []|]. cbn. intros [= H]. lra.
Qed.
Print Assumptions C173_dynamics_refuted.

Example C173_example : let d := clean [("knee"%string, 1); ("hip"%string, 2)] ++ [(None, Some 3); (Some "ankle"%string, None)] in
  different_keys d /\ joints_get (set_joints [("ankle"%string, 4)] d) "knee" = Ok 1 /\ joints_get (set_joints [("ankle"%string, 4)] d) "ankle" = Ok 4.
Proof.
  cbv zeta. split; [|split; reflexivity]. unfold different_keys. cbn. repeat constructor; cbn; intuition discriminate.
Qed.
