(** C183: a call that names a frame or a joint that the robot does not have. *)
From Coq Require Import Reals List Arith Bool String Lia.
From Verif Require Import Base Geom3 Geometry_model Robot_model Manip_model ByName_model ByName_spec ByName_proofs.
Import ListNotations.
Open Scope R_scope.

(** A call about frames that names a frame the robot does not have throws, whichever of its frames it is. *)
Theorem C183_frames : forall pn hs inv r c f, about_frames c -> In f (frames_named c) -> no_frame r f ->
  run pn hs inv r c = Throw ERuntime.
Proof.
  intros pn hs inv r c f [_ Hc] Hf Hr. apply frame_missing in Hr as Hi.
  destruct c; cbn [frames_named joints_named] in *; try discriminate Hc; try (destruct Hf; fail);
    cbn [run]; unfold give, get_T_world_frame_name, get_T_a_b_name, set_T_world_frame_name, frame_jacobian_name,
      frame_jacobian_time_variation_name, relative_position_jacobian_name, static_gravity_compensation_torques_name,
      torques_from_acceleration_with_fixed_frame_name.
  all: repeat match type of Hf with In _ (_ :: _) => destruct Hf as [Hf|Hf]; [subst|] | In _ [] => destruct Hf end.
  all: try (rewrite Hi; reflexivity).
  all: unfold get_frame_index in *; destruct (position_of a _); cbn; rewrite ?Hi; reflexivity.
Qed.

(** A call about the position of a joint the robot does not have throws. *)
Theorem C183_positions : forall pn hs inv r c j, about_positions c -> In j (joints_named c) -> no_joint r j ->
  run pn hs inv r c = Throw ERuntime.
Proof.
  intros pn hs inv r c j Hc Hj Hr. destruct (joint_missing r j Hr) as [_ E].
  destruct c; try (destruct Hc; fail); cbn in Hj; destruct Hj as [->|[]];
    cbn [run]; unfold give, get_joint, set_joint, get_joint_limits, set_joint_limits, get_joint_offset; rewrite E; reflexivity.
Qed.

(** Every other call that names something the robot does not have is undefined behaviour: nothing is reported. *)
Theorem C183_unchecked_behaviour : forall pn hs inv r c, misnamed r c -> ~ about_frames c -> ~ about_positions c ->
  run pn hs inv r c = UB.
Proof.
  intros pn hs inv r c Hm Hf Hp.
  assert (A : frames_named c = [] \/ exists f j, c = Hessian f j).
  { destruct c; auto; try (exfalso; apply Hf; split; [discriminate|reflexivity]). right. eauto. }
  destruct A as [A|[f [j ->]]].
  - destruct Hm as [[f [H _]]|[j [Hj Hr]]]; [rewrite A in H; destruct H|].
    destruct (joint_missing r j Hr) as [E _].
    destruct c; try discriminate A; try (exfalso; apply Hp; exact Logic.I); cbn in Hj; destruct Hj as [->|[]];
      cbn [run]; unfold give, get_joint_size, get_joint_v_size, get_joint_velocity, set_joint_velocity, get_joint_acceleration,
        set_joint_acceleration, set_velocity_limit, set_torque_limit, set_rotor_inertia, set_gear_ratio, get_joint_v_offset;
      try (rewrite E; reflexivity).
    unfold joint_jacobian_name, joint_index. destruct Hr as [Hr _]. rewrite (position_none _ _ Hr). reflexivity.
  - cbn [run]. unfold give, get_frame_hessian_name, get_joint_v_offset.
    destruct Hm as [[g [[->|[]] Hr]]|[k [[->|[]] Hr]]].
    + destruct (joint_of (r_model r) j) as [k|e|] eqn:Ej; [|exfalso; exact (joint_of_quiet _ _ _ Ej)|reflexivity].
      cbn. unfold get_frame_hessian, get_frame_id. rewrite (position_none _ _ Hr), Nat.ltb_irrefl. reflexivity.
    + destruct (joint_missing r k Hr) as [E _]. rewrite E. reflexivity.
Qed.

(** The names that give a placement are exactly those that frame_names() lists. *)
Theorem C183_frame_names : forall pn hs inv r name,
  In name (frame_names r) <-> exists T, run pn hs inv r (Placement name) = Ok (APlace T).
Proof.
  intros pn hs inv r name. split.
  - intros H. destruct (in_first _ _ H) as [i [Hi L]]. exists (pn_frame pn (fst (r_seen r)) i).
    cbn [run]. unfold give, get_T_world_frame_name, get_T_world_frame. rewrite (frame_known _ _ _ Hi). cbn [obind].
    apply Nat.ltb_lt in L. unfold frame_names in L. rewrite L. reflexivity.
  - intros [T H]. destruct (in_dec string_dec name (frame_names r)) as [A|A]; [exact A|].
    rewrite (C183_frames pn hs inv r (Placement name) name) in H; [discriminate| |left; reflexivity|exact A].
    split; [discriminate|reflexivity].
Qed.

(** The placement of b in a, given for two names, takes the placement of a to the placement of b, both given for their names. *)
Theorem C183_between : forall pn hs inv r a b A B, run pn hs inv r (Placement a) = Ok (APlace A) -> run pn hs inv r (Placement b) = Ok (APlace B) ->
  rigid A -> exists T, run pn hs inv r (PlacementIn a b) = Ok (APlace T) /\ frame_mul A T = B.
Proof.
  intros pn hs inv r a b A B HA HB RA.
  assert (K : forall f F, run pn hs inv r (Placement f) = Ok (APlace F) ->
    exists i, get_frame_index r f = Ok i /\ get_T_world_frame pn r i = Ok F).
  { intros f F H. cbn [run] in H. unfold give, get_T_world_frame_name in H. destruct (get_frame_index r f) as [i|e|]; try discriminate H.
    cbn [obind] in H. destruct (get_T_world_frame pn r i) as [G|e|] eqn:E; try discriminate H. cbn [obind] in H. injection H as ->. eauto. }
  destruct (K _ _ HA) as [i [Ia Fa]]. destruct (K _ _ HB) as [j [Ib Fb]].
  exists (frame_mul (frame_inv A) B). split.
  - cbn [run]. unfold give, get_T_a_b_name. rewrite Ia, Ib. cbn [obind]. unfold get_T_a_b. rewrite Fa, Fb. reflexivity.
  - rewrite <- frame_mul_assoc, (frame_inv_r A RA). apply frame_mul_id_l.
Qed.

(** The Jacobians, torques and moves for the name of a frame are those of the first frame of this name. *)
Theorem C183_same_as_index : forall pn hs inv r f i, first_at f (frame_names r) i ->
  (forall T, run pn hs inv r (Move f T) = give ARobot (set_T_world_frame pn r i T)) /\
  (forall g j, first_at g (frame_names r) j -> run pn hs inv r (RelativeJacobian f g) = give AMat (relative_position_jacobian pn r i j)) /\
  run pn hs inv r (GravityTorques f) = give AVec (static_gravity_compensation_torques pn inv r i) /\
  (forall qdd_a, run pn hs inv r (FixedTorques qdd_a f) = give AVec (torques_from_acceleration_with_fixed_frame pn inv r qdd_a i)) /\
  (forall name j, find_joint (r_model r) name = Some j -> name <> "universe"%string ->
    run pn hs inv r (Hessian f name) = give AMat (get_frame_hessian hs r i (jt_idx_v j))).
Proof.
  intros pn hs inv r f i H. apply frame_known in H as Hi.
  repeat split; intros; cbn [run]; unfold set_T_world_frame_name, relative_position_jacobian_name, static_gravity_compensation_torques_name,
    torques_from_acceleration_with_fixed_frame_name, get_frame_hessian_name; rewrite ?Hi; cbn [obind]; try reflexivity.
  - match goal with H : first_at g _ j |- _ => rewrite (frame_known _ _ _ H) end. reflexivity.
  - unfold get_joint_v_offset, joint_of, get_frame_id.
    match goal with H : name <> _ |- _ => apply String.eqb_neq in H; rewrite H end.
    match goal with H : find_joint _ _ = _ |- _ => rewrite H end.
    cbn [obind]. change (m_frames (r_model r)) with (frame_names r). rewrite (position_first _ _ _ H). reflexivity.
Qed.

(** ** A robot with one joint and two frames *)

Definition arm_model : rmodel :=
  RModel 1 1 [Joint "shoulder" 0 1 0 1] ["base"; "hand"]%string frame_id (zeros 1) (zeros 1) (zeros 1) (zeros 1) (zeros 1) (zeros 1) [1].
Definition arm : robot := Robot arm_model (State (zeros 1) (zeros 1) (zeros 1)) (zeros 1, zeros 1).

(** Not every call reports a name the robot does not have. *)
Theorem C183_refuted : exists r c, misnamed r c /\ forall pn hs inv, run pn hs inv r c = UB.
Proof.
  exists arm, (GetVelocity "elbow").
  assert (H : misnamed arm (GetVelocity "elbow")).
  { right. exists "elbow"%string. split; [left; reflexivity|]. split; [|discriminate]. cbn. intros [K|[]]; discriminate K. }
  split; [exact H|]. intros. apply C183_unchecked_behaviour; [exact H| |].
  - intros [K _]. apply K. reflexivity.
  - intros K. exact K.
Qed.

(** The same name is reported when its position is asked. *)
Example C183_arm : forall pn hs inv,
  run pn hs inv arm (GetJoint "elbow") = Throw ERuntime /\ run pn hs inv arm (GetJoint "shoulder") = Ok (ANum 0) /\
  run pn hs inv arm (PlacementIn "base" "foot") = Throw ERuntime /\ run pn hs inv arm (PlacementIn "foot" "base") = Throw ERuntime /\
  run pn hs inv arm (Hessian "foot" "shoulder") = UB /\
  run pn hs inv arm (Placement "hand") = Ok (APlace (pn_frame pn (zeros 1) 1)) /\ first_at "hand" (frame_names arm) 1.
Proof.
  intros pn hs inv. repeat split.
  intros k L. destruct k as [|k]; [cbn; discriminate|lia].
Qed.

Print Assumptions C183_frames.
Print Assumptions C183_positions.
Print Assumptions C183_unchecked_behaviour.
Print Assumptions C183_frame_names.
Print Assumptions C183_between.
Print Assumptions C183_same_as_index.
Print Assumptions C183_refuted.
