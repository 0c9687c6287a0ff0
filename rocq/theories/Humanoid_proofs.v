From Coq Require Import Reals List ZArith Bool String Lra Lia.
From Verif Require Import Base Linalg Angle Geom3 Tools_model Geometry_model Geometry_spec Geometry_proofs Geometry_props Footsteps_model Robot_model Robot_spec Robot_proofs Robot_props Humanoid_model Humanoid_spec.
Import ListNotations.
Open Scope R_scope.

(** set_T_world_frame right after update_kinematics. *)
Lemma place_frame pn moving r f T : frames_correct pn (r_model r) moving -> rigid (m_root (r_model r)) -> unit_base (st_q (r_state r)) ->
  body_frame moving r f -> rigid T ->
  exists r', set_T_world_frame pn (update_kinematics r) f T = Ok r' /\ r_model r' = r_model r /\ unit_base (st_q (r_state r')) /\
    same_joints (st_q (r_state r')) (st_q (r_state r)) /\ st_qd (r_state r') = st_qd (r_state r) /\ st_qdd (r_state r') = st_qdd (r_state r) /\
    (forall g, moving g -> pn_frame pn (st_q (r_state r')) g =
       frame_mul T (frame_mul (frame_inv (pn_frame pn (st_q (r_state r)) f)) (pn_frame pn (st_q (r_state r)) g))) /\
    pn_frame pn (st_q (r_state r')) f = T.
Proof.
  intros Hf Hr Hq (Hl & Hm) HT.
  destruct (C74_stale_behaviour pn moving (update_kinematics r) f T Hf Hr Hq Hq Hl Hm HT) as (r' & E & Hq' & Hj & Ed & Edd & Em & _ & Hg).
  exists r'. split; [exact E|]. split; [exact Em|]. split; [exact Hq'|]. split; [exact Hj|]. split; [exact Ed|]. split; [exact Edd|].
  split; [exact Hg|]. rewrite Hg by exact Hm. cbn [update_kinematics r_seen r_state fst].
  assert (Rg : rigid (pn_frame pn (st_q (r_state r)) f)).
  { destruct Hf as (rel & H1 & _ & H3). rewrite H3 by assumption. apply rigid_mul; [apply rigid_mul; [exact Hr|now apply q_base_rigid]|apply H1]. }
  rewrite frame_inv_l by exact Rg. apply frame_mul_id_r.
Qed.

Lemma body_rigid pn moving h f : hsound pn moving h -> moving f -> rigid (at_frame pn h f).
Proof.
  intros ((rel & H1 & _ & H3) & Hr & Hq & _) Hm. unfold at_frame. rewrite H3 by assumption.
  apply rigid_mul; [apply rigid_mul; [exact Hr|now apply q_base_rigid]|apply H1].
Qed.

Lemma get_frame_ok pn r f : (f < List.length (m_frames (r_model r)))%nat -> get_T_world_frame pn r f = Ok (pn_frame pn (fst (r_seen r)) f).
Proof. intros H. unfold get_T_world_frame, guard. apply Nat.ltb_lt in H. now rewrite H. Qed.

(** What placing the robot by its support does. *)
Definition placed (pn : pin) (moving : nat -> Prop) (h h' : hrobot) (T : frame) : Prop :=
  hsound pn moving h' /\ r_model (hr_robot h') = r_model (hr_robot h) /\ up_to_date (hr_robot h') /\
  hr_frame h' = hr_frame h /\ hr_side h' = hr_side h /\ hr_left h' = hr_left h /\ hr_right h' = hr_right h /\ hr_trunk h' = hr_trunk h /\ hr_T h' = T /\
  same_joints (st_q (r_state (hr_robot h'))) (st_q (r_state (hr_robot h))) /\ st_qd (r_state (hr_robot h')) = st_qd (r_state (hr_robot h)) /\
  st_qdd (r_state (hr_robot h')) = st_qdd (r_state (hr_robot h)) /\
  at_frame pn h' (hr_frame h') = T /\
  (forall g, moving g -> at_frame pn h' g = frame_mul T (frame_mul (frame_inv (at_frame pn h (hr_frame h))) (at_frame pn h g))).

Lemma place_support pn moving h T : hsound pn moving h -> rigid T ->
  exists r', set_T_world_frame pn (update_kinematics (hr_robot h)) (hr_frame h) T = Ok r' /\
    placed pn moving h (with_robot (with_support h (hr_frame h) (hr_side h) T) (update_kinematics r')) T.
Proof.
  intros (H1 & H2 & H3 & H4 & H5 & H6 & H7 & H8 & H9) HT.
  destruct (place_frame pn moving (hr_robot h) (hr_frame h) T H1 H2 H3 H4 HT) as (r' & E & Em & Hq & Hj & Ed & Edd & Hg & Hf).
  exists r'. split; [exact E|]. unfold placed, hsound, body_frame, at_frame, up_to_date in *.
  cbn [with_robot with_support update_kinematics hr_robot hr_frame hr_side hr_left hr_right hr_trunk hr_T r_model r_state r_seen] in *. rewrite Em.
  do 2 (split; [solve [auto 20]|]). split; [reflexivity|]. do 6 (split; [reflexivity|]). auto 10.
Qed.

Lemma floor_spec pn moving h : hsound pn moving h -> exists h', ensure_on_floor pn h = Ok h' /\ placed pn moving h h' (hr_T h).
Proof.
  intros Hh. destruct (place_support pn moving h (hr_T h) Hh) as (r' & E & P); [apply Hh|].
  unfold ensure_on_floor. rewrite E. cbn [obind]. eexists. split; [reflexivity|].
  destruct h; exact P.
Qed.

Lemma oriented_spec pn moving h a : hsound pn moving h -> rotation a ->
  exists h' T, ensure_on_floor_oriented pn h a = Ok h' /\ update_from_imu pn h a = Ok h' /\ placed pn moving h h' T /\
    fr_t T = fr_t (hr_T h) /\ fr_R (at_frame pn h' (hr_trunk h')) = a.
Proof.
  intros Hh Ha. pose proof Hh as (_ & _ & _ & (L1 & M1) & _ & _ & (L4 & M4) & _ & _).
  pose proof (body_rigid _ _ _ _ Hh M4) as R4. pose proof (body_rigid _ _ _ _ Hh M1) as R1.
  set (D := frame_mul (frame_inv (at_frame pn h (hr_trunk h))) (at_frame pn h (hr_frame h))).
  set (T := Frame (m3_mul a (fr_R D)) (fr_t (hr_T h))).
  assert (HD : rigid D) by (apply rigid_mul; [now apply rigid_inv|exact R1]).
  assert (HT : rigid T) by (apply rotation_mul; assumption).
  destruct (place_support pn moving h T Hh HT) as (r' & E & P).
  assert (G : get_T_a_b pn (update_kinematics (hr_robot h)) (hr_trunk h) (hr_frame h) = Ok D).
  { unfold get_T_a_b. rewrite !get_frame_ok by assumption. reflexivity. }
  eexists. exists T. unfold ensure_on_floor_oriented, update_from_imu. rewrite G. cbn [obind]. fold T. rewrite E. cbn [obind].
  split; [reflexivity|]. split; [reflexivity|]. split; [exact P|]. split; [reflexivity|].
  destruct P as (_ & _ & _ & _ & _ & _ & _ & Et & _ & _ & _ & _ & _ & Hg). rewrite Hg by exact M4.
  unfold T, D, frame_mul, frame_inv. cbn [fr_R]. rewrite !m3_mul_assoc.
  rewrite <- (m3_mul_assoc (fr_R (at_frame pn h (hr_frame h)))), (rotation_r _ R1), m3_mul_id_l. rewrite (proj1 R4), m3_mul_id_r. reflexivity.
Qed.

(** A frame that is flat on the floor. *)
Lemma flat_flatten W : rigid W -> flat W -> flatten_on_floor W = W.
Proof.
  destruct W as [A t]. unfold rigid, flat, flatten_on_floor. cbn [fr_R fr_t]. intros [O D] [Z1 Z2]. pose proof (orthogonal_r _ O) as O2. unfold orthogonal in O.
  assert (Q : m02 A = 0 /\ m12 A = 0 /\ m22 A = 1). { unfold m3_vec in Z2. cbn [vx vy vz] in Z2. injection Z2 as a b c. lra. } destruct Q as (Q1 & Q2 & Q3).
  assert (Q : m20 A = 0 /\ m21 A = 0). { assert (V := f_equal m22 O2). unfold m3_mul, m3_t, m3_id in V. cbn [m00 m01 m02 m10 m11 m12 m20 m21 m22] in V. rewrite Q3 in V. split; nra. } destruct Q as [Q4 Q5].
  assert (N : m00 A * m00 A + m10 A * m10 A = 1). { assert (V := f_equal m00 O). unfold m3_mul, m3_t, m3_id in V. cbn [m00 m01 m02 m10 m11 m12 m20 m21 m22] in V. rewrite Q4 in V. lra. }
  assert (V1 := f_equal m01 O). unfold m3_mul, m3_t, m3_id in V1. cbn [m00 m01 m02 m10 m11 m12 m20 m21 m22] in V1. rewrite Q4, Q5 in V1.
  unfold m3_det in D. rewrite Q1, Q2, Q3, Q4, Q5 in D.
  assert (Hx : m00 A <> 0 \/ m10 A <> 0) by (destruct (Req_dec (m00 A) 0); [right; nra|left; assumption]).
  destruct (atan2_polar (m10 A) (m00 A) Hx) as [P1 P2]. rewrite N, sqrt_1, ?Rmult_1_l, ?Rdiv_1 in P1, P2.
  assert (D' : m00 A * m11 A - m01 A * m10 A = 1) by lra.
  assert (W1 : m01 A = - m10 A).
  { transitivity (m01 A * (m00 A * m00 A + m10 A * m10 A)); [rewrite N; ring|].
    transitivity (m00 A * (m00 A * m01 A + m10 A * m11 A + 0 * 0) - m10 A * (m00 A * m11 A - m01 A * m10 A)); [ring|]. rewrite V1, D'. ring. }
  assert (W2 : m11 A = m00 A).
  { transitivity (m11 A * (m00 A * m00 A + m10 A * m10 A)); [rewrite N; ring|].
    transitivity (m10 A * (m00 A * m01 A + m10 A * m11 A + 0 * 0) + m00 A * (m00 A * m11 A - m01 A * m10 A)); [ring|]. rewrite V1, D'. ring. }
  rewrite frame_yaw_first. unfold rot_z. f_equal.
  - apply M3_ext; cbn [m00 m01 m02 m10 m11 m12 m20 m21 m22]; rewrite ?P1, ?P2; lra.
  - apply V3_ext; cbn [vx vy vz]; auto.
Qed.
