(** A robot that walks on the spot, then forwards (examples of C144 to C146), and the robot that is not where its walk is. *)
From Coq Require Import Reals List ZArith Bool String Lra Lia.
From Verif Require Import Base Linalg Angle Geom3 Tools_model Geometry_model Geometry_spec Geometry_proofs Geometry_props Spline_model Spline_spec Footsteps_model Footsteps_spec Footsteps_proofs Footsteps_proofs2 Footsteps_props Robot_model Robot_spec Robot_proofs Robot_props Wpg_model Humanoid_props3 Dummy_model Dummy_spec Dummy_proofs Dummy_props.
Import ListNotations.
Open Scope R_scope.

Definition dx_params : wparams := WParams ex_params (3 / 10) (1 / 10) (4 / 100) (1 / 5) 0 0 0 0 [] [].
Lemma dx_params_ok : dparams_ok dx_params.
Proof. split; [exact ex_limits|]. cbn. lra. Qed.
(** Inverse kinematics: the robot goes to x = 1, and its data is that of before. *)
Definition dx_ik (r : robot) (T : frame * frame * frame) : outcome robot := Ok (Robot (r_model r) (State (hx_q 1 0) (zeros 26) (zeros 26)) (st_q (r_state r), zeros 26)).
Lemma dx_ik_works : ik_works hx_model dx_ik.
Proof. intros r T (Em & Uq & Us). eexists. split; [reflexivity|]. split; [exact Em|]. split; [apply hx_unit|exact Uq]. Qed.
Lemma dx_feet : feet_found hx_pin hx_model hx_moving 2 3.
Proof. split; [exact hx_frames|]. split; [exact rotation_id|]. split; [reflexivity|]. split; [reflexivity|]. unfold hx_moving. cbn. lia. Qed.

Lemma overlap_apart x y : 1 / 8 <= y - x -> forall u v s s', overlap (create_footstep ex_params s (planar u y 0)) (create_footstep ex_params s' (planar v x 0)) (/ 100) = false.
Proof.
  intros H u v s s'. destruct (overlap _ _ _) eqn:E; [|reflexivity]. exfalso. apply overlap_sound in E.
  - destruct E as (q & (a & b & A & B & Q) & (a' & b' & A' & B' & Q')). cbv zeta in *. rewrite Q in Q'. apply (f_equal snd) in Q'. cbn in *. rewrite sin_0, cos_0 in Q'.
    unfold Rabs in B, B'. destruct (Rcase_abs b), (Rcase_abs b'); lra.
  - split; [apply rotation_z|]. cbn. lra.
  - split; [apply rotation_z|]. cbn. lra.
  - cbn. lra.
  - cbn. lra.
  - cbn. lra.
  - cbn. lra.
Qed.

Example C144_example : exists w w', new_walk hx_pin dx_ik Ellipsoid dx_params (hx_robot 3 1) = (w, Ok tt) /\ walk_ok Ellipsoid dx_params w /\ robot_ok hx_model (dw_robot w) /\
  dcalls hx_pin dx_ik Ellipsoid dx_params w [DUpdate (1 / 2); DNext (1 / 20) 0 0; DUpdate (1 / 3); DPlace (Frame (rot_z 1) (V3 1 2 3)); DUpdate 1; DNext 0 0 0] = (w', Ok tt) /\
  support_of w = Right /\ support_of w' = Right.
Proof.
  destruct (C144_new hx_pin dx_ik Ellipsoid dx_params (hx_robot 3 1) dx_params_ok (hx_unit 0 0) dx_ik_works) as (w & E & W & Rk & S & _). exists w.
  destruct (C144_total hx_pin dx_ik Ellipsoid dx_params hx_model hx_moving 2 3 [DUpdate (1 / 2); DNext (1 / 20) 0 0; DUpdate (1 / 3); DPlace (Frame (rot_z 1) (V3 1 2 3)); DUpdate 1; DNext 0 0 0] dx_params_ok dx_feet dx_ik_works w W Rk) as (w' & E' & _).
  exists w'. split; [exact E|]. split; [exact W|]. split; [exact Rk|]. split; [exact E'|]. split; [exact S|].
  destruct (C144_history _ _ _ _ _ dx_params_ok w w' _ W E') as [_ B]. specialize (B eq_refl). cbn [filter is_next List.length Nat.odd Nat.even negb] in B. rewrite xorb_false_r in B. unfold support_of in *. rewrite B. exact S.
Qed.

(** The first step forwards is made as it is asked for. *)
Example C144_step_example : exists w w', new_walk hx_pin dx_ik Ellipsoid dx_params (hx_robot 3 1) = (w, Ok tt) /\ next_step Ellipsoid dx_params w (1 / 20) 0 0 = (w', Ok tt) /\
  dw_left w' = planar 0 (1 / 10) 0 /\ dw_right w' = planar 0 (- (1 / 10)) 0 /\ dw_next w' = planar (1 / 20) (- (1 / 10)) 0.
Proof.
  destruct (C144_new hx_pin dx_ik Ellipsoid dx_params (hx_robot 3 1) dx_params_ok (hx_unit 0 0) dx_ik_works) as (w & E & W & Rk & S & L & R & N & _). exists w.
  destruct (C144_next_step Ellipsoid dx_params w (1 / 20) 0 0 dx_params_ok W) as (w' & E' & W' & S' & F1 & F2 & St & _). exists w'. split; [exact E|]. split; [exact E'|].
  rewrite S in S', F2. cbn [other_side] in S'. rewrite S' in *. cbn [foot_of] in *.
  assert (L' : dw_left w' = planar 0 (1 / 10) 0) by (rewrite F1, N, L; cbn; f_equal; lra). split; [exact L'|].
  assert (R' : dw_right w' = planar 0 (- (1 / 10)) 0) by (rewrite F2, R; cbn; f_equal; lra). split; [exact R'|].
  rewrite F1 in L'. rewrite L' in St. destruct St as (k & _ & _ & EU & K).
  assert (Ew : wanted (w_base dx_params) Left (V3 (1 / 20) 0 0) = V3 (1 / 20) 0 0) by (unfold wanted; cbn; rewrite Rabs_R0; apply V3_ext; cbn; lra).
  rewrite Ew in *.
  assert (El : landing (w_base dx_params) Left (planar 0 (1 / 10) 0) (V3 (1 / 20) 0 0) = planar (1 / 20) (- (1 / 10)) 0).
  { unfold landing. cbn [vx vy vz lateral dx_params w_base ex_params p_feet_spacing]. rewrite planar_mul, cos_0, sin_0. f_equal; lra. }
  assert (k = 1) as ->.
  { apply K; [|rewrite El, overlap_sym; apply overlap_apart; lra].
    unfold allowed, max_dx. cbn [vx vy vz]. destruct (Rle_dec 0 (1 / 20)); [|lra]. cbn. lra. }
  rewrite EU, v3_scale_1. exact El.
Qed.

Example C145_example : exists w w', walk_ok Ellipsoid dx_params w /\ update dx_ik dx_params w (1 / 2) = (w', Ok tt) /\ lift_height dx_params (1 / 2) = 4 / 100 /\ lift_height dx_params (1 / 5) = 2 / 100 /\ vz (fr_t (target_of_foot w' Left)) = 4 / 100.
Proof.
  destruct (C144_new hx_pin dx_ik Ellipsoid dx_params (hx_robot 3 1) dx_params_ok (hx_unit 0 0) dx_ik_works) as (w & E & W & Rk & S & _). exists w.
  destruct (C144_total hx_pin dx_ik Ellipsoid dx_params hx_model hx_moving 2 3 [DUpdate (1 / 2)] dx_params_ok dx_feet dx_ik_works w W Rk) as (w' & E' & _). cbn [dcalls dcall] in E'.
  assert (Eu : update dx_ik dx_params w (1 / 2) = (w', Ok tt)) by (destruct (update dx_ik dx_params w (1 / 2)) as [w1 [[]| |]]; congruence).
  exists w'. split; [exact W|]. split; [exact Eu|].
  assert (H2 : lift_height dx_params (1 / 2) = 4 / 100) by (apply (C145_height dx_params dx_params_ok); [cbn; lra|]; cbn; unfold Rabs; destruct (Rcase_abs _); lra).
  split; [exact H2|]. split.
  - unfold lift_height, smooth. cbn [dx_params w_rise_ratio w_foot_height]. cbv zeta. destruct (Rle_dec _ 0); [lra|]. destruct (Rle_dec _ _); [|lra]. field.
  - destruct (C145_update dx_ik Ellipsoid dx_params w (1 / 2) w' _ dx_params_ok W Eu) as (_ & _ & _ & Z & _). rewrite S in Z. cbn [other_side] in Z. rewrite Z. exact H2.
Qed.

Example C146_example : exists w, walk_ok Ellipsoid dx_params w /\ robot_ok hx_model (dw_robot w) /\ up_to_date (dw_robot w) /\ feet_found hx_pin hx_model hx_moving 2 3.
Proof.
  destruct (C144_new hx_pin dx_ik Ellipsoid dx_params (hx_robot 3 1) dx_params_ok (hx_unit 0 0) dx_ik_works) as (w & E & W & Rk & S & _).
  destruct (place_robot hx_pin Ellipsoid dx_params hx_model hx_moving 2 3 w frame_id dx_feet W Rk) as (r & E' & Rr & _).
  exists (dw_set_robot (replaced w frame_id) (update_kinematics r)). split; [exact (replaced_ok Ellipsoid dx_params w frame_id W)|]. split; [exact Rr|]. split; [reflexivity|exact dx_feet].
Qed.

(** After an update, update_T_world_support does not put the foot of the robot where it puts the one of the walk. *)
Theorem C146_robot_refuted : exists pn m moving i j ik c p r w w', dparams_ok p /\ feet_found pn m moving i j /\ ik_works m ik /\ r_model r = m /\ new_walk pn ik c p r = (w, Ok tt) /\
  update_T_world_support pn w frame_id = (w', Ok tt) /\ support_of w' = Right /\ foot_of w' Right = frame_id /\
  get_T_world_frame_name pn (dw_robot w') "right_foot" <> Ok (foot_of w' Right).
Proof.
  destruct (C144_new hx_pin dx_ik Ellipsoid dx_params (hx_robot 3 1) dx_params_ok (hx_unit 0 0) dx_ik_works) as (w & E & W & Rk & S & _).
  destruct (place_robot hx_pin Ellipsoid dx_params hx_model hx_moving 2 3 w frame_id dx_feet W Rk) as (r & E' & (Er & _) & _ & G).
  exists hx_pin, hx_model, hx_moving, 2%nat, 3%nat, dx_ik, Ellipsoid, dx_params, (hx_robot 3 1), w. eexists.
  split; [exact dx_params_ok|]. split; [exact dx_feet|]. split; [exact dx_ik_works|]. split; [reflexivity|]. split; [exact E|]. split; [exact E'|].
  destruct (C146_feet hx_pin Ellipsoid dx_params w frame_id _ _ W E') as (Ft & Sf & _).
  assert (Fi : flatten_on_floor frame_id = frame_id) by (rewrite <- planar_0; apply C43_planar). rewrite Sf, S, Fi in Ft. split; [rewrite Sf; exact S|]. split; [exact Ft|]. rewrite Ft.
  assert (Eb : dw_support_left w = false) by (unfold support_of in S; destruct (dw_support_left w); [discriminate|reflexivity]).
  assert (Q : st_q (r_state (dw_robot w)) = hx_q 1 0 /\ fst (r_seen (dw_robot w)) = hx_q 0 0).
  { clear - E. unfold new_walk, reset_walk in E. destruct (add_points _ _) as [s [[]| |]]; try discriminate.
    destruct (next_support Ellipsoid dx_params (dw_set_feet (dw_set_robot (dw_set_lift (DWalk (hx_robot 3 1) (5 / 100) false (new_spline false) frame_id frame_id frame_id v3_zero (frame_id, frame_id, frame_id)) s)
      (update_kinematics (reset hx_pin (hx_robot 3 1)))) false (translation 0 (p_feet_spacing (w_base dx_params) / 2) 0) (translation 0 (- p_feet_spacing (w_base dx_params) / 2) 0) frame_id) 0 0 0 ex_limits) as (U & EU & _).
    cbn [dw_set_lift dw_robot dw_set_robot dw_next] in E. cbn [dw_set_lift dw_set_robot] in EU. rewrite EU in E. unfold update in E. destruct (pos _ _) as [s' [z| |]]; try discriminate.
    unfold solve_walk, dx_ik in E. injection E as <-. split; reflexivity. }
  destruct Q as [Q1 Q2]. specialize (G 3%nat ltac:(unfold hx_moving; lia)). rewrite Eb, Q1, Q2, Fi, frame_mul_id_l in G.
  cbn [update_kinematics r_model] in Er. unfold get_T_world_frame_name, get_frame_index, get_T_world_frame. cbn [dw_set_robot dw_robot update_kinematics r_model r_seen fst]. rewrite Er. cbn [hx_model m_frames position_of String.eqb Ascii.eqb Bool.eqb option_map obind guard List.length Nat.ltb Nat.leb].
  rewrite G, !hx_at by (try reflexivity; lia). intros K. injection K as K _. revert K. cbn. lra.
Qed.
Print Assumptions C146_robot_refuted.
