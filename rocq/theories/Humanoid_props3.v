(** A humanoid that meets the hypotheses of C138 to C143: 26 degrees of freedom, a left foot that slides under its trunk along the axis x when its first joint moves, a right foot, and a head. *)
From Coq Require Import Reals List ZArith Bool String Lra Lia ClassicalEpsilon.
From Verif Require Import Base Linalg Angle Geom3 Tools_model Geometry_model Geometry_spec Geometry_proofs Footsteps_model Robot_model Robot_spec Robot_proofs Robot_props DynSet_props Humanoid_model Humanoid_spec Humanoid_proofs Humanoid_props Humanoid_proofs2 Humanoid_proofs3 Humanoid_props2.
Import ListNotations.
Open Scope R_scope.

Definition hx_model : rmodel := RModel 27 26 [Joint "root_joint" 0 7 0 6]
  ["universe"; "trunk"; "left_foot"; "right_foot"; "left_ps_0"; "left_ps_1"; "left_ps_2"; "left_ps_3"; "right_ps_0"; "right_ps_1"; "right_ps_2"; "right_ps_3"; "head_base"; "head_pitch"; "camera"]%string
  frame_id (zeros 27) (zeros 27) (zeros 26) (zeros 26) (zeros 26) (zeros 26) [1].
Definition hx_left (f : nat) : bool := Nat.eqb f 2 || (Nat.leb 4 f && Nat.leb f 7).
Definition hx_right (f : nat) : bool := Nat.eqb f 3 || (Nat.leb 8 f && Nat.leb f 11).
Definition hx_joint (q : vec) : R := if Nat.ltb 7 (vlen q) then vat q 7 else 0.
Definition hx_rel (q : vec) (f : nat) : frame :=
  Frame m3_id (if hx_left f then V3 (hx_joint q) (1/10) (-1/2) else if hx_right f then V3 0 (-1/10) (-1/2) else V3 0 0 (if Nat.leb 12 f then INR (f - 9) / 10 else 0)).
Definition hx_jac (f : nat) : mat := Mat 6 26 (fun i j => (if Nat.eqb i j then 1 else 0) + (if hx_left f && Nat.eqb i 0 && Nat.eqb j 6 then 1 else 0)).
Definition hx_q (a b : R) : vec := Vec 27 (fun k => match k with 0%nat => a | 6%nat => 1 | 7%nat => b | _ => 0 end).
Definition hx_pin : pin := Pin
  (fun q f => if Nat.eqb f 0 then frame_id else frame_mul (frame_mul frame_id (q_base q)) (hx_rel q f))
  (fun _ f _ => hx_jac f) (fun _ _ _ _ => Mat 6 26 (fun _ _ => 0))
  (fun q v => q) (fun q q' => zeros 26) (hx_q 0 0) (fun q => V3 (vat q 0 + vat q 7 / 2) (vat q 1) (vat q 2))
  (fun _ => Mat 3 26 (fun i j => (if Nat.eqb i j then 1 else 0) + (if Nat.eqb i 0 && Nat.eqb j 6 then 1 / 2 else 0))) (fun _ _ => Mat 3 26 (fun _ _ => 0))
  (fun _ => Mat 6 26 (fun _ _ => 0)) (fun _ => Mat 26 26 (fun i j => if Nat.eqb i j then 2 else 0))
  (fun _ => Vec 26 (fun k => if Nat.eqb k 2 then 20 else 0)) (fun _ _ => Vec 26 (fun k => if Nat.eqb k 2 then 20 else INR k)) (fun _ _ _ => Mat 6 26 (fun i j => if Nat.eqb i j then 1 else 0))
  (fun _ _ _ _ => Mat 6 26 (fun _ _ => 0)).
Definition hx_qd : vec := Vec 26 (fun k => if Nat.eqb k 6 then 1 else 0).
Definition hx_robot (a b : R) : robot := Robot hx_model (State (hx_q a b) hx_qd (zeros 26)) (hx_q a b, hx_qd).
Definition hx_moving (f : nat) : Prop := (0 < f)%nat.
Definition hx (f : nat) (a b : R) : hrobot := HRobot (hx_robot a b) f Left frame_id 2 3 1 (Some (1/10)) (Some (2/10)) None.

Lemma hx_frames : frames_correct hx_pin hx_model hx_moving.
Proof.
  exists hx_rel. split; [|split].
  - intros q f. apply rotation_id.
  - intros q q' f (En & H). unfold hx_rel, hx_joint. rewrite En in *. destruct (Nat.ltb_spec 7 (vlen q')); [rewrite (H 7%nat) by lia|]; reflexivity.
  - intros q f Hf _. unfold hx_moving in Hf. destruct f; [lia|]. reflexivity.
Qed.
Lemma hx_unit a b : unit_base (hx_q a b).
Proof. split; [cbn; lia|]. cbn. ring. Qed.
Lemma hx_sound f a b : (0 < f < 15)%nat -> hsound hx_pin hx_moving (hx f a b).
Proof.
  intros Hf. unfold hsound, body_frame, hx_moving. cbn [hx hr_robot hr_frame hr_left hr_right hr_trunk hr_T hx_robot r_model r_state st_q]. split; [exact hx_frames|]. split; [exact rotation_id|]. split; [apply hx_unit|].
  cbn [hx_model m_frames List.length m_root]. split; [lia|]. split; [lia|]. split; [lia|]. split; [lia|]. split; [lia|]. exact rotation_id.
Qed.
Lemma hx_at q f : (0 < f)%nat -> vlen q = 27%nat -> vat q 3 = 0 -> vat q 4 = 0 -> vat q 5 = 0 -> vat q 6 = 1 ->
  pn_frame hx_pin q f = Frame m3_id (v3_add (V3 (vat q 0) (vat q 1) (vat q 2)) (fr_t (hx_rel q f))).
Proof.
  intros Hf Hl H3 H4 H5 H6. cbn [hx_pin pn_frame]. destruct f; [lia|]. cbn [Nat.eqb]. unfold q_base. rewrite H3, H4, H5, H6.
  unfold frame_mul, frame_id. cbn [fr_R fr_t hx_rel]. replace (quat_matrix (Quat 1 0 0 0)) with m3_id by (unfold quat_matrix; cbn; apply M3_ext; cbn; ring).
  rewrite !m3_mul_id_l, m3_vec_id. f_equal. apply V3_ext; m3; ring.
Qed.

(** Its construction puts its left foot on the origin; then it stands on its right foot, and turns as its IMU tells. *)
Example C138_example : frames_correct hx_pin (r_model (hx_robot 3 1)) hx_moving /\ unit_base (st_q (r_state (hx_robot 3 1))) /\
  exists h, new_humanoid hx_pin (hx_robot 3 1) = Ok h /\ hsound hx_pin hx_moving h /\
    (exists h', hcalls hx_pin h [HSupport Right; HKinematics; HFloor; HImu (rot_z 1)] = Ok h' /\ hr_side h' = Right /\ hr_frame h' = 3%nat /\ vz (fr_t (hr_T h')) = 0 /\
      get_T_world_frame hx_pin (hr_robot h') 3 = Ok (hr_T h')).
Proof.
  split; [exact hx_frames|]. split; [apply hx_unit|].
  destruct (C138_new hx_pin hx_moving (hx_robot 3 1) 2 3 1 hx_frames rotation_id (hx_unit 3 1)) as (h & E & S & Es & Ef & El & Er & Et & _ & ET & _); try reflexivity; try (unfold hx_moving; lia).
  exists h. split; [exact E|]. split; [exact S|].
  destruct (C138_history hx_pin hx_moving h [HSupport Right; HKinematics; HFloor; HImu (rot_z 1)] S) as (h' & E' & S' & F & P & B & _).
  { intros o [<-|[<-|[<-|[<-|[]]]]]; cbn; try exact I. apply rotation_z. }
  exists h'. split; [exact E'|]. destruct (B eq_refl) as [B1 B2]; [rewrite Ef, Es; cbn; congruence|]. cbn in B1. split; [exact B1|].
  assert (Er' : hr_right h' = 3%nat).
  { rewrite <- Er. assert (K : forall l h h', hcalls hx_pin h l = Ok h' -> hr_right h' = hr_right h).
    { induction l as [|o l IH]; intros g g' H; cbn in H; [congruence|]. destruct (hcall hx_pin g o) as [g1| |] eqn:C; try discriminate. cbn [obind] in H. rewrite (IH _ _ H).
      clear - C. destruct o; cbn [hcall] in C; unfold update_support_side, update_support_frame, ensure_on_floor, update_from_imu, ensure_on_floor_oriented in C;
        repeat match type of C with context [Nat.eqb ?a ?b] => destruct (Nat.eqb a b) | context [get_T_world_frame ?a ?b ?c] => destruct (get_T_world_frame a b c) | context [get_T_a_b ?a ?b ?c ?d] => destruct (get_T_a_b a b c d)
        | context [set_T_world_frame ?a ?b ?c ?d] => destruct (set_T_world_frame a b c d) | _ => progress cbn [obind] in C end; try discriminate; injection C; intros <-; reflexivity. }
    exact (K _ _ _ E'). }
  assert (Fr : hr_frame h' = 3%nat) by (rewrite B2, B1; exact Er'). split; [exact Fr|]. split; [apply F; rewrite ET; reflexivity|].
  rewrite <- Fr at 1. exact (P [HSupport Right; HKinematics; HFloor] _ eq_refl eq_refl).
Qed.

Example C138_switch_example : let h := hx 2 3 1 in hsound hx_pin hx_moving h /\ up_to_date (hr_robot h) /\ foot h Right <> hr_frame h /\
  vx (m3_vec (fr_R (at_frame hx_pin h (foot h Right))) (V3 1 0 0)) <> 0.
Proof.
  intros h. split; [apply hx_sound; lia|]. split; [reflexivity|]. split; [cbn; lia|]. unfold at_frame. cbn [foot h hx hr_right]. rewrite hx_at by (try reflexivity; lia). cbn. lra.
Qed.

Example C139_example : let h := hx 2 3 1 in hsound hx_pin hx_moving h /\ rotation (rot_z 1) /\ hsound hx_pin hx_moving (with_support h 2 Left (at_frame hx_pin h 2)) /\
  at_frame hx_pin (with_support h 2 Left (at_frame hx_pin h 2)) 2 = hr_T (with_support h 2 Left (at_frame hx_pin h 2)).
Proof.
  intros h. assert (S : hsound hx_pin hx_moving h) by (apply hx_sound; lia). split; [exact S|]. split; [apply rotation_z|]. split; [|reflexivity].
  assert (B : rigid (at_frame hx_pin h 2)) by (apply (body_rigid hx_pin hx_moving h 2 S); unfold hx_moving; lia). unfold hsound, with_support, body_frame in *. cbn [hr_robot hr_frame hr_left hr_right hr_trunk hr_T] in *. tauto.
Qed.

(** An inverse, for the matrices that have one. *)
Definition both_inverse (A : mat) : mat :=
  match excluded_middle_informative (exists B, two_sided A B) with
  | left H => proj1_sig (constructive_indefinite_description _ H)
  | right _ => A
  end.
Lemma both_inverse_ok : inverts_both both_inverse.
Proof.
  intros A _ H. unfold both_inverse. destruct (excluded_middle_informative _) as [H'|]; [|contradiction].
  destruct (constructive_indefinite_description _ H') as [B HB]. exact HB.
Qed.
Lemma diagonal_two_sided k : k <> 0 -> forall A, mrows A = 6%nat -> mcols A = 6%nat -> (forall i j, (i < 6)%nat -> (j < 6)%nat -> mat_at A i j = if Nat.eqb i j then k else 0) ->
  two_sided A (Mat 6 6 (fun i j => if Nat.eqb i j then / k else 0)).
Proof.
  intros Hk A Hr Hc H. split; (split; [cbn [mrows]; congruence|]); (split; [cbn [mcols mrows]; congruence|]); cbn [mrows mcols mat_at]; rewrite ?Hr, ?Hc; intros i j Hi Hj.
  - rewrite (Rsum_delta 6 i) by (try exact Hi; intros l Hl Ne; rewrite H by assumption; apply not_eq_sym, Nat.eqb_neq in Ne; rewrite Ne; ring). rewrite H, Nat.eqb_refl by assumption. destruct (Nat.eqb i j); field; exact Hk.
  - rewrite (Rsum_delta 6 i) by (try exact Hi; intros l Hl Ne; apply not_eq_sym, Nat.eqb_neq in Ne; rewrite Ne; ring). rewrite H, Nat.eqb_refl by assumption. destruct (Nat.eqb i j); field; exact Hk.
Qed.

(** Standing still with 20 N to carry. *)
Example C140_example : let h := hx 2 0 0 in exists M, inverts_both both_inverse /\ dynamics_sized hx_pin (hr_robot h) /\ mass_matrix hx_pin (hr_robot h) = Ok M /\
  Forall2 (fun name i => get_frame_index (hr_robot h) name = Ok i) sole_points [4; 5; 6; 7; 8; 9; 10; 11]%nat /\
  (forall i, In i [4; 5; 6; 7; 8; 9; 10; 11]%nat -> mrows (frame_jacobian hx_pin (hr_robot h) i Local) = 6%nat /\ mcols (frame_jacobian hx_pin (hr_robot h) i Local) = 26%nat) /\
  (exists B, two_sided (Mat 6 6 (mat_at M)) B) /\
  exists tau, get_torques hx_pin both_inverse h (zeros 20) (Vec 8 (fun _ => 5 / 2)) false = Ok tau /\ forall k, (k < 26)%nat -> vat tau k = 0.
Proof.
  intros h. eexists. split; [exact both_inverse_ok|]. assert (Hd : dynamics_sized hx_pin (hr_robot h)) by (repeat split). split; [exact Hd|]. split; [reflexivity|].
  assert (F : Forall2 (fun name i => get_frame_index (hr_robot h) name = Ok i) sole_points [4; 5; 6; 7; 8; 9; 10; 11]%nat) by (repeat constructor). split; [exact F|].
  assert (G : forall i, In i [4; 5; 6; 7; 8; 9; 10; 11]%nat -> mrows (frame_jacobian hx_pin (hr_robot h) i Local) = 6%nat /\ mcols (frame_jacobian hx_pin (hr_robot h) i Local) = 26%nat) by (intros; split; reflexivity).
  split; [exact G|].
  match goal with |- (exists B, two_sided (Mat 6 6 (mat_at ?K)) B) /\ _ => assert (B : exists B, two_sided (Mat 6 6 (mat_at K)) B); [|assert (EM : mass_matrix hx_pin (hr_robot h) = Ok K) by reflexivity; set (M := K) in *] end.
  { eexists. apply (diagonal_two_sided 2); [lra|reflexivity|reflexivity|]. intros i j Hi Hj. cbn [mat_at]. do 6 (destruct i as [|i]; [do 6 (destruct j as [|j]; [cbn; ring|]); lia|]). lia. }
  split; [exact B|].
  destruct (C140_torques hx_pin both_inverse h (zeros 20) (Vec 8 (fun _ => 5 / 2)) false M _ both_inverse_ok ltac:(cbn; lia) Hd eq_refl eq_refl EM F G B) as (tau & qdd & E & L & _ & Un).
  exists tau. split; [exact E|]. intros k Hk. destruct (Un (fun _ => 0) (fun _ => 0)) with (k := k) as [T _]; [|exact Hk|symmetry; exact T].
  split; [reflexivity|]. split; [intros; reflexivity|]. intros j Hj. rewrite Rsum_zero_ext by (intros; ring). unfold normal_forces. cbn [List.length Rsum nth].
  do 26 (destruct j as [|j]; [cbn; lra|]). exfalso. cbn in Hj. lia.
Qed.

(** The trunk moves at the velocity [a], and the joint of the left foot at the velocity [b]. *)
Definition hx_path (a b t : R) : vec := hx_q (a * t) (b * t).
Definition hx_u (a b : R) : vec := Vec 26 (fun k => match k with 0%nat => a | 6%nat => b | _ => 0 end).

Lemma hx_path_at a b t f : (0 < f)%nat -> pn_frame hx_pin (hx_path a b t) f =
  Frame m3_id (V3 ((a + if hx_left f then b else 0) * t + 0) (0 * t + vy (fr_t (hx_rel (hx_q 0 0) f))) (0 * t + vz (fr_t (hx_rel (hx_q 0 0) f)))).
Proof.
  intros Hf. rewrite hx_at by (try reflexivity; exact Hf). f_equal. unfold hx_rel, hx_joint, hx_path, v3_add. cbn [hx_q vlen Nat.ltb Nat.leb vat fr_t]. destruct (hx_left f); [|destruct (hx_right f)]; apply V3_ext; cbn [vx vy vz]; ring.
Qed.
Lemma lim_affine a c t : derivable_pt_lim (fun s => a * s + c) t a.
Proof. refine (lim_ext _ _ t (a * 1 + 0) a _ _ _); [|ring|]. 2: exact (derivable_pt_lim_plus _ _ t _ _ (derivable_pt_lim_scal id a t 1 (derivable_pt_lim_id t)) (derivable_pt_lim_const c t)). reflexivity. Qed.
Lemma hx_moves a b t f : (0 < f)%nat -> moves (fun s => pn_frame hx_pin (hx_path a b s) f) t (V3 (a + if hx_left f then b else 0) 0 0) v3_zero.
Proof.
  intros Hf. split.
  - split; [|split]; (eapply lim_ext; [intros s; rewrite (hx_path_at a b s f Hf); cbn [fr_t vx vy vz]; reflexivity| |apply lim_affine]); cbn; ring.
  - intros e He. rewrite (hx_path_at a b t f Hf). cbn [fr_R]. apply (lim_ext (fun _ => e m3_id) _ t 0 _); [intros s; rewrite (hx_path_at a b s f Hf); reflexivity| |apply lim_const].
    cbn [In fr_R] in He |- *. repeat (destruct He as [<-|He]); try destruct He; cbn; ring.
Qed.
Lemma hx_local a b t f : (0 < f)%nat -> local_jacobian_of hx_pin hx_model (hx_path a b) t (hx_u a b) f.
Proof.
  intros Hf. unfold local_jacobian_of. split; [reflexivity|]. split; [reflexivity|]. split; [reflexivity|]. split; [rewrite hx_path_at by exact Hf; apply rotation_id|].
  replace (fr_R (pn_frame hx_pin (hx_path a b t) f)) with m3_id by (rewrite hx_path_at by exact Hf; reflexivity). rewrite !m3_vec_id.
  replace (rows3 (pn_jac hx_pin (hx_path a b t) f Local) 0 (hx_u a b)) with (V3 (a + if hx_left f then b else 0) 0 0).
  replace (rows3 (pn_jac hx_pin (hx_path a b t) f Local) 3 (hx_u a b)) with v3_zero; [apply hx_moves; exact Hf|].
  all: unfold rows3, row_of; cbn [hx_pin pn_jac hx_jac mcols mat_at hx_u vat]; destruct (hx_left f); apply V3_ext; cbn; ring.
Qed.
Lemma hx_com a b t : com_jacobian_of hx_pin hx_model (hx_path a b) t (hx_u a b) /\ v3_deriv (fun s => pn_com hx_pin (hx_path a b s)) t (V3 (a + b / 2) 0 0).
Proof.
  assert (D : v3_deriv (fun s => pn_com hx_pin (hx_path a b s)) t (V3 (a + b / 2) 0 0)).
  { split; [|split]; cbn [vx vy vz pn_com hx_pin hx_path hx_q vat]; [|apply lim_const|apply lim_const].
    eapply lim_ext; [|reflexivity|apply (lim_affine (a + b / 2) 0)]. intros s. cbn. field. }
  split; [|exact D]. split; [reflexivity|]. split; [reflexivity|].
  replace (rows3 _ 0 _) with (V3 (a + b / 2) 0 0); [exact D|]. unfold rows3, row_of. cbn [hx_pin pn_comjac mcols mat_at hx_u vat]. apply V3_ext; cbn; field.
Qed.
Lemma hx_stacked q q' : exists V, two_sided (Mat 6 6 (stacked (pn_jac hx_pin q 2 Local) (pn_jac hx_pin q' 1 Local))) V.
Proof.
  eexists. apply (diagonal_two_sided 1); [lra|reflexivity|reflexivity|]. intros i j Hi Hj. cbn [mat_at]. do 6 (destruct i as [|i]; [do 6 (destruct j as [|j]; [cbn; ring|]); lia|]). lia.
Qed.

(** The trunk moves backwards, the left foot does not move, and the center of mass has the half of the velocity of the trunk. *)
Example C141_example t : let h := hx 2 (- t) t in let r := hr_robot h in
  inverts_both both_inverse /\ m_nv (r_model r) = 26%nat /\ up_to_date r /\ get_frame_index r "trunk" = Ok 1%nat /\ (forall k, (6 <= k < 26)%nat -> vat (hx_u (-1) 1) k = vat (st_qd (r_state r)) k) /\
  local_jacobian_of hx_pin (r_model r) (hx_path (-1) 1) t (hx_u (-1) 1) 2 /\ local_jacobian_of hx_pin (r_model r) (hx_path (-1) 1) t (hx_u (-1) 1) 1 /\ com_jacobian_of hx_pin (r_model r) (hx_path (-1) 1) t (hx_u (-1) 1) /\
  v3_deriv (fun s => fr_t (pn_frame hx_pin (hx_path (-1) 1 s) 2)) t v3_zero /\
  exists c, forall sup, get_com_velocity hx_pin both_inverse h sup v3_zero = Ok c /\ V3 (vat c 0) (vat c 1) (vat c 2) = V3 (- (1 / 2)) 0 0.
Proof.
  intros h r. assert (Hk : forall k, (6 <= k < 26)%nat -> vat (hx_u (-1) 1) k = vat (st_qd (r_state r)) k).
  { intros k Hk. unfold r, h. cbn [hx hr_robot hx_robot r_state st_qd hx_qd hx_u vat]. do 7 (destruct k as [|k]; [cbn; lia || lra|]). reflexivity. }
  assert (Eq : hx_path (-1) 1 t = st_q (r_state r)). { unfold hx_path. cbn [r h hx hr_robot hx_robot r_state st_q]. f_equal; ring. }
  assert (S : v3_deriv (fun s => fr_t (pn_frame hx_pin (hx_path (-1) 1 s) 2)) t v3_zero).
  { destruct (hx_moves (-1) 1 t 2 ltac:(lia)) as [H _]. cbn [hx_left Nat.eqb orb] in H. replace (-1 + 1) with 0 in H by ring. exact H. }
  destruct (hx_com (-1) 1 t) as [C1 C2]. do 2 (split; [first [exact both_inverse_ok|reflexivity]|]). split; [reflexivity|]. split; [reflexivity|]. split; [exact Hk|].
  split; [apply hx_local; lia|]. split; [apply hx_local; lia|]. split; [exact C1|]. split; [exact S|].
  destruct (C141_com_velocity_partial hx_pin both_inverse h Left v3_zero 1 (hx_path (-1) 1) t (hx_u (-1) 1) both_inverse_ok eq_refl eq_refl eq_refl eq_refl Eq Hk (hx_local _ _ _ 2 ltac:(lia)) (hx_local _ _ _ 1 ltac:(lia)) C1 S) as (c & E & _ & D).
  - eexists. replace (m3_vec _ v3_zero) with v3_zero by (apply V3_ext; m3; ring). apply hx_moves. lia.
  - apply hx_stacked.
  - exists c. intros sup. split; [destruct sup; exact E|]. rewrite (v3_deriv_unique _ _ _ _ D C2). f_equal. field.
Qed.

(** The support of the robot is its left foot. In a motion in which the right foot does not move, the velocity that is asked for the right foot is not that of the center of mass. *)
Theorem C141_support_refuted : exists pn inv h q t u w c, inverts_both inv /\ m_nv (r_model (hr_robot h)) = 26%nat /\ up_to_date (hr_robot h) /\ q t = st_q (r_state (hr_robot h)) /\ u = st_qd (r_state (hr_robot h)) /\
  local_jacobian_of pn (r_model (hr_robot h)) q t u (hr_right h) /\ local_jacobian_of pn (r_model (hr_robot h)) q t u (hr_trunk h) /\ com_jacobian_of pn (r_model (hr_robot h)) q t u /\
  v3_deriv (fun s => fr_t (pn_frame pn (q s) (hr_right h))) t v3_zero /\ (exists v, moves (fun s => pn_frame pn (q s) (hr_trunk h)) t v (m3_vec (fr_R (pn_frame pn (q t) (hr_trunk h))) w)) /\
  get_com_velocity pn inv h Right w = Ok c /\ ~ v3_deriv (fun s => pn_com pn (q s)) t (V3 (vat c 0) (vat c 1) (vat c 2)).
Proof.
  destruct (C141_example 0) as (_ & _ & _ & _ & _ & _ & _ & _ & _ & c & E). destruct (E Right) as [E1 E2]. destruct (hx_com 0 1 0) as [C1 C2].
  assert (Eu : forall a b, a = b -> local_jacobian_of hx_pin hx_model (hx_path 0 1) 0 a 3 -> local_jacobian_of hx_pin hx_model (hx_path 0 1) 0 b 3) by (intros; congruence).
  exists hx_pin, both_inverse, (hx 2 (- 0) 0), (hx_path 0 1), 0, hx_qd, v3_zero, c. split; [exact both_inverse_ok|]. split; [reflexivity|]. split; [reflexivity|].
  split. { unfold hx_path. cbn [hx hr_robot hx_robot r_state st_q]. f_equal; ring. }
  split; [reflexivity|]. cbn [hx hr_robot hr_right hr_trunk hx_robot r_model].
  assert (R_ : forall J i, mcols J = 26%nat -> rows3 J i hx_qd = rows3 J i (hx_u 0 1)).
  { intros J i HJ. unfold rows3, row_of. rewrite HJ. cbn [hx_qd hx_u vat]. f_equal; apply Rsum_ext; intros k _; f_equal; do 7 (destruct k as [|k]; [reflexivity|]); reflexivity. }
  assert (L : forall f, (0 < f)%nat -> local_jacobian_of hx_pin hx_model (hx_path 0 1) 0 hx_qd f).
  { intros f Hf. destruct (hx_local 0 1 0 f Hf) as (A & B & C & D & F). unfold local_jacobian_of. rewrite !R_ by exact B. auto. }
  split; [apply L; lia|]. split; [apply L; lia|]. split. { destruct C1 as (A & B & C). split; [exact A|]. split; [exact B|]. rewrite R_ by exact B. exact C. }
  split. { destruct (hx_moves 0 1 0 3 ltac:(lia)) as [H _]. cbn [hx_left Nat.eqb Nat.leb orb andb] in H. replace (0 + 0) with 0 in H by ring. exact H. }
  split. { eexists. replace (m3_vec _ v3_zero) with v3_zero by (apply V3_ext; m3; ring). apply hx_moves. lia. }
  split; [exact E1|]. rewrite E2. intros D. pose proof (v3_deriv_unique _ _ _ _ D C2) as H. injection H. lra.
Qed.
Print Assumptions C141_support_refuted.

(** The head of this robot, of which the axes do not meet: the call succeeds, and the camera does not see the target. *)
Example C142_example : let h := hx 2 0 0 in let T := Frame m3_id (V3 0 0 (3 / 10)) in
  get_T_world_frame_name hx_pin (hr_robot h) "head_base" = Ok T /\ rigid T /\ hr_pan_tilt h = Some (1 / 10) /\ hr_pan_camera h = Some (2 / 10) /\
  exists pan a, camera_look_at hx_pin h None (V3 1 0 0) = Ok (true, pan, Some a) /\ ~ looks_at T (1 / 10) (2 / 10 - 1 / 10) pan a (V3 1 0 0).
Proof.
  intros h T. assert (ET : get_T_world_frame_name hx_pin (hr_robot h) "head_base" = Ok T).
  { unfold get_T_world_frame_name. change (get_frame_index (hr_robot h) "head_base") with (@Ok nat 12%nat). cbn [obind]. rewrite get_frame_ok by (cbn; lia). f_equal. cbn [h hx hr_robot hx_robot r_seen fst]. rewrite hx_at by (try reflexivity; lia).
    unfold T. f_equal. unfold hx_rel. cbn [hx_left hx_right Nat.eqb Nat.leb orb andb fr_t hx_q vat]. apply V3_ext; cbn; field. }
  split; [exact ET|]. split; [apply rotation_id|]. split; [reflexivity|]. split; [reflexivity|].
  assert (HT : rigid T) by apply rotation_id.
  destruct (C142_camera_behaviour hx_pin h None (V3 1 0 0) T (1 / 10) (2 / 10) ET HT eq_refl eq_refl) as (ok & pan & tl & E & _ & _ & H2 & H3).
  assert (Ok1 : ok = true).
  { destruct ok; [reflexivity|]. destruct (H3 eq_refl) as [_ N]. exfalso.
    set (x := sqrt (1 * 1 + 0 * 0)). set (z := - (3 / 10) - 1 / 10). set (n := sqrt (x * x + z * z)).
    assert (X1 : x * x = 1) by (unfold x; rewrite sqrt_sqrt; lra). assert (N1 : 1 <= n). { unfold n. rewrite X1. rewrite <- sqrt_1 at 1. apply sqrt_le_1_alt. unfold z. lra. }
    assert (B : -1 <= 2 / 10 / n <= 1). { assert (0 < / n <= 1). { split; [apply Rinv_0_lt_compat; lra|]. rewrite <- Rinv_1. apply Rinv_le_contravar; lra. } unfold Rdiv at 2 4. nra. }
    destruct (camera_angles 1 0 z (2 / 10) n eq_refl ltac:(lra) B) as (s & Hs & A1 & A2 & A3). eapply N. apply (looks_at_head T (1 / 10) (2 / 10) _ _ (V3 1 0 0) HT). cbv zeta.
    assert (Ep : frame_act (frame_inv T) (V3 1 0 0) = V3 1 0 (- (3 / 10))) by (unfold T; apply V3_ext; cbn; field). rewrite Ep. cbn [vx vy vz]. exists s. split; [exact Hs|]. split; [exact A1|]. split; [exact A2|]. exact A3. }
  subst ok. destruct tl as [a|].
  - exists pan, a. split; [exact E|]. apply (C142_camera_refuted hx_pin h None (V3 1 0 0) T (1 / 10) (2 / 10) pan a ET HT eq_refl eq_refl); [lra|exact E].
  - destruct (H2 eq_refl eq_refl) as [_ H]. lra.
Qed.

(** Its distances, when it is made. *)
Example C142_measured_example : exists h, new_humanoid hx_pin (hx_robot 0 0) = Ok h /\ hr_pan_tilt h = Some (1 / 10) /\ hr_pan_camera h = Some (2 / 10).
Proof.
  destruct (C142_measured hx_pin hx_moving (hx_robot 0 0) 12 13 14 hx_frames rotation_id (hx_unit 0 0)) as (h & E & A & B); try reflexivity; try (unfold hx_moving; lia).
  1: exists 2%nat. 2: exists 3%nat. 3: exists 1%nat. 1-3: split; [reflexivity|unfold hx_moving; lia].
  exists h. split; [exact E|]. cbn [hx_robot r_state st_q] in A, B. rewrite !hx_at in A, B by (try reflexivity; lia). rewrite A, B.
  split; f_equal; unfold hx_rel; cbn [hx_left hx_right Nat.eqb Nat.leb orb andb fr_t hx_q vat]; cbn; field.
Qed.

(** With the axes of the pan and of the tilt at the same place. *)
Example C142_partial_example : let h := hx 2 0 0 in let h' := HRobot (hr_robot h) 2 Left frame_id 2 3 1 (Some 0) (Some 0) None in exists T pan a, get_T_world_frame_name hx_pin (hr_robot h') "head_base" = Ok T /\ rigid T /\
  camera_look_at hx_pin h' None (V3 1 0 0) = Ok (true, pan, Some a).
Proof.
  intros h h'. destruct C142_example as (ET & HT & _). do 3 eexists. split; [exact ET|]. split; [exact HT|]. unfold camera_look_at. change (hr_robot h') with (hr_robot (hx 2 0 0)). rewrite ET. cbn [obind h' hr_pan_tilt hr_pan_camera].
  destruct (Req_EM_T _ 0) as [E|E].
  - exfalso. apply sqrt_eq_0 in E; [|apply Rplus_le_le_0_compat; apply Rle_0_sqr]. rewrite sqrt_sqrt in E by (apply Rplus_le_le_0_compat; apply Rle_0_sqr). 
    assert (Ep : frame_act (frame_inv (Frame m3_id (V3 0 0 (3 / 10)))) (V3 1 0 0) = V3 1 0 (- (3 / 10))) by (apply V3_ext; cbn; field). rewrite Ep in E. cbn [vx vy vz] in E. lra.
  - replace (0 / _) with 0 by (unfold Rdiv; ring). destruct (Rlt_dec 1 0); [lra|]. destruct (Rlt_dec 0 (-1)); [lra|]. reflexivity.
Qed.

(** A center of mass that is accelerated. *)
Example C143_example : let h := fun t => hx 2 (t * t) 0 in (3 <> 0) /\ (forall t, com_world hx_pin (hr_robot (h t)) = V3 (t * t) 0 0) /\
  (forall t, derivable_pt_lim (fun s => vx (V3 (s * s) 0 0)) t (2 * t) /\ derivable_pt_lim (fun s => vy (V3 (s * s) 0 0)) t 0) /\ (forall t, derivable_pt_lim (fun s => 2 * s) t 2).
Proof.
  intros h. split; [lra|]. split; [|split].
  - intros t. unfold com_world. cbn. apply V3_ext; cbn; field.
  - intros t. cbn [vx vy]. split; [|apply lim_const]. replace (2 * t) with (1 * t + t * 1) by ring. exact (derivable_pt_lim_mult id id t 1 1 (derivable_pt_lim_id t) (derivable_pt_lim_id t)).
  - intros t. eapply lim_ext; [|reflexivity|apply (lim_affine 2 0)]. intros s. cbn. ring.
Qed.
