(** Properties C140 to C143: the torques of a humanoid, the velocity of its center of mass, its camera, its DCM and ZMP; and an example for C138
    to C143. *)
From Coq Require Import Reals List ZArith Bool String Lra Lia ClassicalEpsilon.
From Verif Require Import Base Linalg Angle Geom3 Tools_model Geometry_model Geometry_spec Geometry_proofs Footsteps_model Robot_model Robot_spec Robot_proofs Robot_props DynSet_props Humanoid_model Humanoid_spec Humanoid_proofs Humanoid_props Humanoid_proofs2 Humanoid_proofs3.
Import ListNotations.
Open Scope R_scope.

(** ** C140: torques *)

(** get_torques() gives the efforts for which the joints have the given accelerations under the given forces, normal to the soles: no effort is on the
    base, and no other efforts do, with any acceleration of the base. The bias is that of the velocities or that of gravity, as asked. *)
Theorem C140_torques pn inv h acc_a f (b : bool) M idx : let r := hr_robot h in let n := m_nv (r_model r) in let bias := if b then non_linear_effects pn r else generalized_gravity pn r in
  inverts_both inv -> (6 <= n)%nat -> dynamics_sized pn r -> vlen acc_a = (n - 6)%nat -> vlen f = 8%nat -> mass_matrix pn r = Ok M ->
  Forall2 (fun name i => get_frame_index r name = Ok i) sole_points idx ->
  (forall i, In i idx -> mrows (frame_jacobian pn r i Local) = 6%nat /\ mcols (frame_jacobian pn r i Local) = n) ->
  (exists B, two_sided (Mat 6 6 (mat_at M)) B) ->
  let moves_with (tau qdd : nat -> R) := (forall k, (k < 6)%nat -> tau k = 0) /\ (forall k, (k < n - 6)%nat -> qdd (6 + k)%nat = vat acc_a k) /\
    forall k, (k < n)%nat -> Rsum n (fun j => mat_at M k j * qdd j) + vat bias k = tau k + normal_forces pn r idx (vat f) k in
  exists tau qdd, get_torques pn inv h acc_a f b = Ok tau /\ vlen tau = n /\ moves_with (vat tau) qdd /\
    forall tau' qdd', moves_with tau' qdd' -> forall k, (k < n)%nat -> tau' k = vat tau k /\ qdd' k = qdd k.
Proof.
  intros r n bias Hi H6 Hd La Lf EM Fi Fs HB moves_with. pose proof (Hi (Mat 6 6 (mat_at M)) eq_refl HB) as [I1 I2]. pose proof I1 as (S1 & S2 & _). cbn [mrows] in S1, S2.
  destruct (torques_eq pn inv h acc_a f b M idx H6 Hd La Lf EM Fi Fs S1 S2) as (tau & qdd & E & L & Q1 & Q2 & Q3). exists tau, qdd.
  split; [exact E|]. split; [exact L|]. fold r n bias in Q1, Q2, Q3.
  assert (Sp : forall (g : nat -> R) k, Rsum n (fun j => mat_at M k j * g j) = Rsum 6 (fun j => mat_at M k j * g j) + Rsum (n - 6) (fun j => mat_at M k (6 + j) * g (6 + j)%nat)).
  { intros g k. replace n with (6 + (n - 6))%nat at 1 by lia. apply Rsum_split. }
  assert (B : moves_with (vat tau) qdd).
  { split; [|split; [exact Q2|]].
    - intros k Hk. rewrite Q3 by lia. rewrite Sp. rewrite (Rsum_ext 6 _ (fun i => mat_at (Mat 6 6 (mat_at M)) k i * Rsum 6 (fun j => mat_at (inv (Mat 6 6 (mat_at M))) i j * (normal_forces pn r idx (vat f) j - vat bias j - Rsum (n - 6) (fun i => mat_at M j (6 + i) * vat acc_a i)))))
        by (intros i Hi6; rewrite Q1 by exact Hi6; reflexivity).
      rewrite (inverse_applied _ _ 6 (fun j => normal_forces pn r idx (vat f) j - vat bias j - Rsum (n - 6) (fun i => mat_at M j (6 + i) * vat acc_a i)) k I1 eq_refl eq_refl Hk).
      rewrite (Rsum_ext (n - 6) (fun j => mat_at M k (6 + j) * qdd (6 + j)%nat) (fun i => mat_at M k (6 + i) * vat acc_a i)) by (intros i Hin; rewrite Q2 by exact Hin; reflexivity). ring.
    - intros k Hk. rewrite Q3 by exact Hk. ring. }
  split; [exact B|]. intros tau' qdd' (T1 & T2 & T3) k Hk. destruct B as (B1 & _ & B3).
  assert (Eb : forall j, (j < 6)%nat -> qdd' j = qdd j).
  { intros j Hj. assert (D : forall i, (i < 6)%nat -> Rsum 6 (fun l => mat_at (Mat 6 6 (mat_at M)) i l * (qdd' l - qdd l)) = 0).
    { intros i Hi6. pose proof (T3 i ltac:(lia)) as A1. pose proof (B3 i ltac:(lia)) as A2. rewrite T1 in A1 by exact Hi6. rewrite B1 in A2 by exact Hi6. rewrite Sp in A1, A2.
      rewrite (Rsum_ext (n - 6) _ (fun l => mat_at M i (6 + l) * vat acc_a l)) in A1 by (intros l Hl; rewrite T2 by exact Hl; reflexivity).
      rewrite (Rsum_ext (n - 6) _ (fun l => mat_at M i (6 + l) * vat acc_a l)) in A2 by (intros l Hl; rewrite Q2 by exact Hl; reflexivity).
      rewrite (Rsum_ext 6 _ (fun l => mat_at M i l * qdd' l - mat_at M i l * qdd l)) by (intros; cbn [mat_at]; ring). rewrite Rsum_minus. lra. }
    pose proof (inverse_applied (inv (Mat 6 6 (mat_at M))) (Mat 6 6 (mat_at M)) 6 (fun l => qdd' l - qdd l) j) as IA.
    specialize (IA I2 S1 S2 Hj). cbn beta in IA. rewrite Rsum_zero_ext in IA; [lra|]. intros i Hi6. rewrite (D i Hi6). ring. }
  assert (Eq : forall j, (j < n)%nat -> qdd' j = qdd j).
  { intros j Hj. destruct (Nat.lt_ge_cases j 6) as [H|H]; [now apply Eb|]. replace j with (6 + (j - 6))%nat by lia. rewrite T2, Q2 by lia. reflexivity. }
  split; [|now apply Eq]. pose proof (T3 k Hk) as A1. pose proof (B3 k Hk) as A2. rewrite (Rsum_ext n _ (fun j => mat_at M k j * qdd j)) in A1 by (intros j Hj; now rewrite Eq). lra.
Qed.
Print Assumptions C140_torques.

(** The given forces are applied at the points of the soles, along their z axes: for every motion, their power is that of the velocities of these points. *)
Theorem C140_power pn r (f : nat -> R) idx q t u : up_to_date r -> q t = st_q (r_state r) -> (forall i, In i idx -> local_jacobian_of pn (r_model r) q t u i) ->
  exists vel, (forall i, (i < List.length idx)%nat -> v3_deriv (fun s => fr_t (pn_frame pn (q s) (nth i idx 0%nat))) t (vel i)) /\
    power (m_nv (r_model r)) (normal_forces pn r idx f) u = Rsum (List.length idx) (fun i => f i * v3_dot (m3_vec (fr_R (pn_frame pn (q t) (nth i idx 0%nat))) (V3 0 0 1)) (vel i)).
Proof.
  intros Hu Hq HJ. exists (fun i => m3_vec (fr_R (pn_frame pn (q t) (nth i idx 0%nat))) (rows3 (pn_jac pn (q t) (nth i idx 0%nat) Local) 0 u)). split.
  - intros i Hi. destruct (HJ _ (nth_In idx 0%nat Hi)) as (_ & _ & _ & _ & M). apply M.
  - unfold power, normal_forces. rewrite (Rsum_ext _ _ (fun k => Rsum (List.length idx) (fun i => mat_at (frame_jacobian pn r (nth i idx 0%nat) Local) 2 k * f i * vat u k)))
      by (intros k _; rewrite <- Rsum_scal_r; reflexivity).
    rewrite Rsum_swap. apply Rsum_ext. intros i Hi. destruct (HJ _ (nth_In idx 0%nat Hi)) as (_ & Jc & _ & RT & _). rewrite (orthogonal_dot _ _ _ (proj1 RT)).
    unfold frame_jacobian, up_to_date in *. rewrite Hu. cbn [fst]. rewrite <- Hq. unfold rows3, row_of, v3_dot. cbn [vx vy vz]. rewrite Jc.
    replace (f i * (0 * _ + 0 * _ + 1 * Rsum (m_nv (r_model r)) (fun k => mat_at (pn_jac pn (q t) (nth i idx 0%nat) Local) 2 k * vat u k))) with (f i * Rsum (m_nv (r_model r)) (fun k => mat_at (pn_jac pn (q t) (nth i idx 0%nat) Local) 2 k * vat u k)) by ring.
    rewrite <- Rsum_scal_l. apply Rsum_ext. intros. ring.
Qed.
Print Assumptions C140_power.

(** ** C141: the velocity of the center of mass *)

Definition com_jacobian_of (pn : pin) (m : rmodel) (q : R -> vec) (t : R) (u : vec) : Prop :=
  mrows (pn_comjac pn (q t)) = 3%nat /\ mcols (pn_comjac pn (q t)) = m_nv m /\ v3_deriv (fun s => pn_com pn (q s)) t (rows3 (pn_comjac pn (q t)) 0 u).

(** With 26 degrees of freedom: in every motion in which the support point does not move and the trunk turns at the velocity of the gyroscope (in its axes),
    the result is the velocity of the center of mass, whatever the velocity of the base that is in the state. *)
Theorem C141_com_velocity_partial pn inv h sup w it q t u : let r := hr_robot h in inverts_both inv -> m_nv (r_model r) = 26%nat -> up_to_date r -> vlen (st_qd (r_state r)) = 26%nat ->
  get_frame_index r "trunk" = Ok it -> q t = st_q (r_state r) -> (forall k, (6 <= k < 26)%nat -> vat u k = vat (st_qd (r_state r)) k) ->
  local_jacobian_of pn (r_model r) q t u (hr_frame h) -> local_jacobian_of pn (r_model r) q t u it -> com_jacobian_of pn (r_model r) q t u ->
  v3_deriv (fun s => fr_t (pn_frame pn (q s) (hr_frame h))) t v3_zero ->
  (exists v, moves (fun s => pn_frame pn (q s) it) t v (m3_vec (fr_R (pn_frame pn (q t) it)) w)) ->
  (exists V, two_sided (Mat 6 6 (stacked (pn_jac pn (q t) (hr_frame h) Local) (pn_jac pn (q t) it Local))) V) ->
  exists c, get_com_velocity pn inv h sup w = Ok c /\ vlen c = 3%nat /\ v3_deriv (fun s => pn_com pn (q s)) t (V3 (vat c 0) (vat c 1) (vat c 2)).
Proof.
  intros r Hi H26 Hu Ld Et Hq Ua (A1 & A2 & A3 & A4 & A5) (B1 & B2 & B3 & B4 & B5) (C1 & C2 & C3) Hs (v & Hw) HV. rewrite H26 in *.
  assert (F : forall i, frame_jacobian pn r i Local = pn_jac pn (q t) i Local) by (intros i; unfold frame_jacobian; rewrite Hu; cbn [fst]; now rewrite Hq).
  assert (FC : com_jacobian pn r = pn_comjac pn (q t)) by (unfold com_jacobian; rewrite ?Hu; cbn [fst]; now rewrite Hq).
  assert (Z : rows3 (pn_jac pn (q t) (hr_frame h) Local) 0 u = v3_zero).
  { apply (rotation_injective _ _ _ A4). rewrite (v3_deriv_unique _ _ _ _ (proj1 A5) Hs). apply V3_ext; m3; ring. }
  assert (W : rows3 (pn_jac pn (q t) it Local) 3 u = w).
  { apply (rotation_injective _ _ _ B4). exact (moves_angular_unique _ _ _ _ _ _ B4 B5 Hw). }
  destruct (com_velocity_motion pn inv h sup w it (vat u)) as (c & E & L & V); fold r; rewrite ?F, ?FC; try assumption.
  - intros i Hi6. unfold rows3, row_of in Z, W. rewrite A2 in Z. rewrite B2 in W. injection Z as Z0 Z1 Z2. rewrite <- W. unfold stacked.
    do 6 (destruct i as [|i]; [cbn [Nat.ltb Nat.leb gyro vx vy vz]; first [exact Z0|exact Z1|exact Z2|reflexivity]|]). lia.
  - exists c. split; [exact E|]. split; [exact L|]. rewrite !V by lia. fold r. rewrite FC. unfold rows3, row_of in C3. rewrite C2 in C3. exact C3.
Qed.
Print Assumptions C141_com_velocity_partial.

(** The number of joints is written in the code: with any other number of degrees of freedom, the blocks do not fit. *)
Theorem C141_other_robots_refuted pn inv h sup w it : let r := hr_robot h in m_nv (r_model r) <> 26%nat -> (6 <= m_nv (r_model r))%nat -> vlen (st_qd (r_state r)) = m_nv (r_model r) ->
  get_frame_index r "trunk" = Ok it -> mcols (com_jacobian pn r) = m_nv (r_model r) -> mrows (com_jacobian pn r) = 3%nat ->
  (forall i, mrows (frame_jacobian pn r i Local) = 6%nat /\ mcols (frame_jacobian pn r i Local) = m_nv (r_model r)) -> (forall A, mrows A = 6%nat -> mcols A = 6%nat -> mrows (inv A) = 6%nat /\ mcols (inv A) = 6%nat) ->
  get_com_velocity pn inv h sup w = UB.
Proof.
  intros r H26 H6 Ld Et Cc Cr HJ Hinv. unfold get_com_velocity. fold r. set (n := m_nv (r_model r)) in *.
  unfold left_cols at 1. unfold block at 1. unfold guard at 1. rewrite Cr, Cc. replace (Nat.leb (0 + 3) 3) with true by reflexivity. rewrite (leb_true (0 + 6) n) by lia. cbn [andb obind].
  unfold right_cols at 1. unfold guard at 1. rewrite Cc. destruct (Nat.leb_spec 20 n) as [H20|H20]; [|reflexivity].
  unfold block at 1. unfold guard at 1. rewrite Cr, Cc, !leb_true by lia. cbn [andb obind].
  unfold frame_jacobian_name. rewrite Et. cbn [obind]. change (string_to_reference "local") with (@Ok ref Local). cbn [obind].
  destruct (HJ (hr_frame h)) as [Ar Ac]. destruct (HJ it) as [Br Bc]. set (A := frame_jacobian pn r (hr_frame h) Local) in *. set (B := frame_jacobian pn r it Local) in *.
  unfold stack_rows, block. unfold guard at 1 2 3 4. rewrite Ar, Ac, Br, Bc, !leb_true by lia. cbn [andb obind mcols]. rewrite Nat.eqb_refl. cbn [obind].
  unfold left_cols, block. unfold guard at 1. cbn [mrows mcols]. rewrite !leb_true by lia. cbn [andb obind].
  unfold right_cols, block. unfold guard at 1 2. cbn [mrows mcols]. rewrite !leb_true by lia. cbn [andb obind].
  match goal with |- context [inv ?K] => destruct (Hinv K eq_refl eq_refl) as [I1 I2]; set (V := inv K) in * end.
  unfold mat_mul, mat_vec, mat_sub, segment_of, guard. cbn [mcols mrows vlen]. rewrite I1, Ld. cbn [Nat.eqb andb obind mcols mrows vlen]. rewrite ?I2. cbn [Nat.eqb andb obind mcols mrows vlen].
  rewrite !leb_true by lia. cbn [obind mcols mrows vlen].
  assert (Ne : (n - 6 <> 20)%nat) by lia. revert Ne. generalize (n - 6)%nat. intros m Ne. do 20 (destruct m as [|m]; [reflexivity|]). destruct m; [contradiction|reflexivity].
Qed.
Print Assumptions C141_other_robots_refuted.

(** The support that is given has no effect: the support of the robot is used. *)
Theorem C141_support_behaviour pn inv h w : get_com_velocity pn inv h Left w = get_com_velocity pn inv h Right w.
Proof. reflexivity. Qed.
Print Assumptions C141_support_behaviour.

(** ** C142: the camera *)

(** camera_look_at() with its measures, [pitch] the height of the pitch axis and [camera] the other distance: when it succeeds and gives a tilt, a camera at the height
    [camera] above the pitch axis sees the target; when it fails, there are no angles for which it does, and the tilt is left. The pan is written in both cases. *)
Theorem C142_camera_behaviour pn h tilt0 target T pitch camera : get_T_world_frame_name pn (hr_robot h) "head_base" = Ok T -> rigid T -> hr_pan_tilt h = Some pitch -> hr_pan_camera h = Some camera ->
  exists ok pan tilt, camera_look_at pn h tilt0 target = Ok (ok, pan, tilt) /\ - PI < pan <= PI /\
    (forall a, ok = true -> tilt = Some a -> looks_at T pitch camera pan a target) /\
    (ok = true -> tilt = None -> target = frame_act T (V3 0 0 pitch) /\ camera = 0) /\
    (ok = false -> tilt = tilt0 /\ forall pan' a, ~ looks_at T pitch camera pan' a target).
Proof.
  intros ET HT Hd He. unfold camera_look_at. rewrite ET, Hd, He. cbn [obind]. set (p := frame_act (frame_inv T) target).
  set (n := sqrt (sqrt (vx p * vx p + vy p * vy p) * sqrt (vx p * vx p + vy p * vy p) + (vz p - pitch) * (vz p - pitch))).
  pose proof (atan2_range (vy p) (vx p)) as Hp.
  assert (Far : n < Rabs camera -> forall pan' a, ~ looks_at T pitch camera pan' a target).
  { intros Hn pan' a H. apply (looks_at_head T pitch camera pan' a target HT) in H. fold p in H. destruct H as (s & _ & H1 & H2 & H3). exact (camera_too_near _ _ _ camera n _ _ s eq_refl Hn H1 H2 H3). }
  assert (P0 : 0 <= n) by apply sqrt_pos.
  destruct (Req_EM_T n 0) as [Hn|Hn].
  - destruct (Req_EM_T camera 0) as [Hc|Hc]; eexists; eexists; eexists; (split; [reflexivity|]); (split; [exact Hp|]).
    + split; [discriminate|]. split; [|discriminate]. intros _ _. split; [|exact Hc].
      assert (Q : sqrt (vx p * vx p + vy p * vy p) * sqrt (vx p * vx p + vy p * vy p) + (vz p - pitch) * (vz p - pitch) = 0).
      { apply sqrt_eq_0; [|exact Hn]. apply Rplus_le_le_0_compat; apply Rle_0_sqr. }
      rewrite sqrt_sqrt in Q by (apply Rplus_le_le_0_compat; apply Rle_0_sqr).
      pose proof (Rle_0_sqr (vx p)) as S1. pose proof (Rle_0_sqr (vy p)) as S2. pose proof (Rle_0_sqr (vz p - pitch)) as S3. unfold Rsqr in S1, S2, S3.
      assert (X1 : vx p = 0) by (apply Rsqr_0_uniq; unfold Rsqr; lra). assert (X2 : vy p = 0) by (apply Rsqr_0_uniq; unfold Rsqr; lra). assert (X3 : vz p - pitch = 0) by (apply Rsqr_0_uniq; unfold Rsqr; lra).
      assert (Ep : p = V3 0 0 pitch) by (apply V3_ext; cbn [vx vy vz]; lra). rewrite <- Ep. unfold p, frame_act, frame_inv. cbn [fr_R fr_t].
      rewrite m3_vec_add, m3_vec_scale, <- !m3_vec_mul, (rotation_r _ HT), !m3_vec_id. apply V3_ext; m3; ring.
    + split; [discriminate|]. split; [discriminate|]. intros _. split; [reflexivity|]. apply Far. rewrite Hn. now apply Rabs_pos_lt.
  - assert (Pn : 0 < n) by lra. assert (Ec : Rabs camera = Rabs (camera / n) * n) by (rewrite <- (Rabs_right n) at 2 by lra; rewrite <- Rabs_mult; f_equal; field; lra).
    destruct (Rlt_dec 1 (camera / n)) as [H1|H1]; [|destruct (Rlt_dec (camera / n) (-1)) as [H2|H2]]; eexists; eexists; eexists; (split; [reflexivity|]); (split; [exact Hp|]).
    + split; [discriminate|]. split; [discriminate|]. intros _. split; [reflexivity|]. apply Far. rewrite Ec, Rabs_right by lra. nra.
    + split; [discriminate|]. split; [discriminate|]. intros _. split; [reflexivity|]. apply Far. rewrite Ec, Rabs_left by lra. nra.
    + split; [|split; discriminate]. intros a _ [= <-]. apply (looks_at_head T pitch camera _ _ target HT). fold p.
      exact (camera_angles (vx p) (vy p) (vz p - pitch) camera n eq_refl Hn (conj (Rnot_lt_le _ _ H2) (Rnot_lt_le _ _ H1))).
Qed.
Print Assumptions C142_camera_behaviour.

(** When the axes of the pan and of the tilt meet, the distances being measured from the pan axis, the camera of the robot sees the target. *)
Theorem C142_camera_partial pn h tilt0 target T camera pan a : get_T_world_frame_name pn (hr_robot h) "head_base" = Ok T -> rigid T -> hr_pan_tilt h = Some 0 -> hr_pan_camera h = Some camera ->
  camera_look_at pn h tilt0 target = Ok (true, pan, Some a) -> looks_at T 0 (camera - 0) pan a target.
Proof.
  intros ET HT Hd He E. destruct (C142_camera_behaviour pn h tilt0 target T 0 camera ET HT Hd He) as (ok & pan' & tl & E' & _ & H & _). rewrite E in E'. injection E' as <- <- <-.
  rewrite Rminus_0_r. now apply H.
Qed.
Print Assumptions C142_camera_partial.

(** When they do not meet, the camera, which is at the height [camera - pitch] above the pitch axis, never sees the target with the angles of the call. *)
Theorem C142_camera_refuted pn h tilt0 target T pitch camera pan a : get_T_world_frame_name pn (hr_robot h) "head_base" = Ok T -> rigid T -> hr_pan_tilt h = Some pitch -> hr_pan_camera h = Some camera ->
  pitch <> 0 -> camera_look_at pn h tilt0 target = Ok (true, pan, Some a) -> ~ looks_at T pitch (camera - pitch) pan a target.
Proof.
  intros ET HT Hd He Hp E H. destruct (C142_camera_behaviour pn h tilt0 target T pitch camera ET HT Hd He) as (ok & pan' & tl & E' & _ & H' & _). rewrite E in E'. injection E' as <- <- <-.
  specialize (H' a eq_refl eq_refl). apply (looks_at_head T _ _ _ _ _ HT) in H. apply (looks_at_head T _ _ _ _ _ HT) in H'. cbv zeta in H, H'.
  set (p := frame_act (frame_inv T) target) in *. destruct H as (s & _ & A1 & A2 & A3). destruct H' as (s' & _ & B1 & B2 & B3).
  pose proof (sin2_cos2 pan) as Qp. pose proof (sin2_cos2 a) as Qa. unfold Rsqr in Qp, Qa.
  set (X := s * cos a + (camera - pitch) * sin a) in *. set (Y := s' * cos a + camera * sin a) in *.
  assert (EX : X = Y). { transitivity ((sin pan * sin pan + cos pan * cos pan) * X); [rewrite Qp; ring|]. transitivity (sin pan * (sin pan * X) + cos pan * (cos pan * X)); [ring|]. rewrite <- A1, <- A2, B1, B2. transitivity ((sin pan * sin pan + cos pan * cos pan) * Y); [ring|rewrite Qp; ring]. }
  assert (C : (camera - pitch) * (sin a * sin a + cos a * cos a) = camera * (sin a * sin a + cos a * cos a)).
  { transitivity (sin a * X + cos a * ((camera - pitch) * cos a - s * sin a)); [unfold X; ring|]. rewrite <- A3, B3, EX. unfold Y. ring. }
  rewrite Qa in C. lra.
Qed.
Print Assumptions C142_camera_refuted.

(** The distances are measured when the robot is made: the heights of the pitch axis and of the camera in the frame of the head. *)
Theorem C142_measured pn moving r i j k : frames_correct pn (r_model r) moving -> rigid (m_root (r_model r)) -> unit_base (st_q (r_state r)) ->
  (exists l, get_frame_index r "left_foot" = Ok l /\ moving l) -> (exists l, get_frame_index r "right_foot" = Ok l /\ moving l) -> (exists l, get_frame_index r "trunk" = Ok l /\ moving l) ->
  get_frame_index r "head_base" = Ok i -> get_frame_index r "head_pitch" = Ok j -> get_frame_index r "camera" = Ok k -> moving i -> moving j -> moving k ->
  exists h, new_humanoid pn r = Ok h /\
    hr_pan_tilt h = Some (vz (fr_t (frame_mul (frame_inv (pn_frame pn (st_q (r_state r)) i)) (pn_frame pn (st_q (r_state r)) j)))) /\
    hr_pan_camera h = Some (vz (fr_t (frame_mul (frame_inv (pn_frame pn (st_q (r_state r)) i)) (pn_frame pn (st_q (r_state r)) k)))).
Proof.
  intros Hc Hr Hq (l & El & Ml) (e & Ee & Me) (t & Et & Mt) Ei Ej Ek Mi Mj Mk.
  assert (In_ : forall name i, get_frame_index r name = Ok i -> nth_error (m_frames (r_model r)) i = Some name).
  { intros name x H. unfold get_frame_index in H. destruct (position_of name (m_frames (r_model r))) eqn:P; [|discriminate]. injection H as <-. now apply position_of_nth. }
  assert (Lt : forall name i, get_frame_index r name = Ok i -> (i < List.length (m_frames (r_model r)))%nat).
  { intros name x H. apply In_ in H. apply nth_error_Some. congruence. }
  set (h0 := HRobot r l Left frame_id l e t None None None).
  assert (S0 : hsound pn moving h0).
  { unfold hsound, h0, body_frame. cbn [hr_robot hr_frame hr_left hr_right hr_trunk hr_T]. do 3 (split; [assumption|]). do 4 (split; [split; eauto|]). split; [|apply rotation_id].
    intros ->. pose proof (In_ _ _ El) as A. rewrite (In_ _ _ Ee) in A. discriminate. }
  destruct (C138_on_floor pn moving h0 S0) as (h1 & E1 & S & _ & _ & _ & _ & _ & _ & Rel). destruct (floor_spec pn moving h0 S0) as (h1' & E1' & P). rewrite E1 in E1'. injection E1' as <-. destruct P as (_ & Em & U & _).
  assert (GI : forall name, get_frame_index (hr_robot h1) name = get_frame_index r name) by (intros name; unfold get_frame_index; rewrite Em; reflexivity).
  assert (EX : forall name x, get_frame_index r name = Ok x -> exist_frame (hr_robot h1) name = true).
  { intros name x H. unfold exist_frame, get_frame_index in *. rewrite Em. cbn [hr_robot h0]. destruct (position_of name (m_frames (r_model r))); [reflexivity|discriminate]. }
  assert (AB : forall a b x y, get_frame_index r a = Ok x -> get_frame_index r b = Ok y -> moving x -> moving y ->
    get_T_a_b_name pn (hr_robot h1) a b = Ok (frame_mul (frame_inv (pn_frame pn (st_q (r_state r)) x)) (pn_frame pn (st_q (r_state r)) y))).
  { intros a b x y Ha Hb Hx Hy. unfold get_T_a_b_name. rewrite !GI, Ha, Hb. cbn [obind]. unfold get_T_a_b. rewrite !get_frame_ok by (rewrite Em; cbn [hr_robot h0]; eauto). cbn [obind]. f_equal.
    unfold up_to_date in U. rewrite U. cbn [fst]. exact (Rel x y Hx Hy). }
  assert (M1 : exists h2, measure_trunk pn h1 = Ok h2 /\ hr_robot h2 = hr_robot h1).
  { unfold measure_trunk. destruct (exist_frame (hr_robot h1) "trunk" && _) eqn:B; [|exists h1; auto 10]. apply andb_true_iff in B as [_ B2]. unfold exist_frame in B2.
    unfold get_T_a_b_name. rewrite GI, Et. cbn [obind]. unfold get_frame_index. destruct (position_of "left_hip_yaw" (m_frames (r_model (hr_robot h1)))) as [x|] eqn:Px; [|discriminate]. cbn [obind].
    unfold get_T_a_b. rewrite !get_frame_ok; [cbn [obind]; eexists; split; reflexivity| |rewrite Em; cbn [hr_robot h0]; eauto].
    apply nth_error_Some. rewrite (position_of_nth _ _ _ Px). discriminate. }
  destruct M1 as (h2 & E2 & A1). eexists. unfold new_humanoid, init_config. rewrite El, Ee, Et. cbn [obind]. fold h0. rewrite E1. cbn [obind]. rewrite E2. cbn [obind]. unfold measure_head. rewrite A1.
  rewrite (EX _ _ Ei), (EX _ _ Ej), (EX _ _ Ek). cbn [andb]. rewrite (AB _ _ _ _ Ei Ej Mi Mj), (AB _ _ _ _ Ei Ek Mi Mk). cbn [obind]. split; [reflexivity|]. split; reflexivity.
Qed.
Print Assumptions C142_measured.

(** ** C143: DCM and ZMP *)

(** For every motion of the center of mass, dcm() and zmp() are given its velocity and its acceleration: the DCM goes away from the ZMP, omega times faster than their
    difference, and the center of mass follows the DCM. *)
Theorem C143_dcm_zmp pn (h : R -> hrobot) (c : R -> vec3) (v a : R -> point) omega : omega <> 0 -> (forall t, com_world pn (hr_robot (h t)) = c t) ->
  (forall t, derivable_pt_lim (fun s => vx (c s)) t (fst (v t)) /\ derivable_pt_lim (fun s => vy (c s)) t (snd (v t))) ->
  (forall t, derivable_pt_lim (fun s => fst (v s)) t (fst (a t)) /\ derivable_pt_lim (fun s => snd (v s)) t (snd (a t))) ->
  exists D Z, (forall t, dcm pn (h t) omega (v t) = Some (D t) /\ zmp pn (h t) omega (a t) = Some (Z t)) /\
    (forall t, derivable_pt_lim (fun s => fst (D s)) t (omega * (fst (D t) - fst (Z t))) /\ derivable_pt_lim (fun s => snd (D s)) t (omega * (snd (D t) - snd (Z t)))) /\
    (forall t, v t = (omega * (fst (D t) - vx (c t)), omega * (snd (D t) - vy (c t)))).
Proof.
  intros Ho Hc Hv Ha.
  exists (fun t => (vx (c t) + 1 / omega * fst (v t), vy (c t) + 1 / omega * snd (v t))), (fun t => (vx (c t) - 1 / (omega * omega) * fst (a t), vy (c t) - 1 / (omega * omega) * snd (a t))).
  split; [|split].
  - intros t. unfold dcm, zmp. rewrite Hc. destruct (Req_EM_T omega 0); [contradiction|]. split; reflexivity.
  - intros t. cbn [fst snd]. destruct (Hv t) as [V1 V2]. destruct (Ha t) as [A1 A2]. split.
    + replace (omega * _) with (fst (v t) + 1 / omega * fst (a t)) by (field; exact Ho). exact (derivable_pt_lim_plus _ (mult_real_fct (1 / omega) (fun s => fst (v s))) t _ _ V1 (derivable_pt_lim_scal _ _ t _ A1)).
    + replace (omega * _) with (snd (v t) + 1 / omega * snd (a t)) by (field; exact Ho). exact (derivable_pt_lim_plus _ (mult_real_fct (1 / omega) (fun s => snd (v s))) t _ _ V2 (derivable_pt_lim_scal _ _ t _ A2)).
  - intros t. cbn [fst snd]. destruct (v t) as [v1 v2]. cbn [fst snd]. f_equal; field; exact Ho.
Qed.
Print Assumptions C143_dcm_zmp.

(** When the ZMP and the DCM are the same, the DCM does not move. *)
Corollary C143_capture pn (h : R -> hrobot) (c : R -> vec3) (v a : R -> point) omega t z : omega <> 0 -> (forall t, com_world pn (hr_robot (h t)) = c t) ->
  (forall t, derivable_pt_lim (fun s => vx (c s)) t (fst (v t)) /\ derivable_pt_lim (fun s => vy (c s)) t (snd (v t))) ->
  (forall t, derivable_pt_lim (fun s => fst (v s)) t (fst (a t)) /\ derivable_pt_lim (fun s => snd (v s)) t (snd (a t))) ->
  dcm pn (h t) omega (v t) = Some z -> zmp pn (h t) omega (a t) = Some z ->
  exists D, (forall s, dcm pn (h s) omega (v s) = Some (D s)) /\ derivable_pt_lim (fun s => fst (D s)) t 0 /\ derivable_pt_lim (fun s => snd (D s)) t 0.
Proof.
  intros Ho Hc Hv Ha Hd Hz. destruct (C143_dcm_zmp pn h c v a omega Ho Hc Hv Ha) as (D & Z & H1 & H2 & _). exists D. split; [intros s; apply H1|].
  destruct (H1 t) as [E1 E2]. rewrite Hd in E1. rewrite Hz in E2. injection E1 as E1. injection E2 as E2. destruct (H2 t) as [D1 D2]. rewrite <- E1, <- E2 in D1, D2. rewrite Rminus_diag_eq, Rmult_0_r in D1, D2 by reflexivity. auto.
Qed.
Print Assumptions C143_capture.
