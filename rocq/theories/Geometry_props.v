(** Properties C43, C44 and C93-C96: geometric helpers. *)
From Coq Require Import Reals Lra Lia List ZArith Bool String.
From Verif Require Import Base Linalg Mexp Angle Geom3 Tools_model Tools_proofs Geometry_model Geometry_spec Geometry_proofs Geometry_proofs2.
Import ListNotations.
Open Scope R_scope.

(** ** C43 *)
Theorem C43_flatten t : rigid t -> (m00 (fr_R t) <> 0 \/ m10 (fr_R t) <> 0) ->
  let f := flatten_on_floor t in
  rigid f /\ vx (fr_t f) = vx (fr_t t) /\ vy (fr_t f) = vy (fr_t t) /\ vz (fr_t f) = 0 /\
  (* the z axis is vertical *)
  m3_vec (fr_R f) (V3 0 0 1) = V3 0 0 1 /\
  (* the x axis is that of t, projected on the floor and normalised *)
  exists k, 0 < k /\ m3_vec (fr_R f) (V3 1 0 0) =
    v3_scale k (V3 (vx (m3_vec (fr_R t) (V3 1 0 0))) (vy (m3_vec (fr_R t) (V3 1 0 0))) 0).
Proof.
  intros R H f. split; [apply rotation_z|]. repeat (split; [reflexivity|]). split.
  - unfold f, flatten_on_floor, rot_z. cbn [fr_R]. apply V3_ext; m3; ring.
  - unfold f, flatten_on_floor. cbn [fr_R]. rewrite frame_yaw_first.
    destruct (atan2_polar (m10 (fr_R t)) (m00 (fr_R t)) H) as [P1 P2].
    assert (Hr : 0 < sqrt (m00 (fr_R t) * m00 (fr_R t) + m10 (fr_R t) * m10 (fr_R t))).
    { apply sqrt_lt_R0. destruct H as [H|H]; pose proof (Rsqr_pos_lt _ H);
        [pose proof (Rle_0_sqr (m10 (fr_R t)))|pose proof (Rle_0_sqr (m00 (fr_R t)))]; unfold Rsqr in *; lra. }
    exists (/ sqrt (m00 (fr_R t) * m00 (fr_R t) + m10 (fr_R t) * m10 (fr_R t))). split; [now apply Rinv_0_lt_compat|].
    unfold rot_z. rewrite P1, P2. apply V3_ext; m3; field; lra.
Qed.
Print Assumptions C43_flatten.

(** Idempotent, for every transformation. *)
Theorem C43_idempotent t : flatten_on_floor (flatten_on_floor t) = flatten_on_floor t.
Proof.
  unfold flatten_on_floor. cbn [fr_R fr_t vx vy vz]. f_equal. apply rot_z_same, frame_yaw_rot_z.
Qed.
Print Assumptions C43_idempotent.

(** Frames that are already flat are left unchanged, and flattening commutes with displacements along the floor. *)
Theorem C43_planar x y a : flatten_on_floor (planar x y a) = planar x y a.
Proof. unfold flatten_on_floor, planar. cbn [fr_R fr_t vx vy vz]. f_equal. apply rot_z_same, frame_yaw_rot_z. Qed.
Print Assumptions C43_planar.

Theorem C43_equivariant x y a t : (m00 (fr_R t) <> 0 \/ m10 (fr_R t) <> 0) ->
  flatten_on_floor (frame_mul (planar x y a) t) = frame_mul (planar x y a) (flatten_on_floor t).
Proof.
  intros H. apply Frame_ext; unfold flatten_on_floor, planar; cbn [frame_mul fr_R fr_t].
  - rewrite rot_z_mul. apply rot_z_same. now apply frame_yaw_rot_z_mul.
  - unfold rot_z. apply V3_ext; m3; ring.
Qed.
Print Assumptions C43_equivariant.

(** With a vertical x axis the yaw is taken to be 0. *)
Theorem C43_vertical t : m00 (fr_R t) = 0 -> m10 (fr_R t) = 0 -> fr_R (flatten_on_floor t) = m3_id.
Proof.
  intros A B. unfold flatten_on_floor. cbn [fr_R]. rewrite frame_yaw_first, A, B. unfold atan2.
  destruct (Rlt_dec 0 0); [lra|]. apply rot_z_0.
Qed.
Print Assumptions C43_vertical.

(** A quarter turn about z followed by a tilt. *)
Definition ex_frame : frame := Frame (M3 0 (-1) 0 (3 / 5) 0 (- 4 / 5) (4 / 5) 0 (3 / 5)) (V3 1 2 3).
Example C43_example : rigid ex_frame /\ (m00 (fr_R ex_frame) <> 0 \/ m10 (fr_R ex_frame) <> 0) /\ flatten_on_floor ex_frame = planar 1 2 (PI / 2).
Proof.
  split; [|split].
  - split; [apply M3_ext; unfold ex_frame; m3; cbn [fr_R m00 m01 m02 m10 m11 m12 m20 m21 m22]; lra|unfold m3_det, ex_frame; cbn [fr_R m00 m01 m02 m10 m11 m12 m20 m21 m22]; lra].
  - right. cbn. lra.
  - unfold flatten_on_floor, planar. rewrite frame_yaw_first. unfold ex_frame. cbn [fr_R fr_t vx vy m10 m00]. unfold atan2.
    destruct (Rlt_dec 0 0); [lra|]. destruct (Rlt_dec 0 (3 / 5)); [reflexivity|lra].
Qed.

(** ** C44 *)
Theorem C44_ends a b : rigid a -> rigid b -> interpolate_frames a b 0 = a /\ interpolate_frames a b 1 = b.
Proof.
  intros A B. unfold interpolate_frames. split; apply Frame_ext; cbn [fr_R fr_t].
  - rewrite slerp_0. now apply quat_matrix_of.
  - apply V3_ext; m3; ring.
  - rewrite slerp_1, hemi_matrix. now apply quat_matrix_of.
  - apply V3_ext; m3; ring.
Qed.
Print Assumptions C44_ends.

Theorem C44_translation a b t : fr_t (interpolate_frames a b t) = v3_add (fr_t a) (v3_scale t (v3_sub (fr_t b) (fr_t a))).
Proof. unfold interpolate_frames. cbn [fr_t]. apply V3_ext; m3; ring. Qed.
Print Assumptions C44_translation.

Example C44_example : rigid ex_frame /\ rigid (planar 5 6 1) /\ fr_t (interpolate_frames ex_frame (planar 5 6 1) (1 / 2)) = V3 3 4 (3 / 2).
Proof.
  split; [apply C43_example|]. split; [apply rotation_z|]. rewrite C44_translation. unfold ex_frame, planar. cbn [fr_t]. apply V3_ext; m3; lra.
Qed.

(** ** C93 *)

(** The orientation of the result is not always exactly a rotation: for two orientations less than about 3e-8 rad apart the
    quaternions are averaged without normalisation. *)
Theorem C93_rotation_refuted : exists a b, rigid a /\ rigid b /\ ~ rigid (interpolate_frames a b (1 / 2)).
Proof.
  pose proof slerp_epsilon_range as He.
  (* theta such that cos theta = 1 - epsilon / 2 *)
  set (theta := acos (1 - slerp_epsilon / 2)).
  assert (Hc : cos theta = 1 - slerp_epsilon / 2) by (apply cos_acos; lra).
  set (q := Quat (cos theta) 0 0 (sin theta)).
  pose proof (sin2_cos2 theta) as S2. unfold Rsqr in S2.
  assert (U : unit_quat q) by (unfold unit_quat, q, quat_dot; cbn [qw qx qy qz]; lra).
  exists frame_id, (Frame (quat_matrix q) v3_zero). split; [apply rotation_id|]. split; [now apply quat_matrix_rotation|].
  intros [O _]. unfold interpolate_frames in O. cbn [fr_R frame_id] in O.
  (* the quaternions *)
  assert (Ei : quat_of m3_id = Quat 1 0 0 0).
  { unfold quat_of, m3_trace, m3_id. cbn [m00 m01 m02 m10 m11 m12 m20 m21 m22].
    destruct (Rlt_dec 0 (1 + 1 + 1)); [|lra]. replace (1 + 1 + 1 + 1) with (2 * 2) by lra. rewrite sqrt_square by lra. f_equal; lra. }
  rewrite Ei in O. pose proof (quat_of_represents _ (quat_matrix_rotation q U)) as R. set (p := quat_of (quat_matrix q)) in *.
  pose proof (quat_of_unit _ (quat_matrix_rotation q U)) as Up. fold p in Up.
  (* qw p ^ 2 = cos^2 theta *)
  assert (W : qw p * qw p = cos theta * cos theta).
  { destruct R as (R & _). rewrite quat_matrix_homogeneous in R by exact U. unfold quat_matrix_h, q in R.
    cbn [m00 m11 m22 qw qx qy qz] in R. lra. }
  assert (D : quat_dot (Quat 1 0 0 0) p = qw p) by (unfold quat_dot; cbn [qw qx qy qz]; ring).
  assert (A : Rabs (qw p) = 1 - slerp_epsilon / 2).
  { rewrite <- Hc. rewrite <- (Rabs_right (cos theta)) by lra. apply Rsqr_eq_abs_0. exact W. }
  rewrite slerp_near in O by (rewrite D, A; lra).
  rewrite D in O. set (h := hemi (qw p)) in O. set (c := quat_comb _ _ _ _) in O.
  assert (N : quat_dot c c = 1 - slerp_epsilon / 4).
  { unfold c. rewrite comb_dot, D. rewrite Up. replace (quat_dot (Quat 1 0 0 0) (Quat 1 0 0 0)) with 1 by (unfold quat_dot; cbn [qw qx qy qz]; ring).
    pose proof (hemi_abs (qw p)) as Hh. pose proof (hemi_sqr (qw p)) as Hq. fold h in Hh, Hq. rewrite A in Hh.
    replace ((1 - 1 / 2) * (1 - 1 / 2) * 1 + 2 * (1 - 1 / 2) * (h * (1 / 2)) * qw p + h * (1 / 2) * (h * (1 / 2)) * 1)
      with (1 / 4 + 1 / 2 * (h * qw p) + 1 / 4 * (h * h)) by field.
    rewrite Hh, Hq. lra. }
  destruct (quat_matrix_defect c) as [E _]. unfold orthogonal in O. rewrite O in E. unfold m3_id in E. rewrite N in E.
  (* the vector part of c is not null *)
  assert (Z : qx p = 0 /\ qy p = 0).
  { destruct R as (_ & RX & RY & _). rewrite quat_matrix_homogeneous in RX, RY by exact U. unfold quat_matrix_h, q in RX, RY.
    cbn [m00 m11 m22 qw qx qy qz] in RX, RY. split; apply Rsqr_0_uniq; unfold Rsqr; lra. }
  injection E as E0 _ _ _ _ _ _ _ _. revert E0.
  unfold c, quat_vec, v3_dot, quat_comb. cbn [qw qx qy qz vx vy vz]. destruct Z as [-> ->].
  assert (Q : qz p * qz p = sin theta * sin theta).
  { destruct R as (_ & _ & _ & R & _). rewrite quat_matrix_homogeneous in R by exact U. unfold quat_matrix_h, q in R.
    cbn [m00 m11 m22 qw qx qy qz] in R. lra. }
  pose proof (hemi_sqr (qw p)) as Hq. fold h in Hq.
  replace (4 * (1 - (1 - slerp_epsilon / 4)) *
     (((1 - 1 / 2) * 0 + h * (1 / 2) * 0) * ((1 - 1 / 2) * 0 + h * (1 / 2) * 0) -
      (((1 - 1 / 2) * 0 + h * (1 / 2) * 0) * ((1 - 1 / 2) * 0 + h * (1 / 2) * 0) +
       ((1 - 1 / 2) * 0 + h * (1 / 2) * 0) * ((1 - 1 / 2) * 0 + h * (1 / 2) * 0) +
       ((1 - 1 / 2) * 0 + h * (1 / 2) * qz p) * ((1 - 1 / 2) * 0 + h * (1 / 2) * qz p))))
    with (- slerp_epsilon * (1 / 4) * (h * h) * (qz p * qz p)) by field.
  rewrite Hq, Q. replace (sin theta * sin theta) with (1 - cos theta * cos theta) by lra. rewrite Hc.
  set (e := slerp_epsilon) in *. intros E0.
  assert (P : 0 < e * (1 / 4) * (1 - (1 - e / 2) * (1 - e / 2))); [|lra].
  apply Rmult_lt_0_compat; [lra|]. replace (1 - (1 - e / 2) * (1 - e / 2)) with (e * (1 - e / 4)) by field. apply Rmult_lt_0_compat; lra.
Qed.
Print Assumptions C93_rotation_refuted.

(** It is one as soon as the orientations are further apart (the angle between them is more than 2 acos (1 - 2^-52)), for
    every ratio; the translation part being free, the result is rigid. *)
Theorem C93_rotation_partial a b t : rigid a -> rigid b ->
  Rabs (quat_dot (quat_of (fr_R a)) (quat_of (fr_R b))) < 1 - slerp_epsilon -> rigid (interpolate_frames a b t).
Proof.
  intros A B H. unfold rigid, interpolate_frames. cbn [fr_R]. apply quat_matrix_rotation.
  apply slerp_unit; [now apply quat_of_unit|now apply quat_of_unit|exact H].
Qed.
Print Assumptions C93_rotation_partial.

(** The condition in terms of the orientations only. *)
Theorem C93_condition a b : rigid a -> rigid b ->
  4 * (quat_dot (quat_of (fr_R a)) (quat_of (fr_R b)) * quat_dot (quat_of (fr_R a)) (quat_of (fr_R b))) =
  1 + m3_trace (m3_mul (m3_t (fr_R a)) (fr_R b)).
Proof.
  intros A B. pose proof (trace_product _ _ (quat_of_unit _ A) (quat_of_unit _ B)) as T.
  rewrite !quat_matrix_of in T by assumption. lra.
Qed.
Print Assumptions C93_condition.

(** Otherwise, and for ratios in [0, 1], no entry of R^T R is further than 4 epsilon from that of the identity. *)
Definition near (k x y : R) : Prop := Rabs (x - y) <= k.
Theorem C93_rotation_almost a b t : rigid a -> rigid b -> 0 <= t <= 1 ->
  let r := fr_R (interpolate_frames a b t) in
  let m := m3_mul (m3_t r) r in
  let near := near (4 * slerp_epsilon) in
  near (m00 m) 1 /\ near (m01 m) 0 /\ near (m02 m) 0 /\ near (m10 m) 0 /\ near (m11 m) 1 /\ near (m12 m) 0 /\
  near (m20 m) 0 /\ near (m21 m) 0 /\ near (m22 m) 1.
Proof.
  intros A B Ht r m near'. unfold near', m, r, interpolate_frames. cbn [fr_R].
  pose proof (quat_of_unit _ A) as UA. pose proof (quat_of_unit _ B) as UB.
  set (qa := quat_of (fr_R a)) in *. set (qb := quat_of (fr_R b)) in *. set (q := slerp qa t qb).
  pose proof slerp_epsilon_range as He.
  assert (N : 1 - slerp_epsilon / 2 <= quat_dot q q <= 1).
  { destruct (Rle_lt_dec (1 - slerp_epsilon) (Rabs (quat_dot qa qb))) as [H|H].
    - now apply slerp_near_norm.
    - destruct (slerp_unit qa t qb UA UB H) as [Uq _]. unfold unit_quat in Uq. fold q in Uq. rewrite Uq. lra. }
  destruct (quat_matrix_defect q) as [-> _]. cbn [m00 m01 m02 m10 m11 m12 m20 m21 m22].
  set (n := quat_dot q q) in *. assert (V : qw q * qw q + qx q * qx q + qy q * qy q + qz q * qz q = n) by reflexivity.
  set (v := quat_vec q). assert (L : v3_dot v v <= 1).
  { unfold v, v3_dot, quat_vec. cbn [vx vy vz]. pose proof (Rle_0_sqr (qw q)). unfold Rsqr in *. lra. }
  assert (K : 0 <= 4 * (1 - n) <= 2 * slerp_epsilon) by lra. set (k := 4 * (1 - n)) in *.
  assert (X : 0 <= vx v * vx v) by (apply Rle_0_sqr). assert (Y : 0 <= vy v * vy v) by (apply Rle_0_sqr).
  assert (Z : 0 <= vz v * vz v) by (apply Rle_0_sqr).
  assert (P : forall x y, 0 <= x * x -> 0 <= y * y -> x * x <= 1 -> y * y <= 1 -> -1 <= x * y <= 1).
  { intros x y _ _ Hx Hy. pose proof (Rle_0_sqr (x - y)). pose proof (Rle_0_sqr (x + y)). unfold Rsqr in *. lra. }
  assert (Lx : vx v * vx v <= 1) by (unfold v3_dot in L; lra). assert (Ly : vy v * vy v <= 1) by (unfold v3_dot in L; lra).
  assert (Lz : vz v * vz v <= 1) by (unfold v3_dot in L; lra).
  pose proof (P _ _ X Y Lx Ly) as XY. pose proof (P _ _ X Z Lx Lz) as XZ. pose proof (P _ _ Y Z Ly Lz) as YZ.
  assert (F : forall g x y, -1 <= g <= 1 -> x - y = k * g -> near (4 * slerp_epsilon) x y).
  { intros g x y Hg E. unfold near. rewrite E. apply Rabs_le. split; nra. }
  unfold v3_dot in *.
  repeat match goal with |- _ /\ _ => split end.
  - apply (F (vx v * vx v - (vx v * vx v + vy v * vy v + vz v * vz v))); [lra|ring].
  - apply (F (vx v * vy v)); [lra|ring].
  - apply (F (vx v * vz v)); [lra|ring].
  - apply (F (vx v * vy v)); [lra|ring].
  - apply (F (vy v * vy v - (vx v * vx v + vy v * vy v + vz v * vz v))); [lra|ring].
  - apply (F (vy v * vz v)); [lra|ring].
  - apply (F (vx v * vz v)); [lra|ring].
  - apply (F (vy v * vz v)); [lra|ring].
  - apply (F (vz v * vz v - (vx v * vx v + vy v * vy v + vz v * vz v))); [lra|ring].
Qed.
Print Assumptions C93_rotation_almost.

(** ** C94 *)

(** Orientations far enough from each other: the angle from a grows linearly, along the short way. *)
Theorem C94_constant_rate_partial a b t : rigid a -> rigid b ->
  Rabs (quat_dot (quat_of (fr_R a)) (quat_of (fr_R b))) < 1 - slerp_epsilon ->
  exists phi, 0 <= phi <= PI /\ angle_between (fr_R a) (fr_R b) phi /\
    angle_between (fr_R a) (fr_R (interpolate_frames a b t)) (t * phi) /\
    angle_between (fr_R (interpolate_frames a b t)) (fr_R b) ((1 - t) * phi).
Proof.
  intros A B H. pose proof (quat_of_unit _ A) as UA. pose proof (quat_of_unit _ B) as UB.
  pose proof (quat_matrix_of _ A) as MA. pose proof (quat_matrix_of _ B) as MB. unfold interpolate_frames. cbn [fr_R].
  set (qa := quat_of (fr_R a)) in *. set (qb := quat_of (fr_R b)) in *.
  destruct (slerp_far qa t qb H) as (ES & Hth & Hc & Hs). destruct (slerp_unit qa t qb UA UB H) as [US DS].
  set (theta := acos (Rabs (quat_dot qa qb))) in *. exists (2 * theta). split; [lra|].
  assert (C2 : forall x, 4 * (cos x * cos x) - 1 = 1 + 2 * cos (2 * x)).
  { intros x. rewrite cos_2a_cos. ring. }
  assert (DB : quat_dot (slerp qa t qb) qb * quat_dot (slerp qa t qb) qb = cos ((1 - t) * theta) * cos ((1 - t) * theta)).
  { rewrite ES. replace (quat_dot (quat_comb (sin ((1 - t) * theta) / sin theta) qa (hemi (quat_dot qa qb) * (sin (t * theta) / sin theta)) qb) qb)
      with ((sin ((1 - t) * theta) / sin theta) * quat_dot qa qb + (hemi (quat_dot qa qb) * (sin (t * theta) / sin theta)) * quat_dot qb qb)
      by (unfold quat_dot, quat_comb; cbn [qw qx qy qz]; ring).
    rewrite UB. set (d := quat_dot qa qb) in *. pose proof (hemi_sqr d) as Hq. pose proof (hemi_abs d) as Hh. rewrite <- Hc in Hh.
    assert (Hd : d = hemi d * cos theta) by (rewrite <- Hh, <- Rmult_assoc, Hq; ring). rewrite Hd at 1 3.
    set (h := hemi d) in *.
    assert (G : sin ((1 - t) * theta) * cos theta + sin (t * theta) = sin theta * cos ((1 - t) * theta)).
    { replace (t * theta) with (theta - (1 - t) * theta) by ring. rewrite sin_minus. ring. }
    replace (sin ((1 - t) * theta) / sin theta * (h * cos theta) + h * (sin (t * theta) / sin theta) * 1)
      with (h * ((sin ((1 - t) * theta) * cos theta + sin (t * theta)) / sin theta)) by (field; lra).
    rewrite G. replace (sin theta * cos ((1 - t) * theta) / sin theta) with (cos ((1 - t) * theta)) by (field; lra).
    transitivity ((h * h) * (cos ((1 - t) * theta) * cos ((1 - t) * theta))); [ring|]. rewrite Hq. ring. }
  unfold angle_between. split; [|split].
  - rewrite <- MA, <- MB. rewrite trace_product by assumption. rewrite <- C2, Hc. rewrite <- Rabs_mult.
    rewrite (Rabs_right (quat_dot qa qb * quat_dot qa qb)); [reflexivity|]. pose proof (Rle_0_sqr (quat_dot qa qb)). unfold Rsqr in *. lra.
  - rewrite <- MA. rewrite trace_product by assumption. rewrite DS. replace (t * (2 * theta)) with (2 * (t * theta)) by ring. apply C2.
  - rewrite <- MB. rewrite trace_product by assumption. rewrite DB. replace ((1 - t) * (2 * theta)) with (2 * ((1 - t) * theta)) by ring. apply C2.
Qed.
Print Assumptions C94_constant_rate_partial.

(** A quarter turn about z. *)
Example C94_example : let a := planar 0 0 0 in let b := planar 4 0 (PI / 2) in
  rigid a /\ rigid b /\ Rabs (quat_dot (quat_of (fr_R a)) (quat_of (fr_R b))) < 1 - slerp_epsilon.
Proof.
  cbv zeta. split; [apply rotation_z|]. split; [apply rotation_z|].
  pose proof (C93_condition (planar 0 0 0) (planar 4 0 (PI / 2)) (rotation_z _) (rotation_z _)) as C.
  set (d := quat_dot _ _) in *. unfold m3_trace, planar, rot_z in C. cbn [fr_R] in C. rewrite cos_0, sin_0, cos_PI2, sin_PI2 in C. m3.
  pose proof slerp_epsilon_range. apply Rabs_def1; nra.
Qed.

(** ** C95 *)
Theorem C95_rotation_from_axis axis v :
  match axis_vector axis with
  | None => rotation_from_axis axis v = Throw ERuntime
  | Some e => v <> v3_zero -> exists r, rotation_from_axis axis v = Ok r /\ rotation r /\ v3_scale (v3_norm v) (m3_vec r e) = v
  end.
Proof.
  assert (E : forall s e, axis_vector s = Some e -> (s = "x"%string /\ e = V3 1 0 0) \/ (s = "y"%string /\ e = V3 0 1 0) \/ (s = "z"%string /\ e = V3 0 0 1)).
  { intros s e. unfold axis_vector. destruct (String.eqb_spec s "x"); [intros H; injection H as <-; auto|].
    destruct (String.eqb_spec s "y"); [intros H; injection H as <-; auto|]. destruct (String.eqb_spec s "z"); [intros H; injection H as <-; auto|discriminate]. }
  destruct (axis_vector axis) as [e|] eqn:A.
  - intros V. unfold rotation_from_axis. rewrite A. eexists. split; [reflexivity|].
    pose proof (v3_normalize_unit v V) as U. set (u := v3_normalize v) in *.
    assert (G : forall r, rotation r /\ m3_vec r e = u -> rotation r /\ v3_scale (v3_norm v) (m3_vec r e) = v).
    { intros r [R H]. split; [exact R|]. rewrite H. unfold u, v3_normalize. pose proof (v3_dot_pos v V) as P.
      destruct (Rlt_dec 0 (v3_dot v v)) as [_|]; [|contradiction]. pose proof (sqrt_lt_R0 _ P) as S. fold (v3_norm v) in S.
      apply V3_ext; m3; field; lra. }
    apply G. clear G.
    assert (O : v3_dot (v3_cross e u) e = 0) by (unfold v3_dot; m3; ring).
    assert (N : forall w, v3_norm w <> 0 -> v3_dot (v3_normalize w) (v3_normalize w) = 1).
    { intros w Z. apply v3_normalize_unit. intros K. apply Z, v3_norm_0. exact K. }
    assert (O' : v3_dot (v3_normalize (v3_cross e u)) e = 0).
    { unfold v3_normalize. destruct (Rlt_dec 0 (v3_dot (v3_cross e u) (v3_cross e u))); [|exact O].
      transitivity (/ v3_norm (v3_cross e u) * v3_dot (v3_cross e u) e); [unfold v3_dot; m3; ring|rewrite O; ring]. }
    destruct (E axis e A) as [[-> ->]|[[-> ->]|[-> ->]]]; cbn [String.eqb Ascii.eqb Bool.eqb];
      (destruct (Req_EM_T (v3_norm (v3_cross _ u)) 0) as [Z|Z];
       [apply rotate_onto; [unfold v3_dot; cbn [vx vy vz]; ring|exact U|unfold v3_dot; cbn [vx vy vz]; ring|unfold v3_dot; cbn [vx vy vz]; ring|contradiction]
       |apply rotate_onto; [unfold v3_dot; cbn [vx vy vz]; ring|exact U|apply N, Z|exact O'|reflexivity]]).
  - unfold rotation_from_axis. now rewrite A.
Qed.
Print Assumptions C95_rotation_from_axis.

(** The names of the axes. *)
Theorem C95_axes axis : axis_vector axis <> None <-> axis = "x"%string \/ axis = "y"%string \/ axis = "z"%string.
Proof.
  unfold axis_vector. destruct (String.eqb_spec axis "x") as [E|E]; [split; [auto|discriminate]|].
  destruct (String.eqb_spec axis "y") as [F|F]; [split; [auto|discriminate]|].
  destruct (String.eqb_spec axis "z") as [G|G]; [split; [auto|discriminate]|].
  split; [intros H; now elim H|]. intros [H|[H|H]]; contradiction.
Qed.
Print Assumptions C95_axes.

(** Also towards the opposite direction. *)
Example C95_example : exists r, rotation_from_axis "x" (V3 (-2) 0 0) = Ok r /\ rotation r /\ m3_vec r (V3 1 0 0) = V3 (-1) 0 0.
Proof.
  pose proof (C95_rotation_from_axis "x" (V3 (-2) 0 0)) as H. cbn [axis_vector String.eqb Ascii.eqb Bool.eqb] in H.
  assert (NZ : V3 (-2) 0 0 <> v3_zero) by (intros K; injection K; lra). destruct (H NZ) as (r & E & R & H'). clear H. rename H' into H. exists r. split; [exact E|]. split; [exact R|].
  assert (N : v3_norm (V3 (-2) 0 0) = 2).
  { unfold v3_norm, v3_dot. cbn [vx vy vz]. replace (-2 * -2 + 0 * 0 + 0 * 0) with (2 * 2) by ring. apply sqrt_square. lra. }
  rewrite N in H. destruct (m3_vec r (V3 1 0 0)) as [x y z]. unfold v3_scale in H. cbn [vx vy vz] in H. injection H as H1 H2 H3. f_equal; lra.
Qed.

(** ** C96 *)
Theorem C96_optimal (svd : mat3 -> mat3 * mat3) a b : (let (u, v) := svd (covariance a b) in is_svd (covariance a b) u v) ->
  mcols a = 3%nat -> mcols b = 3%nat -> mrows a = mrows b -> (3 <= mrows a)%nat ->
  exists t, optimal_transformation svd a b = Ok t /\ rigid t /\
    forall t', rigid t' -> alignment_cost (mrows a) (row3 a) (row3 b) t <= alignment_cost (mrows a) (row3 a) (row3 b) t'.
Proof.
  intros S CA CB R N. rewrite optimal_transformation_result by assumption.
  destruct (svd (covariance a b)) as [u v]. cbv zeta. eexists. split; [reflexivity|].
  pose proof (best_rotation_rotation u v (proj1 S) (proj1 (proj2 S))) as B. split; [exact B|].
  intros [q t] Q. unfold rigid in Q. cbn [fr_R] in Q.
  rewrite (cost_expand a b R ltac:(lia) (best_rotation u v) _ (proj1 B)), (cost_expand a b R ltac:(lia) q t (proj1 Q)).
  pose proof (best_rotation_trace _ u v q S Q) as T. set (d := v3_sub _ t).
  set (z := v3_sub (v3_sub (barycenter a) (m3_vec (best_rotation u v) (barycenter b))) (v3_sub (barycenter a) (m3_vec (best_rotation u v) (barycenter b)))).
  assert (Z : v3_dot z z = 0) by (unfold z, v3_dot; m3; ring). rewrite Z.
  assert (P : 0 <= INR (mrows a) * v3_dot d d) by (apply Rmult_le_pos; [apply pos_INR|apply v3_dot_nonneg]). lra.
Qed.
Print Assumptions C96_optimal.

(** If the points of A are those of B after a rigid motion, every point is matched. *)
Theorem C96_exact (svd : mat3 -> mat3 * mat3) a b t0 : (let (u, v) := svd (covariance a b) in is_svd (covariance a b) u v) ->
  mcols a = 3%nat -> mcols b = 3%nat -> mrows a = mrows b -> (3 <= mrows a)%nat -> rigid t0 ->
  (forall i, (i < mrows a)%nat -> row3 a i = frame_act t0 (row3 b i)) ->
  exists t, optimal_transformation svd a b = Ok t /\ forall i, (i < mrows a)%nat -> row3 a i = frame_act t (row3 b i).
Proof.
  intros S CA CB R N T0 H. destruct (C96_optimal svd a b S CA CB R N) as (t & E & _ & M). exists t. split; [exact E|].
  specialize (M t0 T0). assert (Z : alignment_cost (mrows a) (row3 a) (row3 b) t0 = 0).
  { unfold alignment_cost. apply Rsum_zero_ext. intros i Hi. rewrite <- (H i Hi). unfold distance2, v3_dot. m3. ring. }
  rewrite Z in M. intros i Hi. apply distance2_0.
  pose proof (Rsum_single_le (mrows a) (fun i => distance2 (row3 a i) (frame_act t (row3 b i))) i (fun _ _ => distance2_nonneg _ _) Hi) as L.
  cbv beta in L. unfold alignment_cost in M. pose proof (distance2_nonneg (row3 a i) (frame_act t (row3 b i))). lra.
Qed.
Print Assumptions C96_exact.

(** The shapes that are refused. *)
Theorem C96_refused svd a b : (mcols a <> 3 \/ mcols b <> 3 \/ mrows a <> mrows b \/ mrows a < 3)%nat ->
  optimal_transformation svd a b = Throw ERuntime.
Proof.
  intros H. unfold optimal_transformation.
  destruct (Nat.eqb_spec (mcols a) 3); [|reflexivity]. destruct (Nat.eqb_spec (mcols b) 3); [|reflexivity].
  destruct (Nat.eqb_spec (mrows a) (mrows b)); [|reflexivity]. destruct (Nat.ltb_spec (mrows a) 3); [reflexivity|]. cbn. lia.
Qed.
Print Assumptions C96_refused.

(** The six unit vectors and their mirror images by the horizontal plane: a reflection would match them, the best rotation is
    the identity. *)
Definition ex_points (z : R) : mat := Mat 6 3 (fun i j =>
  match i, j with 0%nat, 0%nat => 1 | 1%nat, 0%nat => -1 | 2%nat, 1%nat => 1 | 3%nat, 1%nat => -1 | 4%nat, 2%nat => z | 5%nat, 2%nat => - z | _, _ => 0 end).
Example C96_example : let svd (_ : mat3) := (m3_id, M3 1 0 0 0 1 0 0 0 (-1)) in
  (let (u, v) := svd (covariance (ex_points (-1)) (ex_points 1)) in is_svd (covariance (ex_points (-1)) (ex_points 1)) u v) /\
  optimal_transformation svd (ex_points (-1)) (ex_points 1) = Ok frame_id.
Proof.
  cbv zeta.
  assert (B : forall z, barycenter (ex_points z) = v3_zero).
  { intros z. unfold barycenter, row3, ex_points. cbn [mrows mat_at vx vy vz Rsum]. apply V3_ext; cbn [vx vy vz v3_zero]; field; simpl; lra. }
  assert (C : covariance (ex_points (-1)) (ex_points 1) = M3 2 0 0 0 2 0 0 0 (-2)).
  { unfold covariance. rewrite !B. unfold row3, ex_points, v3_sub, v3_zero. cbn [mrows mat_at vx vy vz Rsum]. apply M3_ext; cbn [m00 m01 m02 m10 m11 m12 m20 m21 m22]; ring. }
  split.
  - rewrite C. split; [apply M3_ext; m3; ring|]. split; [apply M3_ext; m3; ring|]. exists 2, 2, 2. repeat split; try lra.
    apply M3_ext; m3; ring.
  - unfold optimal_transformation. cbn [ex_points mcols mrows Nat.eqb Nat.ltb Nat.leb negb orb]. rewrite !B.
    assert (D : m3_det (m3_mul (M3 1 0 0 0 1 0 0 0 (-1)) (m3_t m3_id)) = -1) by (unfold m3_det; m3; ring).
    rewrite D. destruct (Rlt_dec (-1) 0); [|lra]. f_equal. apply Frame_ext; unfold frame_id; cbn [fr_R fr_t]; [apply M3_ext|apply V3_ext]; m3; ring.
Qed.
