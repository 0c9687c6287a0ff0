(** Vectors, matrices and rigid transformations of the 3d space, as used through Eigen by placo. The operations are those
    of Eigen::Vector3d, Eigen::Matrix3d and Eigen::Affine3d over the reals. *)
From Coq Require Import Reals Lra.
From Verif Require Import Base Angle.
Open Scope R_scope.

(** Eigen::Vector3d and Eigen::Matrix3d, the latter by rows. *)
Record vec3 : Type := V3 { vx : R; vy : R; vz : R }.
Record mat3 : Type := M3 { m00 : R; m01 : R; m02 : R; m10 : R; m11 : R; m12 : R; m20 : R; m21 : R; m22 : R }.

Definition v3_zero : vec3 := V3 0 0 0.
Definition v3_add (a b : vec3) : vec3 := V3 (vx a + vx b) (vy a + vy b) (vz a + vz b).
Definition v3_sub (a b : vec3) : vec3 := V3 (vx a - vx b) (vy a - vy b) (vz a - vz b).
Definition v3_scale (k : R) (a : vec3) : vec3 := V3 (k * vx a) (k * vy a) (k * vz a).
Definition v3_dot (a b : vec3) : R := vx a * vx b + vy a * vy b + vz a * vz b.
Definition v3_norm (a : vec3) : R := sqrt (v3_dot a a).
Definition v3_cross (a b : vec3) : vec3 :=
  V3 (vy a * vz b - vz a * vy b) (vz a * vx b - vx a * vz b) (vx a * vy b - vy a * vx b).

Definition m3_id : mat3 := M3 1 0 0 0 1 0 0 0 1.
Definition m3_t (a : mat3) : mat3 := M3 (m00 a) (m10 a) (m20 a) (m01 a) (m11 a) (m21 a) (m02 a) (m12 a) (m22 a).
Definition m3_mul (a b : mat3) : mat3 :=
  M3 (m00 a * m00 b + m01 a * m10 b + m02 a * m20 b) (m00 a * m01 b + m01 a * m11 b + m02 a * m21 b) (m00 a * m02 b + m01 a * m12 b + m02 a * m22 b)
     (m10 a * m00 b + m11 a * m10 b + m12 a * m20 b) (m10 a * m01 b + m11 a * m11 b + m12 a * m21 b) (m10 a * m02 b + m11 a * m12 b + m12 a * m22 b)
     (m20 a * m00 b + m21 a * m10 b + m22 a * m20 b) (m20 a * m01 b + m21 a * m11 b + m22 a * m21 b) (m20 a * m02 b + m21 a * m12 b + m22 a * m22 b).
Definition m3_vec (a : mat3) (v : vec3) : vec3 :=
  V3 (m00 a * vx v + m01 a * vy v + m02 a * vz v) (m10 a * vx v + m11 a * vy v + m12 a * vz v) (m20 a * vx v + m21 a * vy v + m22 a * vz v).
Definition m3_det (a : mat3) : R :=
  m00 a * (m11 a * m22 a - m12 a * m21 a) - m01 a * (m10 a * m22 a - m12 a * m20 a) + m02 a * (m10 a * m21 a - m11 a * m20 a).
Definition m3_trace (a : mat3) : R := m00 a + m11 a + m22 a.

(** A rotation matrix. *)
Definition orthogonal (a : mat3) : Prop := m3_mul (m3_t a) a = m3_id.
Definition rotation (a : mat3) : Prop := orthogonal a /\ m3_det a = 1.

(** Eigen::AngleAxisd(a, UnitZ()).toRotationMatrix(). *)
Definition rot_z (a : R) : mat3 := M3 (cos a) (- sin a) 0 (sin a) (cos a) 0 0 0 1.

(** Eigen::Affine3d with a rotation as linear part (the only ones modelled), the composition, the action on points and
    the inverse. *)
Record frame : Type := Frame { fr_R : mat3; fr_t : vec3 }.
Definition frame_id : frame := Frame m3_id v3_zero.
Definition frame_mul (a b : frame) : frame := Frame (m3_mul (fr_R a) (fr_R b)) (v3_add (m3_vec (fr_R a) (fr_t b)) (fr_t a)).
Definition frame_act (a : frame) (v : vec3) : vec3 := v3_add (m3_vec (fr_R a) v) (fr_t a).
Definition frame_inv (a : frame) : frame := Frame (m3_t (fr_R a)) (v3_scale (-1) (m3_vec (m3_t (fr_R a)) (fr_t a))).
Definition rigid (a : frame) : Prop := rotation (fr_R a).

(** ** Lemmas *)
Ltac m3 := unfold m3_mul, m3_vec, m3_t, m3_id, v3_add, v3_sub, v3_scale, v3_zero, v3_cross in *;
  cbn [m00 m01 m02 m10 m11 m12 m20 m21 m22 vx vy vz] in *.

Lemma M3_ext a b : m00 a = m00 b -> m01 a = m01 b -> m02 a = m02 b -> m10 a = m10 b -> m11 a = m11 b -> m12 a = m12 b ->
  m20 a = m20 b -> m21 a = m21 b -> m22 a = m22 b -> a = b.
Proof. destruct a, b. cbn. intros. subst. reflexivity. Qed.

Lemma V3_ext a b : vx a = vx b -> vy a = vy b -> vz a = vz b -> a = b.
Proof. destruct a, b. cbn. intros. subst. reflexivity. Qed.

Lemma m3_mul_assoc a b c : m3_mul (m3_mul a b) c = m3_mul a (m3_mul b c).
Proof. apply M3_ext; m3; ring. Qed.
Lemma m3_mul_id_l a : m3_mul m3_id a = a.
Proof. apply M3_ext; m3; ring. Qed.
Lemma m3_mul_id_r a : m3_mul a m3_id = a.
Proof. apply M3_ext; m3; ring. Qed.
Lemma m3_t_mul a b : m3_t (m3_mul a b) = m3_mul (m3_t b) (m3_t a).
Proof. apply M3_ext; m3; ring. Qed.
Lemma m3_t_t a : m3_t (m3_t a) = a.
Proof. apply M3_ext; m3; ring. Qed.
Lemma m3_det_mul a b : m3_det (m3_mul a b) = m3_det a * m3_det b.
Proof. unfold m3_det. m3. ring. Qed.
Lemma m3_det_t a : m3_det (m3_t a) = m3_det a.
Proof. unfold m3_det. m3. ring. Qed.
Lemma m3_vec_mul a b v : m3_vec (m3_mul a b) v = m3_vec a (m3_vec b v).
Proof. apply V3_ext; m3; ring. Qed.
Lemma m3_vec_id v : m3_vec m3_id v = v.
Proof. apply V3_ext; m3; ring. Qed.
Lemma m3_vec_add a u v : m3_vec a (v3_add u v) = v3_add (m3_vec a u) (m3_vec a v).
Proof. apply V3_ext; m3; ring. Qed.
Lemma m3_vec_sub a u v : m3_vec a (v3_sub u v) = v3_sub (m3_vec a u) (m3_vec a v).
Proof. apply V3_ext; m3; ring. Qed.
Lemma m3_vec_scale a k v : m3_vec a (v3_scale k v) = v3_scale k (m3_vec a v).
Proof. apply V3_ext; m3; ring. Qed.
Lemma m3_dot_t a u v : v3_dot (m3_vec a u) v = v3_dot u (m3_vec (m3_t a) v).
Proof. unfold v3_dot. m3. ring. Qed.

(** The adjugate. *)
Definition m3_adj (a : mat3) : mat3 :=
  M3 (m11 a * m22 a - m12 a * m21 a) (m02 a * m21 a - m01 a * m22 a) (m01 a * m12 a - m02 a * m11 a)
     (m12 a * m20 a - m10 a * m22 a) (m00 a * m22 a - m02 a * m20 a) (m02 a * m10 a - m00 a * m12 a)
     (m10 a * m21 a - m11 a * m20 a) (m01 a * m20 a - m00 a * m21 a) (m00 a * m11 a - m01 a * m10 a).

Definition m3_scale (k : R) (a : mat3) : mat3 :=
  M3 (k * m00 a) (k * m01 a) (k * m02 a) (k * m10 a) (k * m11 a) (k * m12 a) (k * m20 a) (k * m21 a) (k * m22 a).

Lemma m3_adj_r a : m3_mul a (m3_adj a) = m3_scale (m3_det a) m3_id.
Proof. apply M3_ext; unfold m3_adj, m3_scale, m3_det; m3; ring. Qed.

Lemma orthogonal_det a : orthogonal a -> m3_det a = 1 \/ m3_det a = -1.
Proof.
  intros H. assert (E : m3_det (m3_mul (m3_t a) a) = 1) by (rewrite H; unfold m3_det; m3; ring).
  rewrite m3_det_mul, m3_det_t in E. assert (F : (m3_det a - 1) * (m3_det a + 1) = 0) by (ring_simplify; lra).
  apply Rmult_integral in F as [F|F]; [left|right]; lra.
Qed.

Lemma orthogonal_adj a : orthogonal a -> m3_scale (m3_det a) (m3_t a) = m3_adj a.
Proof.
  intros H. transitivity (m3_mul (m3_t a) (m3_scale (m3_det a) m3_id)).
  - apply M3_ext; unfold m3_scale; m3; ring.
  - rewrite <- m3_adj_r, <- m3_mul_assoc, H. apply m3_mul_id_l.
Qed.

Lemma orthogonal_r a : orthogonal a -> m3_mul a (m3_t a) = m3_id.
Proof.
  intros H. pose proof (orthogonal_adj a H) as E. pose proof (m3_adj_r a) as F. rewrite <- E in F.
  assert (D : m3_det a * m3_det a = 1) by (destruct (orthogonal_det a H) as [-> | ->]; lra).
  assert (G : m3_scale (m3_det a) (m3_mul a (m3_scale (m3_det a) (m3_t a))) = m3_mul a (m3_t a)).
  { unfold m3_scale. apply M3_ext; m3;
    match goal with |- ?l = ?r => transitivity ((m3_det a * m3_det a) * r); [ring|rewrite D; ring] end. }
  rewrite <- G, F. unfold m3_scale. apply M3_ext; m3; rewrite ?Rmult_1_r, ?Rmult_0_r; auto.
Qed.

Lemma orthogonal_t a : orthogonal a -> orthogonal (m3_t a).
Proof. intros H. unfold orthogonal. rewrite m3_t_t. now apply orthogonal_r. Qed.

Lemma orthogonal_mul a b : orthogonal a -> orthogonal b -> orthogonal (m3_mul a b).
Proof.
  unfold orthogonal. intros A B. rewrite m3_t_mul, m3_mul_assoc, <- (m3_mul_assoc (m3_t a)), A, m3_mul_id_l. exact B.
Qed.

Lemma rotation_id : rotation m3_id.
Proof. split; [apply M3_ext; m3; ring|unfold m3_det; m3; ring]. Qed.

Lemma rotation_t a : rotation a -> rotation (m3_t a).
Proof. intros [A D]. split; [now apply orthogonal_t|]. now rewrite m3_det_t. Qed.

Lemma rotation_mul a b : rotation a -> rotation b -> rotation (m3_mul a b).
Proof. intros [A D] [B E]. split; [now apply orthogonal_mul|]. rewrite m3_det_mul, D, E. ring. Qed.

Lemma rotation_r a : rotation a -> m3_mul a (m3_t a) = m3_id.
Proof. intros [A _]. now apply orthogonal_r. Qed.

Lemma rotation_l a : rotation a -> m3_mul (m3_t a) a = m3_id.
Proof. now intros [A _]. Qed.

Lemma orthogonal_dot a u v : orthogonal a -> v3_dot (m3_vec a u) (m3_vec a v) = v3_dot u v.
Proof. intros H. rewrite m3_dot_t, <- m3_vec_mul, H, m3_vec_id. reflexivity. Qed.

Lemma rotation_z a : rotation (rot_z a).
Proof.
  pose proof (sin2_cos2 a) as H. unfold Rsqr in H. split.
  - unfold orthogonal, rot_z. apply M3_ext; m3; lra.
  - unfold m3_det, rot_z. m3. lra.
Qed.

Lemma rot_z_mul a b : m3_mul (rot_z a) (rot_z b) = rot_z (a + b).
Proof. apply M3_ext; unfold rot_z; m3; rewrite ?cos_plus, ?sin_plus; ring. Qed.

Lemma rot_z_0 : rot_z 0 = m3_id.
Proof. unfold rot_z. rewrite cos_0, sin_0. apply M3_ext; m3; ring. Qed.

Lemma rot_z_same a b : same_angle a b -> rot_z a = rot_z b.
Proof. intros H. destruct (same_angle_cos_sin a b H) as [E F]. unfold rot_z. now rewrite E, F. Qed.

Lemma Frame_ext a b : fr_R a = fr_R b -> fr_t a = fr_t b -> a = b.
Proof. destruct a, b. cbn. intros. subst. reflexivity. Qed.

Lemma frame_mul_assoc a b c : frame_mul (frame_mul a b) c = frame_mul a (frame_mul b c).
Proof.
  apply Frame_ext; cbn [frame_mul fr_R fr_t]; [apply m3_mul_assoc|].
  rewrite m3_vec_add, m3_vec_mul. apply V3_ext; m3; ring.
Qed.

Lemma frame_mul_id_l a : frame_mul frame_id a = a.
Proof. apply Frame_ext; cbn [frame_mul frame_id fr_R fr_t]; [apply m3_mul_id_l|]. rewrite m3_vec_id. apply V3_ext; m3; ring. Qed.

Lemma frame_mul_id_r a : frame_mul a frame_id = a.
Proof. apply Frame_ext; cbn [frame_mul frame_id fr_R fr_t]; [apply m3_mul_id_r|]. apply V3_ext; m3; ring. Qed.

Lemma rigid_mul a b : rigid a -> rigid b -> rigid (frame_mul a b).
Proof. apply rotation_mul. Qed.

Lemma rigid_inv a : rigid a -> rigid (frame_inv a).
Proof. apply rotation_t. Qed.

Lemma frame_inv_r a : rigid a -> frame_mul a (frame_inv a) = frame_id.
Proof.
  intros H. apply Frame_ext; cbn [frame_mul frame_inv frame_id fr_R fr_t]; [now apply rotation_r|].
  rewrite m3_vec_scale, <- m3_vec_mul, rotation_r, m3_vec_id by exact H. apply V3_ext; m3; ring.
Qed.

Lemma frame_inv_l a : rigid a -> frame_mul (frame_inv a) a = frame_id.
Proof.
  intros H. apply Frame_ext; cbn [frame_mul frame_inv frame_id fr_R fr_t]; [now apply rotation_l|].
  apply V3_ext; m3; ring.
Qed.

Lemma frame_act_mul a b v : frame_act (frame_mul a b) v = frame_act a (frame_act b v).
Proof. unfold frame_act. cbn [frame_mul fr_R fr_t]. rewrite m3_vec_add, m3_vec_mul. apply V3_ext; m3; ring. Qed.

Lemma frame_inv_mul a b : rigid a -> rigid b -> frame_inv (frame_mul a b) = frame_mul (frame_inv b) (frame_inv a).
Proof.
  intros A B. rewrite <- (frame_mul_id_r (frame_inv (frame_mul a b))).
  rewrite <- (frame_inv_r a A). rewrite <- (frame_mul_id_l (frame_inv a)) at 1. rewrite <- (frame_inv_r b B).
  rewrite (frame_mul_assoc b), <- (frame_mul_assoc a), <- frame_mul_assoc.
  rewrite frame_inv_l by (now apply rigid_mul). rewrite frame_mul_id_l. reflexivity.
Qed.

Lemma frame_inv_inv a : rigid a -> frame_inv (frame_inv a) = a.
Proof.
  intros H. rewrite <- (frame_mul_id_r (frame_inv (frame_inv a))), <- (frame_inv_l a H), <- frame_mul_assoc.
  rewrite frame_inv_l by (now apply rigid_inv). apply frame_mul_id_l.
Qed.
