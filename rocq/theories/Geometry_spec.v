(** Specification of the geometric helpers. *)
From Coq Require Import Reals List.
From Verif Require Import Base Linalg Geom3.
Open Scope R_scope.

(** The angle of the rotation that leads from one orientation to another one: trace (A^T B) = 1 + 2 cos angle. *)
Definition angle_between (a b : mat3) (phi : R) : Prop := m3_trace (m3_mul (m3_t a) b) = 1 + 2 * cos phi.

(** Displacements along the floor. *)
Definition planar (x y a : R) : frame := Frame (rot_z a) (V3 x y 0).

(** A singular value decomposition H = U S V^T, the singular values sorted in decreasing order. *)
Definition is_svd (h u v : mat3) : Prop :=
  orthogonal u /\ orthogonal v /\
  exists s1 s2 s3, s1 >= s2 /\ s2 >= s3 /\ s3 >= 0 /\ h = m3_mul (m3_mul u (M3 s1 0 0 0 s2 0 0 0 s3)) (m3_t v).

(** Sum of the squared distances between the points of A and the images of the points of B. *)
Definition distance2 (p q : vec3) : R := v3_dot (v3_sub p q) (v3_sub p q).
Definition alignment_cost (n : nat) (a b : nat -> vec3) (t : frame) : R := Rsum n (fun i => distance2 (a i) (frame_act t (b i))).
