(** Specification of the manipulability task. *)
From Coq Require Import Reals List ZArith Bool String.
From Verif Require Import Base Geom3 Tools_model Geometry_model Robot_model Robot_spec Det Manip_model.
Import ListNotations.
Open Scope R_scope.

(** The rows of the Jacobian of a type of task: the first one and their number. *)
Definition first_row (type : manip_type) : nat := match type with MOrientation => 3 | _ => 0 end.
Definition row_count (type : manip_type) : nat := match type with MBoth => 6 | _ => 3 end.

(** J J^T, for these rows and the columns of the joints, that is without the six of the floating base; its determinant is the square of the
    manipulability. *)
Definition gram (type : manip_type) (J : mat) (i j : nat) : R :=
  Rsum (mcols J - 6) (fun c => mat_at J (first_row type + i) (6 + c) * mat_at J (first_row type + j) (6 + c)).
Definition manipulability (type : manip_type) (J : mat) : R := sqrt (det (row_count type) (gram type J)).

(** The configurations reached from [q] by moving the degree of freedom [k] alone. *)
Definition along (pn : pin) (m : rmodel) (q : vec) (k : nat) (u : R) : vec := pn_integrate pn q (Vec (m_nv m) (fun j => if Nat.eqb j k then u else 0)).

(** The linear and the angular part of a column of a Jacobian, and the same motion seen through the transformation [T]. *)
Definition linear (J : mat) (c : nat) : vec3 := V3 (mat_at J 0 c) (mat_at J 1 c) (mat_at J 2 c).
Definition angular (J : mat) (c : nat) : vec3 := V3 (mat_at J 3 c) (mat_at J 4 c) (mat_at J 5 c).
Definition act_linear (T : frame) (v w : vec3) : vec3 := v3_add (m3_vec (fr_R T) v) (v3_cross (fr_t T) (m3_vec (fr_R T) w)).
Definition act_angular (T : frame) (w : vec3) : vec3 := m3_vec (fr_R T) w.

(** Contracts of pinocchio at [q]: integrating nothing changes nothing; the Jacobian of a frame is the one of its joint seen from the frame; the Hessian of
    a joint is made of the derivatives of its Jacobian. *)
Record hessian_sound (pn : pin) (hs : hessians) (m : rmodel) (q : vec) (f : nat) : Prop := HessianSound {
  hd_zero : forall k, along pn m q k 0 = q;
  hd_size : forall k u, mrows (pn_jac pn (along pn m q k u) f Local) = 6%nat /\ mcols (pn_jac pn (along pn m q k u) f Local) = m_nv m;
  hd_hsize : forall k, mrows (hs_joint hs q (hs_parent hs f) k) = 6%nat /\ mcols (hs_joint hs q (hs_parent hs f) k) = m_nv m;
  hd_frame : forall k u c, (c < m_nv m)%nat -> let J := pn_jac pn (along pn m q k u) f Local in let Jj := pn_joint_jac pn (along pn m q k u) (hs_parent hs f) Local in
    linear J c = act_linear (frame_inv (hs_placement hs f)) (linear Jj c) (angular Jj c) /\ angular J c = act_angular (frame_inv (hs_placement hs f)) (angular Jj c);
  hd_deriv : forall k a c, (k < m_nv m)%nat -> (a < 6)%nat -> (c < m_nv m)%nat ->
    derivable_pt_lim (fun u => mat_at (pn_joint_jac pn (along pn m q k u) (hs_parent hs f) Local) a c) 0 (mat_at (hs_joint hs q (hs_parent hs f) k) a c)
}.

(** [g] is the gradient of the manipulability of the frame at [q] with respect to the joints. *)
Definition manipulability_gradient (pn : pin) (m : rmodel) (q : vec) (f : nat) (type : manip_type) (g : nat -> R) : Prop :=
  forall k, (6 <= k < m_nv m)%nat -> derivable_pt_lim (fun u => manipulability type (pn_jac pn (along pn m q k u) f Local)) 0 (g k).
