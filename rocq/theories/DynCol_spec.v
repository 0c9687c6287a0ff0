(** Specification for the self collisions of the dynamics solver. *)
From Coq Require Import Reals List.
From Verif Require Import Base Geom3 Geometry_model Robot_model Robot_spec KinTasks_model Dyn_model Tasks_spec.
Open Scope R_scope.

(** The velocity of the point of the body of the joint [j] that is at [p]. *)
Definition point_velocity (pn : pin) (q qd : vec) (j : nat) (p : vec3) : vec3 :=
  let J := pn_joint_jac pn q j World in v3_add (rows3 J 0 qd) (v3_cross (rows3 J 3 qd) p).
(** The direction from the first object to the second one: it goes through the closest points, which are crossed when the distance is negative. *)
Definition apart (d : distance_info) : vec3 := v3_scale (if Rlt_dec (di_min d) 0 then -1 else 1) (v3_normalize (v3_sub (di_pB d) (di_pA d))).
(** The speed at which the objects of the pair move away from each other, at their closest points. *)
Definition opening (pn : pin) (d : distance_info) (q qd : vec) : R :=
  v3_dot (apart d) (v3_sub (point_velocity pn q qd (di_B d) (di_pB d)) (point_velocity pn q qd (di_A d) (di_pA d))).
(** The velocity where only the degree of freedom [k] moves, at the speed 1. *)
Definition only (n k : nat) : vec := Vec n (fun j => if Nat.eqb j k then 1 else 0).
(** Half of the acceleration of the opening when the joints have their safe accelerations. *)
Definition safe_opening (pn : pin) (s : dsolver) (d : distance_info) (q : vec) : R :=
  / 2 * Rsum (ds_N s - 6) (fun k => Rabs (opening pn d q (only (ds_N s) (6 + k))) * safe_at s (6 + k)).

(** Contract of the Jacobian of a joint along a motion. *)
Definition joint_contract (pn : pin) (m : rmodel) (q qd : R -> vec) (t : R) (j : nat) : Prop :=
  (forall u, mrows (pn_joint_jac pn (q u) j World) = 6%nat /\ mcols (pn_joint_jac pn (q u) j World) = m_nv m) /\
  mat_deriv (fun u => pn_joint_jac pn (q u) j World) t (pn_joint_djac pn (q t) (qd t) j World).
