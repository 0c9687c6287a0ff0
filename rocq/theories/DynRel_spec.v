(** Specification for the relative tasks of the dynamics solver. *)
From Coq Require Import Reals List.
From Verif Require Import Base Geom3 Robot_model Robot_spec Tasks_spec.
Open Scope R_scope.

(** The angular velocity of the frame [f] in the world, and the part of its accelerations that does not depend on the accelerations of the joints: linear and angular. *)
Definition spin (pn : pin) (q qd : vec) (f : nat) : vec3 := rows3 (pn_jac pn q f LocalWorldAligned) 3 qd.
Definition linear_bias (pn : pin) (q qd : vec) (f : nat) : vec3 := rows3 (pn_djac pn q qd f LocalWorldAligned) 0 qd.
Definition angular_bias (pn : pin) (q qd : vec) (f : nat) : vec3 := rows3 (pn_djac pn q qd f LocalWorldAligned) 3 qd.
(** The position of the frame [b] in the frame [a]. *)
Definition seen_from (A B : frame) : vec3 := m3_vec (m3_t (fr_R A)) (v3_sub (fr_t B) (fr_t A)).
