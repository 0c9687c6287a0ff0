(** What is expected of the limits of a joint with doubles. *)
From Coq Require Import Reals List.
From Verif Require Import Base Doubles_model Doubles_spec DoublesLimits_model.
Import ListNotations.
Open Scope R_scope.

(** A displacement the back-end may return for these constraints: each of them is satisfied up to the tolerance of the back-end. *)
Definition satisfies (tolerance : R) (rows : list d_row) (delta : R) : Prop := Forall (fun r => - tolerance <= fst r * delta + snd r) rows.

(** The positions of the joint after some solves, each being applied: nothing is said of the displacements but that the constraints of each solve are satisfied, and
    that they are doubles. *)
Inductive moves (joint_limits velocity_limits : bool) (dt : R) (j : d_joint) (tolerance : R) (q0 : R) : R -> Prop :=
| moves_none : moves joint_limits velocity_limits dt j tolerance q0 q0
| moves_solve q rows delta : moves joint_limits velocity_limits dt j tolerance q0 q -> d_limits joint_limits velocity_limits dt j q = Ok rows ->
    is_double delta -> satisfies tolerance rows delta -> moves joint_limits velocity_limits dt j tolerance q0 (d_apply q delta).

(** The joint is between its limits, up to [m]. *)
Definition between (j : d_joint) (m q : R) : Prop := dj_lower j - m <= q <= dj_upper j + m.

(** The limits of a joint: doubles, in order. *)
Definition sound_joint (j : d_joint) : Prop := is_double (dj_lower j) /\ is_double (dj_upper j) /\ dj_lower j <= dj_upper j.
