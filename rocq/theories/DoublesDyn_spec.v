(** What is expected of the velocity limit of a joint in DynamicsSolver with doubles. *)
From Coq Require Import Reals List.
From Verif Require Import Base Doubles_model Doubles_spec DoublesLimits_model DoublesLimits_spec DoublesIntegrate_model DoublesDyn_model.
Open Scope R_scope.

(** The states of the joint after some solves that integrate, from a state with a speed: nothing is said of the accelerations but that the constraints of each solve are
    satisfied up to the tolerance of the back-end. dt may change from a solve to the next. *)
Inductive solves (velocity_limit tolerance : R) (s0 : d_jstate) : d_jstate -> Prop :=
| solves_none : solves velocity_limit tolerance s0 s0
| solves_one s v dt rows qdd : solves velocity_limit tolerance s0 s -> dqd s = Some v -> d_velocity_constraints dt velocity_limit v = Ok rows ->
    is_double dt -> satisfies tolerance rows qdd -> solves velocity_limit tolerance s0 (d_solved dt qdd s).
