(** Specification for the tasks of the dynamics solver. *)
From Coq Require Import Reals List String.
From Verif Require Import Base Robot_model KinTasks_model DynTasks_model.
Import ListNotations.
Open Scope R_scope.

(** The gears of a gear task: those made by the calls to add_gear and set_gear. *)
Inductive dgears_made (r : robot) : gears -> Prop :=
| dgm_none : dgears_made r []
| dgm_add g a b x g' : dgears_made r g -> add_gear r g a b x = Ok g' -> dgears_made r g'
| dgm_set g a b x g' : dgears_made r g -> set_dgear r a b x = Ok g' -> dgears_made r g'.
