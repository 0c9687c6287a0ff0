(** What a program says of its planners, read off its text. *)
From Coq Require Import Reals List ZArith Bool.
From Verif Require Import Base Geom3 Geometry_model Footsteps_model Planners_model.
Import ListNotations.
Open Scope R_scope.

Definition creates (x : pcall) : Prop := x = CNaive \/ x = CRepetitive.
(** The planner number [k] is made by the call [x], after the calls [before]. *)
Inductive creations : list pcall -> nat -> Prop :=
| cr_nil : creations [] 0
| cr_new l x k : creations l k -> creates x -> creations (l ++ [x]) (S k)
| cr_other l x k : creations l k -> ~ creates x -> creations (l ++ [x]) k.
Definition made_by (l : list pcall) (k : nat) (before : list pcall) (x : pcall) : Prop := exists after, l = before ++ x :: after /\ creations before k /\ creates x.

(** The parameters after a program that starts with the parameters [p]: those set last. *)
Inductive parameters_are (p : params) : list pcall -> params -> Prop :=
| pa_start l : (forall q, ~ In (CParams q) l) -> parameters_are p l p
| pa_set l1 q l2 : (forall q', ~ In (CParams q') l2) -> parameters_are p (l1 ++ CParams q :: l2) q.

(** The last configuration of the planner [k]. *)
Definition last_targets (l : list pcall) (k : nat) (tl tr : frame) : Prop :=
  exists l1 l2, l = l1 ++ CTargets k tl tr :: l2 /\ (exists n, creations l1 n /\ (k < n)%nat) /\ forall a b, ~ In (CTargets k a b) l2.
Definition last_steps (l : list pcall) (k : nat) (dx dy dtheta : R) (steps : Z) : Prop :=
  exists l1 l2, l = l1 ++ CSteps k dx dy dtheta steps :: l2 /\ (exists n, creations l1 n /\ (k < n)%nat) /\ forall a b c d, ~ In (CSteps k a b c d) l2.
