(** Model of the footsteps planners as objects (src/placo/humanoid/footsteps_planner_naive.{h,cpp}, footsteps_planner_repetitive.{h,cpp}): programs that create planners on the same
    HumanoidParameters, change these parameters, configure the planners and plan. *)
From Coq Require Import Reals List ZArith Bool.
From Verif Require Import Base Geom3 Geometry_model Footsteps_model.
Import ListNotations.
Open Scope R_scope.

(** A planner. [None]: the members that configure() sets (footsteps_planner_naive.h:32-33, footsteps_planner_repetitive.h:32-37) have not been set: their values are unspecified. *)
Inductive planner : Type :=
| PNaive : naive -> option (frame * frame) -> planner
| PRepetitive : option (R * R * R * Z) -> planner.

(** footsteps_planner.h: FootstepsPlanner holds a reference to the parameters, which the user can change (expose-parameters.cpp:20-70). *)
Record planners : Type := Planners { ps_params : params; ps_list : list planner }.

(** The calls. *)
Inductive pcall : Type :=
| CParams : params -> pcall
| CNaive : pcall
| CRepetitive : pcall
| CTargets : nat -> frame -> frame -> pcall
| CSteps : nat -> R -> R -> R -> Z -> pcall
| CPlan : nat -> side -> frame -> frame -> pcall.

Fixpoint put {X} (k : nat) (x : X) (l : list X) : list X := match l, k with [], _ => [] | _ :: l', O => x :: l' | y :: l', S k' => y :: put k' x l' end.

(** footsteps_planner.cpp:352-371 with the plan_impl of the planner (footsteps_planner_naive.cpp:31-157, footsteps_planner_repetitive.cpp:15-32). [None]: a step that is not finite. *)
Definition plan_with (c : clipping) (p : params) (x : planner) (flying : side) (a b : frame) : outcome (option (list footstep)) :=
  match x with
  | PNaive n (Some (tl, tr)) => Ok (naive_plan p n tl tr flying a b)
  | PRepetitive (Some (dx, dy, dtheta, steps)) => Ok (repetitive_plan c p dx dy dtheta steps flying a b)
  | _ => UB
  end.

(** One call, and the plan it gives if it is a call to plan(). A call with the wrong kind of planner, or with a planner that does not exist, cannot be written: it does nothing.
    The constructors: footsteps_planner_naive.cpp:19-24, footsteps_planner_repetitive.cpp:6-8. configure: footsteps_planner_naive.cpp:159-164, footsteps_planner_repetitive.cpp:34-40. *)
Definition pstep (c : clipping) (s : planners) (x : pcall) : planners * option (outcome (option (list footstep))) :=
  match x with
  | CParams p => (Planners p (ps_list s), None)
  | CNaive => (Planners (ps_params s) (ps_list s ++ [PNaive (new_naive (ps_params s)) None]), None)
  | CRepetitive => (Planners (ps_params s) (ps_list s ++ [PRepetitive None]), None)
  | CTargets k tl tr =>
      (match nth_error (ps_list s) k with Some (PNaive n _) => Planners (ps_params s) (put k (PNaive n (Some (tl, tr))) (ps_list s)) | _ => s end, None)
  | CSteps k dx dy dtheta steps =>
      (match nth_error (ps_list s) k with Some (PRepetitive _) => Planners (ps_params s) (put k (PRepetitive (Some (dx, dy, dtheta, steps))) (ps_list s)) | _ => s end, None)
  | CPlan k flying a b =>
      (s, match nth_error (ps_list s) k with Some x => Some (plan_with c (ps_params s) x flying a b) | None => None end)
  end.
Fixpoint prun (c : clipping) (s : planners) (l : list pcall) : planners := match l with [] => s | x :: l' => prun c (fst (pstep c s x)) l' end.

(** The answer of a call made after a program. *)
Definition answer (c : clipping) (p : params) (l : list pcall) (x : pcall) : option (outcome (option (list footstep))) := snd (pstep c (prun c (Planners p []) l) x).
