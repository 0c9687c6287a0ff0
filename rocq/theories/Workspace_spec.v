(** What a user expects of a robot: the answers are those for its state, whatever was asked before. *)
From Coq Require Import Reals List Arith Bool String.
From Verif Require Import Base Geom3 Robot_model Workspace_model.
Import ListNotations.

(** A robot without a workspace: a program sees the state only, and each answer is that for the current state. *)
Section Memoryless.
Variable A : Type.
Variable answer : question -> vec * vec -> A.
Variable placement : A -> outcome frame.

Definition plain (s : state) (a : action) : state * list A :=
  match a with
  | Change f => (f s, [])
  | Place f g => (g (placement (answer (AFrame f) (st_q s, st_qd s))) s, [])
  | Update | UpdateHessians => (s, [])
  | Ask k => (s, [answer k (st_q s, st_qd s)])
  end.
Fixpoint plains (s : state) (l : list action) : state * list A :=
  match l with
  | [] => (s, [])
  | a :: l' => let '(s1, o1) := plain s a in let '(s2, o2) := plains s1 l' in (s2, o1 ++ o2)
  end.
End Memoryless.

(** A program that calls update_kinematics between a change of the state and the next question (and compute_hessians after it, before it asks for a
    Hessian). [ready]: the state has not changed since update_kinematics; [curved]: nor since compute_hessians. *)
Fixpoint careful (ready curved : bool) (l : list action) : Prop :=
  match l with
  | [] => True
  | Change _ :: l' => careful false false l'
  | Place _ _ :: l' => ready = true /\ careful false false l'
  | Update :: l' => careful true false l'
  | UpdateHessians :: l' => careful ready ready l'
  | Ask k :: l' => ready = true /\ (match k with AHessian _ _ => curved = true | _ => True end) /\ careful ready curved l'
  end.

(** The contract of the library. What it writes comes from the state, or from what is computed from the state; only the Hessians may come from the Hessians. *)
Definition honest_effect (effect : question -> slot -> source) : Prop := forall k s, s <> Hessians -> effect k s <> From Hessians.

(** When every slot holds what was computed for the state (the Hessians too, if they are asked for), the answer is that for the state. *)
Definition honest_reply {A : Type} (reply : question -> workspace -> vec * vec -> A) (answer : question -> vec * vec -> A) : Prop :=
  forall k d q, (forall s, s <> Hessians -> d s = q) -> (match k with AHessian _ _ => d Hessians = q | _ => True end) -> reply k d q = answer k q.
