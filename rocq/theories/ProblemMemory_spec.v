(** What a user keeps in mind about the references handed out by a Problem: read off the history of calls alone. *)
From Coq Require Import List Arith Bool.
From Verif Require Import ProblemMemory_model.
Import ListNotations.

(** The number of references handed out by a history: the next one has this number. *)
Definition handed (l : list pop) : nat :=
  length (filter (fun o => match o with PAddVariable | PAddConstraint => true | _ => false end) l).

(** After the history, reference [a] designates an unknown that was not cleared since it was added. *)
Definition valid_variable (l : list pop) (a : nat) : Prop :=
  exists l1 l2, l = l1 ++ PAddVariable :: l2 /\ handed l1 = a /\ ~ In PClearVariables l2.

(** The same for a constraint. *)
Definition valid_constraint (l : list pop) (a : nat) : Prop :=
  exists l1 l2, l = l1 ++ PAddConstraint :: l2 /\ handed l1 = a /\ ~ In PClearConstraints l2.

Definition valid_after (l : list pop) (a : nat) : Prop := valid_variable l a \/ valid_constraint l a.

(** Histories without copies in which every reference used is valid at that moment. *)
Inductive disciplined : list pop -> Prop :=
| disc_nil : disciplined []
| disc_snoc : forall l o, disciplined l ->
    match o with PUse a => valid_after l a | PCopyDestroy => False | _ => True end -> disciplined (l ++ [o]).
