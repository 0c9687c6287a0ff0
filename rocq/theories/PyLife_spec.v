(** What a Python programmer expects of names, and the care that makes it true. *)
From Coq Require Import List Arith Bool.
From Verif Require Import PyLife_model.
Import ListNotations.

(** A program: every step only mentions objects to which a name is still bound; getters designate something that exists. *)
Fixpoint well_named (s : pystate) (l : list pystep) : Prop :=
  match l with
  | [] => True
  | o :: r => (forall h, In h (mentions o) -> In h (ps_names s)) /\
      match o with Inner h k | Outer h k => k < length (co_points (cpp_at s (addr s h))) | _ => True end /\
      well_named (py_do s o) r
  end.

(** What is expected: as long as a name is bound to an object, the object can be used. *)
Definition usable_while_bound (s : pystate) : Prop := forall h, In h (ps_names s) -> defined_on s h.

(** The Python object whose end would destroy the object designated by [h]: [h] itself for what was built by a constructor, the solver for its tasks, the
    problem for its variables. *)
Definition owner_of (s : pystate) (h : nat) : nat := co_root (cpp_at s (addr s h)).

(** The objects a step refers to without keeping them alive. *)
Definition borrows (s : pystate) (o : pystep) : list nat :=
  match o with
  | New args through => map (owner_of s) args ++ flat_map (fun g => map (fun b => co_root (cpp_at s b)) (co_points (cpp_at s (addr s g)))) through
  | Child _ args through => map (owner_of s) args ++ flat_map (fun g => map (fun b => co_root (cpp_at s b)) (co_points (cpp_at s (addr s g)))) through
  | Made h _ => [owner_of s h]
  | Outer h k => [co_root (cpp_at s (nth k (co_points (cpp_at s (addr s h))) 0))]
  | Link _ g => [owner_of s g]
  | _ => []
  end.

(** The care to take: the objects of [durable] keep their name till the end, and whatever is borrowed belongs to one of them. *)
Fixpoint caring (durable : list nat) (s : pystate) (l : list pystep) : Prop :=
  match l with
  | [] => True
  | o :: r => (forall p, In p (borrows s o) -> In p durable) /\ match o with Drop h => ~ In h durable | _ => True end /\ caring durable (py_do s o) r
  end.
