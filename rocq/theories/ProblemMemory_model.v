(** Model of the memory of a Problem: the unknowns and the constraints it allocates, hands out by reference, and deletes.

    Objects are numbered in the order in which they are allocated. What they contain is modelled in Problem_model; here, only
    whether they are alive, and how often they were deleted. Reading or deleting an object that is not alive is [UB]. *)
From Coq Require Import List Arith Bool.
From Verif Require Import Base.
Import ListNotations.

(** The heap: number of allocations, the objects alive, the number of deletions of each. *)
Record pheap : Type := PHeap { ph_count : nat; ph_alive : nat -> bool; ph_deletes : nat -> nat }.

(** problem.h: the two vectors of pointers, [variables] and [constraints]. *)
Record pmem : Type := PMem { pm_vars : list nat; pm_cons : list nat }.

Definition pset {A : Type} (f : nat -> A) (a : nat) (v : A) : nat -> A := fun b => if Nat.eqb b a then v else f b.

Definition empty_pheap : pheap := PHeap 0 (fun _ => false) (fun _ => 0).

(** problem.cpp:9-11. *)
Definition new_pmem : pmem := PMem [] [].

(** operator new. *)
Definition pnew (h : pheap) : pheap := PHeap (S (ph_count h)) (pset (ph_alive h) (ph_count h) true) (ph_deletes h).

(** operator delete. *)
Definition pdelete (h : pheap) (a : nat) : outcome pheap :=
  guard (ph_alive h a) (Ok (PHeap (ph_count h) (pset (ph_alive h) a false) (pset (ph_deletes h) a (S (ph_deletes h a))))).

Fixpoint pdelete_all (h : pheap) (l : list nat) : outcome pheap :=
  match l with
  | [] => Ok h
  | a :: r => h' <- pdelete h a ;; pdelete_all h' r
  end.

(** problem.cpp:29-40 (add_variable) and 64-71 (add_constraint; also add_limit, 42-62, which ends in add_constraint):
    the reference returned is the address [ph_count h]. *)
Definition padd_variable (h : pheap) (p : pmem) : pheap * pmem := (pnew h, PMem (pm_vars p ++ [ph_count h]) (pm_cons p)).
Definition padd_constraint (h : pheap) (p : pmem) : pheap * pmem := (pnew h, PMem (pm_vars p) (pm_cons p ++ [ph_count h])).

(** problem.cpp:73-81. *)
Definition pclear_constraints (h : pheap) (p : pmem) : outcome (pheap * pmem) :=
  h' <- pdelete_all h (pm_cons p) ;; Ok (h', PMem (pm_vars p) []).

(** problem.cpp:83-92. *)
Definition pclear_variables (h : pheap) (p : pmem) : outcome (pheap * pmem) :=
  h' <- pdelete_all h (pm_vars p) ;; Ok (h', PMem [] (pm_cons p)).

(** problem.cpp:13-27, the destructor: the constraints first, then the variables. *)
Definition pdestroy (h : pheap) (p : pmem) : outcome pheap :=
  h1 <- pdelete_all h (pm_cons p) ;; pdelete_all h1 (pm_vars p).

(** problem.cpp:113-391, solve: reads every constraint and writes the value of every variable. *)
Definition psolve (h : pheap) (p : pmem) : outcome (pheap * pmem) :=
  guard (forallb (ph_alive h) (pm_cons p) && forallb (ph_alive h) (pm_vars p)) (Ok (h, p)).

(** The use of a reference returned by add_variable, add_constraint or add_limit. *)
Definition puse (h : pheap) (p : pmem) (a : nat) : outcome (pheap * pmem) := guard (ph_alive h a) (Ok (h, p)).

(** problem.h declares no copy constructor: a copy (as made when a solver, which contains a Problem, is copied) copies the pointers. *)
Definition pcopy (p : pmem) : pmem := PMem (pm_vars p) (pm_cons p).

(** A copy is made and later destroyed, while the original lives on. *)
Definition pcopy_and_destroy (h : pheap) (p : pmem) : outcome (pheap * pmem) :=
  h' <- pdestroy h (pcopy p) ;; Ok (h', p).

(** The calls. *)
Inductive pop : Type := PAddVariable | PAddConstraint | PClearConstraints | PClearVariables | PSolve | PUse (a : nat) | PCopyDestroy.

Definition prun_op (s : pheap * pmem) (o : pop) : outcome (pheap * pmem) :=
  let (h, p) := s in
  match o with
  | PAddVariable => Ok (padd_variable h p)
  | PAddConstraint => Ok (padd_constraint h p)
  | PClearConstraints => pclear_constraints h p
  | PClearVariables => pclear_variables h p
  | PSolve => psolve h p
  | PUse a => puse h p a
  | PCopyDestroy => pcopy_and_destroy h p
  end.

Fixpoint prun (s : pheap * pmem) (l : list pop) : outcome (pheap * pmem) :=
  match l with
  | [] => Ok s
  | o :: r => s' <- prun_op s o ;; prun s' r
  end.
