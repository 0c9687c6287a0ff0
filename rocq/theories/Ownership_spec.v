(** What a user of a solver expects of its memory, said without any heap: a book is kept of the objects
    created so far, by whom, which ones are in the solver and which ones are gone. *)
From Coq Require Import List Arith Bool.
From Verif Require Import Base Ownership_model.
Import ListNotations.

(** The book: number of objects, their class, whether they belong to the user, whether they are in the
    solver, whether they are gone (removed objects of the solver, destroyed objects of the user), and the
    tasks each contact was created for. *)
Record book : Type := Book {
  b_count : nat; b_class : nat -> class; b_user : nat -> bool; b_in : nat -> bool; b_gone : nat -> bool;
  b_refs : nat -> list nat }.

Definition empty_book : book := Book 0 (fun _ => CTask) (fun _ => false) (fun _ => false) (fun _ => false) (fun _ => []).

Definition set_at {A : Type} (f : nat -> A) (a : nat) (v : A) : nat -> A := fun b => if Nat.eqb b a then v else f b.

(** An object of class [c] that can be used. *)
Definition usable (b : book) (c : class) (a : nat) : Prop := a < b_count b /\ b_class b a = c /\ b_gone b a = false.

(** The calls a careful user makes: only objects that exist and are not gone are passed, the user destroys
    only their own objects and only when they are out of the solver, contacts are made for usable tasks, and
    solve is called when the tasks of the contacts in the solver are still there. The kinematics solver has no contacts. *)
Definition legal (k : which) (b : book) (o : op) : Prop :=
  match o with
  | Create CContact refs => k = Dynamics /\ Forall (usable b CTask) refs
  | Create _ refs => refs = []
  | UserNew c => c = CContact -> k = Dynamics
  | UserDelete a => a < b_count b /\ b_user b a = true /\ b_gone b a = false /\ b_in b a = false
  | AddTask a => usable b CTask a
  | AddConstraint a => usable b CConstraint a
  | AddContact a => usable b CContact a
  | RemoveTask a => usable b CTask a
  | RemoveFrameTask a c => usable b CTask a /\ usable b CTask c /\ a <> c
  | RemoveConstraint a => usable b CConstraint a
  | RemoveContact a => usable b CContact a
  | Clear => True
  | Visit => forall a, b_in b a = true -> Forall (fun t => b_gone b t = false) (b_refs b a)
  end.

(** Taking an object out: what the solver created is then gone, what the user created stays. *)
Definition take_out (b : book) (a : nat) : book :=
  Book (b_count b) (b_class b) (b_user b) (set_at (b_in b) a false)
       (set_at (b_gone b) a (negb (b_user b a))) (b_refs b).

(** What each call is expected to do. *)
Definition expected (b : book) (o : op) : book :=
  match o with
  | Create c refs => Book (S (b_count b)) (set_at (b_class b) (b_count b) c) (set_at (b_user b) (b_count b) false)
                          (set_at (b_in b) (b_count b) true) (set_at (b_gone b) (b_count b) false) (set_at (b_refs b) (b_count b) refs)
  | UserNew c => Book (S (b_count b)) (set_at (b_class b) (b_count b) c) (set_at (b_user b) (b_count b) true)
                      (set_at (b_in b) (b_count b) false) (set_at (b_gone b) (b_count b) false) (set_at (b_refs b) (b_count b) [])
  | UserDelete a => Book (b_count b) (b_class b) (b_user b) (b_in b) (set_at (b_gone b) a true) (b_refs b)
  | AddTask a | AddConstraint a | AddContact a => Book (b_count b) (b_class b) (b_user b) (set_at (b_in b) a true) (b_gone b) (b_refs b)
  | RemoveTask a | RemoveConstraint a | RemoveContact a => take_out b a
  | RemoveFrameTask a c => take_out (take_out b a) c
  | Clear => Book (b_count b) (b_class b) (b_user b) (fun _ => false) (fun a => if b_in b a then negb (b_user b a) else b_gone b a) (b_refs b)
  | Visit => b
  end.

(** Histories of careful calls, and the book at their end. *)
Inductive careful (k : which) : list op -> book -> Prop :=
| careful_nil : careful k [] empty_book
| careful_snoc l b o : careful k l b -> legal k b o -> careful k (l ++ [o]) (expected b o).

(** The memory agrees with the book: the objects alive are those that are not gone; the solver deleted once
    what it created and is gone, and nothing else; it holds exactly what is in, under the right class. *)
Definition agrees (s : owner) (b : book) : Prop :=
  (forall a, a < b_count b -> h_alive (w_heap s) a = negb (b_gone b a)) /\
  (forall a, a < b_count b -> h_deletes (w_heap s) a = if (b_gone b a && negb (b_user b a))%bool then 1 else 0) /\
  (forall a, In a (w_tasks s) <-> a < b_count b /\ b_in b a = true /\ b_class b a = CTask) /\
  (forall a, In a (w_constraints s) <-> a < b_count b /\ b_in b a = true /\ b_class b a = CConstraint) /\
  (forall a, In a (w_contacts s) <-> a < b_count b /\ b_in b a = true /\ b_class b a = CContact).

(** A call that asks the dynamics solver to remove a task of the user, or to add again one of its own contacts. *)
Definition removes_user_task (b : book) (o : op) : Prop :=
  match o with
  | RemoveTask a => b_user b a = true
  | RemoveFrameTask a c => b_user b a = true \/ b_user b c = true
  | _ => False
  end.
Definition adds_own_contact_again (b : book) (o : op) : Prop :=
  match o with AddContact a => b_user b a = false | _ => False end.

(** The same histories without these two calls. *)
Inductive careful_without (k : which) (bad : book -> op -> Prop) : list op -> book -> Prop :=
| cw_nil : careful_without k bad [] empty_book
| cw_snoc l b o : careful_without k bad l b -> legal k b o -> ~ bad b o -> careful_without k bad (l ++ [o]) (expected b o).
