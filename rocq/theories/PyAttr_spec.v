(** What a user of the Python classes expects of their attributes. *)

From Coq Require Import List String.
From Verif Require Import PyAttr_model.

(** The attribute [a] of the class [c] exists, and is declared with a setter. *)
Definition assignable (c a : string) : Prop := exists e m, resolve c a = Some e /\ at_write e = Some m.

(** Assigning the attribute succeeds, makes it read as the value assigned, and leaves what every other attribute of
    the object reads as unchanged. *)
Definition ordinary (c a : string) : Prop :=
  forall (V : Type) (x : string -> V) (v : V),
    exists y,
      py_set c a x v = Done y /\ py_get c a y = Done v /\
      forall b, b <> a -> py_get c b y = py_get c b x.
