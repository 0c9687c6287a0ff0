(** Specification of expressions: an expression stands for an affine function of the unknowns, observed only
    through Expression::value. *)
From Coq Require Import Reals List ZArith Bool.
From Verif Require Import Base Expression_model.
Import ListNotations.
Open Scope R_scope.

(** [denotes e n m f]: [e] has [n] rows, mentions the first [m] unknowns and, for every assignment [x] of at
    least [m] entries, [value e x] succeeds, has [n] rows, and row [i] is [f x i]. *)
Definition denotes (e : expr) (n m : nat) (f : (nat -> R) -> nat -> R) : Prop :=
  rows e = n /\ vlen (eb e) = n /\ cols e = m /\
  forall x : vec, (m <= vlen x)%nat ->
    exists v, value e x = Ok v /\ vlen v = n /\ forall i, (i < n)%nat -> vat v i = f (vat x) i.

(** The expressions every constructor and operator of the API produces: A and b have the same height. *)
Definition wf (e : expr) : Prop := rows e = vlen (eb e).

(** A constant with one row. *)
Definition scalar_constant (e : expr) : Prop := rows e = 1%nat /\ cols e = 0%nat.

(** A constraint holds at [x]: every row of A x + b is >= 0 (inequality) or = 0 (equality). *)
Definition satisfied (c : pconstraint) (x : vec) : Prop :=
  exists v, value (c_expr c) x = Ok v /\ vlen v = rows (c_expr c) /\
    forall i, (i < vlen v)%nat ->
      match c_type c with Inequality => 0 <= vat v i | Equality => vat v i = 0 end.

(** [constraint_means o n m t P]: the call [o] returns a fresh hard constraint of weight 1 and of type [t] with
    [n] rows over the first [m] unknowns, and it holds at [x] iff [P x i] for each row [i]. *)
Definition constraint_means (o : outcome pconstraint) (n m : nat) (t : ctype) (P : (nat -> R) -> nat -> Prop) : Prop :=
  exists c, o = Ok c /\ c_type c = t /\ c_prio c = Hard /\ c_weight c = 1 /\ c_active c = false /\
    rows (c_expr c) = n /\ cols (c_expr c) = m /\
    forall x : vec, (m <= vlen x)%nat ->
      (satisfied c x <-> forall i, (i < n)%nat -> P (vat x) i).
