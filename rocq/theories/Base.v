(** Common vocabulary of the model: outcomes of C++ calls, finite sums, vectors and matrices.

    Simplifications, valid for every file of the model:
    - [double] is modelled by [R]: no rounding, no infinities, no NaN (where the code tests for these, the
      result of the test is an input of the model);
    - [int] is modelled by [Z] or [nat]: no overflow;
    - an Eigen matrix is its two sizes and a total function; only entries inside the sizes are meaningful. *)
From Coq Require Import Reals Lra Lia List ZArith.
Import ListNotations.
Open Scope R_scope.

(** The exception classes thrown by placo: std::runtime_error, std::logic_error and
    placo::problem::QPError (problem/qp_error.h). Messages are not modelled. *)
Inductive exn : Type := ERuntime | ELogic | EQP.

(** What a C++ call can do. [UB] stands for any undefined behaviour: an access outside an Eigen object or a
    std::vector, an Eigen operation on objects of incompatible sizes, the use of a dangling pointer. *)
Inductive outcome (A : Type) : Type :=
| Ok (a : A)
| Throw (e : exn)
| UB.
Arguments Ok {A} a.
Arguments Throw {A} e.
Arguments UB {A}.

(** Sequencing of two calls. *)
Definition obind {A B : Type} (o : outcome A) (f : A -> outcome B) : outcome B :=
  match o with
  | Ok a => f a
  | Throw e => Throw e
  | UB => UB
  end.

Notation "x <- o ;; k" := (obind o (fun x => k)) (at level 61, o at next level, right associativity).

(** [guard b] is [UB] when the sizes checked by [b] are wrong. *)
Definition guard {A : Type} (b : bool) (o : outcome A) : outcome A := if b then o else UB.

(** Finite sum f 0 + ... + f (n-1). *)
Fixpoint Rsum (n : nat) (f : nat -> R) : R :=
  match n with
  | O => 0
  | S k => Rsum k f + f k
  end.

(** Eigen::VectorXd. *)
Record vec : Type := Vec { vlen : nat; vat : nat -> R }.

(** Eigen::MatrixXd. *)
Record mat : Type := Mat { mrows : nat; mcols : nat; mat_at : nat -> nat -> R }.

(** Two Eigen objects are equal when they have the same sizes and the same entries inside the sizes. *)
Definition vec_eq (u v : vec) : Prop :=
  vlen u = vlen v /\ forall i, (i < vlen u)%nat -> vat u i = vat v i.

Definition mat_eq (M N : mat) : Prop :=
  mrows M = mrows N /\ mcols M = mcols N /\
  forall i j, (i < mrows M)%nat -> (j < mcols M)%nat -> mat_at M i j = mat_at N i j.
