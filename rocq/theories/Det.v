(** Determinants. The definition is the expansion along the first row; the proofs go through the determinants of mathcomp. *)
From Coq Require Import Reals Lra Lia List ZArith ClassicalEpsilon.
From Verif Require Import Base Linalg.
Open Scope R_scope.

(** Eigen: MatrixXd::determinant(), of the n first rows and columns. *)
Fixpoint det (n : nat) (M : nat -> nat -> R) : R :=
  match n with
  | O => 1
  | S n' => Rsum (S n') (fun j => (-1) ^ j * M O j * det n' (fun i k => M (S i) (if Nat.ltb k j then k else S k)))
  end.
