(** Specification of sparsity patterns: a pattern denotes a set of columns. *)
From Coq Require Import List ZArith Reals.
From Verif Require Import Base Sparsity_model.
Import ListNotations.
Open Scope Z_scope.

(** Column [i] is covered by one of the stored intervals. *)
Definition covers (s : sparsity) (i : Z) : Prop :=
  exists iv, In iv s /\ i_start iv <= i <= i_end iv.

(** Sorted, pairwise disjoint, non-empty intervals, all starting at or after [lo]. *)
Fixpoint canonical_from (lo : Z) (s : sparsity) : Prop :=
  match s with
  | [] => True
  | iv :: rest => lo <= i_start iv /\ i_start iv <= i_end iv /\ canonical_from (i_end iv + 1) rest
  end.

(** A canonical pattern: each interval is non-empty and ends before the next one starts. *)
Definition canonical (s : sparsity) : Prop :=
  match s with
  | [] => True
  | iv :: rest => canonical_from (i_start iv) s
  end.

(** Same, with at least one uncovered column between two intervals. *)
Fixpoint separated (s : sparsity) : Prop :=
  match s with
  | a :: ((b :: _) as rest) => i_end a + 1 < i_start b /\ separated rest
  | _ => True
  end.

(** A column of a matrix with an entry larger than 1e-12 in magnitude. *)
Definition nonzero_column (M : mat) (j : nat) : Prop :=
  exists i, (i < mrows M)%nat /\ (Rabs (mat_at M i j) > 1 / 1000000000000)%R.

(** The patterns a user can build: add_interval calls on a default-constructed object. *)
Inductive built : sparsity -> (Z -> Prop) -> Prop :=
| built_nil : built [] (fun _ => False)
| built_add s P start end_ :
    built s P -> start <= end_ ->
    built (add_interval s start end_) (fun i => P i \/ start <= i <= end_).
