(** Model of placo::problem::Sparsity (src/placo/problem/sparsity.cpp, sparsity.h). *)
From Coq Require Import Reals List ZArith Bool.
From Verif Require Import Base.
Import ListNotations.
Open Scope Z_scope.

(** sparsity.h: struct Interval { int start, end; }. *)
Record interval : Type := Interval { i_start : Z; i_end : Z }.

(** sparsity.h: std::vector<Interval> intervals. *)
Definition sparsity : Type := list interval.

(** sparsity.cpp:14-17, Interval::contains. *)
Definition contains (iv : interval) (i : Z) : bool := (i_start iv <=? i) && (i <=? i_end iv).

(** sparsity.cpp:25-64, the body of the loop of add_interval, followed by 66-69. [start] is a mutable
    parameter of the C++ function; [inserted] is the local flag. The result is what is pushed from here on. *)
Fixpoint add_interval_loop (old : list interval) (inserted : bool) (start end_ : Z) : list interval :=
  match old with
  | [] => if inserted then [] else [Interval start end_]
  | o :: rest =>
      if inserted then o :: add_interval_loop rest true start end_
      else if end_ <? i_start o then
        Interval start end_ :: o :: add_interval_loop rest true start end_
      else if contains o start && contains o end_ then
        o :: add_interval_loop rest true start end_
      else if contains o start then
        add_interval_loop rest false (i_start o) end_
      else if contains o end_ then
        Interval start (i_end o) :: add_interval_loop rest true start end_
      else if start >? i_start o then
        o :: add_interval_loop rest false start end_
      else
        add_interval_loop rest false start end_
  end.

(** sparsity.cpp:19-70, Sparsity::add_interval. *)
Definition add_interval (s : sparsity) (start end_ : Z) : sparsity :=
  add_interval_loop s false start end_.

(** sparsity.cpp:72-86, Sparsity::operator+. *)
Definition sparsity_plus (s1 s2 : sparsity) : sparsity :=
  fold_left (fun s iv => add_interval s (i_start iv) (i_end iv)) s2
    (fold_left (fun s iv => add_interval s (i_start iv) (i_end iv)) s1 []).

(** Eigen's M.col(j).isZero(1e-12): every coefficient c of the column has |c| <= 1e-12. Rows are scanned in
    order; [k] rows are left. Real comparison is decided by Rle_dec. *)
Fixpoint col_is_zero (k : nat) (M : mat) (j : nat) : bool :=
  match k with
  | O => true
  | S k' => (if Rle_dec (Rabs (mat_at M k' j)) (1 / 1000000000000) then true else false) && col_is_zero k' M j
  end.

(** sparsity.cpp:102-124, the loop of detect_columns_sparsity: [n] columns are left, the next one is
    [column]; [last] is last_nonzero_column, -1 for none. *)
Fixpoint detect_loop (n : nat) (M : mat) (column : nat) (last : Z) (s : sparsity) : sparsity :=
  match n with
  | O => if last =? -1 then s else add_interval s last (Z.of_nat (mcols M) - 1)
  | S n' =>
      if col_is_zero (mrows M) M column then
        if last =? -1 then detect_loop n' M (S column) last s
        else detect_loop n' M (S column) (-1) (add_interval s last (Z.of_nat column - 1))
      else
        if last =? -1 then detect_loop n' M (S column) (Z.of_nat column) s
        else detect_loop n' M (S column) last s
  end.

(** sparsity.cpp:97-127, Sparsity::detect_columns_sparsity. *)
Definition detect_columns_sparsity (M : mat) : sparsity := detect_loop (mcols M) M 0 (-1) [].
