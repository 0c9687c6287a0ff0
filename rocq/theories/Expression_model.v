(** Model of placo::problem::Expression, Variable and ProblemConstraint
    (src/placo/problem/expression.cpp, variable.cpp, constraint.cpp and their headers). *)
From Coq Require Import Reals List ZArith Bool String.
From Verif Require Import Base.
Import ListNotations.
Open Scope R_scope.

(** expression.h: the two public fields A (MatrixXd) and b (VectorXd). *)
Record expr : Type := Expr { eA : mat; eb : vec }.

(** expression.cpp:65-73, cols() and rows(): the sizes of A. *)
Definition cols (e : expr) : nat := mcols (eA e).
Definition rows (e : expr) : nat := mrows (eA e).

(** expression.cpp:40-48. *)
Definition is_scalar (e : expr) : bool := Nat.eqb (rows e) 1.
Definition is_constant (e : expr) : bool := Nat.eqb (cols e) 0.

(** expression.cpp:34-38 (constructor from a vector) and 13-16 (from_vector): A has no column. *)
Definition from_vector (v : vec) : expr := Expr (Mat (vlen v) 0 (fun _ _ => 0)) v.

(** expression.cpp:18-26. *)
Definition from_double (f : R) : expr := Expr (Mat 1 0 (fun _ _ => 0)) (Vec 1 (fun _ => f)).

(** expression.cpp:300-303, value(x): x.block(0, 0, A.cols(), 1) requires x to have at least that many rows,
    and the sum requires A and b to have the same height. *)
Definition value (e : expr) (x : vec) : outcome vec :=
  guard (Nat.leb (cols e) (vlen x) && Nat.eqb (rows e) (vlen (eb e)))
    (Ok (Vec (rows e) (fun i => Rsum (cols e) (fun j => mat_at (eA e) i j * vat x j) + vat (eb e) i))).

(** expression.cpp:50-63, slice(start, rows): a negative number of rows means up to the end; the blocks
    are not checked. *)
Definition slice (e : expr) (start rows_ : Z) : outcome expr :=
  let n := if (rows_ <? 0)%Z then (Z.of_nat (rows e) - start)%Z else rows_ in
  guard ((0 <=? start)%Z && (0 <=? n)%Z && (start + n <=? Z.of_nat (rows e))%Z
         && (start + n <=? Z.of_nat (vlen (eb e)))%Z)
    (Ok (Expr (Mat (Z.to_nat n) (cols e) (fun i j => mat_at (eA e) (Z.to_nat start + i) j))
              (Vec (Z.to_nat n) (fun i => vat (eb e) (Z.to_nat start + i))))).

(** expression.cpp:75-86. *)
Definition piecewise_add (e : expr) (f : R) : expr :=
  Expr (eA e) (Vec (vlen (eb e)) (fun i => vat (eb e) i + f)).

(** An entry of A, read as zero beyond its last column: what setZero() followed by a block copy leaves
    (expression.cpp:108-114, 266-272). *)
Definition padded (M : mat) (i j : nat) : R := if Nat.ltb j (mcols M) then mat_at M i j else 0.

(** expression.cpp:88-119, operator+(Expression). b(0, 0) of an expression without rows in b is out of range;
    e.b += other.b requires equal heights. *)
Definition e_add (e o : expr) : outcome expr :=
  if is_scalar e && is_constant e then
    guard (Nat.ltb 0 (vlen (eb e))) (Ok (piecewise_add o (vat (eb e) 0)))
  else if is_scalar o && is_constant o then
    guard (Nat.ltb 0 (vlen (eb o))) (Ok (piecewise_add e (vat (eb o) 0)))
  else if negb (Nat.eqb (rows e) (rows o)) then Throw ERuntime
  else
    guard (Nat.eqb (vlen (eb e)) (vlen (eb o)))
      (Ok (Expr (Mat (rows e) (Nat.max (cols e) (cols o)) (fun i j => padded (eA e) i j + padded (eA o) i j))
                (Vec (vlen (eb e)) (fun i => vat (eb e) i + vat (eb o) i)))).

(** expression.cpp:136-143, operator*(double); 131-134, double * expression, is the same call. *)
Definition e_scale (e : expr) (f : R) : expr :=
  Expr (Mat (rows e) (cols e) (fun i j => mat_at (eA e) i j * f)) (Vec (vlen (eb e)) (fun i => vat (eb e) i * f)).
Definition scale_e (f : R) (e : expr) : expr := e_scale e f.

(** expression.cpp:121-124, operator-(Expression). *)
Definition e_sub (e o : expr) : outcome expr := e_add e (e_scale o (-1)).

(** expression.cpp:126-129, unary minus. *)
Definition e_opp (e : expr) : expr := e_scale e (-1).

(** expression.cpp:145-168, operator*(Expression). b(0) and other.b(k) must exist. *)
Definition e_mul_scalar_constant (e o : expr) : outcome expr :=
  guard (Nat.leb (rows o) (vlen (eb o)) && (Nat.ltb 0 (vlen (eb e)) || Nat.eqb (rows o) 0))
    (Ok (Expr (Mat (rows o) (cols e) (fun k j => mat_at (eA e) 0 j * vat (eb o) k))
              (Vec (rows o) (fun k => vat (eb e) 0 * vat (eb o) k)))).
Definition e_mul (e o : expr) : outcome expr :=
  if is_scalar e && is_constant o then e_mul_scalar_constant e o
  else if is_scalar o && is_constant e then e_mul_scalar_constant o e
  else Throw ERuntime.

(** expression.cpp:170-176, operator+(VectorXd): e.b += v. 178-181, vector + expression. *)
Definition e_add_v (e : expr) (v : vec) : outcome expr :=
  guard (Nat.eqb (vlen (eb e)) (vlen v)) (Ok (Expr (eA e) (Vec (vlen (eb e)) (fun i => vat (eb e) i + vat v i)))).
Definition v_add_e (v : vec) (e : expr) : outcome expr := e_add_v e v.

(** expression.cpp:183-189, operator-(VectorXd): e.b -= v. 191-194, vector - expression, returns e - v. *)
Definition e_sub_v (e : expr) (v : vec) : outcome expr :=
  guard (Nat.eqb (vlen (eb e)) (vlen v)) (Ok (Expr (eA e) (Vec (vlen (eb e)) (fun i => vat (eb e) i - vat v i)))).
Definition v_sub_e (v : vec) (e : expr) : outcome expr := e_sub_v e v.

(** expression.cpp:196-202, operator+(double): a constant vector of rows() entries. 204-207, double + e. *)
Definition e_add_d (e : expr) (f : R) : outcome expr := e_add_v e (Vec (rows e) (fun _ => f)).
Definition d_add_e (f : R) (e : expr) : outcome expr := e_add_d e f.

(** expression.cpp:209-215, operator-(double): a vector of ONE entry. 217-220, double - e. *)
Definition e_sub_d (e : expr) (f : R) : outcome expr := e_sub_v e (Vec 1 (fun _ => f)).
Definition d_sub_e (f : R) (e : expr) : outcome expr := e_add_d (e_opp e) f.

(** expression.cpp:222-229, MatrixXd * expression (231-234, left_multiply, is the same call). *)
Definition m_mul_e (M : mat) (e : expr) : outcome expr :=
  guard (Nat.eqb (mcols M) (rows e) && Nat.eqb (mcols M) (vlen (eb e)))
    (Ok (Expr (Mat (mrows M) (cols e) (fun i j => Rsum (mcols M) (fun k => mat_at M i k * mat_at (eA e) k j)))
              (Vec (mrows M) (fun i => Rsum (mcols M) (fun k => mat_at M i k * vat (eb e) k))))).
Definition left_multiply (e : expr) (M : mat) : outcome expr := m_mul_e M e.

(** expression.cpp:236-251. *)
Definition sum (e : expr) : outcome expr :=
  guard (Nat.leb (rows e) (vlen (eb e)))
    (Ok (Expr (Mat 1 (cols e) (fun _ j => Rsum (rows e) (fun k => mat_at (eA e) k j)))
              (Vec 1 (fun _ => Rsum (rows e) (fun k => vat (eb e) k))))).

(** expression.cpp:253-260: the divisor is cols(). Division by zero columns (an infinity or NaN in C++) is not
    represented: theorems about mean assume at least one column. *)
Definition mean (e : expr) : outcome expr :=
  s <- sum e ;;
  Ok (Expr (Mat (rows s) (cols s) (fun i j => mat_at (eA s) i j / INR (cols e)))
           (Vec (vlen (eb s)) (fun i => vat (eb s) i / INR (cols e)))).

(** expression.cpp:262-278, operator/(Expression): stacking. *)
Definition e_stack (e o : expr) : outcome expr :=
  guard (Nat.eqb (vlen (eb e)) (rows e) && Nat.eqb (vlen (eb o)) (rows o))
    (Ok (Expr (Mat (rows e + rows o) (Nat.max (cols e) (cols o))
                 (fun i j => if Nat.ltb i (rows e) then padded (eA e) i j else padded (eA o) (i - rows e) j))
              (Vec (rows e + rows o)
                 (fun i => if Nat.ltb i (rows e) then vat (eb e) i else vat (eb o) (i - rows e))))).

(** constraint.h: enum Priority, enum Type and the fields of ProblemConstraint with their defaults. *)
Inductive cprio : Type := Soft | Hard.
Inductive ctype : Type := Equality | Inequality.
Record pconstraint : Type := PConstraint {
  c_expr : expr; c_type : ctype; c_prio : cprio; c_weight : R; c_active : bool }.

(** A default-constructed ProblemConstraint whose expression and type are then set. *)
Definition mk_constraint (e : expr) (t : ctype) : pconstraint := PConstraint e t Hard 1 false.

(** expression.cpp:280-298 and 345-351: comparisons of two expressions. *)
Definition e_ge (e o : expr) : outcome pconstraint := d <- e_sub e o ;; Ok (mk_constraint d Inequality).
Definition e_le (e o : expr) : outcome pconstraint := d <- e_sub e o ;; Ok (mk_constraint (e_opp d) Inequality).
Definition e_eq (e o : expr) : outcome pconstraint := d <- e_sub e o ;; Ok (mk_constraint d Equality).

(** expression.cpp:305-323: comparisons with a double. *)
Definition e_ge_d (e : expr) (f : R) : outcome pconstraint := e_ge e (from_double f).
Definition d_ge_e (f : R) (e : expr) : outcome pconstraint := e_ge (from_double f) e.
Definition e_le_d (e : expr) (f : R) : outcome pconstraint := e_le e (from_double f).
Definition d_le_e (f : R) (e : expr) : outcome pconstraint := e_le (from_double f) e.

(** expression.cpp:325-343: comparisons with a vector. *)
Definition e_ge_v (e : expr) (v : vec) : outcome pconstraint := e_ge e (from_vector v).
Definition v_ge_e (v : vec) (e : expr) : outcome pconstraint := e_ge (from_vector v) e.
Definition e_le_v (e : expr) (v : vec) : outcome pconstraint := e_le e (from_vector v).
Definition v_le_e (v : vec) (e : expr) : outcome pconstraint := e_le (from_vector v) e.

(** expression.cpp:353-371: equality with a vector or a double. *)
Definition e_eq_v (e : expr) (v : vec) : outcome pconstraint := e_eq e (from_vector v).
Definition v_eq_e (v : vec) (e : expr) : outcome pconstraint := e_eq_v e v.
Definition e_eq_d (e : expr) (f : R) : outcome pconstraint := e_eq e (from_double f).
Definition d_eq_e (f : R) (e : expr) : outcome pconstraint := e_eq_d e f.

(** constraint.cpp:5-9, configure(std::string, double): anything but "hard" is soft. *)
Definition configure_string (c : pconstraint) (type : string) (weight : R) : pconstraint :=
  PConstraint (c_expr c) (c_type c) (if String.eqb type "hard"%string then Hard else Soft) weight (c_active c).

(** constraint.cpp:11-15, configure(Priority, double). *)
Definition configure_prio (c : pconstraint) (p : cprio) (weight : R) : pconstraint :=
  PConstraint (c_expr c) (c_type c) p weight (c_active c).

(** variable.h: k_start, k_end, value and version. *)
Record variable : Type := MkVar { k_start : nat; k_end : nat; v_value : vec; v_version : nat }.

(** variable.cpp:30-33. *)
Definition var_size (v : variable) : nat := k_end v - k_start v.

(** variable.cpp:5-28, expr(start, rows) with default arguments -1. A negative number of rows left is an
    invalid Eigen size; the write A(k, k_start + start + k) = 1 is not checked against k_end columns. *)
Definition var_expr (v : variable) (start rows_ : Z) : outcome expr :=
  let s := if (start =? -1)%Z then 0%Z else start in
  let n := if (rows_ =? -1)%Z then (Z.of_nat (var_size v) - s)%Z else rows_ in
  guard ((0 <=? n)%Z &&
         ((n =? 0)%Z || ((0 <=? Z.of_nat (k_start v) + s)%Z && (Z.of_nat (k_start v) + s + n <=? Z.of_nat (k_end v))%Z)))
    (Ok (Expr (Mat (Z.to_nat n) (k_end v)
                 (fun k j => if (Z.of_nat j =? Z.of_nat (k_start v) + s + Z.of_nat k)%Z then 1 else 0))
              (Vec (Z.to_nat n) (fun _ => 0)))).
