(** Model of placo::tools::Polynom (src/placo/tools/polynom.cpp), placo::problem::ProblemPolynom
    (src/placo/problem/problem_polynom.cpp) and placo::problem::PolygonConstraint
    (src/placo/problem/polygon_constraint.cpp). *)
From Coq Require Import Reals List ZArith Bool.
From Verif Require Import Base Expression_model.
Import ListNotations.
Open Scope R_scope.

(** polynom.cpp:18-23, the loop; [n] turns are left. The product is an [int] in C++: see C88 for when it fits. *)
Fixpoint coefficient_loop (n : nat) (degree coefficient : Z) : Z :=
  match n with
  | O => coefficient
  | S n' => coefficient_loop n' (degree - 1) (coefficient * degree)
  end.

(** polynom.cpp:9-26. *)
Definition derivative_coefficient (degree derivative : Z) : Z :=
  if (derivative >? degree)%Z then 0%Z else coefficient_loop (Z.to_nat derivative) degree 1.

(** polynom.cpp:33-37, the loop; [n] turns are left. coefficients[...] is not checked. *)
Fixpoint polynom_loop (n : nat) (order derivative : Z) (c : vec) (x p x_pow : R) : outcome R :=
  match n with
  | O => Ok p
  | S n' =>
      let k := (Z.of_nat (vlen c) - order - 1)%Z in
      guard ((0 <=? k)%Z && (k <? Z.of_nat (vlen c))%Z)
        (polynom_loop n' (order + 1) derivative c x
           (p + IZR (derivative_coefficient order derivative) * vat c (Z.to_nat k) * x_pow) (x_pow * x))
  end.

(** polynom.cpp:28-40, value; [c] are the coefficients, from highest to lowest. *)
Definition polynom_value (c : vec) (x : R) (derivative : Z) : outcome R :=
  polynom_loop (Z.to_nat (Z.of_nat (vlen c) - derivative)) derivative derivative c x 0 1.

(** problem_polynom.cpp:14-20, the loop filling the row of coefficients; the write is not checked. *)
Fixpoint row_loop (n : nat) (order derivative : Z) (size : nat) (x x_pow : R) (row : nat -> R) : outcome (nat -> R) :=
  match n with
  | O => Ok row
  | S n' =>
      let k := (Z.of_nat size - order - 1)%Z in
      guard ((0 <=? k)%Z && (k <? Z.of_nat size)%Z)
        (row_loop n' (order + 1) derivative size x (x_pow * x)
           (fun j => if (Z.of_nat j =? k)%Z then IZR (derivative_coefficient order derivative) * x_pow else row j))
  end.

(** problem_polynom.cpp:10-24, expr. *)
Definition problem_polynom_expr (v : variable) (x : R) (derivative : Z) : outcome expr :=
  row <- row_loop (Z.to_nat (Z.of_nat (var_size v) - derivative)) derivative derivative (var_size v) x 1 (fun _ => 0) ;;
  e <- var_expr v (-1) (-1) ;;
  left_multiply e (Mat 1 (var_size v) (fun _ j => row j)).

(** problem_polynom.cpp:26-29, get_polynom: the polynom whose coefficients are the value of the variable. *)
Definition get_polynom (v : variable) : vec := v_value v.

(** Eigen's normalize(): a vector of norm 0 is left as it is. *)
Definition normalize2 (n : R * R) : R * R :=
  let z := fst n * fst n + snd n * snd n in
  if Rlt_dec 0 z then (fst n / sqrt z, snd n / sqrt z) else n.

(** polygon_constraint.cpp:22-32, one edge: n.transpose() * (expression_xy - A) - margin. *)
Definition edge_value (e : expr) (A B : R * R) (margin : R) : outcome expr :=
  let n := normalize2 (snd B - snd A, fst A - fst B) in
  d <- e_sub_v e (Vec 2 (fun i => match i with O => fst A | _ => snd A end)) ;;
  p <- m_mul_e (Mat 1 2 (fun _ j => match j with O => fst n | _ => snd n end)) d ;;
  e_sub_d p margin.

(** polygon_constraint.cpp:18-35, the loop from edge [i] on ([n] edges are left): the rows of values.A and values.b,
    first edge first. *)
Fixpoint edges_loop (n i : nat) (e : expr) (polygon : list (R * R)) (margin : R) : outcome (list expr) :=
  match n with
  | O => Ok []
  | S n' =>
      match nth_error polygon i, nth_error polygon (Nat.modulo (i + 1) (length polygon)) with
      | Some A, Some B =>
          v <- edge_value e A B margin ;;
          r <- edges_loop n' (S i) e polygon margin ;;
          Ok (v :: r)
      | _, _ => UB
      end
  end.

(** polygon_constraint.cpp:6-38. Each row of values is the single row of the edge's expression; the copied block has
    as many columns as [e]. *)
Definition in_polygon_xy (e : expr) (polygon : list (R * R)) (margin : R) : outcome pconstraint :=
  if negb (Nat.eqb (rows e) 2) then Throw ERuntime
  else
    rows_ <- edges_loop (length polygon) 0 e polygon margin ;;
    let dflt := from_double 0 in
    e_ge_d (Expr (Mat (length polygon) (cols e) (fun i j => mat_at (eA (nth i rows_ dflt)) 0 j))
                 (Vec (length polygon) (fun i => vat (eb (nth i rows_ dflt)) 0))) 0.

(** polygon_constraint.cpp:40-45. *)
Definition in_polygon (ex ey : expr) (polygon : list (R * R)) (margin : R) : outcome pconstraint :=
  e <- e_stack ex ey ;; in_polygon_xy e polygon margin.
