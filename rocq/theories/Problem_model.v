(** Model of placo::problem::Problem (src/placo/problem/problem.cpp, problem.h).

    Simplifications. Variables and constraints are heap objects in C++ and list elements here; a reference to
    one is its index. The counters n_equalities, n_inequalities, free_variables, determined_variables, kept only
    for dump_status, are not part of the state. The two external algorithms are inputs of [solve]: the
    column-pivoting QR of Eigen and eiquadprog's solve_quadprog. *)
From Coq Require Import Reals List ZArith Bool.
From Verif Require Import Base Sparsity_model Expression_model.
Import ListNotations.
Open Scope R_scope.

(** problem.h: the fields of Problem. *)
Record problem : Type := Problem {
  p_n : nat;                     (* n_variables *)
  p_vars : list variable;
  p_cons : list pconstraint;
  p_reg : R;                     (* regularization, 1e-8 by default *)
  p_sparse : bool;               (* use_sparsity, true by default *)
  p_rewrite : bool;              (* rewrite_equalities, true by default *)
  p_x : vec;
  p_slacks : vec }.

(** problem.h: a default-constructed Problem. *)
Definition new_problem : problem :=
  Problem 0 [] [] (1 / 100000000) true true (Vec 0 (fun _ => 0)) (Vec 0 (fun _ => 0)).

Definition set_vars (pb : problem) (n : nat) (vs : list variable) : problem :=
  Problem n vs (p_cons pb) (p_reg pb) (p_sparse pb) (p_rewrite pb) (p_x pb) (p_slacks pb).
Definition set_cons (pb : problem) (cs : list pconstraint) : problem :=
  Problem (p_n pb) (p_vars pb) cs (p_reg pb) (p_sparse pb) (p_rewrite pb) (p_x pb) (p_slacks pb).
Definition set_x (pb : problem) (x : vec) : problem :=
  Problem (p_n pb) (p_vars pb) (p_cons pb) (p_reg pb) (p_sparse pb) (p_rewrite pb) x (p_slacks pb).
Definition set_slacks (pb : problem) (s : vec) : problem :=
  Problem (p_n pb) (p_vars pb) (p_cons pb) (p_reg pb) (p_sparse pb) (p_rewrite pb) (p_x pb) s.

(** problem.cpp:29-40, add_variable(size): returns the new variable. The value of a new Variable is an empty
    vector and its version 0 (variable.h). *)
Definition add_variable (pb : problem) (size : nat) : problem * variable :=
  let v := MkVar (p_n pb) (p_n pb + size) (Vec 0 (fun _ => 0)) 0 in
  (set_vars pb (p_n pb + size) (p_vars pb ++ [v]), v).

(** problem.cpp:83-92. *)
Definition clear_variables (pb : problem) : problem := set_vars pb 0 [].

(** problem.cpp:64-71. *)
Definition add_constraint (pb : problem) (c : pconstraint) : problem := set_cons pb (p_cons pb ++ [c]).

(** problem.cpp:73-81. *)
Definition clear_constraints (pb : problem) : problem := set_cons pb [].

(** problem.cpp:42-59, the stacked expression [A; -A] x + [b; -b] and the stacked targets of add_limit. *)
Definition limit_expression (e : expr) : expr :=
  Expr (Mat (rows e * 2) (cols e)
          (fun i j => if Nat.ltb i (rows e) then mat_at (eA e) i j else - mat_at (eA e) (i - rows e) j))
       (Vec (vlen (eb e) * 2)
          (fun i => if Nat.ltb i (vlen (eb e)) then vat (eb e) i else - vat (eb e) (i - vlen (eb e)))).
Definition limit_targets (t : vec) : vec :=
  Vec (vlen t * 2) (fun i => if Nat.ltb i (vlen t) then vat t i else vat t (i - vlen t)).

(** problem.cpp:42-62, add_limit. *)
Definition add_limit (pb : problem) (e : expr) (target : vec) : outcome problem :=
  c <- e_le_v (limit_expression e) (limit_targets target) ;; Ok (add_constraint pb c).

Definition is_hard (c : pconstraint) : bool := match c_prio c with Hard => true | Soft => false end.
Definition is_eq (c : pconstraint) : bool := match c_type c with Equality => true | Inequality => false end.

(** problem.cpp:119-137: is_active is reset, true for equalities. *)
Definition reset_active (c : pconstraint) : pconstraint :=
  PConstraint (c_expr c) (c_type c) (c_prio c) (c_weight c) (is_eq c).

(** problem.cpp:119-137: the rows of soft inequalities and of hard equalities. *)
Fixpoint slack_count (cs : list pconstraint) : nat :=
  match cs with
  | [] => 0
  | c :: r => (if negb (is_eq c) && negb (is_hard c) then rows (c_expr c) else 0) + slack_count r
  end.
Fixpoint equality_count (cs : list pconstraint) : nat :=
  match cs with
  | [] => 0
  | c :: r => (if is_eq c && is_hard c then rows (c_expr c) else 0) + equality_count r
  end.

(** problem.cpp:140-155: the hard equalities are copied below each other into A (n_equalities x n_variables)
    and b. The block writes are not checked: too many columns, or heights of A and b that differ, are UB. *)
Fixpoint stack_equalities (cs : list pconstraint) (n : nat) (k : nat) (A : nat -> nat -> R) (b : nat -> R)
  : outcome ((nat -> nat -> R) * (nat -> R)) :=
  match cs with
  | [] => Ok (A, b)
  | c :: r =>
      if is_eq c && is_hard c then
        let e := c_expr c in
        guard (Nat.leb (cols e) n && Nat.eqb (vlen (eb e)) (rows e))
          (stack_equalities r n (k + rows e)
             (fun i j => if Nat.leb k i && Nat.ltb i (k + rows e) && Nat.ltb j (cols e) then mat_at (eA e) (i - k) j
                         else A i j)
             (fun i => if Nat.leb k i && Nat.ltb i (k + rows e) then vat (eb e) (i - k) else b i))
      else stack_equalities r n k A b
  end.

(** Eigen's ColPivHouseholderQR of a matrix: its rank, the orthogonal factor Q, the triangular factor R and the
    column permutation P, given by its indices. *)
Record qr_result : Type := QRResult {
  qr_rank : nat; qr_Q : nat -> nat -> R; qr_R : nat -> nat -> R; qr_perm : nat -> nat }.

(** Eigen's triangularView<Lower>().solve(c): forward substitution on the first [n] rows. *)
Fixpoint forward_subst (n : nat) (L : nat -> nat -> R) (c : nat -> R) : nat -> R :=
  match n with
  | O => fun _ => 0
  | S k => let y := forward_subst k L c in
           fun i => if Nat.eqb i k then (c k - Rsum k (fun j => L k j * y j)) / L k k else y i
  end.

(** The result of lines 157-185: determined_variables, Q and y (meaningful when determined_variables > 0), and the
    equalities left for the QP solver. *)
Record reduction : Type := Reduction {
  r_det : nat; r_Q : nat -> nat -> R; r_y : nat -> R; r_A : mat; r_b : vec }.

(** problem.cpp:157-185: elimination of the equalities by QR. b2 = b^T P, and y solves R^T y = - b2. *)
Definition eliminate (rewrite : bool) (n : nat) (A : mat) (b : vec) (qr : mat -> qr_result) : outcome reduction :=
  if rewrite && Nat.ltb 0 (mrows A) then
    let d := qr (Mat (mcols A) (mrows A) (fun i j => mat_at A j i)) in
    if negb (Nat.eqb (qr_rank d) (mrows A)) then Throw EQP
    else
      Ok (Reduction (qr_rank d) (qr_Q d)
            (forward_subst (qr_rank d) (fun i j => qr_R d j i) (fun i => - vat b (qr_perm d i)))
            (Mat 0 0 (fun _ _ => 0)) (Vec 0 (fun _ => 0)))
  else Ok (Reduction 0 (fun _ _ => 0) (fun _ => 0) A b).

(** problem.cpp:94-111, get_constraint_expressions. *)
Definition constraint_expressions (n : nat) (rd : reduction) (e : expr) : mat * vec :=
  if Nat.eqb (r_det rd) 0 then (eA e, eb e)
  else
    let full := fun i j => Rsum n (fun k => padded (eA e) i k * r_Q rd k j) in
    (Mat (rows e) (n - r_det rd) (fun i j => full i (r_det rd + j)%nat),
     Vec (rows e) (fun i => vat (eb e) i + Rsum (r_det rd) (fun j => full i j * r_y rd j))).

(** P.block(0, 0, n, n) += w * M^T M (problem.cpp:248 and 312), M having n columns. *)
Definition add_gram (w : R) (M : mat) (P : nat -> nat -> R) : nat -> nat -> R :=
  fun i j => if Nat.ltb i (mcols M) && Nat.ltb j (mcols M)
             then P i j + w * Rsum (mrows M) (fun k => mat_at M k i * mat_at M k j) else P i j.

(** q.block(0, 0, n, 1) += w * M^T b (problem.cpp:242-243, 249, 313). *)
Definition add_linear (w : R) (M : mat) (b : vec) (q : nat -> R) : nat -> R :=
  fun i => if Nat.ltb i (mcols M) then q i + w * Rsum (mrows M) (fun k => mat_at M k i * vat b k) else q i.

(** problem.cpp:232-240: the same product, restricted to the diagonal block of each non-zero column interval. *)
Definition add_gram_sparse (w : R) (M : mat) (P : nat -> nat -> R) : nat -> nat -> R :=
  fold_left (fun P iv => fun i j =>
      if contains iv (Z.of_nat i) && contains iv (Z.of_nat j)
      then P i j + w * Rsum (mrows M) (fun k => mat_at M k i * mat_at M k j) else P i j)
    (detect_columns_sparsity M) P.

(** problem.cpp:198-252: the checks of every constraint, and the soft equalities added to the objective. *)
Fixpoint objective_loop (sparse : bool) (n : nat) (rd : reduction) (cs : list pconstraint)
    (P : nat -> nat -> R) (q : nat -> R) : outcome ((nat -> nat -> R) * (nat -> R)) :=
  match cs with
  | [] => Ok (P, q)
  | c :: r =>
      let e := c_expr c in
      if Nat.ltb n (cols e) then Throw EQP
      else if Nat.eqb (rows e) 0 || Nat.eqb (vlen (eb e)) 0 then Throw EQP
      else if negb (Nat.eqb (rows e) (vlen (eb e))) then Throw EQP
      else if is_eq c && negb (is_hard c) then
        let (A, b) := constraint_expressions n rd e in
        objective_loop sparse n rd r
          (if sparse then add_gram_sparse (c_weight c) A P else add_gram (c_weight c) A P)
          (add_linear (c_weight c) A b q)
      else objective_loop sparse n rd r P q
  end.

(** State of the loop of lines 277-316: G, h, P, q, k_inequality, k_slack and the two maps from a row of G,
    respectively a slack, to the index of its constraint. *)
Record ineq_state : Type := IneqState {
  s_G : nat -> nat -> R; s_h : nat -> R; s_P : nat -> nat -> R; s_q : nat -> R;
  s_kin : nat; s_ksl : nat; s_hard : nat -> option nat; s_soft : nat -> option nat }.

(** problem.cpp:301-310: As = [A | 0 ... -I ... 0]. *)
Definition slack_matrix (N free ksl : nat) (A : mat) : mat :=
  Mat (mrows A) N (fun i j => if Nat.eqb j (free + (ksl + i)) then -1 else if Nat.ltb j (mcols A) then mat_at A i j else 0).

(** problem.cpp:277-316. [idx] is the index of the next constraint. *)
Fixpoint inequality_loop (n N free : nat) (rd : reduction) (cs : list pconstraint) (idx : nat) (s : ineq_state)
  : ineq_state :=
  match cs with
  | [] => s
  | c :: r =>
      if is_eq c then inequality_loop n N free rd r (S idx) s
      else
        let (A, b) := constraint_expressions n rd (c_expr c) in
        let m := mrows A in
        if is_hard c then
          inequality_loop n N free rd r (S idx)
            (IneqState
               (fun i j => if Nat.leb (s_kin s) i && Nat.ltb i (s_kin s + m) && Nat.ltb j (mcols A)
                           then mat_at A (i - s_kin s) j else s_G s i j)
               (fun i => if Nat.leb (s_kin s) i && Nat.ltb i (s_kin s + m) then vat b (i - s_kin s) else s_h s i)
               (s_P s) (s_q s) (s_kin s + m) (s_ksl s)
               (fun k => if Nat.leb (s_kin s) k && Nat.ltb k (s_kin s + m) then Some idx else s_hard s k)
               (s_soft s))
        else
          let As := slack_matrix N free (s_ksl s) A in
          inequality_loop n N free rd r (S idx)
            (IneqState (s_G s) (s_h s)
               (add_gram (c_weight c) As (s_P s)) (add_linear (c_weight c) As b (s_q s))
               (s_kin s) (s_ksl s + m) (s_hard s)
               (fun k => if Nat.leb (s_ksl s) k && Nat.ltb k (s_ksl s + m) then Some idx else s_soft s k))
  end.

(** problem.cpp:213-218: the rows of all inequalities. *)
Fixpoint inequality_count (cs : list pconstraint) : nat :=
  match cs with
  | [] => 0
  | c :: r => (if is_eq c then 0 else rows (c_expr c)) + inequality_count r
  end.

(** The quadratic program given to the back-end: minimise z'Pz/2 + q'z with A z + b = 0 and G z + h >= 0. *)
Record qp_problem : Type := QP { qp_P : mat; qp_q : vec; qp_A : mat; qp_b : vec; qp_G : mat; qp_h : vec }.

(** Everything computed by solve before the call to the back-end. *)
Record assembled : Type := Assembled {
  a_free : nat; a_slack : nat; a_red : reduction; a_qp : qp_problem;
  a_hard : nat -> option nat; a_soft : nat -> option nat }.

(** problem.cpp:139-316. *)
Definition assemble (pb : problem) (qr : mat -> qr_result) : outcome assembled :=
  let n := p_n pb in
  let cs := p_cons pb in
  let slack := slack_count cs in
  Ab <- stack_equalities cs n 0 (fun _ _ => 0) (fun _ => 0) ;;
  let A := Mat (equality_count cs) n (fst Ab) in
  let b := Vec (equality_count cs) (snd Ab) in
  rd <- eliminate (p_rewrite pb) n A b qr ;;
  let free := (n - r_det rd)%nat in
  let N := (free + slack)%nat in
  Pq <- objective_loop (p_sparse pb) n rd cs
          (fun i j => if Nat.eqb i j && Nat.ltb i free then p_reg pb else 0) (fun _ => 0) ;;
  let s := inequality_loop n N free rd cs 0
             (IneqState (fun i j => if Nat.ltb i slack && Nat.eqb j (free + i) then 1 else 0) (fun _ => 0)
                (fst Pq) (snd Pq) slack 0 (fun _ => None) (fun _ => None)) in
  let m := inequality_count cs in
  Ok (Assembled free slack rd
        (QP (Mat N N (s_P s)) (Vec N (s_q s)) (r_A rd) (r_b rd) (Mat m N (s_G s)) (Vec m (s_h s)))
        (s_hard s) (s_soft s)).

(** What solve_quadprog returns: whether the value is infinity, the vector, which of its entries are NaN, and the
    active set. *)
Record qp_result : Type := QPResult {
  q_inf : bool; q_x : nat -> R; q_nan : nat -> bool; q_active : list Z }.

Fixpoint exists_below (n : nat) (f : nat -> bool) : bool :=
  match n with O => false | S k => f k || exists_below k f end.

(** problem.cpp:326-338: the solution in the original unknowns. Without elimination x keeps the slacks. *)
Definition recompose (n : nat) (a : assembled) (z : nat -> R) : vec :=
  if Nat.eqb (r_det (a_red a)) 0 then Vec (a_free a + a_slack a) z
  else
    Vec n (fun i => Rsum n (fun j => r_Q (a_red a) i j *
                       (if Nat.ltb j (r_det (a_red a)) then r_y (a_red a) j else z (j - r_det (a_red a))%nat))).

(** problem.cpp:360-363, x.hasNaN(): x is qp_x, or Q times a vector containing the free part of qp_x. A NaN in
    that vector is taken to appear in the product. *)
Definition x_has_nan (a : assembled) (r : qp_result) : bool :=
  exists_below (if Nat.eqb (r_det (a_red a)) 0 then a_free a + a_slack a else a_free a) (q_nan r).

(** problem.cpp:347-357: some equality left for the QP is violated by more than 1e-6. *)
Definition equality_violated (a : assembled) (x : vec) : bool :=
  let A := qp_A (a_qp a) in
  exists_below (mrows A) (fun k =>
    if Rlt_dec (1 / 1000000) (Rabs (Rsum (mcols A) (fun j => mat_at A k j * vat x j) + vat (qp_b (a_qp a)) k))
    then true else false).

Fixpoint activate (cs : list pconstraint) (idx : nat) : list pconstraint :=
  match cs, idx with
  | [], _ => []
  | c :: r, O => PConstraint (c_expr c) (c_type c) (c_prio c) (c_weight c) true :: r
  | c :: r, S i => c :: activate r i
  end.

(** problem.cpp:366-374. *)
Definition report_hard (hard : nat -> option nat) (active : list Z) (cs : list pconstraint) : list pconstraint :=
  fold_left (fun cs k =>
      if (0 <=? k)%Z then match hard (Z.to_nat k) with Some idx => activate cs idx | None => cs end else cs)
    active cs.

(** problem.cpp:376-383. *)
Fixpoint report_soft (n free : nat) (r : qp_result) (soft : nat -> option nat) (cs : list pconstraint)
  : list pconstraint :=
  match n with
  | O => cs
  | S k =>
      let cs' := report_soft k free r soft cs in
      if (if Rle_dec (q_x r (free + k)%nat) (1 / 1000000) then true else false) && negb (q_nan r (free + k)%nat)
      then match soft k with Some idx => activate cs' idx | None => cs' end
      else cs'
  end.

(** problem.cpp:385-390, for one variable: x.block(k_start, 0, size, 1) is not checked. *)
Definition update_variable (x : vec) (v : variable) : outcome variable :=
  guard (Nat.leb (k_end v) (vlen x))
    (Ok (MkVar (k_start v) (k_end v) (Vec (var_size v) (fun i => vat x (k_start v + i)%nat)) (S (v_version v)))).

Fixpoint update_variables (x : vec) (vs : list variable) : outcome (list variable) :=
  match vs with
  | [] => Ok []
  | v :: r => v' <- update_variable x v ;; r' <- update_variables x r ;; Ok (v' :: r')
  end.

(** problem.cpp:326-390: what follows the call to the back-end. The first component is the state left behind,
    also when the call throws. *)
Definition finish (pb : problem) (a : assembled) (r : qp_result) : problem * outcome unit :=
  let x := recompose (p_n pb) a (q_x r) in
  let pb1 := set_x pb x in
  if q_inf r then (pb1, Throw EQP)
  else if equality_violated a x then (pb1, Throw EQP)
  else if x_has_nan a r then (pb1, Throw EQP)
  else
    let cs := report_soft (a_slack a) (a_free a) r (a_soft a)
                (report_hard (a_hard a) (q_active r) (p_cons pb1)) in
    let pb2 := set_slacks (set_cons pb1 cs) (Vec (a_slack a) (fun k => q_x r (a_free a + k)%nat)) in
    match update_variables x (p_vars pb2) with
    | Ok vs => (set_vars pb2 (p_n pb2) vs, Ok tt)
    | Throw e => (pb2, Throw e)
    | UB => (pb2, UB)
    end.

(** problem.cpp:321-324: solve_quadprog needs equality rows as long as its vector of unknowns (it multiplies them by
    an N x N matrix). A has n_variables columns and the QP n_variables + slack_variables unknowns. *)
Definition qp_sizes_ok (Q : qp_problem) : bool :=
  Nat.eqb (mrows (qp_A Q)) 0 || Nat.eqb (mcols (qp_A Q)) (vlen (qp_q Q)).

(** problem.cpp:113-391, solve. *)
Definition solve (pb : problem) (qr : mat -> qr_result) (qp : qp_problem -> qp_result) : problem * outcome unit :=
  let pb0 := set_cons pb (map reset_active (p_cons pb)) in
  match assemble pb0 qr with
  | Ok a => if qp_sizes_ok (a_qp a) then finish pb0 a (qp (a_qp a)) else (pb0, UB)
  | Throw e => (pb0, Throw e)
  | UB => (pb0, UB)
  end.
