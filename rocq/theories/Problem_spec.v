(** Specification of an optimisation problem as the user wrote it, and the contracts of the two external
    algorithms. Only the meaning of rows A x + b, of priorities and of weights appears here. *)
From Coq Require Import Reals List ZArith Bool.
From Verif Require Import Base Expression_model Problem_model.
Import ListNotations.
Open Scope R_scope.

(** Row [i] of A x + b. *)
Definition row (e : expr) (x : nat -> R) (i : nat) : R :=
  Rsum (cols e) (fun j => mat_at (eA e) i j * x j) + vat (eb e) i.

(** A constraint holds at [x]. *)
Definition holds (c : pconstraint) (x : nat -> R) : Prop :=
  forall i, (i < rows (c_expr c))%nat ->
    match c_type c with Equality => row (c_expr c) x i = 0 | Inequality => 0 <= row (c_expr c) x i end.

Definition hard_holds (cs : list pconstraint) (x : nat -> R) : Prop :=
  forall c, In c cs -> c_prio c = Hard -> holds c x.

Definition hard_equalities_hold (cs : list pconstraint) (x : nat -> R) : Prop :=
  forall c, In c cs -> c_prio c = Hard -> c_type c = Equality -> holds c x.

Definition hard_inequalities_hold (cs : list pconstraint) (x : nat -> R) : Prop :=
  forall c, In c cs -> c_prio c = Hard -> c_type c = Inequality -> holds c x.

(** The penalty of one soft constraint: half its weight times the squared residual of an equality, or times the
    squared violation of an inequality. *)
Definition soft_penalty (c : pconstraint) (x : nat -> R) : R :=
  match c_prio c, c_type c with
  | Hard, _ => 0
  | Soft, Equality => c_weight c / 2 * Rsum (rows (c_expr c)) (fun i => Rsqr (row (c_expr c) x i))
  | Soft, Inequality => c_weight c / 2 * Rsum (rows (c_expr c)) (fun i => Rsqr (Rmin 0 (row (c_expr c) x i)))
  end.

Fixpoint soft_cost (cs : list pconstraint) (x : nat -> R) : R :=
  match cs with [] => 0 | c :: r => soft_penalty c x + soft_cost r x end.

(** The cost the user asked for: soft penalties plus the regularisation of the unknowns. *)
Definition cost (pb : problem) (x : nat -> R) : R :=
  soft_cost (p_cons pb) x + p_reg pb / 2 * Rsum (p_n pb) (fun j => Rsqr (x j)).

(** The same cost with explicit slacks [s] for the soft inequalities, numbered in order from [k]. *)
Fixpoint slack_cost (cs : list pconstraint) (x s : nat -> R) (k : nat) : R :=
  match cs with
  | [] => 0
  | c :: r =>
      match c_prio c, c_type c with
      | Soft, Equality => c_weight c / 2 * Rsum (rows (c_expr c)) (fun i => Rsqr (row (c_expr c) x i)) + slack_cost r x s k
      | Soft, Inequality =>
          c_weight c / 2 * Rsum (rows (c_expr c)) (fun i => Rsqr (row (c_expr c) x i - s (k + i)%nat))
          + slack_cost r x s (k + rows (c_expr c))
      | Hard, _ => slack_cost r x s k
      end
  end.

(** Total number of rows of the soft inequalities. *)
Fixpoint soft_inequality_rows (cs : list pconstraint) : nat :=
  match cs with
  | [] => 0
  | c :: r => (match c_prio c, c_type c with Soft, Inequality => rows (c_expr c) | _, _ => 0 end
               + soft_inequality_rows r)%nat
  end.

(** Total number of rows of the hard inequalities. *)
Fixpoint hard_inequality_rows (cs : list pconstraint) : nat :=
  match cs with
  | [] => 0
  | c :: r => (match c_prio c, c_type c with Hard, Inequality => rows (c_expr c) | _, _ => 0 end
               + hard_inequality_rows r)%nat
  end.

(** Every constraint has at least one row, A and b of the same height, and mentions only existing unknowns. *)
Definition well_formed (pb : problem) : Prop :=
  forall c, In c (p_cons pb) ->
    (0 < rows (c_expr c))%nat /\ vlen (eb (c_expr c)) = rows (c_expr c) /\ (cols (c_expr c) <= p_n pb)%nat.

(** ** Contract of the QP back-end *)

Definition qp_cost (Q : qp_problem) (z : nat -> R) : R :=
  let N := vlen (qp_q Q) in
  / 2 * Rsum N (fun i => Rsum N (fun j => z i * mat_at (qp_P Q) i j * z j)) + Rsum N (fun i => vat (qp_q Q) i * z i).

Definition qp_feasible (Q : qp_problem) (z : nat -> R) : Prop :=
  (forall k, (k < mrows (qp_A Q))%nat ->
     Rsum (mcols (qp_A Q)) (fun j => mat_at (qp_A Q) k j * z j) + vat (qp_b Q) k = 0) /\
  (forall k, (k < mrows (qp_G Q))%nat ->
     0 <= Rsum (mcols (qp_G Q)) (fun j => mat_at (qp_G Q) k j * z j) + vat (qp_h Q) k).

(** A back-end is correct when a vector it returns without reporting infeasibility is an optimum. *)
Definition qp_correct (qp : qp_problem -> qp_result) : Prop :=
  forall Q, q_inf (qp Q) = false ->
    qp_feasible Q (q_x (qp Q)) /\ forall z, qp_feasible Q z -> qp_cost Q (q_x (qp Q)) <= qp_cost Q z.

(** ** Contract of the column-pivoting QR decomposition of an n x m matrix, when it reports full column rank m:
    M P = Q R, Q orthogonal, R upper triangular without zero on its diagonal, and m <= n. Nothing is asked of the
    decomposition of a matrix reported rank deficient. *)
Definition qr_correct (qr : mat -> qr_result) : Prop :=
  forall M, let d := qr M in let n := mrows M in let m := mcols M in
    qr_rank d = m ->
    (forall i j, (i < n)%nat -> (j < n)%nat ->
       Rsum n (fun k => qr_Q d k i * qr_Q d k j) = if Nat.eqb i j then 1 else 0) /\
    (forall i j, (i < n)%nat -> (j < n)%nat ->
       Rsum n (fun k => qr_Q d i k * qr_Q d j k) = if Nat.eqb i j then 1 else 0) /\
    (forall j, (j < m)%nat -> (qr_perm d j < m)%nat) /\
    (forall j, (j < m)%nat -> exists j', (j' < m)%nat /\ qr_perm d j' = j) /\
    (forall i j, (i < n)%nat -> (j < m)%nat ->
       mat_at M i (qr_perm d j) = Rsum n (fun k => qr_Q d i k * qr_R d k j)) /\
    (forall k j, (j < k)%nat -> qr_R d k j = 0) /\
    (m <= n)%nat /\
    (forall j, (j < m)%nat -> qr_R d j j <> 0).

(** ** When solve must succeed *)

(** Number of rows of the hard equalities. *)
Fixpoint hard_equality_rows (cs : list pconstraint) : nat :=
  match cs with
  | [] => 0
  | c :: r => (match c_prio c, c_type c with Hard, Equality => rows (c_expr c) | _, _ => 0 end
               + hard_equality_rows r)%nat
  end.

(** Coefficient of unknown [j] in the combination of the rows of the hard equalities with coefficients [mu],
    numbered in order from [k]. *)
Fixpoint combination (cs : list pconstraint) (mu : nat -> R) (k j : nat) : R :=
  match cs with
  | [] => 0
  | c :: r =>
      match c_prio c, c_type c with
      | Hard, Equality =>
          Rsum (rows (c_expr c)) (fun i => mu (k + i)%nat * (if Nat.ltb j (cols (c_expr c)) then mat_at (eA (c_expr c)) i j else 0))
          + combination r mu (k + rows (c_expr c)) j
      | _, _ => combination r mu k j
      end
  end.

(** The rows of the hard equalities are linearly independent. *)
Definition independent_equalities (pb : problem) : Prop :=
  forall mu, (forall j, (j < p_n pb)%nat -> combination (p_cons pb) mu 0 j = 0) ->
    forall k, (k < hard_equality_rows (p_cons pb))%nat -> mu k = 0.

Definition independent_columns (M : mat) : Prop :=
  forall mu, (forall i, (i < mrows M)%nat -> Rsum (mcols M) (fun j => mu j * mat_at M i j) = 0) ->
    forall j, (j < mcols M)%nat -> mu j = 0.

Definition strictly_convex (Q : qp_problem) : Prop :=
  forall z, (exists i, (i < vlen (qp_q Q))%nat /\ z i <> 0) ->
    0 < Rsum (vlen (qp_q Q)) (fun i => Rsum (vlen (qp_q Q)) (fun j => z i * mat_at (qp_P Q) i j * z j)).

(** The decomposition fails to recognise a matrix with independent columns. *)
Definition qr_fails (qr : mat -> qr_result) : Prop := exists M, independent_columns M /\ qr_rank (qr M) <> mcols M.

(** The back-end fails (infinite value or NaN) on a feasible, strictly convex program of consistent sizes. *)
Definition qp_fails (qp : qp_problem -> qp_result) : Prop :=
  exists Q, strictly_convex Q /\ (exists z, qp_feasible Q z) /\
    (mrows (qp_A Q) = 0%nat \/ mcols (qp_A Q) = vlen (qp_q Q)) /\
    (mrows (qp_G Q) = 0%nat \/ mcols (qp_G Q) = vlen (qp_q Q)) /\
    (q_inf (qp Q) = true \/ exists j, (j < vlen (qp_q Q))%nat /\ q_nan (qp Q) j = true).

(** ** Variables *)

(** The variables' ranges are consecutive from [start], and end at [n]. *)
Fixpoint tiles (start : nat) (vs : list variable) (n : nat) : Prop :=
  match vs with
  | [] => start = n
  | v :: r => k_start v = start /\ (start <= k_end v)%nat /\ tiles (k_end v) r n
  end.

(** The problems a user can build: any history of calls on a default-constructed Problem, the solver options being
    set freely and solve() being given any external algorithms. [sizes] are the sizes of the variables added since
    the last clear_variables. *)
Inductive reachable : problem -> list nat -> Prop :=
| reach_new : reachable new_problem []
| reach_variable pb sizes size : reachable pb sizes -> reachable (fst (add_variable pb size)) (sizes ++ [size])
| reach_clear_variables pb sizes : reachable pb sizes -> reachable (clear_variables pb) []
| reach_constraint pb sizes c : reachable pb sizes -> reachable (add_constraint pb c) sizes
| reach_limit pb sizes e t pb' : reachable pb sizes -> add_limit pb e t = Ok pb' -> reachable pb' sizes
| reach_clear_constraints pb sizes : reachable pb sizes -> reachable (clear_constraints pb) sizes
| reach_options pb sizes reg sparse rewrite : reachable pb sizes ->
    reachable (Problem (p_n pb) (p_vars pb) (p_cons pb) reg sparse rewrite (p_x pb) (p_slacks pb)) sizes
| reach_solve pb sizes qr qp : reachable pb sizes -> snd (solve pb qr qp) <> UB -> reachable (fst (solve pb qr qp)) sizes.

(** ** Sparsity of one matrix *)

(** The non-zero columns of [M] are exactly those of one range [lo, hi), each having an entry above the detection
    threshold. *)
Definition contiguous (M : mat) : Prop :=
  exists lo hi, (hi <= mcols M)%nat /\
    (forall i j, (i < mrows M)%nat -> (j < mcols M)%nat -> ~ (lo <= j < hi)%nat -> mat_at M i j = 0) /\
    (forall j, (lo <= j < hi)%nat -> exists i, (i < mrows M)%nat /\ Rabs (mat_at M i j) > 1 / 1000000000000).
