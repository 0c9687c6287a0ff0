(** Model of placo::problem::Integrator (src/placo/problem/integrator.cpp, integrator.h).

    Simplifications. Eigen's matrix exponential is an input, [mexp]. The pointer to the decision variable is the
    variable itself, passed to each call in its current state; [Variable::problem->x] is passed as [x]. The two
    std::map indexed by consecutive integers are lists. Copies of an Integrator are not modelled. *)
From Coq Require Import Reals List ZArith Bool.
From Verif Require Import Base Expression_model.
Import ListNotations.
Open Scope R_scope.

(** integrator.h:23-66, struct Trajectory. *)
Record trajectory : Type := Trajectory {
  tr_u : vec;              (* variable_value *)
  tr_M : mat;
  tr_keys : list vec;      (* keyframes *)
  tr_order : nat;
  tr_dt : R;
  tr_start : R }.          (* t_start *)

(** integrator.cpp:90-98, AB_matrices: the first [order] rows of exp(M dt), split before column [order]. Eigen's exp
    needs a square matrix; the blocks are not checked. *)
Definition AB_matrices (mexp : mat -> mat) (M : mat) (order : nat) (dt : R) : outcome (mat * vec) :=
  guard (Nat.eqb (mrows M) (mcols M) && Nat.ltb order (mrows M))
    (let Me := mexp (Mat (mrows M) (mcols M) (fun i j => mat_at M i j * dt)) in
     Ok (Mat order order (mat_at Me), Vec order (fun i => mat_at Me i order))).

(** integrator.cpp:100-111. *)
Definition upper_shift_matrix (order : nat) : mat :=
  Mat (S order) (S order) (fun i j => if Nat.eqb j (S i) then 1 else 0).

(** integrator.cpp:113-123, check_diff. *)
Definition check_diff (order : nat) (diff : Z) (allow_all : bool) : outcome unit :=
  let diff_min := (if allow_all then -1 else 0)%Z in
  if (diff <? diff_min)%Z || (diff >? Z.of_nat order)%Z then Throw ERuntime else Ok tt.

(** A X + B u, the recurrence of lines 35 and 235. *)
Definition transition (A : mat) (B : vec) (X : vec) (u : R) : outcome vec :=
  guard (Nat.eqb (mcols A) (vlen X))
    (Ok (Vec (mrows A) (fun i => Rsum (mcols A) (fun j => mat_at A i j * vat X j) + vat B i * u))).

(** integrator.cpp:9-39, Trajectory::value. std::floor is Int_part; with dt = 0 the quotient is an infinity or NaN,
    whose conversion to int is undefined. An index -1 (no step at all) is out of range. *)
Definition traj_value (mexp : mat -> mat) (tr : trajectory) (t0 : R) (diff : Z) : outcome R :=
  let t := t0 - tr_start tr in
  _ <- check_diff (tr_order tr) diff false ;;
  guard (if Req_EM_T (tr_dt tr) 0 then false else true)
   (let k0 := Int_part (t / tr_dt tr) in
    let k1 := if (k0 <? 0)%Z then 0%Z else k0 in
    let n := Z.of_nat (vlen (tr_u tr)) in
    let k := if (k1 >=? n)%Z then (n - 1)%Z else k1 in
    let remaining_dt := Rmax 0 (Rmin (tr_dt tr) (t - IZR k * tr_dt tr)) in
    guard (0 <=? k)%Z
     (if (diff =? Z.of_nat (tr_order tr))%Z then Ok (vat (tr_u tr) (Z.to_nat k))
      else
        AB <- AB_matrices mexp (tr_M tr) (tr_order tr) remaining_dt ;;
        match nth_error (tr_keys tr) (Z.to_nat k) with
        | None => UB
        | Some X =>
            r <- transition (fst AB) (snd AB) X (vat (tr_u tr) (Z.to_nat k)) ;;
            Ok (vat r (Z.to_nat diff))
        end)).

(** integrator.cpp:41-44. *)
Definition duration (tr : trajectory) : R := INR (length (tr_keys tr)) * tr_dt tr.

(** integrator.h:126-213: the fields of Integrator. [ig_traj] is meaningless until [ig_version] is positive. *)
Record integrator : Type := Integrator {
  ig_X0 : expr; ig_M : mat; ig_order : nat; ig_dt : R; ig_N : nat;
  ig_A : mat; ig_B : vec;
  ig_final : nat -> nat -> R;       (* final_transition_matrix, order x N *)
  ig_pow : list mat;                (* a_powers *)
  ig_start : R;                     (* t_start *)
  ig_version : nat; ig_traj : trajectory }.

(** integrator.cpp:69-74, the loop of the constructor: [n] steps are left. *)
Fixpoint transition_loop (n : nat) (step N order : nat) (A : mat) (B : vec) (Ak : nat -> nat -> R)
    (F : nat -> nat -> R) (pows : list mat) : (nat -> nat -> R) * list mat :=
  match n with
  | O => (F, pows)
  | S n' =>
      let Ak' := fun i j => Rsum order (fun l => mat_at A i l * Ak l j) in
      transition_loop n' (S step) N order A B Ak'
        (fun i j => if Nat.eqb j (N - step - 1) then Rsum order (fun l => Ak i l * vat B l) else F i j)
        (pows ++ [Mat order order Ak'])
  end.

(** integrator.cpp:50-75, the constructor taking a system matrix; [v] is the decision variable. *)
Definition new_integrator (mexp : mat -> mat) (v : variable) (X0 : expr) (M : mat) (dt : R) : outcome integrator :=
  let order := (mrows M - 1)%nat in
  let N := var_size v in
  AB <- AB_matrices mexp M order dt ;;
  let Id := fun i j : nat => if Nat.eqb i j then 1 else 0 in
  let l := transition_loop N 0 N order (fst AB) (snd AB) Id (fun _ _ => 0) [Mat order order Id] in
  Ok (Integrator X0 M order dt N (fst AB) (snd AB) (fst l) (snd l) 0 0
        (Trajectory (Vec 0 (fun _ => 0)) M [] order dt 0)).

(** integrator.cpp:77-84, the constructor taking an order. A negative order gives a matrix of invalid size. *)
Definition new_integrator_order (mexp : mat -> mat) (v : variable) (X0 : expr) (order : Z) (dt : R)
  : outcome integrator :=
  guard (0 <=? order)%Z
    (ig <- new_integrator mexp v X0 (upper_shift_matrix (Z.to_nat order)) dt ;;
     if negb (Z.of_nat (rows X0) =? order)%Z then Throw ERuntime else Ok ig).

(** The public field t_start (integrator.h:202) is written by callers. *)
Definition set_t_start (ig : integrator) (t : R) : integrator :=
  Integrator (ig_X0 ig) (ig_M ig) (ig_order ig) (ig_dt ig) (ig_N ig) (ig_A ig) (ig_B ig) (ig_final ig) (ig_pow ig)
    t (ig_version ig) (ig_traj ig).

(** integrator.cpp:125-168, expr(step, diff). The blocks of lines 157 and 162 are not checked. *)
Definition ig_expr (ig : integrator) (v : variable) (step0 diff : Z) : outcome expr :=
  _ <- check_diff (ig_order ig) diff true ;;
  let size := Z.of_nat (var_size v) in
  let step := if (step0 =? -1)%Z then size else step0 in
  if (step <? 0)%Z || (step >? size)%Z then Throw ERuntime
  else if (diff =? Z.of_nat (ig_order ig))%Z then var_expr v step 1
  else
    let s := Z.to_nat step in
    let all := (diff =? -1)%Z in
    let rows_ := if all then ig_order ig else 1%nat in
    let r0 := if all then O else Z.to_nat diff in
    guard (Nat.leb (k_start v + s) (k_end v) && Nat.leb s (ig_N ig))
     (let e := Expr (Mat rows_ (k_end v) (fun i j =>
                       if Nat.leb (k_start v) j && Nat.ltb j (k_start v + s)
                       then ig_final ig (r0 + i)%nat (ig_N ig - s + (j - k_start v))%nat else 0))
                    (Vec rows_ (fun _ => 0)) in
      match nth_error (ig_pow ig) s with
      | None => UB
      | Some P =>
          p <- m_mul_e P (ig_X0 ig) ;;
          p' <- (if all then Ok p else slice p diff 1) ;;
          e_add e p'
      end).

(** Conversion of a double to int: truncation toward zero. *)
Definition Ztrunc (x : R) : Z := if Rle_dec 0 x then Int_part x else (- Int_part (- x))%Z.

(** integrator.cpp:170-198, expr_t(t, diff). There is no check of [diff]: the blocks of lines 192-193 are out of
    range when diff > order. *)
Definition ig_expr_t (mexp : mat -> mat) (ig : integrator) (v : variable) (t0 : R) (diff : Z) : outcome expr :=
  let t := t0 - ig_start ig in
  guard (if Req_EM_T (ig_dt ig) 0 then false else true)
   (let step := Z.max (Z.min (Z.of_nat (var_size v) - 1) (Ztrunc (t / ig_dt ig))) 0 in
    if (diff =? Z.of_nat (ig_order ig))%Z then var_expr v step 1
    else
      AB <- AB_matrices mexp (ig_M ig) (ig_order ig) (t - IZR step * ig_dt ig) ;;
      e1 <- ig_expr ig v step (-1) ;;
      p1 <- m_mul_e (fst AB) e1 ;;
      e2 <- var_expr v step 1 ;;
      p2 <- m_mul_e (Mat (vlen (snd AB)) 1 (fun i _ => vat (snd AB) i)) e2 ;;
      e <- e_add p1 p2 ;;
      if (diff >? -1)%Z then
        let d := Z.to_nat diff in
        guard (Nat.ltb d (rows e) && Nat.ltb d (vlen (eb e)))
          (Ok (Expr (Mat 1 (cols e) (fun _ j => mat_at (eA e) d j)) (Vec 1 (fun _ => vat (eb e) d))))
      else Ok e).

(** integrator.cpp:233-237, the key-frames after the first one: [n] are left, the next input is u(k). *)
Fixpoint keyframe_loop (n k : nat) (A : mat) (B : vec) (u : vec) (X : vec) : outcome (list vec) :=
  match n with
  | O => Ok []
  | S n' =>
      guard (Nat.ltb k (vlen u))
        (X' <- transition A B X (vat u k) ;; r <- keyframe_loop n' (S k) A B u X' ;; Ok (X' :: r))
  end.

(** integrator.cpp:214-242, update_trajectory; [x] is variable->problem->x. *)
Definition update_trajectory (ig : integrator) (v : variable) (x : vec) : outcome integrator :=
  if Nat.eqb (v_version v) 0 then Throw ERuntime
  else if Nat.eqb (ig_version ig) (v_version v) then Ok ig
  else
    X <- value (ig_X0 ig) x ;;
    ks <- keyframe_loop (var_size v) 0 (ig_A ig) (ig_B ig) (v_value v) X ;;
    Ok (Integrator (ig_X0 ig) (ig_M ig) (ig_order ig) (ig_dt ig) (ig_N ig) (ig_A ig) (ig_B ig) (ig_final ig)
          (ig_pow ig) (ig_start ig) (v_version v)
          (Trajectory (v_value v) (ig_M ig) (X :: ks) (ig_order ig) (ig_dt ig) (ig_start ig))).

(** integrator.cpp:207-212 and 200-205. The integrator left behind is returned too. *)
Definition get_trajectory (ig : integrator) (v : variable) (x : vec) : outcome (integrator * trajectory) :=
  ig' <- update_trajectory ig v x ;; Ok (ig', ig_traj ig').
Definition ig_value (mexp : mat -> mat) (ig : integrator) (v : variable) (x : vec) (t : R) (diff : Z)
  : outcome (integrator * R) :=
  ig' <- update_trajectory ig v x ;; r <- traj_value mexp (ig_traj ig') t diff ;; Ok (ig', r).
