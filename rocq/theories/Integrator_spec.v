(** Specification of integrators: the linear system they simulate, independently of how placo computes it. *)
From Coq Require Import Reals List ZArith Bool.
From Verif Require Import Base Expression_model Problem_model Integrator_model Mexp.
Import ListNotations.
Open Scope R_scope.

(** State after [k] steps of X <- A X + B u_k from [x0]. *)
Fixpoint simulate (order : nat) (A : nat -> nat -> R) (B : nat -> R) (u : nat -> R) (x0 : nat -> R) (k : nat)
  : nat -> R :=
  match k with
  | O => x0
  | S k' => fun i => Rsum order (fun j => A i j * simulate order A B u x0 k' j) + B i * u k'
  end.

(** What Eigen's matrix exponential is expected to compute: entry (i, j) of exp(M) is the sum of the series
    M^k(i, j) / k!. *)
Definition exp_correct (mexp : mat -> mat) : Prop :=
  forall M : mat, mrows M = mcols M ->
  forall i j, (i < mrows M)%nat -> (j < mrows M)%nat ->
  infinite_sum (fun k => mpow (mrows M) (mat_at M) k i j / INR (fact k)) (mat_at (mexp M) i j).

(** The system matrix, scaled by a duration. *)
Definition times (M : mat) (t : R) : mat := Mat (mrows M) (mcols M) (fun i j => mat_at M i j * t).

(** The discrete system of step [dt]: blocks of exp(M dt). *)
Definition discrete_A (mexp : mat -> mat) (M : mat) (dt : R) : nat -> nat -> R := mat_at (mexp (times M dt)).
Definition discrete_B (mexp : mat -> mat) (M : mat) (dt : R) : nat -> R :=
  fun i => mat_at (mexp (times M dt)) i (mrows M - 1)%nat.

(** State reached from the state [X] after the time [tau] under the constant input [u]: the first rows of
    exp(M tau) [X; u]. *)
Definition flow (mexp : mat -> mat) (M : mat) (order : nat) (X : nat -> R) (u tau : R) (i : nat) : R :=
  Rsum order (fun j => mat_at (mexp (times M tau)) i j * X j) + mat_at (mexp (times M tau)) i order * u.

(** The inputs an assignment [x] of all the unknowns gives to the integrator of the variable [v]. *)
Definition inputs (v : variable) (x : nat -> R) : nat -> R := fun k => x (k_start v + k)%nat.

(** [tr] is the trajectory of the system [M] (order + 1 rows) discretised with the step [dt], starting at time [t0]
    from the state [x0], under the [n] inputs [u]. *)
Definition trajectory_of (mexp : mat -> mat) (M : mat) (dt t0 : R) (n : nat) (u x0 : nat -> R) (tr : trajectory)
  : Prop :=
  tr_M tr = M /\ tr_dt tr = dt /\ tr_start tr = t0 /\ S (tr_order tr) = mrows M /\
  vlen (tr_u tr) = n /\ (forall k, (k < n)%nat -> vat (tr_u tr) k = u k) /\
  length (tr_keys tr) = S n /\
  forall k, (k <= n)%nat -> exists X, nth_error (tr_keys tr) k = Some X /\ vlen X = tr_order tr /\
    forall i, (i < tr_order tr)%nat ->
      vat X i = simulate (tr_order tr) (discrete_A mexp M dt) (discrete_B mexp M dt) u x0 k i.

(** A program that owns a problem and an integrator of its variable number [ref]. *)
Record system : Type := System { sys_pb : problem; sys_ig : integrator }.

(** What the program may do. *)
Inductive operation : Type :=
| OSolve (qr : mat -> qr_result) (qp : qp_problem -> qp_result)   (* Problem::solve, the exception being caught *)
| OConstrain (c : pconstraint)                                    (* Problem::add_constraint *)
| OClear                                                          (* Problem::clear_constraints *)
| OVariable (size : nat)                                          (* Problem::add_variable *)
| OQuery                                                          (* Integrator::get_trajectory or value *)
| OStart (t : R).                                                 (* write of the field t_start *)

(** One operation: the state left behind, and the trajectory returned by a query. The exception of a query leaves the
    state unchanged. Undefined behaviour ends the program. *)
Definition perform (ref : nat) (s : system) (o : operation) : option (system * option trajectory) :=
  match o with
  | OSolve qr qp =>
      match solve (sys_pb s) qr qp with
      | (_, UB) => None
      | (pb, _) => Some (System pb (sys_ig s), None)
      end
  | OConstrain c => Some (System (add_constraint (sys_pb s) c) (sys_ig s), None)
  | OClear => Some (System (clear_constraints (sys_pb s)) (sys_ig s), None)
  | OVariable n => Some (System (fst (add_variable (sys_pb s) n)) (sys_ig s), None)
  | OQuery =>
      match nth_error (p_vars (sys_pb s)) ref with
      | None => None
      | Some v =>
          match get_trajectory (sys_ig s) v (p_x (sys_pb s)) with
          | Ok (ig, tr) => Some (System (sys_pb s) ig, Some tr)
          | Throw _ => Some (s, None)
          | UB => None
          end
      end
  | OStart t => Some (System (sys_pb s) (set_t_start (sys_ig s) t), None)
  end.

Fixpoint run (ref : nat) (s : system) (h : list operation) : option system :=
  match h with
  | [] => Some s
  | o :: r => match perform ref s o with Some (s', _) => run ref s' r | None => None end
  end.

(** The history contains no failed solve. *)
Fixpoint solves_succeed (ref : nat) (s : system) (h : list operation) : Prop :=
  match h with
  | [] => True
  | o :: r =>
      match o with OSolve qr qp => snd (solve (sys_pb s) qr qp) = Ok tt | _ => True end /\
      match perform ref s o with Some (s', _) => solves_succeed ref s' r | None => True end
  end.

(** Number of successful solves of the history. *)
Fixpoint successes (ref : nat) (s : system) (h : list operation) : nat :=
  match h with
  | [] => 0
  | o :: r =>
      (match o with OSolve qr qp => match snd (solve (sys_pb s) qr qp) with Ok _ => 1 | _ => 0 end | _ => 0 end +
       match perform ref s o with Some (s', _) => successes ref s' r | None => 0 end)%nat
  end.

(** The history contains no write of t_start. *)
Definition keeps_start (h : list operation) : Prop :=
  forall o, In o h -> match o with OStart _ => False | _ => True end.

(** [x] assigns to every unknown of [pb] the value its variable reports. *)
Definition agrees (pb : problem) (x : nat -> R) : Prop :=
  forall v i, In v (p_vars pb) -> (i < vlen (v_value v))%nat -> x (k_start v + i)%nat = vat (v_value v) i.
