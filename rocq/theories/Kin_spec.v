(** Specification of the kinematics solver: what the tasks, masks, limits and constraints ask of a displacement. *)
From Coq Require Import Reals List ZArith Bool String Permutation.
From Verif Require Import Base Geom3 Tools_model Geometry_model Expression_model Problem_model Problem_spec Polynom_model Robot_model Robot_spec KinTasks_model Kin_model.
Import ListNotations.
Open Scope R_scope.

(** Row [k] of A x - s b. *)
Definition residual (e : equation) (x : nat -> R) (s : R) (k : nat) : R :=
  Rsum (mcols (fst e)) (fun j => mat_at (fst e) k j * x j) - s * vat (snd e) k.

(** A x = s b. *)
Definition follows (e : equation) (x : nat -> R) (s : R) : Prop := forall k, (k < mrows (fst e))%nat -> residual e x s k = 0.

(** An equation over the [N] degrees of freedom: A has [N] columns, b as many rows as A. *)
Definition shaped (N : nat) (e : equation) : Prop := mcols (fst e) = N /\ vlen (snd e) = mrows (fst e).

(** Every setting of the solver the user can change between two solves. *)
Definition with_settings (s : ksolver) (dt : R) (masked : list nat) (fbase jl vl : bool) (tasks : list ktask) (cons : list kconstraint)
    (reg : R) (sparse rewrite : bool) : ksolver :=
  let pb := ks_problem s in
  KSolver (ks_N s) dt (Problem (p_n pb) (p_vars pb) (p_cons pb) reg sparse rewrite (p_x pb) (p_slacks pb)) (ks_qd s) (ks_scale_var s)
    (ks_scale s) (ks_has_scaling s) masked fbase jl vl tasks cons.

(** Two solvers of the same robot with the same settings; the tasks and the constraints can be in any order. *)
Definition same_request (s s' : ksolver) : Prop :=
  ks_N s = ks_N s' /\ ks_dt s = ks_dt s' /\ (forall j, In j (ks_masked s) <-> In j (ks_masked s')) /\ ks_masked_fbase s = ks_masked_fbase s' /\
  ks_joint_limits s = ks_joint_limits s' /\ ks_velocity_limits s = ks_velocity_limits s' /\ Permutation (ks_tasks s) (ks_tasks s') /\
  Permutation (ks_cons s) (ks_cons s') /\ p_reg (ks_problem s) = p_reg (ks_problem s').

(** A displacement followed by a scale. *)
Definition extended (delta : vec) (scale : R) (j : nat) : R := if Nat.ltb j (vlen delta) then vat delta j else scale.

(** Contract of pinocchio and of the square root for the sizes of the matrices of a robot with [n] degrees of freedom. *)
Definition pin_sized (pn : pin) (msqrt : mat -> mat) (n : nat) : Prop :=
  (forall q f k, mrows (pn_jac pn q f k) = 6%nat /\ mcols (pn_jac pn q f k) = n) /\ (forall q, mrows (pn_comjac pn q) = 3%nat /\ mcols (pn_comjac pn q) = n) /\
  (forall q, mrows (pn_centroidal pn q) = 6%nat /\ mcols (pn_centroidal pn q) = n) /\ (forall q, mrows (pn_crba pn q) = n /\ mcols (pn_crba pn q) = n) /\
  (forall q j k, mrows (pn_joint_jac pn q j k) = 6%nat /\ mcols (pn_joint_jac pn q j k) = n) /\
  (forall M, mrows (msqrt M) = mrows M /\ mcols (msqrt M) = mcols M).

(** The usual robots: a floating base, then joints with one number in q and one in v, each of them with its number in q just after its number in v. *)
Definition simple_joints (m : rmodel) : Prop :=
  m_nq m = S (m_nv m) /\
  forall j, In j (m_joints m) -> jt_name j <> "root_joint"%string -> jt_nq j = 1%nat /\ jt_nv j = 1%nat /\ jt_idx_q j = S (jt_idx_v j) /\ (6 <= jt_idx_v j)%nat.

(** [k] is one of the degrees of freedom of the joint [name]. *)
Definition dof_of (r : robot) (name : string) (k : nat) : Prop :=
  exists j, In j (m_joints (r_model r)) /\ jt_name j = name /\ (jt_idx_v j <= k < jt_idx_v j + jt_nv j)%nat.

(** ** Gears *)

(** The ratio of a gear, when there is one. *)
Definition ratio_of (g : gears) (target source : nat) : option R :=
  match map_find target g with Some l => map_find source l | None => None end.
(** The calls to add_gear and set_gear. *)
Inductive gears_made (r : robot) : gears -> Prop :=
| gm_none : gears_made r []
| gm_add g a b x g' : gears_made r g -> add_gear r g a b x = Ok g' -> gears_made r g'
| gm_set g a b x g' : gears_made r g -> set_gear r g a b x = Ok g' -> gears_made r g'.
(** The position a gear asks for: the sum of the positions of its sources times their ratios. *)
Fixpoint driven (l : list (nat * R)) (position : nat -> R) : R :=
  match l with [] => 0 | (source, ratio) :: l' => ratio * position source + driven l' position end.

Section WithRobot.
Variable pn : pin.
Variable log3 : mat3 -> vec3.
Variable msqrt : mat -> mat.

(** The solvers of a robot with [N] degrees of freedom: any history of changes of settings and of solves, successful or not. *)
Inductive kreachable (N : nat) : ksolver -> Prop :=
| kr_new r : m_nv (r_model r) = N -> kreachable N (new_ksolver r)
| kr_settings s dt masked fbase jl vl tasks cons reg sparse rewrite :
    kreachable N s -> kreachable N (with_settings s dt masked fbase jl vl tasks cons reg sparse rewrite)
| kr_solve s qr qp r apply s' r' o :
    kreachable N s -> m_nv (r_model r) = N -> ksolve pn log3 msqrt qr qp s r apply = (s', r', o) -> o <> UB -> kreachable N s'.

(** The equation of a task of the solver, for the robot [r]. *)
Definition asks_for (s : ksolver) (r : robot) (t : ktask) (e : equation) : Prop :=
  In t (ks_tasks s) /\ task_update pn log3 msqrt (ks_N s) (ks_dt s) r (kt_kind t) = Ok e.

(** Some scaled task has an equation. *)
Definition scaling (s : ksolver) (r : robot) : Prop :=
  exists t e, asks_for s r t e /\ kt_priority t = PScaled /\ (0 < mrows (fst e))%nat.

(** The equations of the tasks have the sizes of the robot, the constraints are about the degrees of freedom only. *)
Definition sound (s : ksolver) (r : robot) : Prop :=
  (forall t e, asks_for s r t e -> shaped (ks_N s) e) /\
  (forall c cs c', In c (ks_cons s) -> constraint_add pn (ks_N s) (ks_dt s) r c = Ok cs -> In c' cs -> (cols (c_expr c') <= ks_N s)%nat).

(** What is asked of the displacement [x], of which the entries are those of the degrees of freedom followed by the scale of the scaled tasks. *)
Record allowed (s : ksolver) (r : robot) (x : nat -> R) : Prop := Allowed {
  al_hard : forall t e, asks_for s r t e -> kt_priority t = PHard -> follows e x 1;
  al_scaled : forall t e, asks_for s r t e -> kt_priority t = PScaled -> follows e x (x (ks_N s));
  al_scale : scaling s r -> 0 <= x (ks_N s) <= 1;
  al_masked : forall j, In j (ks_masked s) -> x j = 0;
  al_fbase : ks_masked_fbase s = true -> forall j, (j < 6)%nat -> x j = 0;
  (** the limits of the last N - 6 entries of q *)
  al_limits : ks_joint_limits s = true -> forall k, (k < ks_N s - 6)%nat ->
    let from_end v := vat v (vlen v - (ks_N s - 6) + k) in
    from_end (m_lower (r_model r)) <= from_end (st_q (r_state r)) + x (6 + k)%nat <= from_end (m_upper (r_model r));
  al_velocity : ks_velocity_limits s = true -> forall k, (k < ks_N s - 6)%nat ->
    let from_end v := vat v (vlen v - (ks_N s - 6) + k) in
    - (ks_dt s * from_end (m_velocity (r_model r))) <= x (6 + k)%nat <= ks_dt s * from_end (m_velocity (r_model r));
  al_constraints : forall c cs, In c (ks_cons s) -> constraint_add pn (ks_N s) (ks_dt s) r c = Ok cs -> hard_holds cs x }.

(** The penalty of a task: half its weight times the squared norm of A x - b, for soft tasks. *)
Definition task_penalty (s : ksolver) (r : robot) (t : ktask) (x : nat -> R) : R :=
  match kt_priority t, task_update pn log3 msqrt (ks_N s) (ks_dt s) r (kt_kind t) with
  | PSoft, Ok e => kt_weight t / 2 * Rsum (mrows (fst e)) (fun k => Rsqr (residual e x 1 k))
  | _, _ => 0
  end.
Definition constraint_penalty (s : ksolver) (r : robot) (c : kconstraint) (x : nat -> R) : R :=
  match constraint_add pn (ks_N s) (ks_dt s) r c with Ok cs => soft_cost cs x | _ => 0 end.
Fixpoint total {A} (f : A -> R) (l : list A) : R := match l with [] => 0 | a :: l' => f a + total f l' end.

(** The penalties of the soft tasks and constraints, and the one that brings the scale close to 1. *)
Definition penalties (s : ksolver) (r : robot) (scaled : bool) (x : nat -> R) : R :=
  total (fun t => task_penalty s r t x) (ks_tasks s) + total (fun c => constraint_penalty s r c x) (ks_cons s) +
  (if scaled then / 2 * Rsqr (x (ks_N s) - 1) else 0).

(** ** When a solve must succeed *)

(** The coefficients of the equalities asked by the hard and scaled tasks, by the masks and by the hard constraints, one function per equality: the
    entry [ks_N s] is the coefficient of the scale. *)
Definition unit_row (j : nat) : nat -> R := fun k => if Nat.eqb k j then 1 else 0.
Definition task_rows (s : ksolver) (r : robot) (t : ktask) : list (nat -> R) :=
  let N := ks_N s in
  match kt_priority t, task_update pn log3 msqrt N (ks_dt s) r (kt_kind t) with
  | PHard, Ok (A, b) => map (fun k j => if Nat.ltb j N then mat_at A k j else 0) (seq 0 (mrows A))
  | PScaled, Ok (A, b) => map (fun k j => if Nat.ltb j N then mat_at A k j else if Nat.eqb j N then - vat b k else 0) (seq 0 (mrows A))
  | _, _ => []
  end.
Definition equality_rows (c : pconstraint) : list (nat -> R) :=
  match c_prio c, c_type c with
  | Hard, Equality => map (fun k j => if Nat.ltb j (cols (c_expr c)) then mat_at (eA (c_expr c)) k j else 0) (seq 0 (rows (c_expr c)))
  | _, _ => []
  end.
Definition constraint_rows (s : ksolver) (r : robot) (c : kconstraint) : list (nat -> R) :=
  match constraint_add pn (ks_N s) (ks_dt s) r c with Ok cs => flat_map equality_rows cs | _ => [] end.
Definition hard_rows (s : ksolver) (r : robot) : list (nat -> R) :=
  flat_map (task_rows s r) (ks_tasks s) ++ map unit_row (ks_masked s) ++ (if ks_masked_fbase s then map unit_row (seq 0 6) else []) ++
  flat_map (constraint_rows s r) (ks_cons s).

(** No equality follows from the others: the only vanishing combination has coefficients 0. *)
Definition independent_rows (n : nat) (l : list (nat -> R)) : Prop :=
  forall mu, (forall j, (j < n)%nat -> Rsum (List.length l) (fun k => mu k * nth k l (fun _ => 0) j) = 0) ->
    forall k, (k < List.length l)%nat -> mu k = 0.

(** Every task and constraint can be evaluated, and what it gives has the sizes of the robot; the weights are not negative. *)
Record answerable (s : ksolver) (r : robot) : Prop := Answerable {
  an_tasks : forall t, In t (ks_tasks s) -> exists e, asks_for s r t e /\ shaped (ks_N s) e;
  an_weights : forall t, In t (ks_tasks s) -> kt_priority t = PSoft -> 0 <= kt_weight t;
  an_masked : forall j, In j (ks_masked s) -> (j < ks_N s)%nat;
  an_fbase : ks_masked_fbase s = true -> (6 <= ks_N s)%nat;
  an_limits : ks_joint_limits s = true -> (6 < ks_N s)%nat /\ (ks_N s - 6 <= vlen (st_q (r_state r)))%nat /\
    (ks_N s - 6 <= vlen (m_lower (r_model r)))%nat /\ (ks_N s - 6 <= vlen (m_upper (r_model r)))%nat;
  an_velocity : ks_velocity_limits s = true -> (6 < ks_N s)%nat /\ (ks_N s - 6 <= vlen (m_velocity (r_model r)))%nat /\ ks_dt s <> 0;
  an_constraints : forall c, In c (ks_cons s) -> exists cs, constraint_add pn (ks_N s) (ks_dt s) r c = Ok cs /\
    forall c', In c' cs -> (0 < rows (c_expr c'))%nat /\ vlen (eb (c_expr c')) = rows (c_expr c') /\ (cols (c_expr c') <= ks_N s)%nat /\
      (c_prio c' = Soft -> 0 < c_weight c') }.

End WithRobot.

(** The custom tasks and constraints of the solver have the sizes of the robot. *)
Definition custom_sound (s : ksolver) (r : robot) : Prop :=
  (forall t f e, In t (ks_tasks s) -> kt_kind t = KCustom f -> f r = Ok e -> shaped (ks_N s) e) /\
  (forall c f cs c', In c (ks_cons s) -> kc_kind c = KCustomConstraint f -> f r = Ok cs -> In c' cs -> (cols (c_expr c') <= ks_N s)%nat).
(** The cached weights of the regularization tasks were computed for this robot. *)
Definition caches_sized (s : ksolver) : Prop :=
  forall t g W, In t (ks_tasks s) -> kt_kind t = KRegularization g -> rg_W g = Some W -> mcols W = ks_N s.

(** [k] is the first degree of freedom of a joint of the robot other than its base. *)
Definition joint_at (r : robot) (k : nat) : Prop :=
  exists name, has_joint r name /\ name <> "root_joint"%string /\ get_joint_v_offset r name = Ok k.
