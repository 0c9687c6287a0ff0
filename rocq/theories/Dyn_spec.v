(** Specification of the dynamics solver: the equation of motion, and what the limits, contacts, tasks and constraints ask of the accelerations, of the
    torques and of the contact wrenches. *)
From Coq Require Import Reals List ZArith Bool String Sorted.
From Verif Require Import Base Geom3 Tools_model Geometry_model Expression_model Expression_spec Problem_model Problem_spec Polynom_model Robot_model Robot_spec
  KinTasks_model Kin_model Kin_spec DynTasks_model Dyn_model.
Import ListNotations.
Open Scope R_scope.

Definition dshaped (N : nat) (e : dyn_equation) : Prop := mcols (de_A e) = N /\ vlen (de_b e) = mrows (de_A e).

(** ** Unknowns: the accelerations, then the wrenches of the active contacts, in order *)

(** [Js]: the matrices of the contacts, [None] for those that are not active. The first unknown of the contact [i], the first contact being at [n]. *)
Fixpoint place (n : nat) (Js : list (option mat)) (i : nat) : nat :=
  match i, Js with
  | S i', Some J :: l => place (n + mrows J) l i'
  | S i', None :: l => place n l i'
  | _, _ => n
  end.
Definition unknowns (N : nat) (Js : list (option mat)) : nat := place N Js (List.length Js).
(** The wrench of the contact [i]. *)
Definition wrench_in (N : nat) (Js : list (option mat)) (x : nat -> R) (i : nat) : nat -> R := fun a => x (place N Js i + a)%nat.

(** Entry [k] of J^T w. *)
Definition effort_of (J : mat) (w : nat -> R) (k : nat) : R := Rsum (mrows J) (fun a => mat_at J a k * w a).
(** The sum of the J^T w of the active contacts. *)
Fixpoint contacts_effort (n : nat) (Js : list (option mat)) (x : nat -> R) (k : nat) : R :=
  match Js with
  | [] => 0
  | Some J :: l => effort_of J (fun a => x (n + a)%nat) k + contacts_effort (n + mrows J) l x k
  | None :: l => contacts_effort n l x k
  end.

(** ** Contacts *)

(** A force in the frame of the surface, the normal being z: it pushes, and stays in the friction pyramid. *)
Definition friction_ok (mu x y z : R) : Prop := 0 <= z /\ Rabs x <= mu * z /\ Rabs y <= mu * z.
(** The coordinates, in the frame of the surface, of a force in the world. *)
Definition in_surface (Rs : mat3) (w : nat -> R) : vec3 := m3_vec (m3_t Rs) (V3 (w 0%nat) (w 1%nat) (w 2%nat)).

(** What a wrench of the contact has to satisfy. *)
Definition contact_valid (c : contact) (w : nat -> R) : Prop :=
  match co_kind c with
  | CPoint _ true Rs => let f := in_surface Rs w in friction_ok (co_mu c) (vx f) (vy f) (vz f)
  | CPlanar _ _ true length width =>
      friction_ok (co_mu c) (w 0%nat) (w 1%nat) (w 2%nat) /\
      - (length / 2 * w 2%nat) <= w 4%nat <= length / 2 * w 2%nat /\ - (width / 2 * w 2%nat) <= w 3%nat <= width / 2 * w 2%nat
  | CExternal _ _ wext => forall a, (a < vlen wext)%nat -> w a = vat wext a
  | _ => True
  end.

(** Half a weight, when it is positive, times a sum of squares. *)
Definition weighted (k : R) (l : list R) : R := if Rlt_dec 0 k then k / 2 * fold_right (fun x s => Rsqr x + s) 0 l else 0.
(** What a wrench of a contact costs, [n] being the size of the wrench: as the code has it. *)
Definition contact_penalty (c : contact) (n : nat) (w : nat -> R) : R :=
  match co_kind c with
  | CPoint _ _ Rs =>
      weighted (co_wforces c) [w 0%nat; w 1%nat; w 2%nat] + weighted (co_wtangentials c) [vx (in_surface Rs w); vy (in_surface Rs w)]
  | CPlanar _ _ _ _ _ =>
      weighted (co_wforces c) [w 0%nat; w 1%nat; w 2%nat] + weighted (co_wtangentials c) [w 1%nat; w 2%nat] +
      weighted (co_wmoments c) [w 3%nat; w 4%nat; w 5%nat]
  | CLine _ _ _ _ _ => weighted (co_wmoments c) [w 3%nat; w 4%nat]
  | CExternal _ _ _ => 0
  | CPuppet | CTask _ => weighted (co_wforces c) (map w (seq 0 n))
  end.

(** The sum of the J^T wrench of the active contacts, with the wrenches they hold. *)
Fixpoint applied_effort (l : list contact) (Js : list (option mat)) (k : nat) : R :=
  match l, Js with
  | c :: l', Some J :: Js' => effort_of J (vat (co_wrench c)) k + applied_effort l' Js' k
  | _ :: l', None :: Js' => applied_effort l' Js' k
  | _, _ => 0
  end.
(** The contacts after a solve: the active ones hold a wrench with the rows of their matrix, nothing else changes. *)
Definition contacts_after (l : list contact) (Js : list (option mat)) (l' : list contact) : Prop :=
  List.length l' = List.length l /\ forall i c, nth_error l i = Some c ->
    exists c', nth_error l' i = Some c' /\
      match nth_error Js i with
      | Some (Some J) => c' = set_wrench c (co_wrench c') /\ vlen (co_wrench c') = mrows J
      | _ => c' = c
      end.

Section WithRobot.
Variable pn : pin.
Variable log3 : mat3 -> vec3.
Variable jlog : mat3 -> mat3.

(** The equation of a task of the solver. *)
Definition dasks (s : dsolver) (r : robot) (t : dtask) (e : dyn_equation) : Prop :=
  In t (ds_tasks s) /\ dtask_update pn log3 jlog (ds_N s) r t = Ok e.

(** The matrix A of the task number [k] of the solver. *)
Definition matrix_of_task (s : dsolver) (r : robot) (k : nat) (A : mat) : Prop :=
  exists t e, nth_error (ds_tasks s) k = Some t /\ dtask_update pn log3 jlog (ds_N s) r t = Ok e /\ A = de_A e.

(** The matrix J of a contact: it gives, from the velocities of the degrees of freedom, the velocities on which the wrench works. *)
Definition contact_matrix (s : dsolver) (r : robot) (c : contact) (J : mat) : Prop :=
  mcols J = ds_N s /\
  match co_kind c with
  | CPoint t _ _ => matrix_of_task s r t J /\ mrows J = 3%nat
  | CPlanar fp fo _ _ _ =>
      mrows J = 6%nat /\ forall i k, (i < 6)%nat -> (k < ds_N s)%nat -> mat_at J i k = mat_at (frame_jacobian pn r (if Nat.ltb i 3 then fp else fo) Local) i k
  | CLine fp t _ _ _ =>
      mrows J = 5%nat /\ exists A, matrix_of_task s r t A /\ mrows A = 2%nat /\ forall i k, (i < 5)%nat -> (k < ds_N s)%nat ->
        mat_at J i k = if Nat.ltb i 3 then mat_at (frame_jacobian pn r fp LocalWorldAligned) i k else mat_at A (i - 3) k
  | CExternal f k _ => J = frame_jacobian pn r f k
  | CPuppet => mrows J = ds_N s /\ forall i k, mat_at J i k = if Nat.eqb i k then 1 else 0
  | CTask t => matrix_of_task s r t J
  end.
(** The matrices of the active contacts. *)
Definition contact_matrices (s : dsolver) (r : robot) (Js : list (option mat)) : Prop :=
  Forall2 (fun c J => match J with Some J => co_active c = true /\ contact_matrix s r c J | None => co_active c = false end) (ds_contacts s) Js.

(** ** Equation of motion *)

(** The forces other than those of the motors and of the contacts. *)
Definition bias_of (s : dsolver) (r : robot) (k : nat) : R :=
  vat (if ds_gravity_only s then generalized_gravity pn r else non_linear_effects pn r) k +
  (if Nat.ltb 0 (vlen (ds_extra s)) then vat (ds_extra s) k else 0).
Definition damping_of (s : dsolver) (r : robot) (k : nat) : R := ds_damping s * vat (st_qd (r_state r)) k.

(** The torques of the equation of motion. *)
Definition torques_of (s : dsolver) (r : robot) (M : mat) (Js : list (option mat)) (x : nat -> R) (k : nat) : R :=
  Rsum (ds_N s) (fun j => mat_at M k j * x j) + damping_of s r k + bias_of s r k - contacts_effort (ds_N s) Js x k.

(** ** Limits *)

(** The limit of the torque of a degree of freedom: the one that was set in the solver, or the one of the model. *)
Definition torque_limit (s : dsolver) (r : robot) (d : nat) : R :=
  match map_find d (ds_overridden s) with Some x => x | None => vat (m_effort (r_model r)) d end.

(** The speed from which a deceleration [a] stops within [distance]. *)
Definition braking_speed (a distance : R) : R := sqrt (2 * distance * a).

Record within_limits (s : dsolver) (r : robot) (qdd tau : nat -> R) : Prop := WithinLimits {
  wl_torque : ds_torque_limits s = true -> forall d, (6 <= d < ds_N s)%nat -> Rabs (tau d) <= torque_limit s r d;
  wl_velocity : ds_velocity_limits s = true -> ds_vs_torque s = false -> forall d, (6 <= d < ds_N s)%nat ->
    Rabs (vat (st_qd (r_state r)) d + ds_dt s * qdd d) <= vat (m_velocity (r_model r)) d;
  wl_vs_torque : ds_vs_torque s = true -> forall d, (6 <= d < ds_N s)%nat ->
    let vmax := vat (m_velocity (r_model r)) d in
    Rabs (vat (st_qd (r_state r)) d + ds_dt s * qdd d + vmax / vat (m_effort (r_model r)) d * tau d) <= vmax;
  wl_upper : ds_joint_limits s = true -> forall d, (6 <= d < ds_N s)%nat ->
    let q := vat (st_q (r_state r)) (S d) in let upper := vat (m_upper (r_model r)) (S d) in
    if Rlt_dec upper q then qdd d <= - safe_at s d else vat (st_qd (r_state r)) d + ds_dt s * qdd d <= braking_speed (safe_at s d) (upper - q);
  wl_lower : ds_joint_limits s = true -> forall d, (6 <= d < ds_N s)%nat ->
    let q := vat (st_q (r_state r)) (S d) in let lower := vat (m_lower (r_model r)) (S d) in
    if Rlt_dec q lower then safe_at s d <= qdd d else - braking_speed (safe_at s d) (q - lower) <= vat (st_qd (r_state r)) d + ds_dt s * qdd d }.

(** ** The whole problem *)

(** Row [k] of A y - b, [y] being the torques for a task about them, the accelerations otherwise. *)
Definition dresidual (t : dtask) (e : dyn_equation) (qdd tau : nat -> R) (k : nat) : R :=
  Rsum (mcols (de_A e)) (fun j => mat_at (de_A e) k j * (if about_tau (dt_kind t) then tau j else qdd j)) - vat (de_b e) k.

(** What is asked of the unknowns [x]; [tau] is the expression of the torques. *)
Record dallowed (s : dsolver) (r : robot) (M : mat) (Js : list (option mat)) (tau : expr) (x : nat -> R) : Prop := DAllowed {
  da_masked : ds_masked_fbase s = true -> forall j, (j < 6)%nat -> x j = 0;
  da_base : ds_masked_fbase s = false -> forall j, (j < 6)%nat -> torques_of s r M Js x j = 0;
  da_contacts : forall i c J, nth_error (ds_contacts s) i = Some c -> nth_error Js i = Some (Some J) -> contact_valid c (wrench_in (ds_N s) Js x i);
  da_limits : within_limits s r x (torques_of s r M Js x);
  da_tasks : forall t e, dasks s r t e -> dt_priority t = PHard -> forall k, (k < mrows (de_A e))%nat -> dresidual t e x (torques_of s r M Js x) k = 0;
  da_constraints : forall c cs, In c (ds_cons s) -> dconstraint_add pn s r tau c = Ok cs -> hard_holds cs x }.

Definition dtask_penalty (s : dsolver) (r : robot) (qdd tau : nat -> R) (t : dtask) : R :=
  match dt_priority t, dtask_update pn log3 jlog (ds_N s) r t with
  | PSoft, Ok e => dt_weight t / 2 * Rsum (mrows (de_A e)) (fun k => Rsqr (dresidual t e qdd tau k))
  | _, _ => 0
  end.
Fixpoint contacts_penalty (n : nat) (l : list contact) (Js : list (option mat)) (x : nat -> R) : R :=
  match l, Js with
  | c :: l', Some J :: Js' => contact_penalty c (mrows J) (fun a => x (n + a)%nat) + contacts_penalty (n + mrows J) l' Js' x
  | _ :: l', None :: Js' => contacts_penalty n l' Js' x
  | _, _ => 0
  end.
(** The cost: the torques of the joints, the tasks, the contacts and the constraints. *)
Definition dpenalties (s : dsolver) (r : robot) (M : mat) (Js : list (option mat)) (tau : expr) (x : nat -> R) : R :=
  ds_torque_cost s / 2 * Rsum (ds_N s - 6) (fun k => Rsqr (torques_of s r M Js x (6 + k))) +
  total (dtask_penalty s r x (torques_of s r M Js x)) (ds_tasks s) + contacts_penalty (ds_N s) (ds_contacts s) Js x +
  total (fun c => match dconstraint_add pn s r tau c with Ok cs => soft_cost cs x | _ => 0 end) (ds_cons s).

(** ** Consistent sizes *)

(** The solver was made for the robot; what pinocchio, the tasks and the custom constraints give has the sizes of the robot; the soft inequalities have
    weights that are not negative. *)
Record dsound (s : dsolver) (r : robot) : Prop := DSound {
  dn_N : ds_N s = m_nv (r_model r);
  dn_robot : well_formed_robot r;
  dn_dynamics : dynamics_sized pn r;
  dn_tasks : forall t e, dasks s r t e -> dshaped (ds_N s) e;
  dn_external : forall c f k w, In c (ds_contacts s) -> co_active c = true -> co_kind c = CExternal f k w -> vlen w = mrows (frame_jacobian pn r f k);
  dn_constraints : forall c tau cs c', In c (ds_cons s) -> dconstraint_add pn s r tau c = Ok cs -> In c' cs ->
    vlen (eb (c_expr c')) = rows (c_expr c') /\ (cols (c_expr c') <= Nat.max (ds_N s) (cols tau))%nat /\
    (c_prio c' = Soft -> c_type c' = Inequality -> 0 <= c_weight c');
  dn_overridden : NoDup (map fst (ds_overridden s)) }.

(** The same, told from what the user gives: [N] degrees of freedom, Jacobians of pinocchio with [N] columns, external wrenches of six numbers, custom tasks
    and constraints with the sizes of the robot, soft constraints with weights that are not negative, limits of torques set one joint at a time. *)
Record dusual (s : dsolver) (r : robot) : Prop := DUsual {
  du_N : ds_N s = m_nv (r_model r);
  du_robot : well_formed_robot r;
  du_dynamics : dynamics_sized pn r;
  du_jacobians : (forall q f k, mrows (pn_jac pn q f k) = 6%nat /\ mcols (pn_jac pn q f k) = ds_N s) /\ (forall q, mcols (pn_comjac pn q) = ds_N s);
  du_external : forall c f k w, In c (ds_contacts s) -> co_kind c = CExternal f k w -> vlen w = 6%nat;
  du_custom : forall t f a e, In t (ds_tasks s) -> dt_kind t = DCustom f a -> f r = Ok e -> dshaped (ds_N s) e;
  du_constraints : forall c f tau cs c', In c (ds_cons s) -> dc_kind c = DCustomConstraint f -> f r tau = Ok cs -> In c' cs ->
    vlen (eb (c_expr c')) = rows (c_expr c') /\ (cols (c_expr c') <= Nat.max (ds_N s) (cols tau))%nat /\
    (c_prio c' = Soft -> c_type c' = Inequality -> 0 <= c_weight c');
  du_weights : forall c, In c (ds_cons s) -> 0 <= dc_weight c;
  du_overridden : StronglySorted lt (map fst (ds_overridden s)) }.

(** ** When a solve must succeed *)

(** The coefficients of an affine function of the unknowns. *)
Definition coefficients (g : (nat -> R) -> R) : nat -> R := fun j => g (unit_row j) - g (fun _ => 0).

(** The left-hand sides of the equalities: the external wrenches. *)
Fixpoint wrench_equalities (n : nat) (l : list contact) (Js : list (option mat)) : list ((nat -> R) -> R) :=
  match l, Js with
  | c :: l', Some J :: Js' =>
      match co_kind c with CExternal _ _ w => map (fun a x => x (n + a)%nat - vat w a) (seq 0 (mrows J)) | _ => [] end ++
      wrench_equalities (n + mrows J) l' Js'
  | _ :: l', None :: Js' => wrench_equalities n l' Js'
  | _, _ => []
  end.
(** The hard tasks. *)
Definition task_equalities (s : dsolver) (r : robot) (tau : (nat -> R) -> nat -> R) (t : dtask) : list ((nat -> R) -> R) :=
  match dt_priority t, dtask_update pn log3 jlog (ds_N s) r t with
  | PHard, Ok e => map (fun k x => dresidual t e x (tau x) k) (seq 0 (mrows (de_A e)))
  | _, _ => []
  end.
(** The coefficients of all of them, with those of the constraints. *)
Definition equality_coefficients (s : dsolver) (r : robot) (M : mat) (Js : list (option mat)) (tau : expr) : list (nat -> R) :=
  map coefficients (if ds_masked_fbase s then map (fun j x => x j) (seq 0 6) else []) ++
  map coefficients (wrench_equalities (ds_N s) (ds_contacts s) Js) ++
  map coefficients (flat_map (task_equalities s r (torques_of s r M Js)) (ds_tasks s)) ++
  flat_map (fun c => match dconstraint_add pn s r tau c with Ok cs => flat_map equality_rows cs | _ => [] end) (ds_cons s) ++
  map coefficients (if ds_masked_fbase s then [] else map (fun j x => torques_of s r M Js x j) (seq 0 6)).

(** What a contact needs. A line contact cannot be unilateral, and can have a weight for its moments only (C71). *)
Definition contact_ready (s : dsolver) (r : robot) (c : contact) : Prop :=
  match co_kind c with
  | CPoint t _ _ => exists J, matrix_of_task s r t J /\ mrows J = 3%nat
  | CPlanar fp fo u length width => mcols (frame_jacobian pn r fp Local) = ds_N s /\ mrows (frame_jacobian pn r fp Local) = 6%nat /\
      mcols (frame_jacobian pn r fo Local) = ds_N s /\ mrows (frame_jacobian pn r fo Local) = 6%nat /\ (u = true -> length <> 0 /\ width <> 0)
  | CLine fp t u _ _ => mcols (frame_jacobian pn r fp LocalWorldAligned) = ds_N s /\ mrows (frame_jacobian pn r fp LocalWorldAligned) = 6%nat /\
      (exists A, matrix_of_task s r t A /\ mrows A = 2%nat) /\ u = false /\ co_wforces c <= 0 /\ co_wtangentials c <= 0
  | CExternal f k w => mcols (frame_jacobian pn r f k) = ds_N s /\ (0 < mrows (frame_jacobian pn r f k))%nat
  | CPuppet => True
  | CTask t => exists J, matrix_of_task s r t J /\ (0 < mrows J)%nat
  end.

(** Everything can be evaluated, with the sizes of the robot. *)
Record dready (s : dsolver) (r : robot) : Prop := DReady {
  dr_sound : dsound s r;
  dr_joints : (6 < ds_N s)%nat /\ (S (ds_N s) <= m_nq (r_model r))%nat;
  dr_extra : vlen (ds_extra s) = 0%nat \/ vlen (ds_extra s) = ds_N s;
  dr_dt : ds_joint_limits s || ds_velocity_limits s || ds_vs_torque s = true -> ds_dt s <> 0;
  dr_overridden : forall d x, In (d, x) (ds_overridden s) -> (d < ds_N s)%nat;
  dr_cost : 0 <= ds_torque_cost s;
  dr_tasks : forall t, In t (ds_tasks s) -> (exists e, dtask_update pn log3 jlog (ds_N s) r t = Ok e) /\ dt_priority t <> PScaled /\
    (dt_priority t = PSoft -> 0 <= dt_weight t);
  dr_contacts : forall c, In c (ds_contacts s) -> co_active c = true -> contact_ready s r c;
  dr_constraints : forall c tau, In c (ds_cons s) -> rows tau = ds_N s -> exists cs, dconstraint_add pn s r tau c = Ok cs /\
    forall c', In c' cs -> (0 < rows (c_expr c'))%nat /\ (c_prio c' = Soft -> 0 <= c_weight c' /\ (c_type c' = Inequality -> 0 < c_weight c')) }.

End WithRobot.
