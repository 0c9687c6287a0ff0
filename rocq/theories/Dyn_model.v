(** Model of src/placo/dynamics/dynamics_solver.cpp, contacts.cpp and avoid_self_collisions_constraint.cpp. Simplifications: tasks, contacts and
    constraints are list elements; a contact designates a task of the solver by its place in the list (a contact whose task is not in the solver, the
    A of which is then the one of some earlier update, is not modelled); frames are designated by their index, as in the C++. The constraints are
    gathered in the order in which the code adds them, and given to the problem at the end; when the call throws before, the problem is left as it was
    in the model (in the code, some constraints were added, which the next call clears). *)
From Coq Require Import Reals List ZArith Bool String.
From Verif Require Import Base Geom3 Tools_model Geometry_model Expression_model Problem_model Polynom_model Robot_model KinTasks_model Kin_model DynTasks_model.
Import ListNotations.
Open Scope R_scope.

(** The tasks (dynamics_solver.cpp:75-172). A custom task is an arbitrary function of the robot. *)
Inductive dtask_kind : Type :=
| DPosition (f : nat) (target dtarget ddtarget : vec3) (m : axises_mask)
| DCom (target dtarget ddtarget : vec3) (m : axises_mask)
| DOrientation (f : nat) (target : mat3) (omega domega : vec3) (m : axises_mask)
| DRelativePosition (a b : nat) (target dtarget ddtarget : vec3) (m : axises_mask)
| DRelativeOrientation (a b : nat) (target : mat3) (omega domega : vec3) (m : axises_mask)
| DJoints (joints : joint_targets)
| DGear (g : gears)
| DTorque (torques : list (string * target_tau))
| DCustom (f : robot -> outcome dyn_equation) (about_tau : bool).
Record dtask : Type := DTask { dt_kind : dtask_kind; dt_priority : task_priority; dt_weight : R; dt_kp : R; dt_kd : R }.
(** dynamics/task.h: tau_task. *)
Definition about_tau (k : dtask_kind) : bool := match k with DTorque _ => true | DCustom _ t => t | _ => false end.

(** contacts.h. [task]: the place of the task in the list of the solver; [fp], [fo]: the frames of the position and orientation tasks. *)
Inductive contact_kind : Type :=
| CPoint (task : nat) (unilateral : bool) (R_world_surface : mat3)
| CPlanar (fp fo : nat) (unilateral : bool) (length width : R)
| CLine (fp task : nat) (unilateral : bool) (length : R) (R_world_surface : mat3)
| CExternal (f : nat) (k : ref) (w : vec)
| CPuppet
| CTask (task : nat).
(** Contact: active, mu, weight_forces, weight_tangentials, weight_moments, and wrench. *)
Record contact : Type := Contact {
  co_kind : contact_kind; co_active : bool; co_mu : R; co_wforces : R; co_wtangentials : R; co_wmoments : R; co_wrench : vec }.
Definition set_wrench (c : contact) (w : vec) : contact :=
  Contact (co_kind c) (co_active c) (co_mu c) (co_wforces c) (co_wtangentials c) (co_wmoments c) w.

(** constraint.h: avoid self collisions, or a custom constraint, given the robot and the expression of tau. *)
Inductive dconstraint_kind : Type :=
| DCollisions (distances : robot -> list distance_info) (margin trigger : R)
| DCustomConstraint (f : robot -> expr -> outcome (list pconstraint)).
Record dconstraint : Type := DConstraint { dc_kind : dconstraint_kind; dc_priority : task_priority; dc_weight : R }.

(** dynamics_solver.h: DynamicsSolver. The maps qdd_safe and overriden_torque_limits are lists of entries. *)
Record dsolver : Type := DSolver {
  ds_N : nat; ds_dt : R; ds_problem : problem; ds_masked_fbase : bool; ds_joint_limits : bool; ds_velocity_limits : bool; ds_vs_torque : bool;
  ds_torque_limits : bool; ds_damping : R; ds_gravity_only : bool; ds_torque_cost : R; ds_extra : vec; ds_qdd_safe : list (nat * R);
  ds_overridden : list (nat * R); ds_tasks : list dtask; ds_contacts : list contact; ds_cons : list dconstraint }.
Definition dset_problem (s : dsolver) (pb : problem) : dsolver :=
  DSolver (ds_N s) (ds_dt s) pb (ds_masked_fbase s) (ds_joint_limits s) (ds_velocity_limits s) (ds_vs_torque s) (ds_torque_limits s) (ds_damping s)
    (ds_gravity_only s) (ds_torque_cost s) (ds_extra s) (ds_qdd_safe s) (ds_overridden s) (ds_tasks s) (ds_contacts s) (ds_cons s).
Definition dset_contacts (s : dsolver) (cs : list contact) : dsolver :=
  DSolver (ds_N s) (ds_dt s) (ds_problem s) (ds_masked_fbase s) (ds_joint_limits s) (ds_velocity_limits s) (ds_vs_torque s) (ds_torque_limits s)
    (ds_damping s) (ds_gravity_only s) (ds_torque_cost s) (ds_extra s) (ds_qdd_safe s) (ds_overridden s) (ds_tasks s) cs (ds_cons s).
Definition dset_safe (s : dsolver) (l : list (nat * R)) : dsolver :=
  DSolver (ds_N s) (ds_dt s) (ds_problem s) (ds_masked_fbase s) (ds_joint_limits s) (ds_velocity_limits s) (ds_vs_torque s) (ds_torque_limits s)
    (ds_damping s) (ds_gravity_only s) (ds_torque_cost s) (ds_extra s) l (ds_overridden s) (ds_tasks s) (ds_contacts s) (ds_cons s).
Definition dset_overridden (s : dsolver) (l : list (nat * R)) : dsolver :=
  DSolver (ds_N s) (ds_dt s) (ds_problem s) (ds_masked_fbase s) (ds_joint_limits s) (ds_velocity_limits s) (ds_vs_torque s) (ds_torque_limits s)
    (ds_damping s) (ds_gravity_only s) (ds_torque_cost s) (ds_extra s) (ds_qdd_safe s) l (ds_tasks s) (ds_contacts s) (ds_cons s).
Definition dset_tasks (s : dsolver) (l : list dtask) : dsolver :=
  DSolver (ds_N s) (ds_dt s) (ds_problem s) (ds_masked_fbase s) (ds_joint_limits s) (ds_velocity_limits s) (ds_vs_torque s) (ds_torque_limits s)
    (ds_damping s) (ds_gravity_only s) (ds_torque_cost s) (ds_extra s) (ds_qdd_safe s) (ds_overridden s) l (ds_contacts s) (ds_cons s).

(** dynamics_solver.cpp:599-613: set_kp, set_kd. *)
Definition set_kp (s : dsolver) (kp : R) : dsolver :=
  dset_tasks s (map (fun t => DTask (dt_kind t) (dt_priority t) (dt_weight t) kp (dt_kd t)) (ds_tasks s)).
Definition set_kd (s : dsolver) (kd : R) : dsolver :=
  dset_tasks s (map (fun t => DTask (dt_kind t) (dt_priority t) (dt_weight t) (dt_kp t) kd) (ds_tasks s)).

(** dynamics_solver.cpp:615-620, 622-627. *)
Definition set_qdd_safe (r : robot) (s : dsolver) (joint : string) (qdd : R) : outcome dsolver :=
  k <- get_joint_v_offset r joint ;; Ok (dset_safe s (map_put k qdd (ds_qdd_safe s))).
Definition set_dtorque_limit (r : robot) (s : dsolver) (joint : string) (limit : R) : outcome dsolver :=
  k <- get_joint_v_offset r joint ;; Ok (dset_overridden s (map_put k limit (ds_overridden s))).

(** dynamics_solver.cpp:174-185 and the defaults of dynamics_solver.h. *)
Fixpoint all_safe (r : robot) (s : dsolver) (names : list string) : outcome dsolver :=
  match names with [] => Ok s | n :: l => s' <- set_qdd_safe r s n 1 ;; all_safe r s' l end.
Definition new_dsolver (r : robot) : outcome dsolver :=
  let pb := new_problem in
  all_safe r (DSolver (m_nv (r_model r)) 0 (Problem (p_n pb) (p_vars pb) (p_cons pb) (p_reg pb) false true (p_x pb) (p_slacks pb))
    false false false false false 0 false (1 / 1000) (Vec 0 (fun _ => 0)) [] [] [] [] []) (joint_names r false).

(** qdd_safe[k]: std::map::operator[] gives 0 for a key that is not there. *)
Definition safe_at (s : dsolver) (k : nat) : R := match map_find k (ds_qdd_safe s) with Some x => x | None => 0 end.

(** dynamics_solver.cpp:42-58: the reference of an external wrench. *)
Definition wrench_reference (reference : string) : outcome ref :=
  if String.eqb reference "world" then Ok LocalWorldAligned else if String.eqb reference "local" then Ok Local else Throw ERuntime.

Section WithRobot.
Variable pn : pin.
Variable log3 : mat3 -> vec3.
Variable jlog : mat3 -> mat3.

(** Task::update() of each task. *)
Definition dtask_update (N : nat) (r : robot) (t : dtask) : outcome dyn_equation :=
  let kp := dt_kp t in let kd := dt_kd t in
  match dt_kind t with
  | DPosition f x dx ddx m => position_dynamics pn N r kp kd f x dx ddx m
  | DCom x dx ddx m => com_dynamics pn r kp kd x dx ddx m
  | DOrientation f R w dw m => orientation_dynamics pn log3 N r kp kd f R w dw m
  | DRelativePosition a b x dx ddx m => relative_position_dynamics pn N r kp kd a b x dx ddx m
  | DRelativeOrientation a b R w dw m => relative_orientation_dynamics pn log3 jlog N r kp kd a b R w dw m
  | DJoints l => joints_dynamics N r kp kd l
  | DGear g => gear_dynamics N r kp kd g
  | DTorque l => torque_dynamics N r l
  | DCustom f _ => f r
  end.
(** dynamics_solver.cpp:404-407. *)
Fixpoint update_tasks (N : nat) (r : robot) (l : list dtask) : outcome (list dyn_equation) :=
  match l with
  | [] => Ok []
  | t :: l' => e <- dtask_update N r t ;; rest <- update_tasks N r l' ;; Ok (e :: rest)
  end.

(** ** Contacts *)

Definition stack_rows (A B : mat) : mat := Mat (mrows A + mrows B) (mcols A) (fun i j => if Nat.ltb i (mrows A) then mat_at A i j else mat_at B (i - mrows A) j).
Definition task_matrix (es : list dyn_equation) (k : nat) : outcome mat := match nth_error es k with Some e => Ok (de_A e) | None => UB end.

(** Contact::update() of each contact: the matrix J (contacts.cpp:46-55, 102-109, 174-188, 236-239, 250-254, 261-264). *)
Definition contact_update (N : nat) (r : robot) (es : list dyn_equation) (c : contact_kind) : outcome mat :=
  match c with
  | CPoint k _ _ => J <- task_matrix es k ;; if negb (Nat.eqb (mrows J) 3) then Throw ELogic else Ok J
  | CPlanar fp fo _ _ _ =>
      P <- block (frame_jacobian pn r fp Local) 0 0 3 N ;; O <- block (frame_jacobian pn r fo Local) 3 0 3 N ;; Ok (stack_rows P O)
  | CLine fp k _ _ _ =>
      P <- block (frame_jacobian pn r fp LocalWorldAligned) 0 0 3 N ;; O <- task_matrix es k ;;
      if negb (Nat.eqb (mrows O) 2) then Throw ELogic else guard (Nat.eqb (mcols O) N) (Ok (stack_rows P O))
  | CExternal f k _ => Ok (frame_jacobian pn r f k)
  | CPuppet => Ok (Mat N N (fun i j => if Nat.eqb i j then 1 else 0))
  | CTask k => task_matrix es k
  end.

(** e.slice(i, n) as i and n are int. *)
Definition part (e : expr) (i n : nat) : outcome expr := slice e (Z.of_nat i) (Z.of_nat n).
(** a <= k * z and -k * z <= a, for two rows of an expression. *)
Definition between (e : expr) (i z : nat) (k : R) : outcome (list pconstraint) :=
  a <- part e i 1 ;; n <- part e z 1 ;; c1 <- e_le a (scale_e k n) ;;
  a' <- part e i 1 ;; n' <- part e z 1 ;; c2 <- e_le (scale_e (- k) n') a' ;; Ok [c1; c2].
(** if (weight > 0) problem.add_constraint(e.slice(i, n) == 0).configure(Soft, weight). *)
Definition penalise (w : R) (e : outcome expr) (i n : nat) : outcome (list pconstraint) :=
  if Rlt_dec 0 w then e <- e ;; a <- part e i n ;; c <- e_eq_d a 0 ;; Ok [configure_prio c Soft w] else Ok [].

(** Contact::add_constraints (contacts.cpp:28-35): f == 0. *)
Definition plain_constraints (c : contact) (f : expr) : outcome (list pconstraint) :=
  if Rlt_dec 0 (co_wforces c) then x <- e_eq_d f 0 ;; Ok [configure_prio x Soft (co_wforces c)] else Ok [].
(** contacts.cpp:57-85. *)
Definition point_constraints (c : contact) (unilateral : bool) (Rs : mat3) (f : expr) : outcome (list pconstraint) :=
  let mu := co_mu c in
  cs <- (if unilateral then
           s <- m_mul_e (mat_of3 (m3_t Rs)) f ;;
           z <- part s 2 1 ;; c0 <- e_ge_d z 0 ;; c1 <- between s 0 2 mu ;; c2 <- between s 1 2 mu ;; Ok (c0 :: c1 ++ c2)
         else Ok []) ;;
  p1 <- penalise (co_wforces c) (Ok f) 0 3 ;;
  p2 <- penalise (co_wtangentials c) (m_mul_e (mat_of3 (m3_t Rs)) f) 0 2 ;;
  Ok (cs ++ p1 ++ p2).
(** contacts.cpp:111-153. *)
Definition planar_constraints (c : contact) (unilateral : bool) (length width : R) (f : expr) : outcome (list pconstraint) :=
  let mu := co_mu c in
  cs <- (if unilateral then
           if Req_EM_T length 0 then Throw ELogic else if Req_EM_T width 0 then Throw ELogic
           else
             z <- part f 2 1 ;; c0 <- e_ge_d z 0 ;;
             c1 <- between f 4 2 (length / 2) ;; c2 <- between f 3 2 (width / 2) ;;
             c3 <- between f 0 2 mu ;; c4 <- between f 1 2 mu ;; Ok (c0 :: c1 ++ c2 ++ c3 ++ c4)
         else Ok []) ;;
  p1 <- penalise (co_wforces c) (Ok f) 0 3 ;;
  p2 <- penalise (co_wtangentials c) (Ok f) 1 2 ;;
  p3 <- penalise (co_wmoments c) (Ok f) 3 3 ;;
  Ok (cs ++ p1 ++ p2 ++ p3).
(** contacts.cpp:190-229: R_world_surface has three columns, f five rows. *)
Definition line_constraints (c : contact) (unilateral : bool) (length : R) (Rs : mat3) (f : expr) : outcome (list pconstraint) :=
  let mu := co_mu c in
  cs <- (if unilateral then
           if Req_EM_T length 0 then Throw ELogic
           else
             s <- m_mul_e (mat_of3 (m3_t Rs)) f ;;
             z <- part s 2 1 ;; c0 <- e_ge_d z 0 ;; c1 <- between s 4 2 (length / 2) ;; c2 <- between s 0 2 mu ;; c3 <- between s 1 2 mu ;;
             Ok (c0 :: c1 ++ c2 ++ c3)
         else Ok []) ;;
  p1 <- penalise (co_wforces c) (m_mul_e (mat_of3 (m3_t Rs)) f) 0 3 ;;
  p2 <- penalise (co_wtangentials c) (m_mul_e (mat_of3 (m3_t Rs)) f) 1 2 ;;
  p3 <- penalise (co_wmoments c) (Ok f) 3 2 ;;
  Ok (cs ++ p1 ++ p2 ++ p3).
(** contacts.cpp:241-244. *)
Definition external_constraints (w : vec) (f : expr) : outcome (list pconstraint) := c <- e_eq_v f w ;; Ok [c].

Definition contact_constraints (c : contact) (f : expr) : outcome (list pconstraint) :=
  match co_kind c with
  | CPoint _ u Rs => point_constraints c u Rs f
  | CPlanar _ _ u l w => planar_constraints c u l w f
  | CLine _ _ u l Rs => line_constraints c u l Rs f
  | CExternal _ _ w => external_constraints w f
  | CPuppet | CTask _ => plain_constraints c f
  end.

(** dynamics_solver.cpp:432-444: the variables of the active contacts. For each contact, active or not: its J and its f when active. *)
Fixpoint add_contacts (N : nat) (r : robot) (es : list dyn_equation) (pb : problem) (l : list contact)
    : outcome (problem * list (option (mat * expr)) * list pconstraint) :=
  match l with
  | [] => Ok (pb, [], [])
  | c :: l' =>
      if co_active c then
        J <- contact_update N r es (co_kind c) ;;
        let (pb', v) := add_variable pb (mrows J) in
        f <- var_expr v (-1) (-1) ;; cs <- contact_constraints c f ;;
        x <- add_contacts N r es pb' l' ;;
        let '(pb'', fs, rest) := x in Ok (pb'', Some (J, f) :: fs, cs ++ rest)
      else x <- add_contacts N r es pb l' ;; let '(pb'', fs, rest) := x in Ok (pb'', None :: fs, rest)
  end.

(** ** The torques *)

(** dynamics_solver.cpp:412-429: M qdd + damping qd + b. *)
Definition motion_torques (s : dsolver) (r : robot) (qdd : expr) : outcome expr :=
  M <- mass_matrix pn r ;;
  e <- m_mul_e M qdd ;; e <- e_add_v e (vec_scale (ds_damping s) (st_qd (r_state r))) ;;
  e <- e_add_v e (if ds_gravity_only s then generalized_gravity pn r else non_linear_effects pn r) ;;
  if Nat.ltb 0 (vlen (ds_extra s)) then e_add_v e (ds_extra s) else Ok e.

(** dynamics_solver.cpp:446-449: conservativeResize(N, n_variables), the new columns set to zero. Growing the number of rows would leave entries unset. *)
Definition resize_torques (N n : nat) (tau : expr) : outcome expr :=
  guard (Nat.leb N (rows tau) && Nat.leb (cols tau) n)
    (Ok (Expr (Mat N n (fun i j => if Nat.ltb j (cols tau) then mat_at (eA tau) i j else 0)) (eb tau))).
(** dynamics_solver.cpp:453-462: -J^T written in the columns from k, J^T f.b subtracted from b. *)
Fixpoint contact_torques (N : nat) (tau : expr) (k : nat) (l : list (option (mat * expr))) : outcome expr :=
  match l with
  | [] => Ok tau
  | None :: l' => contact_torques N tau k l'
  | Some (J, f) :: l' =>
      guard (Nat.eqb (mcols J) N && Nat.leb (k + mrows J) (cols tau) && Nat.eqb (mrows J) (vlen (eb f)) && Nat.eqb (vlen (eb tau)) N)
        (contact_torques N
           (Expr (Mat (rows tau) (cols tau) (fun i j => if Nat.leb k j && Nat.ltb j (k + mrows J) then - mat_at J (j - k) i else mat_at (eA tau) i j))
                 (Vec (vlen (eb tau)) (fun i => vat (eb tau) i - Rsum (mrows J) (fun a => mat_at J a i * vat (eb f) a))))
           (k + mrows J) l')
  end.

(** ** Limits *)

(** dynamics_solver.cpp:224-228: the limits of the model, those of overriden_torque_limits being replaced. *)
Fixpoint override (v : vec) (l : list (nat * R)) : outcome vec :=
  match l with [] => Ok v | (k, x) :: l' => v' <- vec_set v k x ;; override v' l' end.
Definition torque_limit_constraints (s : dsolver) (r : robot) (tau : expr) : outcome (list pconstraint) :=
  if ds_torque_limits s then
    v <- override (m_effort (r_model r)) (ds_overridden s) ;;
    guard (Nat.leb 6 (ds_N s))
      (e <- slice tau 6 (-1) ;; l <- bottom_rows v (ds_N s - 6) ;;
       c1 <- e_le_v e l ;; c2 <- e_ge_v e (vec_scale (-1) l) ;; Ok [c1; c2])
  else Ok [].
(** dynamics_solver.cpp:252-321, the rows of one joint: the row of A, over the variables, and the entry of b. *)
Definition at_dof (d : nat) (x : R) : nat -> R := fun j => if Nat.eqb j d then x else 0.
Definition joint_limit_rows (s : dsolver) (r : robot) (tau : expr) (k : nat) : outcome (list ((nat -> R) * R)) :=
  let m := r_model r in let dt := ds_dt s in let d := (k + 6)%nat in
  q <- vec_get (st_q (r_state r)) (k + 7) ;; qd <- vec_get (st_qd (r_state r)) d ;;
  velocity <- (if ds_vs_torque s then
      vmax <- vec_get (m_velocity m) d ;; emax <- vec_get (m_effort m) d ;;
      guard (Nat.ltb d (rows tau) && Nat.ltb d (vlen (eb tau)))
        (let ratio := vmax / emax in let a := mat_at (eA tau) d in let b := vat (eb tau) d in
         Ok [((fun j => ratio * a j + at_dof d dt j), ratio * b + (qd - vmax)); ((fun j => - ratio * a j - at_dof d dt j), - ratio * b - (qd + vmax))])
    else if ds_velocity_limits s then
      vmax <- vec_get (m_velocity m) d ;; Ok [(at_dof d dt, - vmax + qd); (at_dof d (- dt), - vmax - qd)]
    else Ok []) ;;
  position <- (if ds_joint_limits s then
      upper <- vec_get (m_upper m) (k + 7) ;; lower <- vec_get (m_lower m) (k + 7) ;;
      let safe := safe_at s d in
      Ok [(if Rlt_dec upper q then (at_dof d 1, safe) else (at_dof d dt, qd - sqrt (2 * (upper - q) * safe)));
          (if Rlt_dec q lower then (at_dof d (-1), safe) else (at_dof d (- dt), - qd - sqrt (2 * Rabs (lower - q) * safe)))]
    else Ok []) ;;
  Ok (velocity ++ position).
Fixpoint joints_limit_rows (s : dsolver) (r : robot) (tau : expr) (l : list nat) : outcome (list ((nat -> R) * R)) :=
  match l with
  | [] => Ok []
  | k :: l' => x <- joint_limit_rows s r tau k ;; rest <- joints_limit_rows s r tau l' ;; Ok (x ++ rest)
  end.
(** dynamics_solver.cpp:212-324. Nothing is added when there are no rows. *)
Definition dlimit_constraints (s : dsolver) (r : robot) (n : nat) (tau : expr) : outcome (list pconstraint) :=
  let some_limit := ds_joint_limits s || ds_velocity_limits s || ds_vs_torque s in
  if some_limit && (if Req_EM_T (ds_dt s) 0 then true else false) then Throw ERuntime
  else
    cs <- torque_limit_constraints s r tau ;;
    if some_limit then
      guard (Nat.leb 6 (ds_N s))
        (if Nat.eqb (ds_N s) 6 then Ok cs
         else
           rs <- joints_limit_rows s r tau (seq 0 (ds_N s - 6)) ;;
           let d := ((fun _ => 0), 0) : (nat -> R) * R in
           c <- e_le_d (Expr (Mat (List.length rs) n (fun i => fst (nth i rs d))) (Vec (List.length rs) (fun i => snd (nth i rs d)))) 0 ;;
           Ok (cs ++ [c]))
    else Ok cs.

(** ** Tasks and constraints *)

(** dynamics_solver.cpp:468-500. *)
Definition dtask_constraint (tau : expr) (t : dtask) (e : dyn_equation) : outcome (list pconstraint) :=
  if Nat.eqb (mrows (de_A e)) 0 then Ok []
  else
    p <- match dt_priority t with PHard => Ok Hard | PSoft => Ok Soft | PScaled => Throw ERuntime end ;;
    x <- (if about_tau (dt_kind t) then
            y <- m_mul_e (de_A e) tau ;; b <- vec_sub (eb y) (de_b e) ;; Ok (Expr (eA y) b)
          else Ok (Expr (de_A e) (vec_scale (-1) (de_b e)))) ;;
    c <- e_eq_d x 0 ;; Ok [configure_prio c p (dt_weight t)].
Fixpoint dtask_constraints (tau : expr) (l : list (dtask * dyn_equation)) : outcome (list pconstraint) :=
  match l with
  | [] => Ok []
  | (t, e) :: l' => cs <- dtask_constraint tau t e ;; rest <- dtask_constraints tau l' ;; Ok (cs ++ rest)
  end.

(** avoid_self_collisions_constraint.cpp:36-91: one row. *)
Definition dcollision_row (s : dsolver) (r : robot) (margin : R) (d : distance_info) : outcome ((nat -> R) * R) :=
  let N := ds_N s in
  let n := v3_normalize (v3_sub (di_pB d) (di_pA d)) in
  let n := if Rlt_dec (di_min d) 0 then v3_scale (-1) n else n in
  let XA := action_matrix (Frame m3_id (v3_scale (-1) (di_pA d))) in
  let XB := action_matrix (Frame m3_id (v3_scale (-1) (di_pB d))) in
  JA <- mat_mul XA (pn_joint_jac pn (fst (r_seen r)) (di_A d) World) ;; dJA <- mat_mul XA (joint_jacobian_time_variation pn r (di_A d) World) ;;
  JB <- mat_mul XB (pn_joint_jac pn (fst (r_seen r)) (di_B d) World) ;; dJB <- mat_mul XB (joint_jacobian_time_variation pn r (di_B d) World) ;;
  D <- mat_sub JB JA ;; D <- block D 0 0 3 N ;; J <- row_times n D ;;
  dD <- mat_sub dJB dJA ;; dD <- block dD 0 0 3 N ;; dJ <- row_times n dD ;; bias <- mat_vec dJ (st_qd (r_state r)) ;;
  let safe := / 2 * Rsum (N - 6) (fun k => Rabs (mat_at J 0 (6 + k)) * safe_at s (6 + k)) in
  if Rle_dec margin (di_min d) then
    xd <- mat_vec J (st_qd (r_state r)) ;;
    Ok ((fun j => ds_dt s * mat_at J 0 j), ds_dt s * vat bias 0 + vat xd 0 + sqrt (2 * (di_min d - margin) * safe))
  else Ok ((fun j => mat_at J 0 j), - safe).
Fixpoint dcollision_rows (s : dsolver) (r : robot) (margin : R) (l : list distance_info) : outcome (list ((nat -> R) * R)) :=
  match l with
  | [] => Ok []
  | d :: l' => x <- dcollision_row s r margin d ;; rest <- dcollision_rows s r margin l' ;; Ok (x :: rest)
  end.
(** avoid_self_collisions_constraint.cpp:6-95. *)
Definition dcollisions (s : dsolver) (r : robot) (c : dconstraint) (distances : list distance_info) (margin trigger : R) : outcome (list pconstraint) :=
  if Req_EM_T (ds_dt s) 0 then Throw ERuntime
  else
    let near := filter (fun d => if Rlt_dec (di_min d) trigger then true else false) distances in
    match near with
    | [] => Ok []
    | _ =>
        rs <- dcollision_rows s r margin near ;;
        let d := ((fun _ => 0), 0) : (nat -> R) * R in
        x <- e_ge_d (Expr (Mat (List.length rs) (ds_N s) (fun i => fst (nth i rs d))) (Vec (List.length rs) (fun i => snd (nth i rs d)))) 0 ;;
        Ok [configure_prio x (match dc_priority c with PSoft => Soft | _ => Hard end) (dc_weight c)]
    end.
Definition dconstraint_add (s : dsolver) (r : robot) (tau : expr) (c : dconstraint) : outcome (list pconstraint) :=
  match dc_kind c with
  | DCollisions distances margin trigger => dcollisions s r c (distances r) margin trigger
  | DCustomConstraint f => f r tau
  end.
Fixpoint dconstraints_add (s : dsolver) (r : robot) (tau : expr) (l : list dconstraint) : outcome (list pconstraint) :=
  match l with
  | [] => Ok []
  | c :: l' => cs <- dconstraint_add s r tau c ;; rest <- dconstraints_add s r tau l' ;; Ok (cs ++ rest)
  end.

(** ** Solving *)

(** What is built before the QP is solved: the problem with its variables and constraints, the expressions of qdd and tau, and J and f for each contact. *)
Record dbuilt : Type := DBuilt { db_problem : problem; db_qdd : expr; db_tau : expr; db_contacts : list (option (mat * expr)) }.

(** dynamics_solver.cpp:387-519. *)
Definition dbuild (s : dsolver) (r : robot) : outcome dbuilt :=
  let N := ds_N s in
  let (pb, v) := add_variable (clear_variables (clear_constraints (ds_problem s))) (m_nv (r_model r)) in
  qdd <- var_expr v (-1) (-1) ;;
  cs0 <- (if ds_masked_fbase s then e <- var_expr v 0 6 ;; c <- e_eq_d e 0 ;; Ok [c] else Ok []) ;;
  es <- update_tasks N r (ds_tasks s) ;;
  tau <- motion_torques s r qdd ;;
  x <- add_contacts N r es pb (ds_contacts s) ;;
  let '(pb, fs, cs1) := x in
  tau <- resize_torques N (p_n pb) tau ;;
  tau <- contact_torques N tau N fs ;;
  cs2 <- dlimit_constraints s r (p_n pb) tau ;;
  cs3 <- dtask_constraints tau (combine (ds_tasks s) es) ;;
  cs4 <- dconstraints_add s r tau (ds_cons s) ;;
  cs5 <- (if ds_masked_fbase s then Ok [] else e <- slice tau 0 6 ;; c <- e_eq_d e 0 ;; Ok [c]) ;;
  e <- slice tau 6 (-1) ;; c6 <- e_eq_d e 0 ;;
  Ok (DBuilt (add_constraints pb (cs0 ++ cs1 ++ cs2 ++ cs3 ++ cs4 ++ cs5 ++ [configure_prio c6 Soft (ds_torque_cost s)])) qdd tau fs).

(** DynamicsSolver::Result. The vectors are empty when success is false. *)
Record dresult : Type := DResult { dr_success : bool; dr_tau : vec; dr_qdd : vec; dr_tau_contacts : vec }.
Definition failed : dresult := DResult false (Vec 0 (fun _ => 0)) (Vec 0 (fun _ => 0)) (Vec 0 (fun _ => 0)).

(** dynamics_solver.cpp:531-541: the wrenches of the active contacts, and the sum of J^T wrench. *)
Fixpoint read_wrenches (N : nat) (x : vec) (l : list contact) (fs : list (option (mat * expr))) (sum : vec) : outcome (list contact * vec) :=
  match l, fs with
  | c :: l', Some (J, f) :: fs' =>
      w <- value f x ;; t <- mat_vec (mat_t J) w ;; sum <- vec_add sum t ;;
      rest <- read_wrenches N x l' fs' sum ;; Ok (set_wrench c w :: fst rest, snd rest)
  | c :: l', _ :: fs' => rest <- read_wrenches N x l' fs' sum ;; Ok (c :: fst rest, snd rest)
  | _, _ => Ok (l, sum)
  end.

(** dynamics_solver.cpp:543-557: state.qdd, with the acceleration of the base set to zero when it is masked, then integrate. *)
Definition apply_result (s : dsolver) (r : robot) (qdd : vec) : outcome robot :=
  guard (negb (ds_masked_fbase s) || Nat.leb 6 (vlen qdd))
    (integrate pn (set_qdd r (if ds_masked_fbase s then Vec (vlen qdd) (fun i => if Nat.ltb i 6 then 0 else vat qdd i) else qdd)) (ds_dt s)).

(** dynamics_solver.cpp:387-558: the solver and the robot after the call, and the result. Only QPError is caught. *)
Definition dsolve (qr : mat -> qr_result) (qp : qp_problem -> qp_result) (s : dsolver) (r : robot) (integrate_ : bool) : dsolver * robot * outcome dresult :=
  match dbuild s r with
  | Throw e => (s, r, Throw e)
  | UB => (s, r, UB)
  | Ok b =>
      let (pb, o) := solve (db_problem b) qr qp in
      let s := dset_problem s pb in
      match o with
      | Throw EQP => (s, r, Ok failed)
      | Throw e => (s, r, Throw e)
      | UB => (s, r, UB)
      | Ok _ =>
          match (tau <- value (db_tau b) (p_x pb) ;; qdd <- value (db_qdd b) (p_x pb) ;;
                 w <- read_wrenches (ds_N s) (p_x pb) (ds_contacts s) (db_contacts b) (zeros (ds_N s)) ;;
                 Ok (w, DResult true tau qdd (snd w))) with
          | Ok (w, res) =>
              let s := dset_contacts s (fst w) in
              if integrate_ then
                if Req_EM_T (ds_dt s) 0 then (s, r, Throw ERuntime)
                else match apply_result s r (dr_qdd res) with
                     | Ok r' => (s, r', Ok res)
                     | Throw e => (s, r, Throw e)
                     | UB => (s, r, UB)
                     end
              else (s, r, Ok res)
          | Throw e => (s, r, Throw e)
          | UB => (s, r, UB)
          end
      end
  end.

End WithRobot.

(** contacts.cpp:155-158 (Contact6D::zmp) and 231-234 (LineContact::zmp). The division by a null normal force (not finite) is not modelled. *)
Definition planar_zmp (c : contact) : outcome vec3 :=
  my <- vec_get (co_wrench c) 4 ;; mx <- vec_get (co_wrench c) 3 ;; fz <- vec_get (co_wrench c) 2 ;; Ok (V3 (- my / fz) (mx / fz) 0).
Definition line_zmp (c : contact) : outcome vec3 :=
  my <- vec_get (co_wrench c) 4 ;; fz <- vec_get (co_wrench c) 2 ;; Ok (V3 (- my / fz) 0 0).
