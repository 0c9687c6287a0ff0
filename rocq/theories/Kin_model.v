(** Model of src/placo/kinematics/kinematics_solver.cpp. Simplifications: tasks and constraints are list elements (the C++ keeps sets of pointers, of
    which the order is arbitrary: so is the order of the lists); a variable of the problem is designated by its index. Custom tasks and constraints
    are arbitrary functions of the robot; a custom constraint can add constraints to the problem, but not variables. *)
From Coq Require Import Reals List ZArith Bool String.
From Verif Require Import Base Geom3 Tools_model Geometry_model Expression_model Problem_model Polynom_model Robot_model KinTasks_model.
Import ListNotations.
Open Scope R_scope.

(** The tasks (kinematics_solver.cpp:23-201). The manipulability task is a custom task, see Manip_model. *)
Inductive task_kind : Type :=
| KPosition (f : nat) (target : vec3) (m : axises_mask)
| KOrientation (f : nat) (target : mat3) (m : axises_mask)
| KCom (target : vec3) (m : axises_mask)
| KRelativePosition (a b : nat) (target : vec3) (m : axises_mask)
| KRelativeOrientation (a b : nat) (target : mat3) (m : axises_mask)
| KDistance (a b : nat) (distance : R)
| KAxisAlign (f : nat) (axis target : vec3)
| KJoints (joints : list (string * R))
| KGear (g : gears)
| KRegularization (t : regularization)
| KKinetic
| KCentroidal (L : vec3) (m : axises_mask)
| KWheel (T_surface : frame) (joint : string) (radius : R) (omni : bool)
| KCustom (f : robot -> outcome equation).
Record ktask : Type := KTask { kt_kind : task_kind; kt_priority : task_priority; kt_weight : R }.

(** The constraints (kinematics_solver.cpp:203-252). A custom constraint gives the constraints it adds, with their priorities. *)
Inductive constraint_kind : Type :=
| KComPolygon (polygon : list point) (margin omega : R) (dcm : bool)
| KHalfSpaces (A : mat) (b : vec)
| KCone (a b : nat) (max : R) (n : nat) (range : R)
| KYaw (a b : nat) (max : R)
| KMaxDistance (a b : nat) (max : R)
| KCollisions (distances : robot -> list distance_info) (margin trigger : R)
| KCustomConstraint (f : robot -> outcome (list pconstraint)).
Record kconstraint : Type := KConstraint { kc_kind : constraint_kind; kc_priority : task_priority; kc_weight : R }.

(** kinematics_solver.h: KinematicsSolver. [ks_qd] and [ks_scale_var] are nullptr ([None]) until the variable is created. *)
Record ksolver : Type := KSolver {
  ks_N : nat; ks_dt : R; ks_problem : problem; ks_qd : option nat; ks_scale_var : option nat; ks_scale : R; ks_has_scaling : bool;
  ks_masked : list nat; ks_masked_fbase : bool; ks_joint_limits : bool; ks_velocity_limits : bool;
  ks_tasks : list ktask; ks_cons : list kconstraint }.

Definition kset_problem (s : ksolver) (pb : problem) : ksolver :=
  KSolver (ks_N s) (ks_dt s) pb (ks_qd s) (ks_scale_var s) (ks_scale s) (ks_has_scaling s) (ks_masked s) (ks_masked_fbase s)
    (ks_joint_limits s) (ks_velocity_limits s) (ks_tasks s) (ks_cons s).
Definition kset_vars (s : ksolver) (qd sv : option nat) : ksolver :=
  KSolver (ks_N s) (ks_dt s) (ks_problem s) qd sv (ks_scale s) (ks_has_scaling s) (ks_masked s) (ks_masked_fbase s)
    (ks_joint_limits s) (ks_velocity_limits s) (ks_tasks s) (ks_cons s).
Definition kset_scale (s : ksolver) (scale : R) (has : bool) : ksolver :=
  KSolver (ks_N s) (ks_dt s) (ks_problem s) (ks_qd s) (ks_scale_var s) scale has (ks_masked s) (ks_masked_fbase s)
    (ks_joint_limits s) (ks_velocity_limits s) (ks_tasks s) (ks_cons s).
Definition kset_masked (s : ksolver) (l : list nat) : ksolver :=
  KSolver (ks_N s) (ks_dt s) (ks_problem s) (ks_qd s) (ks_scale_var s) (ks_scale s) (ks_has_scaling s) l (ks_masked_fbase s)
    (ks_joint_limits s) (ks_velocity_limits s) (ks_tasks s) (ks_cons s).

(** kinematics_solver.cpp:12-16 and the defaults of kinematics_solver.h. *)
Definition new_ksolver (r : robot) : ksolver :=
  let pb := new_problem in
  KSolver (m_nv (r_model r)) 0 (Problem (p_n pb) (p_vars pb) (p_cons pb) (p_reg pb) false (p_rewrite pb) (p_x pb) (p_slacks pb))
    None None 0 false [] false true false [] [].

(** std::set<int>: insertion in order, removal. *)
Fixpoint set_insert (k : nat) (l : list nat) : list nat :=
  match l with
  | [] => [k]
  | k' :: l' => if Nat.eqb k k' then l else if Nat.ltb k k' then k :: l else k' :: set_insert k l'
  end.
Definition set_erase (k : nat) (l : list nat) : list nat := filter (fun k' => negb (Nat.eqb k k')) l.

(** kinematics_solver.cpp:254-260 and 262-268. *)
Definition mask_dof (r : robot) (s : ksolver) (dof : string) : outcome ksolver :=
  n <- get_joint_v_size r dof ;; k <- get_joint_v_offset r dof ;;
  Ok (kset_masked s (fold_left (fun l i => set_insert (k + i) l) (seq 0 n) (ks_masked s))).
Definition unmask_dof (r : robot) (s : ksolver) (dof : string) : outcome ksolver :=
  n <- get_joint_v_size r dof ;; k <- get_joint_v_offset r dof ;;
  Ok (kset_masked s (fold_left (fun l i => set_erase (k + i) l) (seq 0 n) (ks_masked s))).

Section WithRobot.
Variable pn : pin.
Variable log3 : mat3 -> vec3.
Variable msqrt : mat -> mat.

(** Task::update() of each task. A matrix that is not finite has no model: it is given to the problem, of which the behaviour is then arbitrary. *)
Definition task_update (N : nat) (dt : R) (r : robot) (k : task_kind) : outcome equation :=
  match k with
  | KPosition f target m => position_update pn N r f target m
  | KOrientation f target m => orientation_update pn log3 N r f target m
  | KCom target m => com_update pn r target m
  | KRelativePosition a b target m => relative_position_update pn r a b target m
  | KRelativeOrientation a b target m => relative_orientation_update pn log3 N r a b target m
  | KDistance a b d => distance_update pn N r a b d
  | KAxisAlign f axis target =>
      x <- axis_align_update pn N r f axis target ;; match x with Some e => Ok e | None => UB end
  | KJoints l => joints_update N r l
  | KGear g => gear_update N r g
  | KRegularization t => x <- regularization_update N r t ;; Ok (snd x)
  | KKinetic => kinetic_update pn msqrt N dt r
  | KCentroidal L m => centroidal_update pn N dt r L m
  | KWheel T joint radius omni => wheel_update pn r T joint radius omni
  | KCustom f => f r
  end.

(** The variable a pointer designates. *)
Definition var_at (pb : problem) (k : option nat) : outcome variable :=
  match k with
  | Some k => match nth_error (p_vars pb) k with Some v => Ok v | None => UB end
  | None => UB
  end.
Definition add_constraints (pb : problem) (cs : list pconstraint) : problem := fold_left add_constraint cs pb.

(** kinematics_solver.cpp:316-324. *)
Definition ensure_qd (s : ksolver) : ksolver :=
  match ks_qd s with
  | Some _ => s
  | None => kset_vars (kset_problem s (fst (add_variable (ks_problem s) (ks_N s)))) (Some (List.length (p_vars (ks_problem s)))) (ks_scale_var s)
  end.

(** kinematics_solver.cpp:346-358: the scale variable and its constraints. *)
Definition ensure_scale (s : ksolver) : ksolver :=
  match ks_scale_var s with
  | Some _ => s
  | None => kset_vars (kset_problem s (fst (add_variable (ks_problem s) 1))) (ks_qd s) (Some (List.length (p_vars (ks_problem s))))
  end.
Definition start_scaling (s : ksolver) : ksolver * outcome unit :=
  if ks_has_scaling s then (s, Ok tt)
  else
    let s := ensure_scale (kset_scale s (ks_scale s) true) in
    match (v <- var_at (ks_problem s) (ks_scale_var s) ;; e <- var_expr v (-1) (-1) ;;
           c0 <- e_ge_d e 0 ;; c1 <- e_le_d e 1 ;; c2 <- e_eq_d e 1 ;; Ok [c0; c1; configure_prio c2 Soft 1]) with
    | Ok cs => (kset_problem s (add_constraints (ks_problem s) cs), Ok tt)
    | Throw e => (s, Throw e)
    | UB => (s, UB)
    end.

(** kinematics_solver.cpp:339-375: the expression of a task and its constraint. *)
Definition task_expression (s : ksolver) (p : task_priority) (e : equation) : outcome expr :=
  let (A, b) := e : mat * vec in
  match p with
  | PScaled =>
      v <- var_at (ks_problem s) (ks_scale_var s) ;; x <- var_expr v (-1) (-1) ;;
      x <- m_mul_e (Mat (vlen b) 1 (fun i _ => vat b i)) x ;;
      guard (Nat.leb (mrows A) (rows x) && Nat.leb (mcols A) (cols x))
        (Ok (Expr (Mat (rows x) (cols x)
                     (fun i j => - (mat_at (eA x) i j - (if Nat.ltb i (mrows A) && Nat.ltb j (mcols A) then mat_at A i j else 0))))
                  (zeros (vlen b))))
  | _ => Ok (Expr A (Vec (vlen b) (fun i => - vat b i)))
  end.
Definition task_constraint (s : ksolver) (t : ktask) (e : equation) : outcome pconstraint :=
  x <- task_expression s (kt_priority t) e ;; c <- e_eq_d x 0 ;;
  Ok (configure_prio c (match kt_priority t with PSoft => Soft | _ => Hard end) (kt_weight t)).

(** kinematics_solver.cpp:327-376. *)
Definition add_task_to_problem (r : robot) (s : ksolver) (t : ktask) : ksolver * outcome unit :=
  match task_update (ks_N s) (ks_dt s) r (kt_kind t) with
  | Throw e => (s, Throw e)
  | UB => (s, UB)
  | Ok e =>
      if Nat.eqb (mrows (fst e)) 0 then (s, Ok tt)
      else
        let (s, o) := match kt_priority t with PScaled => start_scaling s | _ => (s, Ok tt) end in
        match o with
        | Ok _ =>
            match task_constraint s t e with
            | Ok c => (kset_problem s (add_constraint (ks_problem s) c), Ok tt)
            | Throw e => (s, Throw e)
            | UB => (s, UB)
            end
        | o => (s, o)
        end
  end.
Fixpoint add_tasks_to_problem (r : robot) (s : ksolver) (l : list ktask) : ksolver * outcome unit :=
  match l with
  | [] => (s, Ok tt)
  | t :: l' =>
      let (s, o) := add_task_to_problem r s t in
      match o with Ok _ => add_tasks_to_problem r s l' | o => (s, o) end
  end.

(** kinematics_solver.cpp:379-387. *)
Fixpoint mask_constraints (v : variable) (l : list nat) : outcome (list pconstraint) :=
  match l with
  | [] => Ok []
  | j :: l' => e <- var_expr v (Z.of_nat j) 1 ;; c <- e_eq_d e 0 ;; rest <- mask_constraints v l' ;; Ok (c :: rest)
  end.
Definition fbase_constraint (s : ksolver) (v : variable) : outcome (list pconstraint) :=
  if ks_masked_fbase s then e <- var_expr v 0 6 ;; c <- e_eq_d e 0 ;; Ok [c] else Ok [].

(** kinematics_solver.cpp:290-311. N - 6 is negative when N < 6. *)
Definition limit_constraints (r : robot) (s : ksolver) (v : variable) : outcome (list pconstraint) :=
  let n := (ks_N s - 6)%nat in let m := r_model r in
  if ks_velocity_limits s && (if Req_EM_T (ks_dt s) 0 then true else false) then Throw ERuntime
  else
    cs <- (if ks_joint_limits s then
             guard (Nat.leb 6 (ks_N s))
               (q <- bottom_rows (st_q (r_state r)) n ;; hi <- bottom_rows (m_upper m) n ;; lo <- bottom_rows (m_lower m) n ;;
                e <- var_expr v 6 (-1) ;; e <- v_add_e q e ;; c1 <- e_le_v e hi ;; c2 <- v_le_e lo e ;; Ok [c1; c2])
           else Ok []) ;;
    cs' <- (if ks_velocity_limits s then
              guard (Nat.leb 6 (ks_N s))
                (l <- bottom_rows (m_velocity m) n ;; e <- var_expr v 6 (-1) ;;
                 c1 <- e_le_v e (vec_scale (ks_dt s) l) ;; c2 <- v_le_e (vec_scale (- ks_dt s) l) e ;; Ok [c1; c2])
            else Ok []) ;;
    Ok (cs ++ cs').

(** Constraint::add_constraint of each constraint: the constraints it adds. *)
Definition constraint_add (N : nat) (dt : R) (r : robot) (k : kconstraint) : outcome (list pconstraint) :=
  let set p o := c <- o ;; Ok [configure_prio c p (kc_weight k)] in
  let p := to_priority (kc_priority k) in
  match kc_kind k with
  | KComPolygon polygon margin omega dcm => set p (com_polygon_constraint pn dt r polygon margin omega dcm)
  | KHalfSpaces A b => set p (half_spaces_constraint N r A b)
  | KCone a b max n range => set p (cone_constraint pn N r a b max n range)
  | KYaw a b max => set p (yaw_constraint pn N r a b max)
  | KMaxDistance a b max => set p (distance_constraint pn N r a b max)
  | KCollisions distances margin trigger =>
      c <- collisions_constraint pn N r (distances r) margin trigger ;;
      match c with
      | Some c => Ok [configure_prio c (match kc_priority k with PSoft => Soft | _ => Hard end) (kc_weight k)]
      | None => Ok []
      end
  | KCustomConstraint f => f r
  end.
Fixpoint constraints_add (N : nat) (dt : R) (r : robot) (l : list kconstraint) : outcome (list pconstraint) :=
  match l with
  | [] => Ok []
  | k :: l' => cs <- constraint_add N dt r k ;; rest <- constraints_add N dt r l' ;; Ok (cs ++ rest)
  end.

(** kinematics_solver.cpp:378-394: what is added after the tasks. When one of them throws, those already added are forgotten by the model; so will they
    be by the next solve (clear_constraints). *)
Definition after_tasks (r : robot) (s : ksolver) : outcome (list pconstraint) :=
  v <- var_at (ks_problem s) (ks_qd s) ;;
  cs1 <- mask_constraints v (ks_masked s) ;; cs2 <- fbase_constraint s v ;;
  cs3 <- limit_constraints r s v ;; cs4 <- constraints_add (ks_N s) (ks_dt s) r (ks_cons s) ;;
  Ok (cs1 ++ cs2 ++ cs3 ++ cs4).

(** kinematics_solver.cpp:406-418. *)
Definition apply_delta (dt : R) (r : robot) (delta : vec) : outcome robot :=
  let q_save := st_q (r_state r) in
  let q := pn_integrate pn q_save delta in
  if Rlt_dec 0 dt then
    let qd := vec_scale (/ dt) (pn_difference pn q_save q) in
    d <- vec_sub qd (st_qd (r_state r)) ;; Ok (set_state r (State q qd (vec_scale (/ dt) d)))
  else Ok (set_q r q).

(** kinematics_solver.cpp:313-421: the solver and the robot after the call, and the returned vector. *)
Definition ksolve (qr : mat -> qr_result) (qp : qp_problem -> qp_result) (s : ksolver) (r : robot) (apply : bool)
  : ksolver * robot * outcome vec :=
  let s := ensure_qd s in
  let s := kset_problem s (clear_constraints (ks_problem s)) in
  let s := kset_scale s (ks_scale s) false in
  let (s, o) := add_tasks_to_problem r s (ks_tasks s) in
  match o with
  | Throw e => (s, r, Throw e)
  | UB => (s, r, UB)
  | Ok _ =>
      match after_tasks r s with
      | Throw e => (s, r, Throw e)
      | UB => (s, r, UB)
      | Ok cs =>
          let s := kset_problem s (add_constraints (ks_problem s) cs) in
          let (pb, o) := solve (ks_problem s) qr qp in
          let s := kset_problem s pb in
          match o with
          | Throw e => (s, r, Throw e)
          | UB => (s, r, UB)
          | Ok _ =>
              match var_at pb (ks_qd s) with
              | Ok v =>
                  let delta := v_value v in
                  match (if ks_has_scaling s then w <- var_at pb (ks_scale_var s) ;; x <- vec_get (v_value w) 0 ;; Ok (kset_scale s x true)
                         else Ok s) with
                  | Ok s =>
                      if apply then match apply_delta (ks_dt s) r delta with
                                    | Ok r' => (s, r', Ok delta)
                                    | Throw e => (s, r, Throw e)
                                    | UB => (s, r, UB)
                                    end
                      else (s, r, Ok delta)
                  | Throw e => (s, r, Throw e)
                  | UB => (s, r, UB)
                  end
              | Throw e => (s, r, Throw e)
              | UB => (s, r, UB)
              end
          end
      end
  end.

End WithRobot.
