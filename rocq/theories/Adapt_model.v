(** Model of WalkPatternGenerator::update_supports and get_optimal_zmp (src/placo/humanoid/walk_pattern_generator.cpp).

    Simplifications, besides those of Wpg_model.v.
    - A division by zero ([1 - exp (omega d)] when omega is not a positive number, or a support that is already over) gives
      values that are not finite: the call is [UB], nothing is said about it. *)
From Coq Require Import Reals List ZArith Bool.
From Verif Require Import Base Geom3 Tools_model Expression_model Problem_model Polynom_model Integrator_model Lipm_model
  Swing_model Footsteps_model Wpg_model.
Import ListNotations.
Open Scope R_scope.

(** Members of vectors and matrices of Eigen. *)
Definition vec_of_point (p : point) : vec := vec_of [fst p; snd p].
Definition rotation_2d (m : mat3) : mat :=
  Mat 2 2 (fun i j => match i, j with O, O => m00 m | O, _ => m01 m | _, O => m10 m | _, _ => m11 m end).

(** problem.solve(), which stops the caller when it throws. *)
Definition solve_or_throw (L : libs) (pb : problem) : outcome problem :=
  match solve pb (l_qr L) (l_qp L) with (pb, Ok _) => Ok pb | (_, Throw e) => Throw e | (_, UB) => UB end.

(** variable->value. *)
Definition value_of (pb : problem) (ref : nat) : outcome vec := deref pb ref (fun v => Ok (v_value v)).

Section WithLibraries.
Variable L : libs.

(** walk_pattern_generator.cpp:786-810. The support keeps its polygon, but update_supports calls it on a copy. *)
Definition get_optimal_zmp (g : wpg) (dcm_start dcm_end : point) (duration : R) (s : support) : outcome point :=
  let (pb, world_zmp) := add_variable new_problem 2 in
  z <- var_expr world_zmp (-1) (-1) ;;
  let e := exp (g_omega g * duration) in
  target <- guard (if Req_EM_T (1 - e) 0 then false else true)
                  (Ok ((fst dcm_end - fst dcm_start * e) / (1 - e), (snd dcm_end - snd dcm_start * e) / (1 - e))) ;;
  c <- e_eq_v z (vec_of_point target) ;;
  let pb := add_constraint pb (configure_prio c Soft 1) in
  polygon <- snd (support_support_polygon (l_hull L) s) ;;
  c <- in_polygon_xy z polygon (w_zmp_margin (g_params g)) ;;
  let pb := add_constraint pb (configure_prio c Hard 1) in
  pb <- solve_or_throw L pb ;;
  v <- value_of pb 0 ;;
  Ok (vat v 0, vat v 1).

(** The opposite of the points of a polygon (walk_pattern_generator.cpp:736-741 and 747-752). *)
Definition opposite_points (l : list point) : list point := map (fun p => (- fst p, - snd p)) l.

(** walk_pattern_generator.cpp:731-758: the polygon of the next ZMP. The polygon of the DCM offset is
    parameters.dcm_offset_polygon on both sides: the mirrored copy of lines 736-741 is not used. *)
Definition op_space_of (p : wparams) (sd : side) : list point :=
  match sd with Right => w_op_space p | Left => opposite_points (w_op_space p) end.

(** walk_pattern_generator.cpp:776-777: supports[1].footsteps[0].frame.translation(). *)
Definition move_footstep (f : footstep) (x y : R) : footstep :=
  Footstep (f_width f) (f_length f) (f_side f) (Frame (fr_R (f_frame f)) (V3 x y (vz (fr_t (f_frame f))))) (f_polygon f) (f_computed f).
Definition move_first (s : support) (x y : R) : outcome support :=
  match u_footsteps s with
  | [] => UB
  | f :: l =>
      Ok (Support (move_footstep f x y :: l) (u_t_start s) (u_elapsed_ratio s) (u_time_ratio s) (u_target_world_dcm s)
                  (u_start s) (u_end s) (u_polygon s) (u_computed s))
  end.
Definition set_time_ratio (s : support) (r : R) : support :=
  Support (u_footsteps s) (u_t_start s) (u_elapsed_ratio s) r (u_target_world_dcm s) (u_start s) (u_end s) (u_polygon s) (u_computed s).

(** walk_pattern_generator.cpp:780: std::max(1e-3, log(tau) / omega - elapsed); the logarithm of a non positive number is
    NaN or -inf, and the maximum is then 1e-3. *)
Definition remaining_time (tau omega elapsed : R) : R :=
  if Rle_dec tau 0 then 1 / 1000 else Rmax (1 / 1000) (ln tau / omega - elapsed).

(** walk_pattern_generator.cpp:686-771: the problem, its solution being read by update_supports. The variables are
    support_next_zmp (0), tau (1) and support_dcm_offset (2). *)
Definition update_problem (g : wpg) (t : R) (current next : support) (dcm : point) : outcome problem :=
  let p := g_params g in
  let omega := g_omega g in
  let elapsed := t - u_t_start current in
  f <- support_frame current ;;
  let R_world := rotation_2d (fr_R f) in
  let p_world := vec_of [vx (fr_t f); vy (fr_t f)] in
  let (pb, next_zmp) := add_variable new_problem 2 in
  let (pb, tau) := add_variable pb 1 in
  let (pb, dcm_offset) := add_variable pb 2 in
  T <- support_default_duration (w_base p) current ;;
  e_zmp <- var_expr next_zmp (-1) (-1) ;;
  e_tau <- var_expr tau (-1) (-1) ;;
  e_off <- var_expr dcm_offset (-1) (-1) ;;
  c <- e_eq_d e_tau (exp (omega * T)) ;;
  let pb := add_constraint pb (configure_prio c Soft 5) in
  r <- m_mul_e R_world e_zmp ;;
  world_zmp <- v_add_e p_world r ;;
  nf <- support_frame next ;;
  let target_zmp := (vx (fr_t nf), vy (fr_t nf)) in
  c <- e_eq_v world_zmp (vec_of_point target_zmp) ;;
  let pb := add_constraint pb (configure_prio c Soft 100) in
  world_offset <- m_mul_e R_world e_off ;;
  c <- e_eq_v world_offset (vec_of_point (v2_sub (u_target_world_dcm current) target_zmp)) ;;
  let pb := add_constraint pb (configure_prio c Soft 1000) in
  c <- e_ge_d e_tau (exp (omega * Rmax 0.15 elapsed)) ;;
  let pb := add_constraint pb (configure_prio c Hard 1) in
  c <- e_le_d e_tau (exp (omega * Rmax 3 elapsed)) ;;
  let pb := add_constraint pb (configure_prio c Hard 1) in
  sd <- support_side current ;;
  c <- in_polygon_xy e_zmp (op_space_of p sd) 0 ;;
  let pb := add_constraint pb (configure_prio c Hard 1) in
  c <- in_polygon_xy e_off (w_dcm_offset p) 0 ;;
  let pb := add_constraint pb (configure_prio c Soft 1000000) in
  zmp <- get_optimal_zmp g dcm (u_target_world_dcm current) (Rmax (1 / 100000) (T - elapsed)) current ;;
  lhs <- e_add world_zmp world_offset ;;
  let k := exp (- omega * elapsed) in
  m <- m_mul_e (Mat 2 1 (fun i _ => match i with O => (fst dcm - fst zmp) * k | _ => (snd dcm - snd zmp) * k end)) e_tau ;;
  rhs <- e_add_v m (vec_of_point zmp) ;;
  c <- e_eq lhs rhs ;;
  Ok (add_constraint pb (configure_prio c Hard 1)).

(** walk_pattern_generator.cpp:679-784. The support that get_optimal_zmp may change is a copy. *)
Definition update_supports (g : wpg) (t : R) (supports : list support) (dcm : point) : outcome (list support) :=
  current <- at_index supports 0 ;;
  if is_both current then Throw ERuntime
  else
    next <- at_index supports 1 ;;
    pb <- update_problem g t current next dcm ;;
    pb <- solve_or_throw L pb ;;
    zmp <- value_of pb 0 ;;
    tau <- value_of pb 1 ;;
    f <- support_frame current ;;
    let x := vx (fr_t f) + (m00 (fr_R f) * vat zmp 0 + m01 (fr_R f) * vat zmp 1) in
    let y := vy (fr_t f) + (m10 (fr_R f) * vat zmp 0 + m11 (fr_R f) * vat zmp 1) in
    next <- move_first next x y ;;
    let remaining := remaining_time (vat tau 0) (g_omega g) (t - u_t_start current) in
    d <- support_default_duration (w_base (g_params g)) current ;;
    let total := d * (1 - u_elapsed_ratio current) in
    guard (if Req_EM_T total 0 then false else true)
      (Ok (set_time_ratio current (remaining / total) :: next :: tl (tl supports))).

End WithLibraries.
