(** Model of placo::humanoid::WalkPatternGenerator (src/placo/humanoid/walk_pattern_generator.cpp, .h).

    Simplifications.
    - Affine3d::rotation() and Affine3d::inverse() are those of a rigid transformation, as in Geometry_model.v.
    - The pieces that the splines compute when they are first asked for are not kept (C33_queries).
    - When the default duration of a support is not finite (0 timesteps), the call is [UB]: nothing is said about it.
    - HumanoidRobot is not used by the modelled functions. *)
From Coq Require Import Reals List ZArith Bool.
From Verif Require Import Base Geom3 Tools_model Expression_model Problem_model Polynom_model Integrator_model Lipm_model
  Spline_model Swing_model Geometry_model Footsteps_model.
Import ListNotations.
Open Scope R_scope.

(** The libraries that placo calls: Eigen's matrix exponential and QR decomposition, the QP solver, boost's convex hull. *)
Record libs : Type := Libs {
  l_mexp : mat -> mat; l_qr : mat -> qr_result; l_qp : qp_problem -> qp_result; l_hull : list point -> list point }.

(** humanoid_parameters.h: the walk parameters, with those of Footsteps_model.v. *)
Record wparams : Type := WParams {
  w_base : params; w_com_height : R; w_trunk_pitch : R; w_foot_height : R; w_rise_ratio : R;
  w_zmp_margin : R; w_zmp_weight : R; w_zmp_x : R; w_zmp_y : R; w_op_space : list point; w_dcm_offset : list point }.

(** walk_pattern_generator.h:26-34. The CoM trajectory is not initialised before plan_com ends: [None]. *)
Record part : Type := Part { pt_start : R; pt_end : R; pt_support : support; pt_com : option ltraj; pt_swing : cswing }.

(** walk_pattern_generator.h:36-158. *)
Record wtraj : Type := WTraj {
  j_start : R; j_end : R; j_parts : list part; j_com_z : R; j_pitch : R; j_roll : R; j_success : bool;
  j_left : cubic_spline; j_right : cubic_spline; j_trunk : cubic_spline; j_T : frame }.

(** Assignments to members of a trajectory. *)
Definition set_parts (j : wtraj) (l : list part) : wtraj :=
  WTraj (j_start j) (j_end j) l (j_com_z j) (j_pitch j) (j_roll j) (j_success j) (j_left j) (j_right j) (j_trunk j) (j_T j).
Definition set_T (j : wtraj) (T : frame) : wtraj :=
  WTraj (j_start j) (j_end j) (j_parts j) (j_com_z j) (j_pitch j) (j_roll j) (j_success j) (j_left j) (j_right j) (j_trunk j) T.
Definition set_trunk (j : wtraj) (s : cubic_spline) : wtraj :=
  WTraj (j_start j) (j_end j) (j_parts j) (j_com_z j) (j_pitch j) (j_roll j) (j_success j) (j_left j) (j_right j) s (j_T j).
Definition set_foot_yaw (j : wtraj) (sd : side) (s : cubic_spline) : wtraj :=
  match sd with
  | Left => WTraj (j_start j) (j_end j) (j_parts j) (j_com_z j) (j_pitch j) (j_roll j) (j_success j) s (j_right j) (j_trunk j) (j_T j)
  | Right => WTraj (j_start j) (j_end j) (j_parts j) (j_com_z j) (j_pitch j) (j_roll j) (j_success j) (j_left j) s (j_trunk j) (j_T j)
  end.

(** walk_pattern_generator.cpp:22-32; t_end is not initialised there ([0] here) and is assigned by plan_com. *)
Definition new_wtraj (com_z t_start pitch roll : R) : wtraj :=
  WTraj t_start 0 [] com_z pitch roll true (new_spline true) (new_spline true) (new_spline true) frame_id.

(** walk_pattern_generator.h:166-250 and walk_pattern_generator.cpp:34-39. *)
Record wpg : Type := Wpg {
  g_params : wparams; g_omega : R; g_omega_2 : R; g_soft : bool; g_zmp_weight : R; g_stop_weight : R }.
Definition new_wpg (p : wparams) : wpg :=
  let omega := compute_omega (w_com_height p) in
  Wpg p omega (omega ^ 2) false 1000 1000.

(** ** Trajectory *)

(** walk_pattern_generator.cpp:41-49. *)
Definition build_frame (position : vec3) (orientation : R) : frame := Frame (rot_z orientation) position.

(** walk_pattern_generator.cpp:59-90, from the bounds [low] and [high]. Each turn of the loop spends one unit of fuel; running
    out of fuel, or reading outside of the vector, is [UB] (see [C54_terminates]). *)
Fixpoint search (fuel : nat) (parts : list part) (t : R) (low high : nat) : outcome nat :=
  if Nat.eqb low high then Ok low
  else match fuel with
       | O => UB
       | S fuel' =>
           let mid := ((low + high) / 2)%nat in
           match nth_error parts mid with
           | None => UB
           | Some p =>
               if Rlt_dec t (pt_start p) then search fuel' parts t low mid
               else if Rlt_dec (pt_end p) t then search fuel' parts t (mid + 1) high
               else Ok mid
           end
       end.

(** walk_pattern_generator.cpp:51-91, _findPart: the index of the part. *)
Definition find_index (parts : list part) (t : R) : outcome nat :=
  match parts with
  | [] => Throw ERuntime
  | _ => search (length parts) parts t 0 (length parts - 1)
  end.

(** An access to a vector. *)
Definition at_index {A} (l : list A) (i : nat) : outcome A :=
  match nth_error l i with Some a => Ok a | None => UB end.

(** The part _findPart returns. *)
Definition find_part (j : wtraj) (t : R) : outcome part :=
  i <- find_index (j_parts j) t ;; at_index (j_parts j) i.

(** walk_pattern_generator.cpp:93-97. *)
Definition is_flying (j : wtraj) (sd : side) (t : R) : outcome bool :=
  p <- find_part j t ;;
  if is_both (pt_support p) then Ok false
  else s <- support_side (pt_support p) ;; Ok (side_eqb s (other_side sd)).

(** walk_pattern_generator.cpp:244-254. *)
Definition foot_yaw (j : wtraj) (sd : side) : cubic_spline := match sd with Left => j_left j | Right => j_right j end.

(** walk_pattern_generator.cpp:99-107 and 109-117 (which differ by the side), and 119-122. *)
Definition get_T_world_foot (j : wtraj) (sd : side) (t : R) : outcome frame :=
  p <- find_part j t ;;
  flying <- is_flying j sd t ;;
  position <- (if flying : bool then cswing_pos (pt_swing p) t
               else f <- footstep_frame (pt_support p) sd ;; Ok (fr_t f)) ;;
  yaw <- snd (pos (foot_yaw j sd) t) ;;
  Ok (frame_mul (j_T j) (build_frame position yaw)).

(** walk_pattern_generator.cpp:124-132 and 134-142 (which differ by the side), and 144-147. *)
Definition get_v_world_foot (j : wtraj) (sd : side) (t : R) : outcome vec3 :=
  p <- find_part j t ;;
  s <- support_side (pt_support p) ;;
  if side_eqb s (other_side sd) then v <- cswing_vel (pt_swing p) t ;; Ok (m3_vec (fr_R (j_T j)) v)
  else Ok v3_zero.

(** walk_pattern_generator.cpp:149-157 and 159-162. *)
Definition get_yaw_world_foot (j : wtraj) (sd : side) (t : R) : outcome R :=
  yaw <- snd (pos (foot_yaw j sd) t) ;; Ok (frame_yaw (fr_R (j_T j)) + yaw).

(** walk_pattern_generator.cpp:164-167. *)
Definition get_yaw_world_trunk (j : wtraj) (t : R) : outcome R :=
  yaw <- snd (pos (j_trunk j) t) ;; Ok (frame_yaw (fr_R (j_T j)) + yaw).

Section WithLibraries.
Variable L : libs.

(** part.com_trajectory.pos(t), vel(t), acc(t), jerk(t). *)
Definition com_value (j : wtraj) (t : R) (diff : Z) : outcome (R * R) :=
  p <- find_part j t ;;
  match pt_com p with Some c => lt_value (l_mexp L) c t diff | None => UB end.

(** walk_pattern_generator.cpp:169-174. *)
Definition get_p_world_CoM (j : wtraj) (t : R) : outcome vec3 :=
  p <- com_value j t 0 ;; Ok (frame_act (j_T j) (V3 (fst p) (snd p) (j_com_z j))).

(** walk_pattern_generator.cpp:176-181, 183-188, 190-195. *)
Definition get_v_world_CoM (j : wtraj) (t : R) : outcome vec3 :=
  v <- com_value j t 1 ;; Ok (m3_vec (fr_R (j_T j)) (V3 (fst v) (snd v) 0)).
Definition get_a_world_CoM (j : wtraj) (t : R) : outcome vec3 :=
  v <- com_value j t 2 ;; Ok (m3_vec (fr_R (j_T j)) (V3 (fst v) (snd v) 0)).
Definition get_j_world_CoM (j : wtraj) (t : R) : outcome vec3 :=
  v <- com_value j t 3 ;; Ok (m3_vec (fr_R (j_T j)) (V3 (fst v) (snd v) 0)).

(** walk_pattern_generator.cpp:197-200. *)
Definition get_p_world_DCM (j : wtraj) (t omega : R) : outcome point :=
  p <- get_p_world_CoM j t ;; v <- get_v_world_CoM j t ;;
  Ok (vx p + 1 / omega * vx v, vy p + 1 / omega * vy v).

(** walk_pattern_generator.cpp:202-205. *)
Definition get_p_world_ZMP (j : wtraj) (t omega : R) : outcome point :=
  p <- get_p_world_CoM j t ;; a <- get_a_world_CoM j t ;;
  Ok (vx p - 1 / omega ^ 2 * vx a, vy p - 1 / omega ^ 2 * vy a).

(** Eigen: AngleAxisd(a, UnitY()).matrix() and AngleAxisd(a, UnitX()).matrix(). *)
Definition rot_y (a : R) : mat3 := M3 (cos a) 0 (sin a) 0 1 0 (- sin a) 0 (cos a).
Definition rot_x (a : R) : mat3 := M3 1 0 0 0 (cos a) (- sin a) 0 (sin a) (cos a).

(** walk_pattern_generator.cpp:207-213. *)
Definition get_R_world_trunk (j : wtraj) (t : R) : outcome mat3 :=
  yaw <- snd (pos (j_trunk j) t) ;;
  Ok (m3_mul (fr_R (j_T j)) (m3_mul (m3_mul (rot_z yaw) (rot_y (j_pitch j))) (rot_x (j_roll j)))).

(** walk_pattern_generator.cpp:215-220, 222-227, 229-232. *)
Definition get_T_support_world (j : wtraj) (t : R) : outcome frame :=
  p <- find_part j t ;; s <- support_side (pt_support p) ;; f <- get_T_world_foot j s t ;;
  Ok (frame_inv (flatten_on_floor f)).
Definition get_p_support_CoM (j : wtraj) (t : R) : outcome vec3 :=
  f <- get_T_support_world j t ;; p <- get_p_world_CoM j t ;; Ok (frame_act f p).
Definition get_v_support_CoM (j : wtraj) (t : R) : outcome vec3 :=
  f <- get_T_support_world j t ;; v <- get_v_world_CoM j t ;; Ok (m3_vec (fr_R f) v).
Definition get_p_support_DCM (j : wtraj) (t omega : R) : outcome point :=
  p <- get_p_support_CoM j t ;; v <- get_v_support_CoM j t ;;
  Ok (vx p + 1 / omega * vx v, vy p + 1 / omega * vy v).

(** walk_pattern_generator.cpp:234-237 and 239-242. *)
Definition traj_support_side (j : wtraj) (t : R) : outcome side := p <- find_part j t ;; support_side (pt_support p).
Definition traj_support_is_both (j : wtraj) (t : R) : outcome bool := p <- find_part j t ;; Ok (is_both (pt_support p)).

(** walk_pattern_generator.cpp:256-260. *)
Definition get_support (j : wtraj) (t : R) : outcome support :=
  p <- find_part j t ;; Ok (transform_support (j_T j) (pt_support p)).

(** walk_pattern_generator.cpp:262-268. *)
Definition remaining_supports (j : wtraj) (t : R) : outcome Z :=
  i <- find_index (j_parts j) t ;; Ok (Z.of_nat (length (j_parts j)) - Z.of_nat i - 1)%Z.

(** walk_pattern_generator.cpp:270-279. A negative index is read outside of the vector. *)
Definition get_next_support (j : wtraj) (t : R) (n : Z) : outcome support :=
  i <- find_index (j_parts j) t ;;
  let k := (Z.of_nat i + n)%Z in
  let size := length (j_parts j) in
  p <- (if (Z.of_nat size <=? k)%Z then at_index (j_parts j) (size - 1)
        else guard (0 <=? k)%Z (at_index (j_parts j) (Z.to_nat k))) ;;
  Ok (transform_support (j_T j) (pt_support p)).

(** An assignment to an element of a vector. *)
Fixpoint replace {A} (l : list A) (i : nat) (a : A) : list A :=
  match l, i with
  | [], _ => []
  | _ :: l', O => a :: l'
  | b :: l', S i' => b :: replace l' i' a
  end.

(** walk_pattern_generator.cpp:284-287. [part] is a reference to the element [i] of the vector, and part = ... assigns to
    this element; the new vector is returned. *)
Fixpoint prev_loop (n : nat) (parts : list part) (i : nat) : outcome (list part) :=
  match n with
  | O => Ok parts
  | S n' =>
      p <- at_index parts i ;;
      k <- find_index parts (pt_start p - / 10000) ;;
      q <- at_index parts k ;;
      prev_loop n' (replace parts i q) i
  end.

(** walk_pattern_generator.cpp:281-289: the trajectory after the call, and the result. *)
Definition get_prev_support (j : wtraj) (t : R) (n : Z) : wtraj * outcome support :=
  match (i <- find_index (j_parts j) t ;; parts <- prev_loop (Z.to_nat n) (j_parts j) i ;; p <- at_index parts i ;; Ok (parts, p)) with
  | Ok (parts, p) => (set_parts j parts, Ok (transform_support (j_T j) (pt_support p)))
  | Throw e => (j, Throw e)
  | UB => (j, UB)
  end.

(** walk_pattern_generator.cpp:291-299. *)
Definition get_supports (j : wtraj) : list support := map (fun p => transform_support (j_T j) (pt_support p)) (j_parts j).

(** walk_pattern_generator.cpp:301-304. *)
Definition apply_transform (j : wtraj) (T : frame) : wtraj := set_T j (frame_mul T (j_T j)).

(** walk_pattern_generator.cpp:306-310, 312-316, 318-322. *)
Definition get_part_t_start (j : wtraj) (t : R) : outcome R := p <- find_part j t ;; Ok (pt_start p).
Definition get_part_t_end (j : wtraj) (t : R) : outcome R := p <- find_part j t ;; Ok (pt_end p).
Definition get_part_end_dcm (j : wtraj) (t omega : R) : outcome point :=
  p <- find_part j t ;; get_p_world_DCM j (pt_end p) omega.

(** ** Feet *)

(** A call to add_point that stops the caller when it throws. *)
Definition spline_add (s : cubic_spline) (t x dx : R) : outcome cubic_spline :=
  match add_point s t x dx with (s', Ok _) => Ok s' | (_, Throw e) => Throw e | (_, UB) => UB end.
Definition yaw_add (j : wtraj) (sd : side) (t x dx : R) : outcome wtraj :=
  s <- spline_add (foot_yaw j sd) t x dx ;; Ok (set_foot_yaw j sd s).
Definition trunk_add (j : wtraj) (t x dx : R) : outcome wtraj :=
  s <- spline_add (j_trunk j) t x dx ;; Ok (set_trunk j s).

(** walk_pattern_generator.cpp:324-331. *)
Fixpoint add_footsteps (j : wtraj) (t : R) (l : list footstep) : outcome wtraj :=
  match l with
  | [] => Ok j
  | f :: l' => j' <- yaw_add j (f_side f) t (frame_yaw (fr_R (f_frame f))) 0 ;; add_footsteps j' t l'
  end.
Definition add_supports (j : wtraj) (t : R) (s : support) : outcome wtraj := add_footsteps j t (u_footsteps s).

(** walk_pattern_generator.cpp:645-656. *)
Definition support_default_timesteps (p : params) (s : support) : Z :=
  if is_both s then
    if u_start s || u_end s then startend_double_support_timesteps p else double_support_timesteps p
  else p_single_support_timesteps p.

(** walk_pattern_generator.cpp:658-669. *)
Definition support_default_duration (p : params) (s : support) : outcome R :=
  let finite o := match o with Some d => Ok d | None => UB end in
  if is_both s then
    if u_start s || u_end s then finite (startend_double_support_duration p) else finite (double_support_duration p)
  else Ok (p_single_support_duration p).

(** walk_pattern_generator.cpp:333-338. *)
Definition plan_dbl_support (j : wtraj) (i : nat) : outcome wtraj :=
  p <- at_index (j_parts j) i ;;
  j <- add_supports j (pt_end p) (pt_support p) ;;
  f <- support_frame (pt_support p) ;;
  trunk_add j (pt_end p) (frame_yaw (fr_R f)) 0.

(** An assignment to the swing trajectory of a part. *)
Definition set_swing (p : part) (w : cswing) : part := Part (pt_start p) (pt_end p) (pt_support p) (pt_com p) w.

(** walk_pattern_generator.cpp:340-380. parts[i - 1] for i = 0 is outside of the vector. *)
Definition plan_sgl_support (p : wparams) (j : wtraj) (i : nat) (old : option wtraj) : outcome wtraj :=
  q <- at_index (j_parts j) i ;;
  f0 <- at_index (u_footsteps (pt_support q)) 0 ;;
  let flying := other_side (f_side f0) in
  next <- at_index (j_parts j) (i + 1) ;;
  T_end <- footstep_frame (pt_support next) flying ;;
  d <- support_default_duration (w_base p) (pt_support q) ;;
  let virt_duration := d * u_time_ratio (pt_support q) in
  j1 <- match i, old with
        | O, Some o =>
            T0 <- get_T_world_foot o flying (j_start j) ;;
            v0 <- get_v_world_foot o flying (j_start j) ;;
            w <- make_cswing (pt_start q) virt_duration (w_foot_height p) (w_rise_ratio p) (fr_t T0) (fr_t T_end)
                   (u_elapsed_ratio (pt_support q)) v0 ;;
            yaw0 <- get_yaw_world_foot o flying (j_start j) ;;
            dyaw0 <- snd (vel (foot_yaw o flying) (j_start j)) ;;
            yaw_add (set_parts j (replace (j_parts j) i (set_swing q w))) flying (j_start j) yaw0 dyaw0
        | O, None => UB
        | S i', _ =>
            prev <- at_index (j_parts j) i' ;;
            T0 <- footstep_frame (pt_support prev) flying ;;
            w <- make_cswing (pt_start q) virt_duration (w_foot_height p) (w_rise_ratio p) (fr_t T0) (fr_t T_end) 0 v3_zero ;;
            Ok (set_parts j (replace (j_parts j) i (set_swing q w)))
        end ;;
  j2 <- yaw_add j1 flying (pt_end q) (frame_yaw (fr_R T_end)) 0 ;;
  j3 <- (if has_double_support (w_base p) then Ok j2 else trunk_add j2 (pt_end q) (frame_yaw (fr_R T_end)) 0) ;;
  add_supports j3 (pt_end q) (pt_support q).

(** walk_pattern_generator.cpp:398-410: the parts [i], [i + 1], ..., [i + k - 1]. *)
Fixpoint plan_feet_loop (k : nat) (p : wparams) (j : wtraj) (i : nat) (old : option wtraj) : outcome wtraj :=
  match k with
  | O => Ok j
  | S k' =>
      q <- at_index (j_parts j) i ;;
      j' <- (if Nat.eqb (length (u_footsteps (pt_support q))) 1 then plan_sgl_support p j i old else plan_dbl_support j i) ;;
      plan_feet_loop k' p j' (i + 1) old
  end.

(** walk_pattern_generator.cpp:382-411. *)
Definition plan_feet_trajectories (p : wparams) (j : wtraj) (old : option wtraj) : outcome wtraj :=
  q <- at_index (j_parts j) 0 ;;
  j1 <- add_supports j (j_start j) (pt_support q) ;;
  j2 <- match old with
        | None => f <- support_frame (pt_support q) ;; trunk_add j1 (j_start j) (frame_yaw (fr_R f)) 0
        | Some o =>
            yaw0 <- get_yaw_world_trunk o (j_start j) ;;
            dyaw0 <- snd (vel (j_trunk o) (j_start j)) ;;
            trunk_add j1 (j_start j) yaw0 dyaw0
        end ;;
  plan_feet_loop (length (j_parts j)) p j2 0 old.

(** ** Center of mass *)

(** The conversion of a double to an int. *)
Definition trunc (x : R) : Z := if Rle_dec 0 x then (up x - 1)%Z else (- (up (- x) - 1))%Z.

(** configure(Soft, weight) when the planner is soft. *)
Definition soften (soft : bool) (weight : R) (c : pconstraint) : pconstraint :=
  if soft then configure_prio c Soft weight else c.

(** walk_pattern_generator.cpp:440-453. *)
Definition constrain_end (g : wpg) (pb : problem) (l : lipm) (s : support) (timestep : Z) : outcome problem :=
  f <- support_frame s ;;
  p <- lipm_pos pb l timestep ;; cp <- e_eq_v p (vec_of [vx (fr_t f); vy (fr_t f)]) ;;
  v <- lipm_vel pb l timestep ;; cv <- e_eq_v v (vec_of [0; 0]) ;;
  a <- lipm_acc pb l timestep ;; ca <- e_eq_v a (vec_of [0; 0]) ;;
  Ok (add_constraint (add_constraint (add_constraint pb (soften (g_soft g) (g_stop_weight g) cp))
        (soften (g_soft g) (g_stop_weight g) cv)) (soften (g_soft g) (g_stop_weight g) ca)).

(** walk_pattern_generator.cpp:427-435: the target of the ZMP. *)
Definition zmp_target (p : wparams) (s : support) : outcome point :=
  offset <- (if is_both s then Ok (0, 0)
             else sd <- support_side s ;; Ok (w_zmp_x p, match sd with Left => w_zmp_y p | Right => - w_zmp_y p end)) ;;
  f <- support_frame s ;;
  let target := frame_act f (V3 (fst offset) (snd offset) 0) in
  Ok (vx target, vy target).

(** walk_pattern_generator.cpp:418-453: one timestep. The support, which keeps its polygon, is returned too. *)
Definition constrain_step (g : wpg) (pb : problem) (l : lipm) (s : support) (timestep : Z) : outcome (problem * support) :=
  let p := g_params g in
  z <- lipm_zmp pb l timestep (g_omega_2 g) ;;
  let (s, polygon) := support_support_polygon (l_hull L) s in
  polygon <- polygon ;;
  c <- in_polygon_xy z polygon (w_zmp_margin p) ;;
  let pb := add_constraint pb (soften (g_soft g) (g_zmp_weight g) c) in
  target <- zmp_target p s ;;
  z <- lipm_zmp pb l timestep (g_omega_2 g) ;;
  c <- e_eq_v z (vec_of [fst target; snd target]) ;;
  let pb := add_constraint pb (configure_prio c Soft (w_zmp_weight p)) in
  if u_end s && Z.eqb timestep (Z.of_nat (lp_timesteps l)) then pb <- constrain_end g pb l s timestep ;; Ok (pb, s)
  else Ok (pb, s).

(** walk_pattern_generator.cpp:413-455: the timesteps [timestep], ..., [timestep + k - 1]. *)
Fixpoint constrain_loop (k : nat) (g : wpg) (pb : problem) (l : lipm) (s : support) (timestep : Z) : outcome (problem * support) :=
  match k with
  | O => Ok (pb, s)
  | S k' => r <- constrain_step g pb l s timestep ;; constrain_loop k' g (fst r) l (snd r) (timestep + 1)
  end.
Definition constrain_lipm (g : wpg) (pb : problem) (l : lipm) (s : support) : outcome (problem * support) :=
  constrain_loop (lp_timesteps l) g pb l s 1.

(** walk_pattern_generator.cpp:469-470. *)
Definition remaining_duration (p : params) (s : support) : outcome R :=
  d <- support_default_duration p s ;; Ok ((1 - u_elapsed_ratio s) * d * u_time_ratio s).
Definition remaining_timesteps (p : params) (s : support) : nat :=
  Z.to_nat (Z.max 1 (trunc ((1 - u_elapsed_ratio s) * IZR (support_default_timesteps p s)))).

(** walk_pattern_generator.cpp:467-494. [t] is the time so far and [last] is lipms.back(). The problem, the supports as the loop
    leaves them, the LIPMs, the parts and the final time. *)
Fixpoint com_loop (g : wpg) (t0 : R) (pos vel acc : point) (supports : list support) (t : R) (pb : problem) (last : option lipm)
  : outcome (problem * list support * list lipm * list part * R) :=
  match supports with
  | [] => Ok (pb, [], [], [], t)
  | s :: rest =>
      duration <- remaining_duration (w_base (g_params g)) s ;;
      let n := remaining_timesteps (w_base (g_params g)) s in
      let s := if Req_EM_T (u_t_start s) (-1) then Footsteps_model.set_t_start s t else s in
      let q := Part t (t + duration) s None (CSwing (new_spline false) (new_spline false) (new_spline false)) in
      let dt := duration / INR n in
      r <- (if Req_EM_T t t0 then new_lipm (l_mexp L) pb dt n t pos vel acc
            else match last with Some previous => new_lipm_from (l_mexp L) pb dt n t previous | None => UB end) ;;
      c <- constrain_lipm g (fst r) (snd r) s ;;
      z <- com_loop g t0 pos vel acc rest (t + duration) (fst c) (Some (snd r)) ;;
      let '(pb, ss, ls, qs, t_end) := z in
      Ok (pb, snd c :: ss, snd r :: ls, q :: qs, t_end)
  end.

(** walk_pattern_generator.cpp:507-512. *)
Definition set_com (p : part) (c : ltraj) (dcm : point) : part :=
  let s := pt_support p in
  Part (pt_start p) (pt_end p)
       (Support (u_footsteps s) (u_t_start s) (u_elapsed_ratio s) (u_time_ratio s) dcm (u_start s) (u_end s) (u_polygon s) (u_computed s))
       (Some c) (pt_swing p).
Fixpoint attribute (g : wpg) (pb : problem) (parts : list part) (lipms : list lipm) : outcome (list part) :=
  match parts with
  | [] => Ok []
  | p :: parts' =>
      match lipms with
      | [] => UB
      | l :: lipms' =>
          c <- lipm_get_trajectory pb l ;;
          dcm <- lt_dcm (l_mexp L) (snd c) (pt_end p) (g_omega g) ;;
          r <- attribute g pb parts' lipms' ;;
          Ok (set_com p (snd c) dcm :: r)
      end
  end.

(** walk_pattern_generator.cpp:457-515, on a trajectory without parts: the result, the trajectory and the supports. *)
Definition plan_com (g : wpg) (j : wtraj) (supports : list support) (pos vel acc : point) : outcome (bool * wtraj * list support) :=
  r <- com_loop g (j_start j) pos vel acc supports (j_start j) new_problem None ;;
  let '(pb, ss, ls, parts, t_end) := r in
  let with_parts parts :=
    WTraj (j_start j) t_end parts (j_com_z j) (j_pitch j) (j_roll j) (j_success j) (j_left j) (j_right j) (j_trunk j) (j_T j) in
  match solve pb (l_qr L) (l_qp L) with
  | (pb, Ok _) => parts <- attribute g pb parts ls ;; Ok (true, with_parts parts, ss)
  | (_, Throw _) => Ok (false, with_parts parts, ss)
  | (_, UB) => UB
  end.

(** walk_pattern_generator.cpp:517-534: the trajectory, and the supports of the caller. *)
Definition plan (g : wpg) (supports : list support) (initial_com : vec3) (t_start : R) : outcome (wtraj * list support) :=
  match supports with
  | [] => Throw ERuntime
  | _ =>
      let j := new_wtraj (w_com_height (g_params g)) t_start (w_trunk_pitch (g_params g)) 0 in
      r <- plan_com g j supports (vx initial_com, vy initial_com) (0, 0) (0, 0) ;;
      let '(planned, j, ss) := r in
      if planned : bool then j <- plan_feet_trajectories (g_params g) j None ;; Ok (j, ss) else Throw ERuntime
  end.

(** walk_pattern_generator.cpp:820-842. *)
Definition trim_part (p : params) (t_old t_replan : R) (q : part) : outcome (list part) :=
  if Rle_dec (pt_start q) t_replan then
    if Rlt_dec t_replan (pt_end q) then
      let s := pt_support q in
      d <- support_default_duration p s ;;
      let elapsed_duration := t_replan - Rmax t_old (u_t_start s) in
      let ratio := u_elapsed_ratio s + elapsed_duration / (d * u_time_ratio s) in
      Ok [Part t_replan (pt_end q)
            (Support (u_footsteps s) (u_t_start s) ratio (u_time_ratio s) (u_target_world_dcm s) (u_start s) (u_end s)
                     (u_polygon s) (u_computed s))
            (pt_com q) (pt_swing q)]
    else Ok []
  else Ok [q].
Fixpoint trim_parts (p : params) (t_old t_replan : R) (l : list part) : outcome (list part) :=
  match l with
  | [] => Ok []
  | q :: l' => a <- trim_part p t_old t_replan q ;; b <- trim_parts p t_old t_replan l' ;; Ok (a ++ b)
  end.

(** walk_pattern_generator.cpp:812-846. *)
Definition trim_old_trajectory (p : params) (old : wtraj) (t_replan : R) : outcome wtraj :=
  parts <- trim_parts p (j_start old) t_replan (j_parts old) ;;
  Ok (WTraj t_replan (j_end old) parts (j_com_z old) (j_pitch old) (j_roll old) false (j_left old) (j_right old) (j_trunk old) (j_T old)).

(** walk_pattern_generator.cpp:536-568: the trajectory, and the supports of the caller. *)
Definition replan (g : wpg) (supports : list support) (old : wtraj) (t_replan : R) : outcome (wtraj * list support) :=
  match supports with
  | [] => Throw ERuntime
  | _ =>
      let j := new_wtraj (w_com_height (g_params g)) t_replan (w_trunk_pitch (g_params g)) 0 in
      p <- get_p_world_CoM old t_replan ;;
      v <- get_v_world_CoM old t_replan ;;
      a <- get_a_world_CoM old t_replan ;;
      r <- plan_com g j supports (vx p, vy p) (vx v, vy v) (vx a, vy a) ;;
      let '(planned, j, ss) := r in
      if planned : bool then j <- plan_feet_trajectories (g_params g) j (Some old) ;; Ok (j, ss)
      else j <- trim_old_trajectory (w_base (g_params g)) old t_replan ;; Ok (j, ss)
  end.

(** ** Supports *)

(** walk_pattern_generator.cpp:570-586. *)
Definition can_replan_supports (j : wtraj) (t_replan : R) : outcome bool :=
  s <- get_support j t_replan ;;
  if u_end s || u_start s then Ok false
  else
    n <- get_next_support j t_replan 1 ;;
    Ok (negb (u_end n) && negb (is_both s)).

(** walk_pattern_generator.cpp:588-643. [planner] is planner.plan. After can_replan_supports the current support is not a double
    one, so lines 605-608 and 625-630 are never reached; supports[0] of an empty vector is UB. *)
Definition replan_supports (p : params) (planner : side -> frame -> frame -> outcome (list footstep)) (j : wtraj)
    (t_replan t_last_replan : R) : outcome (list support) :=
  can <- can_replan_supports j t_replan ;;
  if negb can then Throw ERuntime
  else
    current <- get_support j t_replan ;;
    next <- get_next_support j t_replan 1 ;;
    flying <- support_side current ;;
    a <- footstep_frame current flying ;;
    b <- footstep_frame next (other_side flying) ;;
    footsteps <- planner flying (match flying with Left => a | Right => b end) (match flying with Left => b | Right => a end) ;;
    supports <- make_supports footsteps (u_t_start current) false (has_double_support p) true ;;
    d <- support_default_duration p current ;;
    let elapsed_duration := t_replan - Rmax t_last_replan (u_t_start current) in
    match supports with
    | [] => UB
    | s :: rest =>
        Ok (Support (u_footsteps s) (u_t_start s) (u_elapsed_ratio current + elapsed_duration / (d * u_time_ratio current))
                    (u_time_ratio current) (u_target_world_dcm s) (u_start s) (u_end s) (u_polygon s) (u_computed s) :: rest)
    end.

End WithLibraries.
