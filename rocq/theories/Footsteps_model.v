(** Model of placo::humanoid: HumanoidParameters (src/placo/humanoid/humanoid_parameters.cpp), FootstepsPlanner
    (footsteps_planner.cpp) and its two implementations (footsteps_planner_repetitive.cpp, footsteps_planner_naive.cpp). *)
From Coq Require Import Reals List ZArith Bool.
From Verif Require Import Base Angle Geom3 Tools_model Geometry_model.
Import ListNotations.
Open Scope R_scope.

(** ** Parameters *)

(** humanoid_parameters.h: the values that the modelled functions read. single_support_timesteps is an int. *)
Record params : Type := Params {
  p_single_support_duration : R; p_single_support_timesteps : Z; p_double_support_ratio : R; p_startend_double_support_ratio : R;
  p_max_dx_forward : R; p_max_dx_backward : R; p_max_dy : R; p_max_dtheta : R; p_dtheta_spacing : R;
  p_feet_spacing : R; p_foot_width : R; p_foot_length : R
}.

(** humanoid_parameters.h:143-148. *)
Inductive clipping : Type := Ellipsoid | Box | Conic.

(** humanoid_robot.h: enum Side. *)
Inductive side : Type := Left | Right.
Definition side_eqb (a b : side) : bool := match a, b with Left, Left | Right, Right => true | _, _ => false end.

(** humanoid_robot.cpp:59-62. *)
Definition other_side (s : side) : side := match s with Left => Right | Right => Left end.

(** std::round: to the nearest integer, halves away from zero. *)
Definition round (x : R) : Z := if Rle_dec 0 x then (up (x + / 2) - 1)%Z else (- (up (- x + / 2) - 1))%Z.

(** humanoid_parameters.cpp:8-11; with 0 timesteps the quotient is not finite. *)
Definition dt (p : params) : option R :=
  if Z.eqb (p_single_support_timesteps p) 0 then None
  else Some (p_single_support_duration p / IZR (p_single_support_timesteps p)).

(** humanoid_parameters.cpp:13-16 and 18-21. *)
Definition double_support_timesteps (p : params) : Z := round (p_double_support_ratio p * IZR (p_single_support_timesteps p)).
Definition startend_double_support_timesteps (p : params) : Z :=
  round (p_startend_double_support_ratio p * IZR (p_single_support_timesteps p)).

(** humanoid_parameters.cpp:23-26 and 28-31. *)
Definition double_support_duration (p : params) : option R :=
  match dt p with Some d => Some (IZR (double_support_timesteps p) * d) | None => None end.
Definition startend_double_support_duration (p : params) : option R :=
  match dt p with Some d => Some (IZR (startend_double_support_timesteps p) * d) | None => None end.

(** humanoid_parameters.cpp:33-36. *)
Definition has_double_support (p : params) : bool := Z.ltb 0 (double_support_timesteps p).

(** A step (dx, dy, dtheta) is a Vector3d. The norms of humanoid_parameters.cpp:45 (Eigen norm), 65 and 85. *)
Definition clip_norm (c : clipping) (s : vec3) : R :=
  match c with
  | Ellipsoid => v3_norm s
  | Box => Rabs (vx s) + Rabs (vy s) + Rabs (vz s)
  | Conic => sqrt (vx s * vx s + vy s * vy s) + Rabs (vz s)
  end.

(** humanoid_parameters.cpp:38-56 (ellipsoid_clip), 58-76 (box_clip) and 78-96 (conic_clip), which only differ by the norm.
    When a limit is 0 some entry of the result is not finite: [None]. *)
Definition clip (c : clipping) (p : params) (step : vec3) : option vec3 :=
  let f := V3 (if Rle_dec 0 (vx step) then p_max_dx_forward p else p_max_dx_backward p) (p_max_dy p) (p_max_dtheta p) in
  if Req_EM_T (vx f) 0 then None else if Req_EM_T (vy f) 0 then None else if Req_EM_T (vz f) 0 then None
  else
    let step := V3 (vx step / vx f) (vy step / vy f) (vz step / vz f) in
    let norm := clip_norm c step in
    let step := if Rlt_dec 1 norm then v3_scale (/ norm) step else step in
    Some (V3 (vx step * vx f) (vy step * vy f) (vz step * vz f)).

(** Eigen: frame.translate(v) and frame.rotate(AngleAxis(a, UnitZ())) act on the right. *)
Definition translate (f : frame) (v : vec3) : frame := Frame (fr_R f) (v3_add (m3_vec (fr_R f) v) (fr_t f)).
Definition rotate_z (f : frame) (a : R) : frame := Frame (m3_mul (fr_R f) (rot_z a)) (fr_t f).

(** humanoid_parameters.cpp:140-156. *)
Definition opposite_frame (p : params) (s : side) (t : frame) (d_x d_y d_theta : R) : frame :=
  let f := match s with
           | Left => translate t (v3_scale (- p_feet_spacing p) (V3 0 1 0))
           | Right => translate t (v3_scale (p_feet_spacing p) (V3 0 1 0))
           end in
  rotate_z (translate f (V3 d_x d_y 0)) d_theta.

(** humanoid_parameters.cpp:158-174. *)
Definition neutral_frame (p : params) (s : side) (t : frame) (d_x d_y d_theta : R) : frame :=
  let f := match s with
           | Left => translate t (v3_scale (- (p_feet_spacing p / 2)) (V3 0 1 0))
           | Right => translate t (v3_scale (p_feet_spacing p / 2) (V3 0 1 0))
           end in
  rotate_z (translate f (V3 d_x d_y 0)) d_theta.

(** ** Footsteps *)

(** footsteps_planner.h:18-39. *)
Record footstep : Type := Footstep {
  f_width : R; f_length : R; f_side : side; f_frame : frame; f_polygon : list point; f_computed : bool
}.

(** footsteps_planner.cpp:19-40. *)
Definition corner (f : footstep) (margin sx sy : R) : point :=
  let c := frame_act (f_frame f) (V3 (sx * (margin + f_length f / 2)) (sy * (margin + f_width f / 2)) 0) in
  (vx c, vy c).
Definition compute_polygon (f : footstep) (margin : R) : list point :=
  [corner f margin (-1) 1; corner f margin 1 1; corner f margin 1 (-1); corner f margin (-1) (-1)].

(** footsteps_planner.cpp:42-51: the object after the call, and the result. *)
Definition support_polygon (f : footstep) : footstep * list point :=
  let f := if f_computed f then f
           else Footstep (f_width f) (f_length f) (f_side f) (f_frame f) (compute_polygon f 0) true in
  (f, f_polygon f).

(** footsteps_planner.cpp:57-68. *)
Fixpoint contains_loop (last_point : point) (l : list point) (p : point) : bool :=
  match l with
  | [] => true
  | c :: l' =>
      let v := v2_sub c last_point in
      let n := (snd v, - fst v) in
      if Rlt_dec (v2_dot n (v2_sub p last_point)) 0 then false else contains_loop c l' p
  end.

(** footsteps_planner.cpp:53-71: polygon[size - 1] of an empty polygon is UB. *)
Definition polygon_contains (polygon : list point) (p : point) : outcome bool :=
  match polygon with
  | [] => UB
  | a :: _ => Ok (contains_loop (last polygon a) polygon p)
  end.

(** footsteps_planner.cpp:73-94. compute_polygon returns four points, so the calls are not UB. *)
Definition overlap (a b : footstep) (margin : R) : bool :=
  let s1 := compute_polygon a margin in
  let s2 := compute_polygon b margin in
  let contains poly p := match polygon_contains poly p with Ok true => true | _ => false end in
  existsb (contains s2) s1 || existsb (contains s1) s2.

(** footsteps_planner.cpp:289-297; the size of the feet comes from the parameters. *)
Definition create_footstep (p : params) (s : side) (t : frame) : footstep :=
  Footstep (p_foot_width p) (p_foot_length p) s t [] false.

(** footsteps_planner.cpp:299-306: a copy with another frame and side; the polygon and its flag are copied. *)
Definition opposite_footstep (p : params) (f : footstep) (d_x d_y d_theta : R) : footstep :=
  Footstep (f_width f) (f_length f) (other_side (f_side f)) (opposite_frame p (f_side f) (f_frame f) d_x d_y d_theta)
           (f_polygon f) (f_computed f).

(** footsteps_planner.cpp:335-347, the loop with [k] tries left, then 349. *)
Fixpoint reduce_step (k : nat) (p : params) (f : footstep) (step : vec3) : footstep :=
  let new_footstep := opposite_footstep p f (vx step) (vy step) (vz step) in
  match k with
  | O => new_footstep
  | S k' => if overlap new_footstep f (/ 100) then reduce_step k' p f (v3_scale (9 / 10) step) else new_footstep
  end.

(** footsteps_planner.cpp:308-350. *)
Definition clipped_opposite_footstep (c : clipping) (p : params) (f : footstep) (d_x d_y d_theta : R) : option footstep :=
  let d_y := match f_side f with
             | Left => d_y - p_dtheta_spacing p * Rabs d_theta
             | Right => d_y + p_dtheta_spacing p * Rabs d_theta
             end in
  match clip c p (V3 d_x d_y d_theta) with
  | None => None
  | Some step => Some (reduce_step 32 p f step)
  end.

(** footsteps_planner.cpp:356-365: the two initial footsteps of plan. *)
Definition initial_footsteps (p : params) (flying : side) (t_left t_right : frame) : list footstep :=
  let at_side s := match s with Left => t_left | Right => t_right end in
  [create_footstep p flying (at_side flying); create_footstep p (other_side flying) (at_side (other_side flying))].

(** footsteps_planner_repetitive.cpp:23-27: [n] more steps from [f]; the last footstep and those added. *)
Fixpoint repeat_steps (n : nat) (c : clipping) (p : params) (f : footstep) (d_x d_y d_theta : R) : option (footstep * list footstep) :=
  match n with
  | O => Some (f, [])
  | S n' =>
      match clipped_opposite_footstep c p f d_x d_y d_theta with
      | None => None
      | Some f' =>
          match repeat_steps n' c p f' d_x d_y d_theta with
          | None => None
          | Some (g, l) => Some (g, f' :: l)
          end
      end
  end.

(** footsteps_planner.cpp:352-371 with footsteps_planner_repetitive.cpp:15-32, after configure(d_x, d_y, d_theta, nb_steps). *)
Definition repetitive_plan (c : clipping) (p : params) (d_x d_y d_theta : R) (nb_steps : Z) (flying : side) (t_left t_right : frame)
  : option (list footstep) :=
  let footsteps := initial_footsteps p flying t_left t_right in
  let f := nth 1 footsteps (create_footstep p flying t_left) in
  if Z.ltb 0 nb_steps then
    match repeat_steps (Z.to_nat (nb_steps - 1)) c p f d_x d_y d_theta with
    | None => None
    | Some (g, l) =>
        match clipped_opposite_footstep c p g 0 0 0 with
        | None => None
        | Some h => Some (footsteps ++ l ++ [h])
        end
    end
  else Some footsteps.

(** humanoid_parameters.cpp:113-138 (and 98-111, which choose the clipping). *)
Definition overlap_clip (c : clipping) (p : params) (support_side : side) (step : vec3) : option vec3 :=
  let t_left := translate frame_id (V3 0 (p_feet_spacing p / 2) 0) in
  let t_right := translate frame_id (V3 0 (- p_feet_spacing p / 2) 0) in
  match repetitive_plan c p (vx step) (vy step) (vz step) 3 (match support_side with Left => Right | Right => Left end) t_left t_right with
  | None => None
  | Some footsteps =>
      let d := create_footstep p Left t_left in
      let t_world_support := f_frame (nth 1 footsteps d) in
      let t_world_target := f_frame (nth 2 footsteps d) in
      let t := frame_mul (frame_inv t_world_support) t_world_target in
      let offset := match support_side with Left => - p_feet_spacing p | Right => p_feet_spacing p end in
      Some (V3 (vx (fr_t t)) (vy (fr_t t) - offset) (frame_yaw (fr_R t)))
  end.

(** ** The naive planner *)

(** footsteps_planner_naive.h:27-43, without the targets; the constructor (footsteps_planner_naive.cpp:19-24) reads the
    accessibility from the parameters. *)
Record naive : Type := Naive { n_max_steps : Z; n_width : R; n_length : R; n_yaw : R; n_place_threshold : R }.
Definition new_naive (p : params) : naive := Naive 100 (p_max_dy p) (p_max_dx_forward p) (p_max_dtheta p) (1 / 2).

(** The state of the loop: both current feet, the support side and the two flags. *)
Record nstate : Type := NState { ns_left : frame; ns_right : frame; ns_support : side; ns_left_arrived : bool; ns_right_arrived : bool }.

(** footsteps_planner_naive.cpp:82-91 and 92-101: the tests for one coordinate of the error: the new factor, and whether the
    window is left. std::min(a, b) is b if b < a, a otherwise. The divisor is 0 only for a negative accessibility, which is not
    considered. *)
Definition window (limit error rescale : R) : R * bool :=
  let min a b := if Rlt_dec b a then b else a in
  let (r, out) := if Rlt_dec error (- limit) then (min rescale (- limit / error), true) else (rescale, false) in
  if Rlt_dec limit error then (min r (limit / error), true) else (r, out).

(** footsteps_planner_naive.cpp:47-155 (T_world_target is computed at line 35): one iteration; the footstep added and the new state. *)
Definition naive_step (p : params) (n : naive) (target_left target_right : frame) (s : nstate) : option (footstep * nstate) :=
  let t_world_target := interpolate_frames target_left target_right (1 / 2) in
  let t_world_support := match ns_support s with Left => ns_left s | Right => ns_right s end in
  let t_support_target :=
    frame_mul (frame_inv t_world_support) (match ns_support s with Left => target_right | Right => target_left end) in
  let target := V3 (vx (fr_t t_support_target)) (vy (fr_t t_support_target)) 0 in
  let idle := match ns_support s with Left => V3 0 (- p_feet_spacing p) 0 | Right => V3 0 (p_feet_spacing p) 0 end in
  let center := match ns_support s with Left => V3 0 (- p_feet_spacing p / 2) 0 | Right => V3 0 (p_feet_spacing p / 2) 0 end in
  let error := v3_sub target idle in
  let (rescale, out_x) := window (n_length n) (vx error) 1 in
  let (rescale, out_y) := window (n_width n) (vy error) rescale in
  let dist := v3_norm error in
  let error := v3_scale rescale error in
  let error_yaw :=
    if Rlt_dec (n_place_threshold n) dist then
      let c := v3_sub (fr_t (frame_mul (frame_inv t_world_support) t_world_target)) center in
      atan2 (vy c) (vx c)
    else frame_yaw (fr_R t_support_target) in
  let out_low := if Rlt_dec error_yaw (- n_yaw n) then true else false in
  let error_yaw := if out_low then - n_yaw n else error_yaw in
  let out_high := if Rlt_dec (n_yaw n) error_yaw then true else false in
  let error_yaw := if out_high then n_yaw n else error_yaw in
  let arrived := negb (out_x || out_y || out_low || out_high) in
  match clip Ellipsoid p (V3 (vx error) (vy error) error_yaw) with
  | None => None
  | Some step =>
      let new_step := Frame (rot_z (vz step)) (v3_add idle (V3 (vx step) (vy step) 0)) in
      let f := create_footstep p (other_side (ns_support s)) (frame_mul t_world_support new_step) in
      Some (f, match ns_support s with
               | Left => NState (ns_left s) (f_frame f) Right (ns_left_arrived s) arrived
               | Right => NState (f_frame f) (ns_right s) Left arrived (ns_right_arrived s)
               end)
  end.

(** footsteps_planner_naive.cpp:45-156: the loop, with [k] steps left before max_steps. *)
Fixpoint naive_loop (k : nat) (p : params) (n : naive) (target_left target_right : frame) (s : nstate) : option (list footstep * nstate) :=
  if ns_left_arrived s && ns_right_arrived s then Some ([], s)
  else match k with
       | O => Some ([], s)
       | S k' =>
           match naive_step p n target_left target_right s with
           | None => None
           | Some (f, s') =>
               match naive_loop k' p n target_left target_right s' with
               | None => None
               | Some (l, s'') => Some (f :: l, s'')
               end
           end
       end.

(** footsteps_planner.cpp:352-371 with footsteps_planner_naive.cpp:31-157, after configure(target_left, target_right). *)
Definition naive_plan (p : params) (n : naive) (target_left target_right : frame) (flying : side) (t_left t_right : frame)
  : option (list footstep) :=
  match naive_loop (Z.to_nat (n_max_steps n)) p n target_left target_right (NState t_left t_right (other_side flying) false false) with
  | None => None
  | Some (l, _) => Some (initial_footsteps p flying t_left t_right ++ l)
  end.

(** ** Supports *)

(** footsteps_planner.h:45-76. *)
Record support : Type := Support {
  u_footsteps : list footstep; u_t_start : R; u_elapsed_ratio : R; u_time_ratio : R; u_target_world_dcm : point;
  u_start : bool; u_end : bool; u_polygon : list point; u_computed : bool
}.

(** footsteps_planner.cpp:105-107 and the initial values of footsteps_planner.h. *)
Definition new_support (l : list footstep) : support := Support l (-1) 0 1 (0, 0) false false [] false.

(** The assignments support.start = b, support.end = b, support.t_start = t. *)
Definition set_start (s : support) (b : bool) : support :=
  Support (u_footsteps s) (u_t_start s) (u_elapsed_ratio s) (u_time_ratio s) (u_target_world_dcm s) b (u_end s) (u_polygon s) (u_computed s).
Definition set_end (s : support) (b : bool) : support :=
  Support (u_footsteps s) (u_t_start s) (u_elapsed_ratio s) (u_time_ratio s) (u_target_world_dcm s) (u_start s) b (u_polygon s) (u_computed s).
Definition set_t_start (s : support) (t : R) : support :=
  Support (u_footsteps s) t (u_elapsed_ratio s) (u_time_ratio s) (u_target_world_dcm s) (u_start s) (u_end s) (u_polygon s) (u_computed s).

(** footsteps_planner.cpp:116-122: the calls of support_polygon on the footsteps, in order. *)
Fixpoint polygons (l : list footstep) : list footstep * list point :=
  match l with
  | [] => ([], [])
  | f :: l' =>
      let (f', p) := support_polygon f in
      let (m, q) := polygons l' in
      (f' :: m, p ++ q)
  end.

(** footsteps_planner.cpp:109-136. [hull] is boost::geometry::convex_hull followed by outer(), a closed ring (the first
    point is repeated at the end). pop_back of an empty vector is UB. *)
Definition support_support_polygon (hull : list point -> list point) (s : support) : support * outcome (list point) :=
  if u_computed s then (s, Ok (u_polygon s))
  else
    let (l, pts) := polygons (u_footsteps s) in
    match hull pts with
    | [] => (s, UB)
    | h =>
        (Support l (u_t_start s) (u_elapsed_ratio s) (u_time_ratio s) (u_target_world_dcm s) (u_start s) (u_end s) (removelast h) true,
         Ok (removelast h))
    end.

(** footsteps_planner.cpp:143-155, the loop with [f] the frame so far and [n] footsteps used. *)
Fixpoint frame_loop (f : frame) (n : Z) (l : list footstep) : frame :=
  match l with
  | [] => f
  | g :: l' => frame_loop (interpolate_frames f (f_frame g) (1 / IZR (n + 1))) (n + 1) l'
  end.

(** footsteps_planner.cpp:138-157; without footsteps the result is not initialised. *)
Definition support_frame (s : support) : outcome frame :=
  match u_footsteps s with
  | [] => UB
  | f :: l => Ok (frame_loop (f_frame f) 1 l)
  end.

(** footsteps_planner.cpp:159-170. *)
Definition footstep_frame (s : support) (sd : side) : outcome frame :=
  match find (fun f => side_eqb (f_side f) sd) (u_footsteps s) with
  | Some f => Ok (f_frame f)
  | None => Throw ELogic
  end.

(** footsteps_planner.cpp:172-181. *)
Definition apply_offset (s : support) (offset : point) : support :=
  let move f :=
    Footstep (f_width f) (f_length f) (f_side f)
             (Frame (fr_R (f_frame f)) (V3 (vx (fr_t (f_frame f)) + fst offset) (vy (fr_t (f_frame f)) + snd offset) (vz (fr_t (f_frame f)))))
             (f_polygon f) false in
  Support (map move (u_footsteps s)) (u_t_start s) (u_elapsed_ratio s) (u_time_ratio s) (u_target_world_dcm s) (u_start s) (u_end s)
          (u_polygon s) false.

(** footsteps_planner.cpp:183-191. *)
Definition support_side (s : support) : outcome side :=
  if Nat.ltb 1 (length (u_footsteps s)) then Throw ERuntime
  else match u_footsteps s with [] => UB | f :: _ => Ok (f_side f) end.

(** footsteps_planner.cpp:193-196. *)
Definition is_both (s : support) : bool := Nat.eqb (length (u_footsteps s)) 2.

(** footsteps_planner.cpp:198-210. *)
Definition transform_support (t : frame) (s : support) : support :=
  let move f := Footstep (f_width f) (f_length f) (f_side f) (frame_mul t (f_frame f)) (f_polygon f) false in
  Support (map move (u_footsteps s)) (u_t_start s) (u_elapsed_ratio s) (u_time_ratio s) (u_target_world_dcm s) (u_start s) (u_end s)
          (u_polygon s) false.

(** footsteps_planner.cpp:263-275: steps [step], [step + 1], ..., [step + k - 1], the last one being the end of the loop. *)
Fixpoint steps_loop (k : nat) (step : nat) (footsteps : list footstep) (middle : bool) : list support :=
  match k with
  | O => []
  | S k' =>
      let d := create_footstep (Params 0 0 0 0 0 0 0 0 0 0 0 0) Left frame_id in
      let single := new_support [nth step footsteps d] in
      let is_end := Nat.eqb step (length footsteps - 2) in
      (if negb is_end && middle then [single; new_support [nth step footsteps d; nth (step + 1) footsteps d]] else [single])
      ++ steps_loop k' (step + 1) footsteps middle
  end.

(** footsteps_planner.cpp:233-287. The indices of the loop are inside the vector; those of the final double support are not
    when there are less than two footsteps. *)
Definition make_supports (footsteps : list footstep) (t_start : R) (start middle end_ : bool) : outcome (list support) :=
  let n := length footsteps in
  let d := create_footstep (Params 0 0 0 0 0 0 0 0 0 0 0 0) Left frame_id in
  let f i := nth i footsteps d in
  let head :=
    if Nat.ltb 2 n then
      (if start then [set_t_start (set_start (new_support [f 0%nat; f 1%nat]) true) t_start]
       else set_t_start (new_support [f 0%nat]) t_start ::
            (if middle then [set_t_start (new_support [f 0%nat; f 1%nat]) t_start] else []))
      ++ steps_loop (n - 2) 1 footsteps middle
    else [] in
  if end_ then
    guard (Nat.leb 2 n) (Ok (head ++ [set_end (new_support [f (n - 2)%nat; f (n - 1)%nat]) true]))
  else Ok head.

(** bindings/expose-footsteps.cpp:66-97 (truncate_supports); std::out_of_range is a std::logic_error. *)
Definition truncate_supports (supports : list support) (index : Z) (add_end : bool) : outcome (list support) :=
  if Z.ltb (Z.of_nat (length supports)) index then Throw ELogic
  else
    let head := firstn (Z.to_nat index) supports in
    if add_end then
      match rev head with
      | [] => UB
      | b :: _ =>
          if u_end b then Ok head
          else
            match u_footsteps b, nth_error supports (Z.to_nat index) with
            | f :: _, Some next =>
                match u_footsteps next with
                | [] => UB
                | g :: _ =>
                    if side_eqb (other_side (f_side g)) (f_side f) then Ok (head ++ [set_end (new_support [f; g]) true])
                    else match nth_error (u_footsteps next) 1 with
                         | Some h => Ok (head ++ [set_end (new_support [f; h]) true])
                         | None => UB
                         end
                end
            | _, _ => UB
            end
      end
    else Ok head.
