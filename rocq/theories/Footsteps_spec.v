(** Specification of the walk parameters, footsteps, supports and planners. *)
From Coq Require Import Reals List ZArith Bool.
From Verif Require Import Base Linalg Angle Geom3 Tools_model Geometry_model Geometry_spec Footsteps_model.
Import ListNotations.
Open Scope R_scope.

(** ** Parameters *)

Definition positive_limits (p : params) : Prop :=
  0 < p_max_dx_forward p /\ 0 < p_max_dx_backward p /\ 0 < p_max_dy p /\ 0 < p_max_dtheta p.

(** The steps that are allowed: the ellipsoid, the L1 ball or the double cone whose half-axes are the maximal steps, with a
    different maximal step forwards and backwards. *)
Definition max_dx (p : params) (x : R) : R := if Rle_dec 0 x then p_max_dx_forward p else p_max_dx_backward p.
Definition allowed (c : clipping) (p : params) (s : vec3) : Prop :=
  let x := vx s / max_dx p (vx s) in
  let y := vy s / p_max_dy p in
  let z := vz s / p_max_dtheta p in
  match c with
  | Ellipsoid => x * x + y * y + z * z <= 1
  | Box => Rabs x + Rabs y + Rabs z <= 1
  | Conic => sqrt (x * x + y * y) + Rabs z <= 1
  end.

(** ** Geometry of the feet *)

(** The lateral position of the other foot in the frame of a foot. *)
Definition lateral (s : side) (d : R) : R := match s with Left => - d | Right => d end.

(** The points of the sole, extended by a margin, seen from above. *)
Definition on_sole (f : footstep) (margin : R) (p : point) : Prop :=
  exists u v, Rabs u <= f_length f / 2 + margin /\ Rabs v <= f_width f / 2 + margin /\
    let c := frame_act (f_frame f) (V3 u v 0) in p = (vx c, vy c).

(** The foot is not upside down: the vertical component of its z axis is positive. *)
Definition upright (f : frame) : Prop := rigid f /\ 0 < m22 (fr_R f).

(** A strictly convex polygon listed clockwise: any three points, in the order of the list, turn to the right. *)
Definition turn (a b c : point) : R := v2_cross (v2_sub b a) (v2_sub c a).
Definition convex_clockwise (l : list point) : Prop :=
  forall i j k a b c, (i < j < k)%nat -> nth_error l i = Some a -> nth_error l j = Some b -> nth_error l k = Some c -> turn a b c < 0.

(** The convex hull of a list of points. *)
Definition in_hull (l : list point) (p : point) : Prop :=
  exists w : nat -> R, (forall i, 0 <= w i) /\ Rsum (length l) w = 1 /\
    fst p = Rsum (length l) (fun i => w i * fst (nth i l (0, 0))) /\ snd p = Rsum (length l) (fun i => w i * snd (nth i l (0, 0))).

(** ** Objects obtained from the planner *)

(** Footsteps whose polygon has not been asked for: created, or taken as the opposite of such a footstep. *)
Inductive planned (p : params) : footstep -> Prop :=
| planned_create s t : planned p (create_footstep p s t)
| planned_opposite f x y a : planned p f -> planned p (opposite_footstep p f x y a)
| planned_clipped c f g x y a : planned p f -> clipped_opposite_footstep c p f x y a = Some g -> planned p g.

(** ... and footsteps and supports handled with the other operations. *)
Inductive handled (p : params) (hull : list point -> list point) : footstep -> Prop :=
| handled_planned f : planned p f -> handled p hull f
| handled_queried f : handled p hull f -> handled p hull (fst (support_polygon f))
| handled_support f s : handled_s p hull s -> In f (u_footsteps s) -> handled p hull f
with handled_s (p : params) (hull : list point -> list point) : support -> Prop :=
| handled_new l : (forall f, In f l -> handled p hull f) -> handled_s p hull (new_support l)
| handled_offset s o : handled_s p hull s -> handled_s p hull (apply_offset s o)
| handled_transform s t : handled_s p hull s -> handled_s p hull (transform_support t s)
| handled_set_start s b : handled_s p hull s -> handled_s p hull (set_start s b)
| handled_set_end s b : handled_s p hull s -> handled_s p hull (set_end s b)
| handled_set_t_start s t : handled_s p hull s -> handled_s p hull (set_t_start s t)
| handled_query s : handled_s p hull s -> handled_s p hull (fst (support_support_polygon hull s)).

(** The corners of the soles that a support is made of. *)
Definition corners (s : support) : list point := flat_map (fun f => compute_polygon f 0) (u_footsteps s).

(** Assigning the frame of a footstep, as the Python bindings allow. *)
Definition assign_frame (f : footstep) (t : frame) : footstep :=
  Footstep (f_width f) (f_length f) (f_side f) t (f_polygon f) (f_computed f).

(** ** Sequences *)

(** The sides alternate, starting with a given one. *)
Fixpoint alternating (s : side) (l : list footstep) : Prop :=
  match l with [] => True | f :: l' => f_side f = s /\ alternating (other_side s) l' end.

(** The phases of a walk, given by the rank of their footsteps: i alone, or i and i + 1 together. *)
Inductive phase : Type := Single (i : nat) | Double (i : nat).
Definition feet (l : list footstep) (ph : phase) : list (option footstep) :=
  match ph with Single i => [nth_error l i] | Double i => [nth_error l i; nth_error l (S i)] end.
Definition has_feet (l : list footstep) (s : support) (ph : phase) : Prop := map Some (u_footsteps s) = feet l ph.

(** From a phase to the next one, a single foot moves: it is raised, laid down, or one is raised while the other one lands. *)
Definition follows (a b : phase) : Prop :=
  match a, b with
  | Single i, Double j => j = i
  | Double i, Single j => j = S i
  | Single i, Single j => j = S i
  | _, _ => False
  end.
Fixpoint linked (l : list phase) : Prop :=
  match l with
  | a :: (b :: _) as l' => follows a b /\ linked l'
  | _ => True
  end.
Definition singles (l : list phase) : list nat := flat_map (fun ph => match ph with Single i => [i] | Double _ => [] end) l.
Definition doubles (l : list phase) : list nat := flat_map (fun ph => match ph with Single _ => [] | Double i => [i] end) l.

(** The step from one foot to the next one: its frame is that of the foot, moved by the feet spacing and the step. *)
Definition steps_by (p : params) (f g : footstep) (s : vec3) : Prop :=
  f_side g = other_side (f_side f) /\
  f_frame g = frame_mul (f_frame f) (planar (vx s) (lateral (f_side f) (p_feet_spacing p) + vy s) (vz s)).

(** The feet move together with the frame of the world. *)
Definition moved (t : frame) (f : footstep) : footstep := assign_frame f (frame_mul t (f_frame f)).

(** Motions along the floor (and possibly to another height). *)
Definition floor_motion (t : frame) : Prop := exists a x y z, t = Frame (rot_z a) (V3 x y z).

(** What one step of the naive planner does, from the support foot u to the new foot v whose target is given: the remaining
    way (ex, ey) is that of the target with respect to the neutral position of the foot; the way made is k * (r * ex, r * ey,
    yaw), where r is 1 unless the target is out of the accessible window and k is 1 unless the step is not allowed. *)
Definition naive_move (p : params) (n : naive) (u v : footstep) (target : frame) (window yaw_window : bool) : Prop :=
  exists k r ex ey yaw,
    0 < k <= 1 /\ 0 <= r <= 1 /\
    vx (fr_t (frame_mul (frame_inv (f_frame u)) target)) = ex /\
    vy (fr_t (frame_mul (frame_inv (f_frame u)) target)) = lateral (f_side u) (p_feet_spacing p) + ey /\
    steps_by p u v (v3_scale k (V3 (r * ex) (r * ey) yaw)) /\
    Rabs (r * ex) <= n_length n /\ Rabs (r * ey) <= n_width n /\ Rabs yaw <= n_yaw n /\
    allowed Ellipsoid p (v3_scale k (V3 (r * ex) (r * ey) yaw)) /\
    (allowed Ellipsoid p (V3 (r * ex) (r * ey) yaw) -> k = 1) /\
    (window = true -> r = 1) /\
    (yaw_window = true -> sqrt (ex * ex + ey * ey) <= n_place_threshold n -> yaw = frame_yaw (fr_R (frame_mul (frame_inv (f_frame u)) target))).
Definition target_of (target_left target_right : frame) (s : side) : frame := match s with Left => target_left | Right => target_right end.
