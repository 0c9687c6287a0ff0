(** Specification of the dummy walk: histories of calls, walks on the floor, the height of a step. *)
From Coq Require Import Reals List ZArith Bool String.
From Verif Require Import Base Geom3 Tools_model Geometry_model Geometry_spec Spline_model Spline_spec Footsteps_model Footsteps_spec Robot_model Robot_spec Wpg_model Dummy_model.
Import ListNotations.
Open Scope R_scope.

(** The calls of a user after the construction or a reset. *)
Inductive dop : Type := DNext (dx dy dtheta : R) | DUpdate (t : R) | DPlace (T : frame).
Definition dcall (pn : pin) ik (c : clipping) (p : wparams) (w : dwalk) (o : dop) : dwalk * outcome unit :=
  match o with
  | DNext dx dy dtheta => next_step c p w dx dy dtheta
  | DUpdate t => update ik p w t
  | DPlace T => update_T_world_support pn w T
  end.
(** ... until the first one that fails. *)
Fixpoint dcalls (pn : pin) ik (c : clipping) (p : wparams) (w : dwalk) (l : list dop) : dwalk * outcome unit :=
  match l with
  | [] => (w, Ok tt)
  | o :: l' => match dcall pn ik c p w o with (w', Ok _) => dcalls pn ik c p w' l' | r => r end
  end.
Definition is_next (o : dop) : bool := match o with DNext _ _ _ => true | _ => false end.
Definition is_update (o : dop) : bool := match o with DUpdate _ => true | _ => false end.

(** The support foot, the foot that flies and its side, the sides of the targets. *)
Definition support_of (w : dwalk) : side := if dw_support_left w then Left else Right.
Definition foot_of (w : dwalk) (s : side) : frame := match s with Left => dw_left w | Right => dw_right w end.
Definition target_of_foot (w : dwalk) (s : side) : frame := match s, dw_targets w with Left, (l, _, _) => l | Right, (_, r, _) => r end.
Definition trunk_of (w : dwalk) : frame := snd (dw_targets w).

(** The frame is on the floor. *)
Definition on_floor (T : frame) : Prop := exists x y a, T = planar x y a.

(** [U] is where the other foot lands, from a foot at [T] of the side [s], for the step (dx, dy, dtheta): at the feet spacing, moved by the step (a rotation
    moves it outwards), scaled down when it has to be: what is done is always allowed, and it is what was asked for when that is allowed and the feet
    stay apart. *)
Definition wanted (p : params) (s : side) (st : vec3) : vec3 := V3 (vx st) (vy st + lateral s (p_dtheta_spacing p * Rabs (vz st))) (vz st).
Definition landing (p : params) (s : side) (T : frame) (st : vec3) : frame := frame_mul T (planar (vx st) (lateral s (p_feet_spacing p) + vy st) (vz st)).
Definition step_towards (c : clipping) (p : params) (s : side) (T U : frame) (st : vec3) : Prop :=
  exists k, 0 < k <= 1 /\ allowed c p (v3_scale k (wanted p s st)) /\ U = landing p s T (v3_scale k (wanted p s st)) /\
    (allowed c p (wanted p s st) ->
     overlap (create_footstep p (other_side s) (landing p s T (wanted p s st))) (create_footstep p s T) (/ 100) = false -> k = 1).

(** Valid parameters. *)
Definition dparams_ok (p : wparams) : Prop := positive_limits (w_base p) /\ 0 < w_rise_ratio p < 1.

(** The trajectory of the height was made from the parameters. *)
Definition lift_ok (p : wparams) (s : cubic_spline) : Prop :=
  reachable s /\ cs_angular s = false /\ cs_points s = [SPoint 0 0 0; SPoint (1 / 2 - w_rise_ratio p / 2) (w_foot_height p) 0; SPoint (1 / 2 + w_rise_ratio p / 2) (w_foot_height p) 0; SPoint 1 0 0].

(** A walk: its feet are on the floor, and the flying foot is to land where the last step leads it. *)
Definition walk_ok (c : clipping) (p : wparams) (w : dwalk) : Prop :=
  on_floor (dw_left w) /\ on_floor (dw_right w) /\ on_floor (dw_next w) /\ lift_ok p (dw_lift w) /\
  step_towards c (w_base p) (support_of w) (foot_of w (support_of w)) (dw_next w) (dw_step w).

(** The height of the flying foot: it rises, stays at the height of the step, and goes down. *)
Definition smooth (h u : R) : R := h * (3 * u ^ 2 - 2 * u ^ 3).
Definition lift_height (p : wparams) (t : R) : R :=
  let a := 1 / 2 - w_rise_ratio p / 2 in
  if Rle_dec t 0 then 0 else if Rle_dec t a then smooth (w_foot_height p) (t / a) else if Rle_dec t (1 - a) then w_foot_height p
  else if Rle_dec t 1 then smooth (w_foot_height p) ((1 - t) / a) else 0.

(** The z axis of the frame is vertical. *)
Definition level (T : frame) : Prop := m3_vec (fr_R T) (V3 0 0 1) = V3 0 0 1 /\ m3_vec (m3_t (fr_R T)) (V3 0 0 1) = V3 0 0 1.

(** The robot: its feet are frames of it, and its inverse kinematics give a configuration of the same robot. *)
Definition robot_ok (m : rmodel) (r : robot) : Prop := r_model r = m /\ unit_base (st_q (r_state r)) /\ unit_base (fst (r_seen r)).
Definition feet_found (pn : pin) (m : rmodel) (moving : nat -> Prop) (i j : nat) : Prop :=
  frames_correct pn m moving /\ rigid (m_root m) /\ position_of "left_foot" (m_frames m) = Some i /\ position_of "right_foot" (m_frames m) = Some j /\
  moving i /\ moving j /\ (i < List.length (m_frames m))%nat /\ (j < List.length (m_frames m))%nat.
Definition ik_works (m : rmodel) (ik : robot -> frame * frame * frame -> outcome robot) : Prop :=
  forall r T, robot_ok m r -> exists r', ik r T = Ok r' /\ robot_ok m r'.
