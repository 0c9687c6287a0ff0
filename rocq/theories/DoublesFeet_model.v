(** The planning of the feet in double arithmetic (see Doubles_model.v): the times of the parts and of the swings are rounded. The
    orientations, and what is read in the previous trajectory, are those of the model with real numbers (Wpg_model.v). *)
From Coq Require Import Reals ZArith List Bool.
From Verif Require Import Base Geom3 Tools_model Spline_model Swing_model Geometry_model Footsteps_model Wpg_model Doubles_model DoublesSwing_model.
Import ListNotations.
Open Scope R_scope.

(** walk_pattern_generator.cpp:340-380. *)
Definition d_plan_sgl_support (p : wparams) (j : wtraj) (i : nat) (old : option wtraj) : outcome wtraj :=
  q <- at_index (j_parts j) i ;;
  f0 <- at_index (u_footsteps (pt_support q)) 0 ;;
  let flying := other_side (f_side f0) in
  next <- at_index (j_parts j) (i + 1) ;;
  T_end <- footstep_frame (pt_support next) flying ;;
  let virt_duration := d_virt_duration (w_base p) (pt_support q) in
  j1 <- match i, old with
        | O, Some o =>
            T0 <- get_T_world_foot o flying (j_start j) ;;
            v0 <- get_v_world_foot o flying (j_start j) ;;
            w <- d_make_cswing (pt_start q) virt_duration (w_foot_height p) (w_rise_ratio p) (fr_t T0) (fr_t T_end)
                   (u_elapsed_ratio (pt_support q)) v0 ;;
            yaw0 <- get_yaw_world_foot o flying (j_start j) ;;
            dyaw0 <- snd (vel (foot_yaw o flying) (j_start j)) ;;
            yaw_add (set_parts j (replace (j_parts j) i (set_swing q w))) flying (j_start j) yaw0 dyaw0
        | O, None => UB
        | S i', _ =>
            prev <- at_index (j_parts j) i' ;;
            T0 <- footstep_frame (pt_support prev) flying ;;
            w <- d_make_cswing (pt_start q) virt_duration (w_foot_height p) (w_rise_ratio p) (fr_t T0) (fr_t T_end) 0 v3_zero ;;
            Ok (set_parts j (replace (j_parts j) i (set_swing q w)))
        end ;;
  j2 <- yaw_add j1 flying (pt_end q) (frame_yaw (fr_R T_end)) 0 ;;
  j3 <- (if has_double_support (w_base p) then Ok j2 else trunk_add j2 (pt_end q) (frame_yaw (fr_R T_end)) 0) ;;
  add_supports j3 (pt_end q) (pt_support q).

(** walk_pattern_generator.cpp:398-410. *)
Fixpoint d_plan_feet_loop (k : nat) (p : wparams) (j : wtraj) (i : nat) (old : option wtraj) : outcome wtraj :=
  match k with
  | O => Ok j
  | S k' =>
      q <- at_index (j_parts j) i ;;
      j' <- (if Nat.eqb (length (u_footsteps (pt_support q))) 1 then d_plan_sgl_support p j i old else plan_dbl_support j i) ;;
      d_plan_feet_loop k' p j' (i + 1) old
  end.

(** walk_pattern_generator.cpp:382-411. *)
Definition d_plan_feet_trajectories (p : wparams) (j : wtraj) (old : option wtraj) : outcome wtraj :=
  q <- at_index (j_parts j) 0 ;;
  j1 <- add_supports j (j_start j) (pt_support q) ;;
  j2 <- match old with
        | None => f <- support_frame (pt_support q) ;; trunk_add j1 (j_start j) (frame_yaw (fr_R f)) 0
        | Some o =>
            yaw0 <- get_yaw_world_trunk o (j_start j) ;;
            dyaw0 <- snd (vel (j_trunk o) (j_start j)) ;;
            trunk_add j1 (j_start j) yaw0 dyaw0
        end ;;
  d_plan_feet_loop (length (j_parts j)) p j2 0 old.
