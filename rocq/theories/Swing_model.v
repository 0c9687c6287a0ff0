(** Model of the swing foot trajectories of placo::humanoid: SwingFoot (src/placo/humanoid/swing_foot.cpp), SwingFootCubic
    (swing_foot_cubic.cpp) and SwingFootQuintic (swing_foot_quintic.cpp).

    Simplification. M.inverse() * v is an input, [inv_mul M v]. *)
From Coq Require Import Reals List ZArith Bool.
From Verif Require Import Base Geom3 Spline_model.
Import ListNotations.
Open Scope R_scope.

(** A VectorXd filled with the comma initializer. *)
Definition vec_of (l : list R) : vec := Vec (length l) (fun i => nth i l 0).

(** A matrix given by its rows. *)
Definition rows_of (n : nat) (l : list vec) : mat := Mat (length l) n (fun i j => vat (nth i l (vec_of [])) j).

(** ** SwingFoot *)

(** swing_foot.cpp:6-15. *)
Definition position_coefficients (t : R) : vec := vec_of [t * t * t; t * t; t; 1].

(** swing_foot.cpp:17-25. *)
Definition velocity_coefficients (t : R) : vec := vec_of [3 * (t * t); 2 * t; 1; 0].

(** swing_foot.h:18-25 and foot_trajectory.h:15. *)
Record swing : Type := Swing { w_start : R; w_end : R; w_a : vec3; w_b : vec3; w_c : vec3; w_d : vec3 }.

(** The four vectors made of the coefficients found for each axis (lines 64-67 and 96-99). *)
Definition coefficient (x y z : vec) (i : nat) : vec3 := V3 (vat x i) (vat y i) (vat z i).

(** swing_foot.cpp:27-70. The blocks given to the comma initializers are columns, and the matrices are then transposed. *)
Definition make_swing (inv_mul : mat -> vec -> vec) (t_start t_end height : R) (start target : vec3) : swing :=
  let A := rows_of 4 [position_coefficients 0; position_coefficients (t_end - t_start);
                      velocity_coefficients 0; velocity_coefficients (t_end - t_start)] in
  let x := inv_mul A (vec_of [vx start; vx target; 0; 0]) in
  let y := inv_mul A (vec_of [vy start; vy target; 0; 0]) in
  let B := rows_of 4 [position_coefficients 0; position_coefficients (1 / 4 * (t_end - t_start));
                      position_coefficients (3 / 4 * (t_end - t_start)); position_coefficients (t_end - t_start)] in
  let z := inv_mul B (vec_of [vz start; height; height; vz target]) in
  Swing t_start t_end (coefficient x y z 0) (coefficient x y z 1) (coefficient x y z 2) (coefficient x y z 3).

(** swing_foot.cpp:104-111. *)
Definition swing_pos (s : swing) (t0 : R) : vec3 :=
  let t := t0 - w_start s in
  let t_2 := t * t in
  let t_3 := t_2 * t in
  v3_add (v3_add (v3_add (v3_scale t_3 (w_a s)) (v3_scale t_2 (w_b s))) (v3_scale t (w_c s))) (w_d s).

(** swing_foot.cpp:113-119. *)
Definition swing_vel (s : swing) (t0 : R) : vec3 :=
  let t := t0 - w_start s in
  let t_2 := t * t in
  v3_add (v3_add (v3_scale t_2 (v3_scale 3 (w_a s))) (v3_scale t (v3_scale 2 (w_b s)))) (w_c s).

(** swing_foot.cpp:72-102. *)
Definition remake_swing (inv_mul : mat -> vec -> vec) (old : swing) (t : R) (target : vec3) : swing :=
  let A := rows_of 4 [position_coefficients (t - w_start old); position_coefficients (w_end old - w_start old);
                      velocity_coefficients (t - w_start old); velocity_coefficients (w_end old - w_start old)] in
  let x := inv_mul A (vec_of [vx (swing_pos old t); vx target; vx (swing_vel old t); 0]) in
  let y := inv_mul A (vec_of [vy (swing_pos old t); vy target; vy (swing_vel old t); 0]) in
  Swing (w_start old) (w_end old)
    (V3 (vat x 0) (vat y 0) (vz (w_a old))) (V3 (vat x 1) (vat y 1) (vz (w_b old)))
    (V3 (vat x 2) (vat y 2) (vz (w_c old))) (V3 (vat x 3) (vat y 3) (vz (w_d old))).

(** ** SwingFootCubic *)

(** swing_foot_cubic.h:17-28; the fields t_start, t_end and virt_duration are never assigned nor read by the library. *)
Record cswing : Type := CSwing { cw_x : cubic_spline; cw_y : cubic_spline; cw_z : cubic_spline }.

(** The sequence of add_point(t, x, dx) on one spline. *)
Fixpoint add_points (s : cubic_spline) (l : list (R * R * R)) : outcome cubic_spline :=
  match l with
  | [] => Ok s
  | (t, x, dx) :: l' =>
      match add_point s t x dx with
      | (s', Ok _) => add_points s' l'
      | (_, Throw e) => Throw e
      | (_, UB) => UB
      end
  end.

(** swing_foot_cubic.cpp:33-42, the vector t. *)
Definition apex_times (virt_t_start half_duration rise_ratio : R) : list R :=
  if Rlt_dec 0 rise_ratio then
    [virt_t_start + half_duration - half_duration * rise_ratio; virt_t_start + half_duration + half_duration * rise_ratio]
  else [virt_t_start + half_duration].

(** swing_foot_cubic.cpp:17-58. The calls to the three splines are independent; they can only throw the same exception. *)
Definition make_cswing (t_start virt_duration height rise_ratio : R) (start target : vec3) (elapsed_ratio : R) (start_vel : vec3)
  : outcome cswing :=
  let half_duration := virt_duration / 2 in
  let virt_t_start := t_start - elapsed_ratio * virt_duration in
  let t_end := t_start + (1 - elapsed_ratio) * virt_duration in
  let apex := filter (fun t => if Rlt_dec t_start t then true else false) (apex_times virt_t_start half_duration rise_ratio) in
  x <- add_points (new_spline false) [(t_start, vx start, vx start_vel); (t_end, vx target, 0)] ;;
  y <- add_points (new_spline false) [(t_start, vy start, vy start_vel); (t_end, vy target, 0)] ;;
  z <- add_points (new_spline false) ((t_start, vz start, vz start_vel) :: map (fun t => (t, height, 0)) apex ++ [(t_end, vz target, 0)]) ;;
  Ok (CSwing x y z).

(** swing_foot_cubic.cpp:7-10 and 12-15. The pieces that the splines compute when they are first asked for are not kept:
    they do not change the results (C33_queries). *)
Definition cswing_pos (s : cswing) (t : R) : outcome vec3 :=
  x <- snd (pos (cw_x s) t) ;; y <- snd (pos (cw_y s) t) ;; z <- snd (pos (cw_z s) t) ;; Ok (V3 x y z).
Definition cswing_vel (s : cswing) (t : R) : outcome vec3 :=
  x <- snd (vel (cw_x s) t) ;; y <- snd (vel (cw_y s) t) ;; z <- snd (vel (cw_z s) t) ;; Ok (V3 x y z).

(** ** SwingFootQuintic *)

(** swing_foot_quintic.cpp:6-31: vectors of size 18, whose comma initializer gives 6 coefficients only. The others
    are not initialised: [junk]. Eigen's CommaInitializer asserts that all the coefficients are given, see
    [quintic_checks]. *)
Definition quintic_pos_times (junk : nat -> R) (t : R) : vec :=
  Vec 18 (fun i => if Nat.ltb i 6 then nth i [t ^ 5; t ^ 4; t ^ 3; t ^ 2; t ^ 1; 1] 0 else junk i).
Definition quintic_d_times (junk : nat -> R) (t : R) : vec :=
  Vec 18 (fun i => if Nat.ltb i 6 then nth i [5 * t ^ 4; 4 * t ^ 3; 3 * t ^ 2; 2 * t ^ 1; 1; 0] 0 else junk i).
Definition quintic_dd_times (junk : nat -> R) (t : R) : vec :=
  Vec 18 (fun i => if Nat.ltb i 6 then nth i [20 * t ^ 3; 12 * t ^ 2; 6 * t ^ 1; 2; 0; 0] 0 else junk i).

(** A row of the system, A.block(_, 6 * axis, 1, 6) = times.transpose(): only the first coefficients have a place. *)
Definition quintic_row (axis : nat) (times : vec) : vec :=
  Vec 18 (fun j => if Nat.leb (6 * axis) j && Nat.ltb j (6 * axis + 6) then vat times (j - 6 * axis) else 0).

(** swing_foot_quintic.h:17-27; t_start and t_end are never assigned. *)
Record qswing : Type := QSwing { q_a : vec3; q_b : vec3; q_c : vec3; q_d : vec3; q_e : vec3; q_f : vec3 }.

(** swing_foot_quintic.cpp:33-93. With [checks] (Eigen's assertions, absent when NDEBUG is defined), the number of
    coefficients given to the comma initializers and the sizes of the assigned blocks are wrong and the program stops,
    which is [UB] here. Without them, the coefficients that have a place are copied. *)
Definition make_qswing (checks : bool) (junk : nat -> R) (inv_mul : mat -> vec -> vec) (t_start t_end height : R) (start target : vec3)
  : outcome qswing :=
  let t_a := t_start + (t_end - t_start) / 4 in
  let t_b := t_start + 3 * (t_end - t_start) / 4 in
  let p axis t := quintic_row axis (quintic_pos_times junk t) in
  let d axis t := quintic_row axis (quintic_d_times junk t) in
  let dd axis t := quintic_row axis (quintic_dd_times junk t) in
  let A := rows_of 18
    [p 0%nat t_start; p 1%nat t_start; p 2%nat t_start; p 0%nat t_end; p 1%nat t_end; p 2%nat t_end;
     d 0%nat t_start; d 1%nat t_start; d 2%nat t_start; d 0%nat t_end; d 1%nat t_end; d 2%nat t_end;
     dd 0%nat t_start; dd 1%nat t_start; dd 0%nat t_end; dd 1%nat t_end; p 2%nat t_a; p 2%nat t_b] in
  let b := vec_of [vx start; vy start; vz start; vx target; vy target; vz target; 0; 0; 0; 0; 0; 0; 0; 0; 0; 0; height; height] in
  let k := inv_mul A b in
  let c i := V3 (vat k i) (vat k (6 + i)%nat) (vat k (12 + i)%nat) in
  guard (negb checks || (Nat.eqb (vlen (quintic_pos_times junk t_start)) 6))
    (Ok (QSwing (c 0%nat) (c 1%nat) (c 2%nat) (c 3%nat) (c 4%nat) (c 5%nat))).

(** swing_foot_quintic.cpp:95-103. *)
Definition qswing_pos (s : qswing) (t : R) : vec3 :=
  let t_2 := t * t in
  let t_3 := t_2 * t in
  let t_4 := t_3 * t in
  let t_5 := t_4 * t in
  v3_add (v3_add (v3_add (v3_add (v3_add (v3_scale t_5 (q_a s)) (v3_scale t_4 (q_b s))) (v3_scale t_3 (q_c s))) (v3_scale t_2 (q_d s)))
                 (v3_scale t (q_e s))) (q_f s).

(** swing_foot_quintic.cpp:105-112. *)
Definition qswing_vel (s : qswing) (t : R) : vec3 :=
  let t_2 := t * t in
  let t_3 := t_2 * t in
  let t_4 := t_3 * t in
  v3_add (v3_add (v3_add (v3_add (v3_scale t_4 (v3_scale 5 (q_a s))) (v3_scale t_3 (v3_scale 4 (q_b s)))) (v3_scale t_2 (v3_scale 3 (q_c s))))
                 (v3_scale t (v3_scale 2 (q_d s)))) (q_e s).
