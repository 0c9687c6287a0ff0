(** Model of placo::tools::CubicSpline (src/placo/tools/cubic_spline.cpp) and CubicSpline3D (cubic_spline_3d.cpp). *)
From Coq Require Import Reals List ZArith Bool.
From Verif Require Import Base Angle Tools_model.
Import ListNotations.
Open Scope R_scope.

(** cubic_spline.h:13-18. *)
Record spoint : Type := SPoint { sp_t : R; sp_x : R; sp_dx : R }.

(** cubic_spline.h:80-86. *)
Record cubic : Type := Cubic { c_a : R; c_b : R; c_c : R; c_d : R }.

(** cubic_spline.h:88-93. *)
Record piece : Type := Piece { pc_poly : cubic; pc_start : R; pc_end : R }.

(** cubic_spline.h:8-136. *)
Record cubic_spline : Type := Spline { cs_angular : bool; cs_dirty : bool; cs_points : list spoint; cs_pieces : list piece }.

(** cubic_spline.h:62-67. *)
Inductive value_type : Type := VValue | VSpeed | VAcceleration.

(** cubic_spline.cpp:10-13 and cubic_spline.h:77-78. *)
Definition new_spline (angular : bool) : cubic_spline := Spline angular true [] [].

(** _points.back(). *)
Definition last_point (l : list spoint) : option spoint :=
  match rev l with [] => None | p :: _ => Some p end.

(** cubic_spline.cpp:15-31: the object after the call, and what the call did. *)
Definition add_point (s : cubic_spline) (t x dx : R) : cubic_spline * outcome unit :=
  match last_point (cs_points s) with
  | None => (Spline (cs_angular s) true (cs_points s ++ [SPoint t x dx]) (cs_pieces s), Ok tt)
  | Some l =>
      let x' := if cs_angular s then sp_x l + wrap_angle (x - sp_x l) else x in
      if Rle_dec t (sp_t l) then (s, Throw ERuntime)
      else (Spline (cs_angular s) true (cs_points s ++ [SPoint t x' dx]) (cs_pieces s), Ok tt)
  end.

(** cubic_spline.cpp:33-37; dirty is not touched. *)
Definition clear (s : cubic_spline) : cubic_spline := Spline (cs_angular s) (cs_dirty s) [] [].

(** cubic_spline.cpp:39-42: _splines[0] and _splines[size - 1] when there is no spline are UB. *)
Definition duration (s : cubic_spline) : outcome R :=
  match cs_pieces s with
  | [] => UB
  | p :: _ => Ok (pc_end (last (cs_pieces s) p) - pc_start p)
  end.

(** cubic_spline.cpp:127-130. *)
Definition polynom_value (t : R) (p : cubic) : R := c_d p + t * (t * (c_a p * t + c_b p) + c_c p).

(** cubic_spline.cpp:132-135. *)
Definition polynom_diff (t : R) (p : cubic) : R := t * (3 * c_a p * t + 2 * c_b p) + c_c p.

(** cubic_spline.cpp:137-140. *)
Definition polynom_diff2 (t : R) (p : cubic) : R := 6 * c_a p * t + 2 * c_b p.

(** cubic_spline.cpp:142-164. M.inverse() * v is given in closed form: for t1 <> t2 it is the only solution w of
    M w = v (see [fit_system] and [fit_unique] in Spline_proofs.v). For t1 = t2, M has no inverse and the result would
    not be finite; add_point never lets this happen. *)
Definition fit (t1 x1 dx1 t2 x2 dx2 : R) : cubic :=
  let h := t2 - t1 in
  let a := (2 * (x1 - x2) + (dx1 + dx2) * h) / (h * h * h) in
  let b := (3 * (x2 - x1) - (2 * dx1 + dx2) * h) / (h * h) in
  (* the polynomial x1 + dx1 (t - t1) + b (t - t1)^2 + a (t - t1)^3, in powers of t *)
  Cubic a (b - 3 * a * t1) (dx1 - 2 * b * t1 + 3 * a * t1 * t1) (x1 - dx1 * t1 + b * t1 * t1 - a * t1 * t1 * t1).

(** cubic_spline.cpp:174-182, the loop. *)
Fixpoint pieces_of (l : list spoint) : list piece :=
  match l with
  | p :: ((q :: _) as l') =>
      Piece (fit (sp_t p - sp_t p) (sp_x p) (sp_dx p) (sp_t q - sp_t p) (sp_x q) (sp_dx q)) (sp_t p) (sp_t q) :: pieces_of l'
  | _ => []
  end.

(** cubic_spline.cpp:166-183; with fewer than two points there is no piece. *)
Definition compute_splines (s : cubic_spline) : cubic_spline :=
  Spline (cs_angular s) (cs_dirty s) (cs_points s) (pieces_of (cs_points s)).

(** cubic_spline.cpp:83-99, the loop: the first piece that contains t. *)
Fixpoint find_piece (l : list piece) (t : R) (type : value_type) : R :=
  match l with
  | [] => 0
  | p :: l' =>
      if (if Rle_dec (pc_start p) t then true else false) && (if Rle_dec t (pc_end p) then true else false) then
        match type with
        | VValue => polynom_value (t - pc_start p) (pc_poly p)
        | VSpeed => polynom_diff (t - pc_start p) (pc_poly p)
        | VAcceleration => polynom_diff2 (t - pc_start p) (pc_poly p)
        end
      else find_piece l' t type
  end.

(** cubic_spline.cpp:48-102: the object after the call, and its result. front() and back() of an empty vector are UB. *)
Definition interpolation (s : cubic_spline) (t : R) (type : value_type) : cubic_spline * outcome R :=
  let s := if cs_dirty s then
             let s' := compute_splines s in Spline (cs_angular s') false (cs_points s') (cs_pieces s')
           else s in
  (s, match cs_points s with
      | [] => Ok 0
      | [p] => Ok (match type with VValue => sp_x p | _ => sp_dx p end)
      | _ =>
          match cs_pieces s with
          | [] => UB
          | f :: _ =>
              let t := if Rlt_dec t (pc_start f) then pc_start f else t in
              let e := pc_end (last (cs_pieces s) f) in
              let t := if Rlt_dec e t then e else t in
              Ok (find_piece (cs_pieces s) t type)
          end
      end).

(** cubic_spline.cpp:104-117. *)
Definition pos (s : cubic_spline) (t : R) : cubic_spline * outcome R := interpolation s t VValue.
Definition vel (s : cubic_spline) (t : R) : cubic_spline * outcome R := interpolation s t VSpeed.
Definition acc (s : cubic_spline) (t : R) : cubic_spline * outcome R := interpolation s t VAcceleration.

(** cubic_spline_3d.h:56-59. *)
Record spline3 : Type := Spline3 { s3_x : cubic_spline; s3_y : cubic_spline; s3_z : cubic_spline }.

(** The implicit constructor. *)
Definition new_spline3 : spline3 := Spline3 (new_spline false) (new_spline false) (new_spline false).

(** cubic_spline_3d.cpp:9-14. *)
Definition clear3 (s : spline3) : spline3 := Spline3 (clear (s3_x s)) (clear (s3_y s)) (clear (s3_z s)).

(** cubic_spline_3d.cpp:16-19. *)
Definition duration3 (s : spline3) : outcome R := duration (s3_x s).

(** cubic_spline_3d.cpp:21-26: an exception stops the sequence. *)
Definition add_point3 (s : spline3) (t : R) (v d : R * R * R) : spline3 * outcome unit :=
  let (x, o) := add_point (s3_x s) t (fst (fst v)) (fst (fst d)) in
  match o with
  | Ok _ =>
      let (y, o) := add_point (s3_y s) t (snd (fst v)) (snd (fst d)) in
      match o with
      | Ok _ => let (z, o) := add_point (s3_z s) t (snd v) (snd d) in (Spline3 x y z, o)
      | _ => (Spline3 x y (s3_z s), o)
      end
  | _ => (Spline3 x (s3_y s) (s3_z s), o)
  end.

(** cubic_spline_3d.cpp:28-41. *)
Definition interpolation3 (s : spline3) (t : R) (type : value_type) : spline3 * outcome (R * R * R) :=
  let (x, ox) := interpolation (s3_x s) t type in
  let (y, oy) := interpolation (s3_y s) t type in
  let (z, oz) := interpolation (s3_z s) t type in
  (Spline3 x y z, vx <- ox ;; vy <- oy ;; vz <- oz ;; Ok (vx, vy, vz)).

(** Histories: the calls a user can make on an object. *)
Inductive scall : Type := CAdd (t x dx : R) | CClear | CQuery (t : R) (type : value_type) | CDuration.

(** The object after a call, exceptions being caught by the user; [None] after undefined behaviour. *)
Definition scall_run (s : cubic_spline) (c : scall) : option cubic_spline :=
  match c with
  | CAdd t x dx => match add_point s t x dx with (s', UB) => None | (s', _) => Some s' end
  | CClear => Some (clear s)
  | CQuery t type => match interpolation s t type with (s', UB) => None | (s', _) => Some s' end
  | CDuration => match duration s with UB => None | _ => Some s end
  end.

Fixpoint scalls_run (s : cubic_spline) (l : list scall) : option cubic_spline :=
  match l with
  | [] => Some s
  | c :: l' => match scall_run s c with Some s' => scalls_run s' l' | None => None end
  end.

Inductive scall3 : Type := CAdd3 (t : R) (v d : R * R * R) | CClear3 | CQuery3 (t : R) (type : value_type) | CDuration3.

Definition scall3_run (s : spline3) (c : scall3) : option spline3 :=
  match c with
  | CAdd3 t v d => match add_point3 s t v d with (s', UB) => None | (s', _) => Some s' end
  | CClear3 => Some (clear3 s)
  | CQuery3 t type => match interpolation3 s t type with (s', UB) => None | (s', _) => Some s' end
  | CDuration3 => match duration3 s with UB => None | _ => Some s end
  end.

Fixpoint scalls3_run (s : spline3) (l : list scall3) : option spline3 :=
  match l with
  | [] => Some s
  | c :: l' => match scall3_run s c with Some s' => scalls3_run s' l' | None => None end
  end.
