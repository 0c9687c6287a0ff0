(** Model of placo::tools: angles (src/placo/tools/utils.cpp), Segment (segment.cpp), AxisesMask (axises_mask.cpp),
    Prioritized (prioritized.cpp) and the direction generators (directions.cpp). *)
From Coq Require Import Reals List ZArith Bool String Ascii.
From Verif Require Import Base Angle.
Import ListNotations.
Open Scope R_scope.

(** ** utils.cpp *)

(** utils.cpp:22-25. *)
Definition wrap_angle (a : R) : R := atan2 (sin a) (cos a).

(** utils.cpp:99-111. *)
Definition safe_acos (v : R) : R :=
  let v := if Rle_dec v (-1) then -1 else if Rle_dec 1 v then 1 else v in
  acos v.

(** ** segment.cpp *)

(** Eigen::Vector2d. *)
Definition point : Type := R * R.

(** segment.h:7-15. *)
Record segment : Type := Segment { s_start : point; s_end : point }.

(** Eigen: subtraction, dot product and norm of Vector2d. *)
Definition v2_sub (p q : point) : point := (fst p - fst q, snd p - snd q).
Definition v2_dot (p q : point) : R := fst p * fst q + snd p * snd q.
Definition v2_norm (p : point) : R := sqrt (v2_dot p p).

(** The expression v1.x() * v2.y() - v1.y() * v2.x(). *)
Definition v2_cross (p q : point) : R := fst p * snd q - snd p * fst q.

(** segment.cpp:14-17. *)
Definition segment_norm (s : segment) : R := v2_norm (v2_sub (s_end s) (s_start s)).

(** segment.cpp:19-24. When one of the segments has length 0 the quotient is 0 / 0, a NaN, and the comparison is
    false. *)
Definition is_parallel (s1 s2 : segment) (epsilon : R) : bool :=
  let v1 := v2_sub (s_end s1) (s_start s1) in
  let v2 := v2_sub (s_end s2) (s_start s2) in
  if Req_EM_T (v2_norm v1 * v2_norm v2) 0 then false
  else if Rlt_dec (Rabs (v2_cross v1 v2) / (v2_norm v1 * v2_norm v2)) epsilon then true else false.

(** segment.cpp:26-33. *)
Definition is_point_aligned (s : segment) (p : point) (epsilon : R) : bool :=
  if Rlt_dec (Rabs (v2_norm (v2_sub (s_start s) p))) epsilon then true
  else is_parallel s (Segment (s_start s) p) epsilon.

(** segment.cpp:35-38. *)
Definition is_segment_aligned (s1 s2 : segment) (epsilon : R) : bool :=
  is_point_aligned s1 (s_start s2) epsilon && is_point_aligned s1 (s_end s2) epsilon.

(** segment.cpp:40-45. *)
Definition is_point_in_segment (s : segment) (p : point) (epsilon : R) : bool :=
  let v1 := v2_sub (s_end s) (s_start s) in
  let v2 := v2_sub p (s_start s) in
  is_segment_aligned s (Segment (s_start s) p) epsilon &&
  (if Rle_dec 0 (v2_dot v1 v2) then true else false) && (if Rle_dec (v2_dot v1 v2) (v2_dot v1 v1) then true else false).

(** The default argument epsilon of segment.h. *)
Definition default_epsilon : R := 1 / 100000.

(** segment.cpp:56-72. [Ok None]: the determinant is 0 (a segment of length 0), the parameters are not finite. *)
Definition get_lambdas (s1 s2 : segment) : outcome (option (R * R)) :=
  if is_parallel s1 s2 default_epsilon then Throw ERuntime
  else
    let v1 := v2_sub (s_end s1) (s_start s1) in
    let v2 := v2_sub (s_end s2) (s_start s2) in
    let p1 := s_start s1 in
    let p2 := s_start s2 in
    let det := fst v1 * snd v2 - snd v1 * fst v2 in
    if Req_EM_T det 0 then Ok None
    else Ok (Some ((snd v2 * (fst p2 - fst p1) + fst v2 * (snd p1 - snd p2)) / det,
                   (snd v1 * (fst p2 - fst p1) + fst v1 * (snd p1 - snd p2)) / det)).

(** segment.cpp:74-78. A comparison with a NaN is false; so is one of the two comparisons with an infinity. *)
Definition line_pass_through (s1 s2 : segment) : outcome bool :=
  l <- get_lambdas s1 s2 ;;
  Ok (match l with
      | Some (l1, _) => (if Rle_dec 0 l1 then true else false) && (if Rle_dec l1 1 then true else false)
      | None => false
      end).

(** segment.cpp:80-84. *)
Definition half_line_pass_through (s1 s2 : segment) : outcome bool :=
  l <- get_lambdas s1 s2 ;;
  Ok (match l with
      | Some (l1, l2) => (if Rle_dec 0 l1 then true else false) && (if Rle_dec l1 1 then true else false) &&
                         (if Rle_dec 0 l2 then true else false)
      | None => false
      end).

(** segment.cpp:47-54; && does not evaluate its second operand when the first is false. *)
Definition intersects (s1 s2 : segment) : outcome bool :=
  if is_parallel s1 s2 default_epsilon then Throw ERuntime
  else
    b <- line_pass_through s1 s2 ;;
    if b then line_pass_through s2 s1 else Ok false.

(** segment.cpp:86-91; [Ok None]: coordinates that are not finite. *)
Definition lines_intersection (s1 s2 : segment) : outcome (option point) :=
  l <- get_lambdas s1 s2 ;;
  let v := v2_sub (s_end s1) (s_start s1) in
  Ok (match l with
      | Some (l1, _) => Some (fst (s_start s1) + l1 * fst v, snd (s_start s1) + l1 * snd v)
      | None => None
      end).

(** ** axises_mask.cpp *)

(** axises_mask.h:33-47. *)
Inductive reference_frame : Type := TaskFrame | LocalFrame | CustomFrame.

(** axises_mask.h:27-92. *)
Record axises_mask : Type := Mask {
  m_R_local : mat;
  m_R_custom : mat;
  m_indices : list nat;
  m_frame : reference_frame
}.

(** Eigen::Matrix3d::Identity(). *)
Definition identity3 : mat := Mat 3 3 (fun i j => if Nat.eqb i j then 1 else 0).

(** axises_mask.cpp:6-12. *)
Definition new_mask : axises_mask := Mask identity3 identity3 [0; 1; 2]%nat TaskFrame.

(** std::tolower in the "C" locale. (For a char outside ASCII the C++ call is given a negative int.) *)
Definition to_lower (c : ascii) : ascii :=
  let n := nat_of_ascii c in
  if (Nat.leb 65 n && Nat.leb n 90)%bool then ascii_of_nat (n + 32) else c.

(** axises_mask.cpp:21-40, the loop: the indices pushed, and whether the end was reached. *)
Fixpoint push_axises (axises : string) (indices : list nat) : list nat * outcome unit :=
  match axises with
  | EmptyString => (indices, Ok tt)
  | String c rest =>
      let c := to_lower c in
      if Ascii.eqb c "x"%char then push_axises rest (indices ++ [0%nat])
      else if Ascii.eqb c "y"%char then push_axises rest (indices ++ [1%nat])
      else if Ascii.eqb c "z"%char then push_axises rest (indices ++ [2%nat])
      else (indices, Throw ERuntime)
  end.

(** axises_mask.cpp:14-41: the object after the call, and what the call did. *)
Definition set_axises_frame (m : axises_mask) (axises : string) (frame : reference_frame) : axises_mask * outcome unit :=
  let (indices, o) := push_axises axises [] in
  (Mask (m_R_local m) (m_R_custom m) indices frame, o).

(** axises_mask.cpp:43-61. *)
Definition set_axises (m : axises_mask) (axises frame : string) : axises_mask * outcome unit :=
  if String.eqb frame "task" || String.eqb frame "world" then set_axises_frame m axises TaskFrame
  else if String.eqb frame "local" then set_axises_frame m axises LocalFrame
  else if String.eqb frame "custom" then set_axises_frame m axises CustomFrame
  else (m, Throw ERuntime).

(** Eigen's matrix product. *)
Definition mat_mul (A B : mat) : outcome mat :=
  guard (Nat.eqb (mcols A) (mrows B))
    (Ok (Mat (mrows A) (mcols B) (fun i j => Rsum (mcols A) (fun k => mat_at A i k * mat_at B k j)))).

(** axises_mask.cpp:63-82. M_masked(indices, Eigen::all) with an index outside M_masked is UB. *)
Definition apply_mask (m : axises_mask) (M : mat) : outcome mat :=
  M_masked <- match m_frame m with
              | CustomFrame => mat_mul (m_R_custom m) M
              | LocalFrame => mat_mul (m_R_local m) M
              | TaskFrame => Ok M
              end ;;
  guard (forallb (fun i => Nat.ltb i (mrows M_masked)) (m_indices m))
    (Ok (Mat (List.length (m_indices m)) (mcols M_masked) (fun i j => mat_at M_masked (nth i (m_indices m) 0%nat) j))).

(** ** prioritized.cpp *)

(** prioritized.h:21-35. *)
Inductive task_priority : Type := PHard | PSoft | PScaled.

(** prioritized.h:15-73. *)
Record prioritized : Type := Prioritized { p_name : string; p_priority : task_priority; p_weight : R }.

(** prioritized.cpp:5-23. *)
Definition priority_from_string (s : string) : outcome task_priority :=
  if String.eqb s "soft" then Ok PSoft
  else if String.eqb s "hard" then Ok PHard
  else if String.eqb s "scaled" then Ok PScaled
  else Throw ERuntime.

(** prioritized.cpp:25-29. *)
Definition new_prioritized : prioritized := Prioritized "" PSoft 1.

(** prioritized.cpp:35-40: the object after the call, and what the call did. *)
Definition configure_by_name (p : prioritized) (name priority : string) (weight : R) : prioritized * outcome unit :=
  match priority_from_string priority with
  | Ok pr => (Prioritized name pr weight, Ok tt)
  | Throw e => (Prioritized name (p_priority p) (p_weight p), Throw e)
  | UB => (Prioritized name (p_priority p) (p_weight p), UB)
  end.

(** prioritized.cpp:42-47. *)
Definition configure_by_value (p : prioritized) (name : string) (priority : task_priority) (weight : R) : prioritized :=
  Prioritized name priority weight.

(** prioritized.cpp:49-62; the enum has no other value. *)
Definition priority_name (p : prioritized) : string :=
  match p_priority p with PHard => "hard" | PSoft => "soft" | PScaled => "scaled" end.

(** ** directions.cpp *)

(** directions.cpp:5-17. *)
Definition directions_2d (n : nat) : mat :=
  Mat n 2 (fun i j => let angle := 2 * PI * INR i / INR n in if Nat.eqb j 0 then cos angle else sin angle).

(** std::fmod(x, 1) for x >= 0. *)
Definition fmod1 (x : R) : R := x - IZR (Int_part x).

(** directions.cpp:19-42: row [i]; [None] when a division by 0 or an acos outside [-1, 1] makes it NaN. *)
Definition directions_3d_row (n : nat) (epsilon : R) (i : nat) : option (R * R * R) :=
  let phi := (1 + sqrt 5) / 2 in
  let x := fmod1 (INR i / phi) in
  if Req_EM_T (INR n - 1 + 2 * epsilon) 0 then None
  else
    let y := (INR i + epsilon) / (INR n - 1 + 2 * epsilon) in
    if Rle_dec (Rabs (1 - 2 * y)) 1 then
      let alpha := 2 * PI * x in
      let beta := acos (1 - 2 * y) in
      Some (sin beta * cos alpha, sin beta * sin alpha, cos beta)
    else None.

(** directions.cpp:19-42: all the rows. *)
Definition directions_3d (n : nat) (epsilon : R) : list (option (R * R * R)) :=
  map (directions_3d_row n epsilon) (seq 0 n).
