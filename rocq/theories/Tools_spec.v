(** Specification of the geometric and textual helpers of placo::tools. *)
From Coq Require Import Reals List ZArith Bool String Ascii.
From Verif Require Import Base.
Import ListNotations.
Open Scope R_scope.

(** The point A + l (B - A). *)
Definition along (A B : R * R) (l : R) : R * R := (fst A + l * (fst B - fst A), snd A + l * (snd B - snd A)).

(** [P] is on the line through [A] and [B]; on the closed segment; on the half-line from [A] through [B]. *)
Definition on_guiding_line (A B P : R * R) : Prop := exists l, P = along A B l.
Definition on_segment (A B P : R * R) : Prop := exists l, 0 <= l <= 1 /\ P = along A B l.
Definition on_half_line (A B P : R * R) : Prop := exists l, 0 <= l /\ P = along A B l.

(** Euclidean length. *)
Definition length2 (A B : R * R) : R := sqrt ((fst B - fst A)² + (snd B - snd A)²).

(** |sin| of the angle between A B and C D, times the two lengths. *)
Definition area2 (A B C D : R * R) : R := Rabs ((fst B - fst A) * (snd D - snd C) - (snd B - snd A) * (fst D - fst C)).

(** The axis a letter stands for. *)
Inductive axis_letter : ascii -> nat -> Prop :=
| letter_x : axis_letter "x" 0 | letter_X : axis_letter "X" 0
| letter_y : axis_letter "y" 1 | letter_Y : axis_letter "Y" 1
| letter_z : axis_letter "z" 2 | letter_Z : axis_letter "Z" 2.

(** The letters of a string. *)
Fixpoint letters (s : string) : list ascii :=
  match s with EmptyString => [] | String c r => c :: letters r end.
