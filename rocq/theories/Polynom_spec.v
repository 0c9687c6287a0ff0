(** Specification of polynomials and of polygons given by their vertices. *)
From Coq Require Import Reals List ZArith Bool.
From Verif Require Import Base.
Import ListNotations.
Open Scope R_scope.

(** The polynomial function of the coefficients [c], listed from the highest degree to the constant. *)
Definition polynomial (c : vec) (x : R) : R :=
  Rsum (vlen c) (fun k => vat c (vlen c - 1 - k)%nat * x ^ k).

(** Euclidean distance in the plane. *)
Definition distance (P Q : R * R) : R := sqrt ((fst P - fst Q)² + (snd P - snd Q)²).

(** The point of the line through [A] and [B] at parameter [s]. *)
Definition on_line (A B : R * R) (s : R) : R * R := (fst A + s * (fst B - fst A), snd A + s * (snd B - snd A)).

(** Twice the signed area of the triangle A B P: positive when [P] is on the right of the line from [A] to [B],
    which is the inner side when the polygon is listed clockwise. *)
Definition right_area (A B P : R * R) : R := (snd B - snd A) * (fst P - fst A) - (fst B - fst A) * (snd P - snd A).

(** [P] is on the right of the line (A, B), at a distance of at least [margin]: for a negative margin it may be on the
    left, at a distance of at most - margin. *)
Definition keeps_margin (margin : R) (A B P : R * R) : Prop :=
  margin * distance A B <= right_area A B P.

(** Edge [i] of the closed polygon. *)
Definition edge (polygon : list (R * R)) (i : nat) (A B : R * R) : Prop :=
  nth_error polygon i = Some A /\ nth_error polygon (if Nat.eqb (S i) (length polygon) then 0 else S i)%nat = Some B.
