(** Specification of splines. *)
From Coq Require Import Reals List Sorted.
From Verif Require Import Base Spline_model.
Import ListNotations.
Open Scope R_scope.

(** Consecutive elements of a list. *)
Definition consecutive {A} (l : list A) (p q : A) : Prop := exists l1 l2, l = l1 ++ p :: q :: l2.

(** The objects a user can obtain. *)
Definition reachable (s : cubic_spline) : Prop := exists angular l, scalls_run (new_spline angular) l = Some s.
Definition reachable3 (s : spline3) : Prop := exists l, scalls3_run new_spline3 l = Some s.

(** [f] is a polynomial function of degree at most 3 between [a] and [b], starting at [a] with value [x] and slope [dx]
    and ending at [b] with value [y] and slope [dy]; [df] and [ddf] are its derivatives. *)
Definition cubic_between (a x dx b y dy : R) (f df ddf : R -> R) : Prop :=
  exists k0 k1 k2 k3,
    (forall t, a <= t <= b -> f t = k0 + k1 * t + k2 * t ^ 2 + k3 * t ^ 3) /\
    (forall t, a <= t <= b -> df t = k1 + 2 * k2 * t + 3 * k3 * t ^ 2) /\
    f a = x /\ df a = dx /\ f b = y /\ df b = dy /\
    (forall t, a < t <= b -> ddf t = 2 * k2 + 6 * k3 * t).

(** Clamping a time into [a, b]. *)
Definition clamp (a b t : R) : R := Rmax a (Rmin b t).
