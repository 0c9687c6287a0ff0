(** Specification of the trajectories of the walk pattern generator. *)
From Coq Require Import Reals List ZArith Bool.
From Verif Require Import Base Geom3 Tools_model Problem_model Polynom_spec Integrator_model Integrator_spec Lipm_model Lipm_spec Swing_model
  Footsteps_model Wpg_model.
Import ListNotations.
Open Scope R_scope.

(** The parts follow each other without gaps, from [a] to [b]. *)
Fixpoint contiguous (a : R) (l : list part) (b : R) : Prop :=
  match l with
  | [] => a = b
  | p :: r => pt_start p = a /\ contiguous (pt_end p) r b
  end.

(** ... and none of them ends before it starts. *)
Definition timeline (a : R) (l : list part) (b : R) : Prop :=
  l <> [] /\ contiguous a l b /\ Forall (fun p => pt_start p <= pt_end p) l.

(** The part [i] is the one to use at [t]: it contains [t], but the first part is also used before, the last one after. *)
Definition right_part (parts : list part) (t : R) (i : nat) (p : part) : Prop :=
  nth_error parts i = Some p /\ (i = 0%nat \/ pt_start p <= t) /\ (S i = length parts \/ t <= pt_end p).

(** The duration of a support according to the parameters (walk_pattern_generator.h): single supports, double supports, and
    double supports that start or end the walk. *)
Definition default_duration (p : params) (s : support) (d : R) : Prop :=
  if Nat.eqb (length (u_footsteps s)) 2 then
    if u_start s || u_end s then startend_double_support_duration p = Some d else double_support_duration p = Some d
  else d = p_single_support_duration p.

(** What remains of a support, of which a share [u_elapsed_ratio] is over. *)
Definition lasts (p : params) (s : support) (d : R) : Prop :=
  exists d0, default_duration p s d0 /\ d = (1 - u_elapsed_ratio s) * d0 * u_time_ratio s.

(** The part [q] carries out the support [s]: same feet at the same place, same progress, same role. Only the time it started,
    when it was not known, and the DCM to reach are filled in. *)
Definition carries (p : params) (s : support) (q : part) : Prop :=
  u_footsteps (pt_support q) = u_footsteps s /\ u_elapsed_ratio (pt_support q) = u_elapsed_ratio s /\
  u_time_ratio (pt_support q) = u_time_ratio s /\ u_start (pt_support q) = u_start s /\ u_end (pt_support q) = u_end s /\
  u_t_start (pt_support q) = (if Req_EM_T (u_t_start s) (-1) then pt_start q else u_t_start s) /\
  lasts p s (pt_end q - pt_start q).

(** The point [P] is on the inner side of every edge of the polygon, at the distance [margin] at least. *)
Definition inside (polygon : list point) (margin : R) (P : point) : Prop :=
  forall i A B, edge polygon i A B -> A <> B -> keeps_margin margin A B P.

(** [X 0], [X 1], ..., [X (n - 1)] are a function of time and its derivatives, continuous, and constant before [a] and after [b]. *)
Definition motion (n : nat) (X : nat -> R -> R) (a b : R) : Prop :=
  (forall d, (d < n)%nat -> continuity (X d)) /\ (forall d, (S d < n)%nat -> derivative_on (X d) (X (S d)) a b) /\
  (forall t d, t <= a -> (d < n)%nat -> X d t = X d a) /\ (forall t d, b <= t -> (d < n)%nat -> X d t = X d b).

(** The number of timesteps that remain in a support: the number of the parameters, of which a share is over, rounded
    downwards, and at least one. *)
Definition default_steps (p : params) (s : support) : Z :=
  if Nat.eqb (length (u_footsteps s)) 2 then
    if u_start s || u_end s then startend_double_support_timesteps p else double_support_timesteps p
  else p_single_support_timesteps p.
Definition steps (p : params) (s : support) (n : nat) : Prop :=
  INR n <= Rmax 1 ((1 - u_elapsed_ratio s) * IZR (default_steps p s)) < INR n + 1.

(** The result of a call, if any, transformed. *)
Definition result_map {A B} (f : A -> B) (o : outcome A) : outcome B :=
  match o with Ok a => Ok (f a) | Throw e => Throw e | UB => UB end.
