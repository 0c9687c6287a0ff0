(** Specification of the linear inverted pendulum: a point moved by a piecewise constant jerk. *)
From Coq Require Import Reals List ZArith Bool.
From Verif Require Import Base Expression_model Expression_spec Problem_model Integrator_model Lipm_model.
Import ListNotations.
Open Scope R_scope.

(** Position (0), velocity (1) and acceleration (2) after [k] steps of duration [dt] under the jerks [u]. *)
Fixpoint jerk_run (dt : R) (u : nat -> R) (s0 : nat -> R) (k : nat) : nat -> R :=
  match k with
  | O => s0
  | S k' =>
      let s := jerk_run dt u s0 k' in
      fun d => match d with
               | 0%nat => s 0%nat + dt * s 1%nat + dt ^ 2 / 2 * s 2%nat + dt ^ 3 / 6 * u k'
               | 1%nat => s 1%nat + dt * s 2%nat + dt ^ 2 / 2 * u k'
               | _ => s 2%nat + dt * u k'
               end
  end.

(** The problem [pb'] comes after [pb]: variables are added, constraints change, the problem is solved. *)
Definition extends (pb pb' : problem) : Prop :=
  (p_n pb <= p_n pb')%nat /\
  forall i v, nth_error (p_vars pb) i = Some v ->
    exists v', nth_error (p_vars pb') i = Some v' /\ k_start v' = k_start v /\ k_end v' = k_end v.

(** A state for each assignment of the unknowns, step and derivative; a jerk for each assignment and step. *)
Definition states : Type := (nat -> R) -> nat -> nat -> R.
Definition jerks : Type := (nat -> R) -> nat -> R.

(** The chains of LIPMs a program can build, with the motion each one stands for: the first one starts from a given
    state, each other one starts from the final state of the previous one; the unknowns are its jerks. *)
Inductive lipm_history (mexp : mat -> mat) : problem -> lipm -> states -> states -> jerks -> jerks -> Prop :=
| history_initial pb dt n t p v a pb' l : new_lipm mexp pb dt n t p v a = Ok (pb', l) ->
    let u := (fun x k => x (p_n pb + k)%nat) : jerks in
    let w := (fun x k => x (p_n pb + n + k)%nat) : jerks in
    lipm_history mexp pb' l (fun x => jerk_run dt (u x) (fun d => nth d [fst p; fst v; fst a] 0))
                            (fun x => jerk_run dt (w x) (fun d => nth d [snd p; snd v; snd a] 0)) u w
| history_next pb previous Sx Sy Ux Uy dt n t pb' l : lipm_history mexp pb previous Sx Sy Ux Uy ->
    new_lipm_from mexp pb dt n t previous = Ok (pb', l) ->
    let u := (fun x k => x (p_n pb + k)%nat) : jerks in
    let w := (fun x k => x (p_n pb + n + k)%nat) : jerks in
    lipm_history mexp pb' l (fun x => jerk_run dt (u x) (Sx x (lp_timesteps previous)))
                            (fun x => jerk_run dt (w x) (Sy x (lp_timesteps previous))) u w
| history_later pb l Sx Sy Ux Uy pb' : lipm_history mexp pb l Sx Sy Ux Uy -> extends pb pb' ->
    lipm_history mexp pb' l Sx Sy Ux Uy.

(** [o] is an expression over the unknowns of [pb] with two rows, [f] and [g]. *)
Definition stands_for (pb : problem) (o : outcome expr) (f g : (nat -> R) -> R) : Prop :=
  exists e m, o = Ok e /\ (m <= p_n pb)%nat /\ denotes e 2 m (fun x i => match i with O => f x | _ => g x end).

(** [o] is an expression, [r] the two numbers it evaluates to at the last solution of [pb]. *)
Definition evaluates_to (pb : problem) (o : outcome expr) (r : outcome (R * R)) : Prop :=
  exists e y, o = Ok e /\ value e (p_x pb) = Ok y /\ vlen y = 2%nat /\ r = Ok (vat y 0, vat y 1).

(** [f] has derivative [g] at every point of ]a, b[. *)
Definition derivative_on (f g : R -> R) (a b : R) : Prop := forall t, a < t < b -> derivable_pt_lim f t (g t).
