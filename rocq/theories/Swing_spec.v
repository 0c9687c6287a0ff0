(** Specification of the swing foot trajectories. *)
From Coq Require Import Reals List.
From Verif Require Import Base Geom3.
Import ListNotations.
Open Scope R_scope.

(** The solutions of a linear system. *)
Definition solution (M : mat) (b : vec) (w : nat -> R) : Prop :=
  forall i, (i < mrows M)%nat -> Rsum (mcols M) (fun j => mat_at M i j * w j) = vat b i.

(** What is expected from M.inverse() * b: for a square system with exactly one solution, this solution. *)
Definition inverse_correct (inv_mul : mat -> vec -> vec) : Prop :=
  forall M b w, mrows M = mcols M -> solution M b w -> (forall w', solution M b w' -> forall i, (i < mcols M)%nat -> w' i = w i) ->
  forall i, (i < mcols M)%nat -> vat (inv_mul M b) i = w i.

(** [v] is the velocity of the moving point [p]. *)
Definition velocity_of (p v : R -> vec3) (t : R) : Prop :=
  derivable_pt_lim (fun t => vx (p t)) t (vx (v t)) /\ derivable_pt_lim (fun t => vy (p t)) t (vy (v t)) /\
  derivable_pt_lim (fun t => vz (p t)) t (vz (v t)).

Definition continuous3 (p : R -> vec3) : Prop :=
  continuity (fun t => vx (p t)) /\ continuity (fun t => vy (p t)) /\ continuity (fun t => vz (p t)).
