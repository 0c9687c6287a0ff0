(** What a user relies on about the rotors of the actuators: the calls that describe them, and the kinetic energy. *)
From Coq Require Import Reals List Arith Bool String.
From Verif Require Import Base Geom3 Robot_model Robot_spec.
Import ListNotations.
Open Scope R_scope.

(** set_rotor_inertia, set_gear_ratio, or one of the calls of Robot_spec.v on the state and the limits. *)
Inductive rotor_call : Type := RotorInertia (name : string) (x : R) | GearRatio (name : string) (x : R) | OtherCall (o : op).

Definition rotor_call_name (c : rotor_call) : string := match c with RotorInertia n _ | GearRatio n _ => n | OtherCall o => op_name o end.
Definition rotor_do (r : robot) (c : rotor_call) : outcome robot :=
  match c with RotorInertia n x => set_rotor_inertia r n x | GearRatio n x => set_gear_ratio r n x | OtherCall o => call r o end.
Fixpoint rotor_run (r : robot) (l : list rotor_call) : outcome robot :=
  match l with [] => Ok r | c :: l' => r' <- rotor_do r c ;; rotor_run r' l' end.

(** The last inertia and the last ratio given to a joint; [d] when none was. *)
Fixpoint last_inertia (l : list rotor_call) (name : string) (d : R) : R :=
  match l with
  | [] => d
  | RotorInertia n x :: l' => last_inertia l' name (if String.eqb n name then x else d)
  | _ :: l' => last_inertia l' name d
  end.
Fixpoint last_ratio (l : list rotor_call) (name : string) (d : R) : R :=
  match l with
  | [] => d
  | GearRatio n x :: l' => last_ratio l' name (if String.eqb n name then x else d)
  | _ :: l' => last_ratio l' name d
  end.

(** The calls that are not about rotors. *)
Fixpoint without_rotors (l : list rotor_call) : list op :=
  match l with [] => [] | OtherCall o :: l' => o :: without_rotors l' | _ :: l' => without_rotors l' end.

(** Twice the kinetic energy that a matrix gives to the velocities [v] of [n] degrees of freedom. *)
Definition energy (n : nat) (M : nat -> nat -> R) (v : nat -> R) : R := Rsum n (fun i => Rsum n (fun j => v i * M i j * v j)).

(** Contract of crba: its upper triangle is that of the symmetric matrix [B] of the bodies. *)
Definition bodies (pn : pin) (r : robot) (B : nat -> nat -> R) : Prop :=
  let M := pn_crba pn (st_q (r_state r)) in
  mrows M = m_nv (r_model r) /\ mcols M = m_nv (r_model r) /\ (forall i j, B i j = B j i) /\ forall i j, (i <= j)%nat -> mat_at M i j = B i j.
