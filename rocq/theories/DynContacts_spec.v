(** The contacts a user expects, from the calls they made. *)
From Coq Require Import Reals List Arith ZArith Bool.
From Verif Require Import Base Geom3 Robot_model Dyn_model DynContacts_model.
Import ListNotations.
Open Scope R_scope.

(** The calls that add a contact, in order. *)
Fixpoint makers (l : list contact_call) : list maker :=
  match l with [] => [] | AddContact m :: l' => m :: makers l' | _ :: l' => makers l' end.
(** The contact [i] was removed. *)
Definition removed (l : list contact_call) (i : nat) : bool := existsb (fun c => match c with RemoveContact j => Nat.eqb j i | _ => false end) l.

(** The last value given to an attribute of the contact [i], [d] when there is none. *)
Fixpoint last_given {A : Type} (sel : attribute -> option A) (i : nat) (l : list contact_call) (d : A) : A :=
  match l with
  | [] => d
  | SetContact j a :: l' => last_given sel i l' (if Nat.eqb j i then match sel a with Some x => x | None => d end else d)
  | _ :: l' => last_given sel i l' d
  end.
Definition given_active a := match a with Active b => Some b | _ => None end.
Definition given_mu a := match a with Mu x => Some x | _ => None end.
Definition given_unilateral a := match a with Unilateral b => Some b | _ => None end.
Definition given_length a := match a with Length x => Some x | _ => None end.
Definition given_width a := match a with Width x => Some x | _ => None end.
Definition given_surface a := match a with Surface x => Some x | _ => None end.
Definition given_wforces a := match a with WeightForces x => Some x | _ => None end.
Definition given_wtangentials a := match a with WeightTangentials x => Some x | _ => None end.
Definition given_wmoments a := match a with WeightMoments x => Some x | _ => None end.
Definition given_wrench a := match a with Wrench x => Some x | _ => None end.

(** A program that writes the attributes of a contact after having added it. *)
Fixpoint in_order (n : nat) (l : list contact_call) : Prop :=
  match l with
  | [] => True
  | AddContact _ :: l' => in_order (S n) l'
  | SetContact i _ :: l' | RemoveContact i :: l' => (i < n)%nat /\ in_order n l'
  end.

(** What the kind of a contact should be: as it was made, with the attributes given since. *)
Definition expected_kind (m : maker) (i : nat) (l : list contact_call) : contact_kind :=
  match m with
  | PointContact t => CPoint t (last_given given_unilateral i l false) (last_given given_surface i l m3_id)
  | UnilateralPointContact t => CPoint t (last_given given_unilateral i l true) (last_given given_surface i l m3_id)
  | PlanarContact fp fo => CPlanar fp fo (last_given given_unilateral i l true) (last_given given_length i l 0) (last_given given_width i l 0)
  | FixedContact fp fo => CPlanar fp fo (last_given given_unilateral i l false) (last_given given_length i l 0) (last_given given_width i l 0)
  | LineContact fp t => CLine fp t (last_given given_unilateral i l false) (last_given given_length i l 0) (last_given given_surface i l m3_id)
  | UnilateralLineContact fp t => CLine fp t (last_given given_unilateral i l true) (last_given given_length i l 0) (last_given given_surface i l m3_id)
  | ExternalWrench f k => CExternal f k (last_given given_wrench i l (Vec 6 (fun _ => 0)))
  | Puppet => CPuppet
  | TaskContact t => CTask t
  end.

(** What the contact should be. *)
Definition expected (m : maker) (i : nat) (l : list contact_call) (c : contact) : Prop :=
  co_kind c = expected_kind m i l /\ co_active c = last_given given_active i l true /\ co_mu c = last_given given_mu i l 1 /\
  co_wforces c = last_given given_wforces i l 0 /\ co_wtangentials c = last_given given_wtangentials i l 0 /\ co_wmoments c = last_given given_wmoments i l 0.
