(** Model of the contacts of a dynamics solver as the user makes them: dynamics_solver.cpp:8-69 (add_..._contact), 578-587 (remove_contact), 641-645
    (add_contact) and dynamics_solver.h:497-505, the attributes of the contacts (contacts.h), and get_contact and count_contacts of Python
    (expose-dynamics.cpp:133-137). *)
From Coq Require Import Reals List Arith ZArith Bool String.
From Verif Require Import Base Geom3 Robot_model Dyn_model.
Import ListNotations.
Open Scope R_scope.

(** A new contact: contacts.h:27-52 (active, mu is 1, no weights). *)
Definition new_contact (k : contact_kind) : contact := Contact k true 1 0 0 0 (Vec 0 (fun _ => 0)).

(** What the user calls. A position task is given by its place among the tasks of the solver, a frame task by the frames and the places of its two tasks. *)
Inductive maker : Type :=
| PointContact (task : nat) | UnilateralPointContact (task : nat)
| PlanarContact (fp fo : nat) | FixedContact (fp fo : nat)
| LineContact (fp task : nat) | UnilateralLineContact (fp task : nat)
| ExternalWrench (f : nat) (k : ref) | Puppet | TaskContact (task : nat).

(** dynamics_solver.cpp:8-69 and the constructors (contacts.cpp:41-46, 89-94, 154-160, 231-235, 245-247, 255-258; contacts.h:144-149, 187, 214). *)
Definition make_contact (m : maker) : contact :=
  new_contact match m with
  | PointContact t => CPoint t false m3_id
  | UnilateralPointContact t => CPoint t true m3_id
  | PlanarContact fp fo => CPlanar fp fo true 0 0
  | FixedContact fp fo => CPlanar fp fo false 0 0
  | LineContact fp t => CLine fp t false 0 m3_id
  | UnilateralLineContact fp t => CLine fp t true 0 m3_id
  | ExternalWrench f k => CExternal f k (Vec 6 (fun _ => 0))
  | Puppet => CPuppet
  | TaskContact t => CTask t
  end.

(** The attributes that can be written (expose-dynamics.cpp:37-87). A contact that has no such attribute is left as it is: in C++ the call does not compile,
    and in Python it gives the object a new attribute, that is not read. *)
Inductive attribute : Type :=
| Active (b : bool) | Mu (x : R) | WeightForces (x : R) | WeightTangentials (x : R) | WeightMoments (x : R) | Unilateral (b : bool) | Length (x : R) | Width (x : R)
| Surface (Rs : mat3) | Wrench (w : vec).
Definition with_kind (c : contact) (k : contact_kind) : contact :=
  Contact k (co_active c) (co_mu c) (co_wforces c) (co_wtangentials c) (co_wmoments c) (co_wrench c).
Definition write_attribute (c : contact) (a : attribute) : contact :=
  match a with
  | Active b => Contact (co_kind c) b (co_mu c) (co_wforces c) (co_wtangentials c) (co_wmoments c) (co_wrench c)
  | Mu x => Contact (co_kind c) (co_active c) x (co_wforces c) (co_wtangentials c) (co_wmoments c) (co_wrench c)
  | WeightForces x => Contact (co_kind c) (co_active c) (co_mu c) x (co_wtangentials c) (co_wmoments c) (co_wrench c)
  | WeightTangentials x => Contact (co_kind c) (co_active c) (co_mu c) (co_wforces c) x (co_wmoments c) (co_wrench c)
  | WeightMoments x => Contact (co_kind c) (co_active c) (co_mu c) (co_wforces c) (co_wtangentials c) x (co_wrench c)
  | Unilateral b =>
      with_kind c match co_kind c with
        | CPoint t _ Rs => CPoint t b Rs | CPlanar fp fo _ l w => CPlanar fp fo b l w | CLine fp t _ l Rs => CLine fp t b l Rs | k => k end
  | Length x =>
      with_kind c match co_kind c with CPlanar fp fo u _ w => CPlanar fp fo u x w | CLine fp t u _ Rs => CLine fp t u x Rs | k => k end
  | Width x => with_kind c match co_kind c with CPlanar fp fo u l _ => CPlanar fp fo u l x | k => k end
  | Surface Rs => with_kind c match co_kind c with CPoint t u _ => CPoint t u Rs | CLine fp t u l _ => CLine fp t u l Rs | k => k end
  | Wrench w => with_kind c match co_kind c with CExternal f k _ => CExternal f k w | k => k end
  end.

(** The contacts of a solver: the vector contacts, each with the number of the call that made it, and the number of calls so far. *)
Record contacts : Type := Contacts { cs_made : nat; cs_list : list (nat * contact) }.
Definition no_contacts : contacts := Contacts 0 [].

(** A user adds a contact, writes an attribute of the [i]-th contact they added, or removes it. *)
Inductive contact_call : Type := AddContact (m : maker) | SetContact (i : nat) (a : attribute) | RemoveContact (i : nat).

(** dynamics_solver.cpp:641-645 and 578-587: push_back, and erase(remove(...)), which keeps the order of the others. *)
Definition contact_step (s : contacts) (c : contact_call) : contacts :=
  match c with
  | AddContact m => Contacts (S (cs_made s)) (cs_list s ++ [(cs_made s, make_contact m)])
  | SetContact i a => Contacts (cs_made s) (map (fun x => if Nat.eqb (fst x) i then (fst x, write_attribute (snd x) a) else x) (cs_list s))
  | RemoveContact i => Contacts (cs_made s) (filter (fun x => negb (Nat.eqb (fst x) i)) (cs_list s))
  end.
Definition contacts_after (l : list contact_call) : contacts := fold_left contact_step l no_contacts.

(** What the solver solves with. *)
Definition with_contacts (s : dsolver) (c : contacts) : dsolver := dset_contacts s (map snd (cs_list c)).

(** expose-dynamics.cpp:133-134 and 135-137: contacts[i] is not checked. *)
Definition count_contacts (c : contacts) : nat := List.length (cs_list c).
Definition get_contact (c : contacts) (i : Z) : outcome (nat * contact) :=
  if (i <? 0)%Z then UB else match nth_error (cs_list c) (Z.to_nat i) with Some x => Ok x | None => UB end.
