(** What is expected of the dictionaries by joint. *)
From Coq Require Import Reals List Arith String.
From Verif Require Import Base Linalg Robot_model.
Import ListNotations.
Open Scope R_scope.

(** The first six velocities are those of the floating base, which is the joint "root_joint". *)
Definition floating_base (r : robot) : Prop :=
  exists b, In b (m_joints (r_model r)) /\ jt_name b = "root_joint"%string /\ jt_idx_v b = 0%nat /\ jt_nv b = 6%nat.

(** The dictionary has one item for each joint other than the floating base: the effort of its (first) degree of freedom. *)
Definition by_joint (r : robot) (d : list (string * R)) (effort : nat -> R) : Prop :=
  NoDup (map fst d) /\
  forall name x, In (name, x) d <->
    name <> "root_joint"%string /\ exists j, In j (m_joints (r_model r)) /\ jt_name j = name /\ x = effort (jt_idx_v j).

(** The value a dictionary given by Python has for a name, if it is a number. *)
Fixpoint given (d : list (option string * option R)) (name : string) : option R :=
  match d with
  | [] => None
  | (k, x) :: d' => match k with
                    | Some k' => if String.eqb k' name then x else given d' name
                    | None => given d' name
                    end
  end.

(** The keys of a dictionary are different. *)
Definition different_keys (d : list (option string * option R)) : Prop :=
  NoDup (flat_map (fun e => match fst e with Some k => [k] | None => [] end) d).

(** All the items are a name and a number. *)
Definition clean (l : list (string * R)) : list (option string * option R) := map (fun e => (Some (fst e), Some (snd e))) l.
