(** What the frame tasks of a program are: objects that are independent of each other, each with its frames, its target, and the name, priority
    and weight of its two parts. *)
From Coq Require Import Reals List Arith Bool String.
From Verif Require Import Base Geom3 Geometry_model Tools_model FrameTasks_model.
Import ListNotations.
Open Scope R_scope.

Record object : Type := Object { ob_frames : list nat; ob_target : frame; ob_position : prioritized; ob_orientation : prioritized }.

(** The objects, in the order of their creation; [None]: removed. *)
Definition objects : Type := list (option object).
Definition the_object (l : objects) (h : nat) : option object := match nth_error l h with Some (Some x) => Some x | _ => None end.

(** [l'] is [l], where the object [h] is now [x]. *)
Definition replaced (l : objects) (h : nat) (x : option object) (l' : objects) : Prop :=
  List.length l' = List.length l /\ nth_error l' h = Some x /\ forall k, k <> h -> nth_error l' k = nth_error l k.

Definition known_priority (name : string) (p : task_priority) : Prop :=
  (name = "soft"%string /\ p = PSoft) \/ (name = "hard"%string /\ p = PHard) \/ (name = "scaled"%string /\ p = PScaled).

(** What a call does to the objects. A name of priority that does not exist only gives a name to the position. *)
Inductive effect (l : objects) : fcall -> outcome unit -> objects -> Prop :=
| ef_add f T : effect l (CAdd f T) (Ok tt) (l ++ [Some (Object f T new_prioritized new_prioritized)])
| ef_set h T x l' : the_object l h = Some x ->
    replaced l h (Some (Object (ob_frames x) T (ob_position x) (ob_orientation x))) l' -> effect l (CSet h T) (Ok tt) l'
| ef_configure h name priority wp wo p x l' : the_object l h = Some x -> known_priority priority p ->
    replaced l h (Some (Object (ob_frames x) (ob_target x) (Prioritized (name ++ "_position") p wp) (Prioritized (name ++ "_orientation") p wo))) l' ->
    effect l (CConfigure h name priority wp wo) (Ok tt) l'
| ef_refused h name priority wp wo x l' : the_object l h = Some x -> (forall p, ~ known_priority priority p) ->
    replaced l h (Some (Object (ob_frames x) (ob_target x)
      (Prioritized (name ++ "_position") (p_priority (ob_position x)) (p_weight (ob_position x))) (ob_orientation x))) l' ->
    effect l (CConfigure h name priority wp wo) (Throw ERuntime) l'
| ef_remove h x l' : the_object l h = Some x -> replaced l h None l' -> effect l (CRemove h) (Ok tt) l'
| ef_other k : effect l (COther k) (Ok tt) l.

(** What a history of calls makes of the objects. *)
Inductive effects : objects -> list fcall -> objects -> Prop :=
| es_nil l : effects l [] l
| es_cons l c o l1 r l2 : effect l c o l1 -> effects l1 r l2 -> effects l (c :: r) l2.

(** A program that only uses the frame tasks it has made and not removed: [n] were made, [gone] were removed. *)
Fixpoint careful (n : nat) (gone : list nat) (l : list fcall) : Prop :=
  let usable h := (h < n)%nat /\ ~ In h gone in
  match l with
  | [] => True
  | CAdd _ _ :: r => careful (S n) gone r
  | CSet h _ :: r => usable h /\ careful n gone r
  | CConfigure h _ _ _ _ :: r => usable h /\ careful n gone r
  | CRemove h :: r => usable h /\ careful n (h :: gone) r
  | COther _ :: r => careful n gone r
  end.
