(** Specification of the collision pairs, of the collisions and of the distances. *)
From Coq Require Import Reals List ZArith Bool String.
From Verif Require Import Base Geom3 Tools_model Geometry_model Robot_model Collision_model.
Import ListNotations.

(** The object [k] is attached to the frame of name [s] (a body). *)
Definition on_body (frames : list string) (objects : list gobject) (s : string) (k : nat) : Prop :=
  exists o f, nth_error objects k = Some o /\ go_frame o = Some f /\ nth_error frames f = Some s.

(** An entry of the file lists the pair of objects [a] and [b]: by their indices, or by the bodies they are on. *)
Definition listed (frames : list string) (objects : list gobject) (entry : list json) (a b : nat) : Prop :=
  entry = [JInt (Z.of_nat a); JInt (Z.of_nat b)] \/
  exists s s', entry = [JString s; JString s'] /\ on_body frames objects s a /\ on_body frames objects s' b.

(** An entry that can be loaded: two different objects; two bodies that have objects, none of them on both; or not two elements. *)
Definition loadable (frames : list string) (objects : list gobject) (entry : list json) : Prop :=
  match entry with
  | [JInt a; JInt b] => (0 <= a < Z.of_nat (List.length objects))%Z /\ (0 <= b < Z.of_nat (List.length objects))%Z /\ a <> b
  | [JString s; JString s'] =>
      (exists k, on_body frames objects s k) /\ (exists k, on_body frames objects s' k) /\ forall k, ~ (on_body frames objects s k /\ on_body frames objects s' k)
  | [_; _] => False
  | _ => True
  end.

(** The pair of [a] and [b] is tested, in an order or the other; pairs of two different objects, each of them once. *)
Definition tested (l : list pair) (a b : nat) : Prop := In (a, b) l \/ In (b, a) l.
Definition proper (n : nat) (l : list pair) : Prop :=
  (forall a b, In (a, b) l -> (a < n)%nat /\ (b < n)%nat /\ a <> b /\ ~ In (b, a) l) /\ NoDup l.

(** What self_collisions says of a pair of objects in collision. *)
Definition reports (collide : vec -> pair -> option (list vec3)) (objects : list gobject) (q : vec) (p : pair) (c : collision) : Prop :=
  (co_a c, co_b c) = p /\ collide q p = Some (co_contacts c) /\
  exists a b, nth_error objects (fst p) = Some a /\ nth_error objects (snd p) = Some b /\
    co_body_a c = go_name a /\ co_body_b c = go_name b /\ co_parent_a c = go_joint a /\ co_parent_b c = go_joint b.

(** What distances says of a pair of objects. *)
Definition measures (measure : vec -> pair -> R * vec3 * vec3) (objects : list gobject) (q : vec) (p : pair) (d : distance) : Prop :=
  (di_a d, di_b d) = p /\ measure q p = (di_min d, di_point_a d, di_point_b d) /\
  exists a b, nth_error objects (fst p) = Some a /\ nth_error objects (snd p) = Some b /\ di_parent_a d = go_joint a /\ di_parent_b d = go_joint b.

Definition colliding (collide : vec -> pair -> option (list vec3)) (q : vec) (p : pair) : bool := match collide q p with Some _ => true | None => false end.
