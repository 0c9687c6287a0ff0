(** Model of the collisions of src/placo/model/robot_wrapper.cpp: the pairs of objects that are tested, self_collisions and distances, and the end of the
    constructor of the robot. The tests of pinocchio (coal) are inputs of the model. *)
From Coq Require Import Reals List ZArith Bool String.
From Verif Require Import Base Geom3 Tools_model Geometry_model Robot_model.
Import ListNotations.

(** pinocchio::GeometryObject: its name, its parentFrame ([None]: the largest index, that is none) and its parentJoint. *)
Record gobject : Type := GObject { go_name : string; go_frame : option nat; go_joint : nat }.
Definition pair : Type := (nat * nat)%type.

(** pinocchio: CollisionPair::operator==, the order does not matter. *)
Definition same_pair (p p' : pair) : bool :=
  (Nat.eqb (fst p) (fst p') && Nat.eqb (snd p) (snd p')) || (Nat.eqb (fst p) (snd p') && Nat.eqb (snd p) (fst p')).

(** pinocchio: addCollisionPair(CollisionPair(a, b)): both are objects, not the same one (std::invalid_argument); nothing changes if there is already such a
    pair. [a] and [b] are integers: a negative one is a size_t larger than any index. *)
Definition add_pair (n : nat) (l : list pair) (a b : Z) : outcome (list pair) :=
  if Z.eqb a b then Throw ELogic
  else if Z.ltb a 0 || Z.leb (Z.of_nat n) a || Z.ltb b 0 || Z.leb (Z.of_nat n) b then Throw ELogic
  else let p := (Z.to_nat a, Z.to_nat b) in Ok (if existsb (same_pair p) l then l else l ++ [p]).

(** pinocchio: addAllCollisionPairs(): the pairs of objects that are not on the same joint. *)
Definition all_pairs (objects : list gobject) : list pair :=
  let joint k := match nth_error objects k with Some o => go_joint o | None => 0%nat end in
  flat_map (fun i => flat_map (fun j => if Nat.eqb (joint i) (joint j) then [] else [(i, j)]) (seq (S i) (List.length objects - S i))) (seq 0 (List.length objects)).

(** Json: an element of an entry: an integer (isInt), a string, or anything else. *)
Inductive json : Type := JInt (z : Z) | JString (s : string) | JOther.

(** robot_wrapper.cpp:359-368: name_to_objects[name]. *)
Definition objects_of (frames : list string) (objects : list gobject) (name : string) : list nat :=
  filter (fun k => match nth_error objects k with
                   | Some (GObject _ (Some f) _) => match nth_error frames f with Some s => String.eqb s name | None => false end
                   | _ => false
                   end) (seq 0 (List.length objects)).

(** A loop whose body can throw: what was done before is kept. *)
Fixpoint each {A S} (body : S -> A -> S * outcome unit) (l : list A) (s : S) : S * outcome unit :=
  match l with
  | [] => (s, Ok tt)
  | a :: l' => match body s a with (s', Ok _) => each body l' s' | (s', e) => (s', e) end
  end.
Definition try_add (n : nat) (l : list pair) (a b : Z) : list pair * outcome unit :=
  match add_pair n l a b with Ok l' => (l', Ok tt) | Throw e => (l, Throw e) | UB => (l, UB) end.

(** robot_wrapper.cpp:379-418: an entry of the file. Simplification: the entries are arrays (the empty array for the values that have the size 0). *)
Definition load_entry (frames : list string) (objects : list gobject) (l : list pair) (entry : list json) : list pair * outcome unit :=
  let n := List.length objects in
  match entry with
  | [x; y] =>
      match x, y with
      | JInt a, JInt b => try_add n l a b
      | JString s, JString s' =>
          match objects_of frames objects s, objects_of frames objects s' with
          | [], _ | _, [] => (l, Throw ERuntime)
          | os, os' => each (fun l k1 => each (fun l k2 => try_add n l (Z.of_nat k1) (Z.of_nat k2)) os' l) os l
          end
      | _, _ => (l, Throw ERuntime)
      end
  | _ => (l, Ok tt)
  end.

(** robot_wrapper.cpp:354-419: the pairs after the call. The file can be missing; an error of the parser of Json is a std::exception, here a runtime_error. *)
Inductive file : Type := Missing | Malformed | Entries (l : list (list json)).
Definition load_collision_pairs (frames : list string) (objects : list gobject) (f : file) (pairs : list pair) : list pair * outcome unit :=
  let pairs := [] in
  match f with
  | Missing => (pairs, Throw ERuntime)
  | Malformed => (pairs, Throw ERuntime)
  | Entries l => each (load_entry frames objects) l pairs
  end.

(** robot_wrapper.h:341-380 and 392-430. *)
Record collision : Type := Collision { co_a : nat; co_b : nat; co_body_a : string; co_body_b : string; co_parent_a : nat; co_parent_b : nat; co_contacts : list vec3 }.
Record distance : Type := Distance { di_a : nat; di_b : nat; di_min : R; di_point_a : vec3; di_point_b : vec3; di_parent_a : nat; di_parent_b : nat }.

Section WithGeometry.
(** computeCollisions: the contacts of a pair that is in collision, in a configuration. *)
Variable collide : vec -> pair -> option (list vec3).
(** computeDistances: the distance and the nearest points. *)
Variable measure : vec -> pair -> R * vec3 * vec3.
Variable objects : list gobject.

Definition object (k : nat) : outcome gobject := match nth_error objects k with Some o => Ok o | None => UB end.

(** robot_wrapper.cpp:455-500. *)
Fixpoint collisions_loop (q : vec) (stop_at_first : bool) (l : list pair) : outcome (list collision) :=
  match l with
  | [] => Ok []
  | cp :: l' =>
      match collide q cp with
      | Some contacts =>
          a <- object (fst cp) ;; b <- object (snd cp) ;;
          let c := Collision (fst cp) (snd cp) (go_name a) (go_name b) (go_joint a) (go_joint b) contacts in
          if stop_at_first then Ok [c] else cs <- collisions_loop q stop_at_first l' ;; Ok (c :: cs)
      | None => collisions_loop q stop_at_first l'
      end
  end.
Definition self_collisions (r : robot) (pairs : list pair) (stop_at_first : bool) : outcome (list collision) := collisions_loop (st_q (r_state r)) stop_at_first pairs.

(** robot_wrapper.cpp:502-533. *)
Fixpoint distances_loop (q : vec) (l : list pair) : outcome (list distance) :=
  match l with
  | [] => Ok []
  | cp :: l' =>
      a <- object (fst cp) ;; b <- object (snd cp) ;;
      let '(d, pa, pb) := measure q cp in
      ds <- distances_loop q l' ;; Ok (Distance (fst cp) (snd cp) d pa pb (go_joint a) (go_joint b) :: ds)
  end.
Definition distances (r : robot) (pairs : list pair) : outcome (list distance) := distances_loop (st_q (r_state r)) pairs.
End WithGeometry.

(** robot_wrapper.cpp:112-153, the end of the constructor, once the files of the model have been read: the pairs, the limits, the state and the data; the
    collisions of the neutral position are only printed. [huge] is the largest double. *)
Definition new_robot (pn : pin) (huge : R) (m : rmodel) (objects : list gobject) (ignore_collisions file_exists : bool) (f : file) : outcome (robot * list pair) :=
  pairs <- (if ignore_collisions then Ok []
            else if file_exists then match load_collision_pairs (m_frames m) objects f [] with (l, Ok _) => Ok l | (_, Throw e) => Throw e | (_, UB) => UB end
            else Ok (all_pairs objects)) ;;
  let m := patch_limits huge m in
  Ok (update_kinematics (reset pn (Robot m (State (zeros 0) (zeros 0) (zeros 0)) (zeros 0, zeros 0))), pairs).
