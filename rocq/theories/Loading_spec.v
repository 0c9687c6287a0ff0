(** What a user expects of the files that a robot is read from. *)
From Coq Require Import Reals List ZArith Bool String Ascii.
From Verif Require Import Base Geom3 Tools_model Geometry_model Robot_model Collision_model Collision_spec Loading_model.
Import ListNotations.
Open Scope string_scope.

(** The name of the model in a directory. *)
Definition model_name (f : format) : string := match f with Urdf => "robot.urdf" | Mjcf => "robot.xml" end.

(** The place of the file of the model, when the user gives a path: the path itself when it is that of a file, else the path is that of a directory. *)
Definition model_place (d : disk) (path : string) (f : format) : list string :=
  match look d path with Regular _ => place_of d path | _ => (place_of d path ++ [model_name f])%list end.
(** The directory where the model is: the meshes and the pairs are there. *)
Definition model_folder (d : disk) (path : string) : list string :=
  match look d path with Regular _ => removelast (place_of d path) | _ => place_of d path end.

(** The text of the model: what the user gave, else that of the file. *)
Definition described (d : disk) (path text : string) (f : format) (t : string) : Prop :=
  (text <> "" /\ t = text) \/ (text = "" /\ d_at d (model_place d path f) = Regular t).

(** The pairs that are tested: none if the user does not want any, those of the file, or all the pairs of objects on different joints if there is no file. *)
Definition wanted_pairs (json : string -> file) (ignored : bool) (frames : list string) (objects : list gobject) (n : node) (pairs : list pair) : Prop :=
  forall a b, tested pairs a b <-> ignored = false /\
    match n with
    | Nothing => exists oa ob, nth_error objects a = Some oa /\ nth_error objects b = Some ob /\ go_joint oa <> go_joint ob
    | Directory => False
    | Regular t => exists L x, json t = Entries L /\ In x L /\ (listed frames objects x a b \/ listed frames objects x b a)
    end.

(** A path that tells its directory: it has a slash. *)
Definition has_slash (s : string) : Prop := exists a b, s = a ++ "/" ++ b.
(** The flags of the user: the sum of the values of those they want. *)
Definition flags_of (as_visual ignored use_mjcf : bool) : Z := ((if as_visual then 1 else 0) + (if ignored then 2 else 0) + (if use_mjcf then 4 else 0))%Z.
Definition format_of (use_mjcf : bool) : format := if use_mjcf then Mjcf else Urdf.
