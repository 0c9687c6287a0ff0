(** Model of the constructor of RobotWrapper (src/placo/model/robot_wrapper.cpp:22-157): the files that it reads, depending on the path, the flags and the text of
    the model that the user gives. The parsers of pinocchio are inputs of the model. *)
From Coq Require Import Reals List ZArith Bool String Ascii.
From Verif Require Import Base Geom3 Tools_model Geometry_model Robot_model Collision_model.
Import ListNotations.
Open Scope string_scope.

(** ** Paths and files *)

Definition is_slash (c : ascii) : bool := Ascii.eqb c "/"%char.
(** The names in a path; [cur] is what has been read of the current one. Several slashes are worth one (POSIX). *)
Definition flush (cur : string) : list string := if String.eqb cur "" then [] else [cur].
Fixpoint names_from (cur s : string) : list string :=
  match s with
  | EmptyString => flush cur
  | String c s' => if is_slash c then (flush cur ++ names_from "" s')%list else names_from (cur ++ String c EmptyString) s'
  end.
Definition names (s : string) : list string := names_from "" s.
Definition is_absolute (s : string) : bool := match s with String c _ => is_slash c | EmptyString => false end.

(** What is at a place of the disk, that is given by the names from the root, and the working directory. Links are not modelled. *)
Inductive node : Type := Nothing | Directory | Regular (text : string).
Record disk : Type := Disk { d_cwd : list string; d_at : list string -> node }.
Definition place_of (d : disk) (path : string) : list string := if is_absolute path then names path else (d_cwd d ++ names path)%list.
Fixpoint ends_with_slash (s : string) : bool := match s with EmptyString => false | String c EmptyString => is_slash c | String _ s' => ends_with_slash s' end.
(** An empty path is not the path of something; a path that ends with a slash can only be that of a directory. *)
Definition look (d : disk) (path : string) : node :=
  if String.eqb path "" then Nothing
  else match d_at d (place_of d path) with Regular t => if ends_with_slash path then Nothing else Regular t | n => n end.
(** fs::is_regular_file; tools/utils.cpp:113-117. *)
Definition is_regular_file (d : disk) (path : string) : bool := match look d path with Regular _ => true | _ => false end.
Definition file_exists (d : disk) (path : string) : bool := match look d path with Nothing => false | _ => true end.

(** fs::path::parent_path: what is before the last slash, without the slashes at its end; the root if only slashes are left; nothing if there is no slash. *)
Fixpoint last_slash (s : string) : option (string * string) :=
  match s with
  | EmptyString => None
  | String c s' => match last_slash s' with Some (a, b) => Some (String c a, b) | None => if is_slash c then Some ("", s') else None end
  end.
Fixpoint strip (s : string) : string :=
  match s with
  | EmptyString => ""
  | String c s' => match strip s' with EmptyString => if is_slash c then "" else String c EmptyString | t => String c t end
  end.
Definition parent_path (s : string) : string :=
  match last_slash s with None => "" | Some (a, _) => match strip a with EmptyString => "/" | t => t end end.

(** ** The constructor *)

Inductive format : Type := Urdf | Mjcf.
Inductive geometry : Type := Collisions | Visuals.
(** robot_wrapper.h:23-40: the flags are bits. *)
Definition collision_as_visual (flags : Z) : bool := Z.testbit flags 0.
Definition ignore_collisions (flags : Z) : bool := Z.testbit flags 1.
Definition mjcf (flags : Z) : bool := Z.testbit flags 2.

(** What the constructor gives: the robot, the pairs, the objects for the collisions and for the display. *)
Record loaded : Type := Loaded { ld_robot : robot; ld_pairs : list pair; ld_collision : list gobject; ld_visual : list gobject }.

Section WithParsers.
Variable pn : rmodel -> pin.
Variable huge : R.
(** buildModel and buildModelFromXML: the model of a text. *)
Variable build : format -> string -> outcome rmodel.
(** buildGeom: the objects of a text; the last argument is where the meshes are looked for: a directory (URDF) or the file of the model (MJCF). *)
Variable geom : format -> string -> rmodel -> geometry -> string -> outcome (list gobject).
(** The parser of Json. *)
Variable json : string -> file.

(** A parser is given the name of a file: it raises std::invalid_argument if it cannot be read. *)
Definition read (d : disk) (path : string) : outcome string := match look d path with Regular t => Ok t | _ => Throw ELogic end.
(** The file of the pairs, as seen by load_collision_pairs: a directory can be opened, and then the parser fails. *)
Definition pairs_file (d : disk) (path : string) : file := match look d path with Nothing => Missing | Directory => Malformed | Regular t => json t end.

(** robot_wrapper.cpp:22-157. The member model_directory is what the user gave: the assignment of line 31 changes the argument of the same name. *)
Definition load (d : disk) (model_directory : string) (flags : Z) (urdf_content : string) : outcome loaded :=
  let is_file := is_regular_file d model_directory in
  let urdf_filename := if is_file then model_directory else if mjcf flags then model_directory ++ "/robot.xml" else model_directory ++ "/robot.urdf" in
  let dir := if is_file then parent_path model_directory else model_directory in
  let from_text := negb (String.eqb urdf_content "") in
  let fmt := if mjcf flags then Mjcf else Urdf in
  let meshes := if from_text then dir else if mjcf flags then urdf_filename else dir in
  if from_text && mjcf flags then Throw ERuntime
  else
    text <- (if from_text then Ok urdf_content else read d urdf_filename) ;;
    m <- build fmt text ;;
    collision <- geom fmt text m Collisions meshes ;;
    visual <- geom fmt text m (if collision_as_visual flags then Collisions else Visuals) meshes ;;
    let json_name := dir ++ "/collisions.json" in
    x <- new_robot (pn m) huge m collision (ignore_collisions flags) (file_exists d json_name) (pairs_file d json_name) ;;
    Ok (Loaded (fst x) (snd x) collision visual).
End WithParsers.
