(** Properties of the files that a robot is read from (C182). *)
From Coq Require Import Reals List ZArith Bool String Ascii Lia Lra.
From Verif Require Import Base Geom3 Tools_model Geometry_model Robot_model Robot_spec Robot_proofs Robot_props Kin_proofs Collision_model Collision_spec Collision_proofs Collision_props
  Loading_model Loading_spec Loading_proofs.
Import ListNotations.
Open Scope string_scope.

Lemma flags_read a i c : collision_as_visual (flags_of a i c) = a /\ ignore_collisions (flags_of a i c) = i /\ mjcf (flags_of a i c) = c.
Proof. destruct a, i, c; repeat split. Qed.

Lemma load_inv pn huge build geom json d path a i c text x : load pn huge build geom json d path (flags_of a i c) text = Ok x ->
  exists is_file name dir t m, is_file = is_regular_file d path /\ name = (if is_file then path else path ++ "/" ++ model_name (format_of c)) /\ dir = (if is_file then parent_path path else path) /\
    (text <> "" /\ c = false /\ t = text \/ text = "" /\ read d name = Ok t) /\ build (format_of c) t = Ok m /\
    geom (format_of c) t m Collisions (if c then name else dir) = Ok (ld_collision x) /\
    geom (format_of c) t m (if a then Collisions else Visuals) (if c then name else dir) = Ok (ld_visual x) /\
    new_robot (pn m) huge m (ld_collision x) i (file_exists d (dir ++ "/collisions.json")) (pairs_file json d (dir ++ "/collisions.json")) = Ok (ld_robot x, ld_pairs x).
Proof.
  destruct (flags_read a i c) as (Fa & Fi & Fc). unfold load. cbv zeta. rewrite Fa, Fi, Fc. intros H.
  set (isf := is_regular_file d path) in *. exists isf, (if isf then path else path ++ "/" ++ model_name (format_of c)), (if isf then parent_path path else path).
  assert (En : (if isf then path else if c then path ++ "/robot.xml" else path ++ "/robot.urdf") = (if isf then path else path ++ "/" ++ model_name (format_of c))) by (destruct isf, c; reflexivity).
  rewrite En in H. assert (Ef : (if c then Mjcf else Urdf) = format_of c) by reflexivity. rewrite Ef in H.
  destruct (negb (String.eqb text "") && c) eqn:E; [discriminate|]. bind H t Et. bind H m Em. bind H co Ec. bind H vi Ev. bind H y Ey. destruct y as [r p]. injection H as <-. cbn [ld_robot ld_pairs ld_collision ld_visual fst snd].
  exists t, m. do 3 (split; [reflexivity|]). destruct (String.eqb_spec text "") as [->|Ht]; cbn [negb andb] in *.
  - split; [right; auto|]. split; [exact Em|]. auto.
  - subst c. injection Et as <-. split; [left; auto|]. auto.
Qed.

(** The model, its objects for the collisions and for the display come from one text: the one the user gave, else the file of the path, else robot.urdf (robot.xml) in
    the directory of the path. The joints, the frames and the limits of the robot are those of this model, and the robot is neutral and at rest. *)
Theorem C182_model pn huge build geom json d path a i c text x : path <> "" -> load pn huge build geom json d path (flags_of a i c) text = Ok x ->
  exists t m meshes, described d path text (format_of c) t /\ build (format_of c) t = Ok m /\
    geom (format_of c) t m Collisions meshes = Ok (ld_collision x) /\ geom (format_of c) t m (if a then Collisions else Visuals) meshes = Ok (ld_visual x) /\
    (c = true -> text = "" /\ place_of d meshes = model_place d path Mjcf) /\
    (c = false -> is_regular_file d path = false \/ has_slash path -> place_of d meshes = model_folder d path) /\
    m_joints (r_model (ld_robot x)) = m_joints m /\ m_frames (r_model (ld_robot x)) = m_frames m /\
    st_q (r_state (ld_robot x)) = pn_neutral (pn m) /\ up_to_date (ld_robot x).
Proof.
  intros Hp H. destruct (load_inv _ _ _ _ _ _ _ _ _ _ _ _ H) as (isf & name & dir & t & m & E1 & E2 & E3 & Et & Em & Ec & Ev & En).
  destruct (C150_new _ _ _ _ _ _ _ _ _ En) as (Q1 & _ & _ & Q2 & _ & J1 & J2 & _).
  assert (Hn : no_slash (model_name (format_of c)) /\ model_name (format_of c) <> "") by (destruct c; repeat split; discriminate).
  assert (Pn : place_of d name = model_place d path (format_of c)).
  { unfold model_place. subst name. unfold is_regular_file in E1. destruct (look d path) eqn:El; subst isf; try reflexivity; apply place_join; tauto. }
  assert (Rd : forall u, read d name = Ok u -> d_at d (model_place d path (format_of c)) = Regular u).
  { intros u Hu. unfold read, look in Hu. rewrite Pn in Hu. destruct (String.eqb name ""); [discriminate|]. destruct (d_at d (model_place d path (format_of c))); try discriminate.
    destruct (ends_with_slash name); [discriminate|]. congruence. }
  exists t, m, (if c then name else dir). split; [|split; [exact Em|]; split; [exact Ec|]; split; [exact Ev|]; split; [|split; [|auto]]].
  - destruct Et as [(Ht & _ & ->)|[Ht Hr]]; [left; auto|right; auto].
  - intros ->. split; [|exact Pn]. destruct Et as [(_ & X & _)|[X _]]; [discriminate|exact X].
  - intros -> Hs. unfold model_folder. subst dir. unfold is_regular_file in *. destruct (look d path) eqn:El; subst isf; try reflexivity. destruct Hs as [Hs|Hs]; [discriminate|].
    apply (parent_place d path text0 El Hs).
Qed.
Print Assumptions C182_model.

Lemma pairs_wanted json d s pn huge m objects i r pairs n : file_exists d s = match n with Nothing => false | _ => true end -> pairs_file json d s = match n with Nothing => Missing | Directory => Malformed | Regular t => json t end ->
  new_robot pn huge m objects i (file_exists d s) (pairs_file json d s) = Ok (r, pairs) -> wanted_pairs json i (m_frames m) objects n pairs.
Proof.
  intros F P H. destruct (C150_new _ _ _ _ _ _ _ _ _ H) as (_ & _ & _ & _ & _ & _ & _ & _ & _ & _ & T). rewrite F, P in T. unfold wanted_pairs. intros x y. rewrite T. destruct n as [| |t]; [tauto| |tauto].
  split; [intros (_ & L & e & E & _); discriminate|intros [_ []]].
Qed.

(** The pairs are those of collisions.json in the directory of the model, when the path is that of a directory or tells the directory of the file. *)
Theorem C182_beside_partial pn huge build geom json d path a i c text x : path <> "" -> is_regular_file d path = false \/ has_slash path ->
  load pn huge build geom json d path (flags_of a i c) text = Ok x ->
  wanted_pairs json i (m_frames (r_model (ld_robot x))) (ld_collision x) (d_at d (model_folder d path ++ ["collisions.json"])%list) (ld_pairs x).
Proof.
  intros Hp Hs H. destruct (load_inv _ _ _ _ _ _ _ _ _ _ _ _ H) as (isf & name & dir & t & m & E1 & E2 & E3 & Et & Em & Ec & Ev & En).
  destruct (C150_new _ _ _ _ _ _ _ _ _ En) as (_ & _ & _ & _ & _ & _ & J2 & _). rewrite J2.
  assert (D : dir <> "" /\ place_of d dir = model_folder d path).
  { unfold model_folder. subst dir. unfold is_regular_file in *. destruct (look d path) eqn:El; subst isf; auto. destruct Hs as [Hs|Hs]; [discriminate|]. exact (parent_place d path text0 El Hs). }
  destruct D as [D1 D2]. assert (L : look d (dir ++ "/collisions.json") = d_at d (model_folder d path ++ ["collisions.json"])%list) by (rewrite <- D2; apply look_join; [exact D1|repeat split|discriminate]).
  refine (pairs_wanted _ _ _ _ _ _ _ _ _ _ _ _ _ En); unfold file_exists, pairs_file; rewrite L; reflexivity.
Qed.
Print Assumptions C182_beside_partial.

(** With the name of a file of the working directory, the file of the pairs is looked for in the root of the disk, and so it is when the path is empty. *)
Theorem C182_beside_behaviour pn huge build geom json d path a i c text x : (is_regular_file d path = true /\ ~ has_slash path) \/ path = "" ->
  load pn huge build geom json d path (flags_of a i c) text = Ok x ->
  wanted_pairs json i (m_frames (r_model (ld_robot x))) (ld_collision x) (d_at d ["collisions.json"]) (ld_pairs x).
Proof.
  intros Hs H. destruct (load_inv _ _ _ _ _ _ _ _ _ _ _ _ H) as (isf & name & dir & t & m & E1 & E2 & E3 & Et & Em & Ec & Ev & En).
  destruct (C150_new _ _ _ _ _ _ _ _ _ En) as (_ & _ & _ & _ & _ & _ & J2 & _). rewrite J2.
  assert (D : dir = "").
  { destruct Hs as [[Hf Hs]| ->]; [|subst dir isf; reflexivity]. subst dir isf. rewrite Hf. now apply parent_plain. }
  subst dir. rewrite D in En. assert (L : look d ("" ++ "/collisions.json") = d_at d ["collisions.json"]) by (cbn; destruct (d_at d ["collisions.json"]); reflexivity).
  refine (pairs_wanted _ _ _ _ _ _ _ _ _ _ _ _ _ En); unfold file_exists, pairs_file; rewrite L; reflexivity.
Qed.
Print Assumptions C182_beside_behaviour.

(** When it fails, whatever the path: a text with the MJCF flag, or a file that is not there. *)
Theorem C182_text_mjcf pn huge build geom json d path a i text : text <> "" -> load pn huge build geom json d path (flags_of a i true) text = Throw ERuntime.
Proof.
  intros Ht. destruct (flags_read a i true) as (Fa & Fi & Fc). unfold load. cbv zeta. rewrite Fc. destruct (String.eqb_spec text ""); [contradiction|]. reflexivity.
Qed.
Print Assumptions C182_text_mjcf.
Theorem C182_no_file pn huge build geom json d path a i c : path <> "" -> (forall t, d_at d (model_place d path (format_of c)) <> Regular t) ->
  load pn huge build geom json d path (flags_of a i c) "" = Throw ELogic.
Proof.
  intros Hp Hn. destruct (flags_read a i c) as (Fa & Fi & Fc). unfold load. cbv zeta. rewrite Fc. cbn [String.eqb negb andb].
  assert (R : read d (if is_regular_file d path then path else if c then path ++ "/robot.xml" else path ++ "/robot.urdf") = Throw ELogic).
  { unfold model_place in Hn. unfold read, is_regular_file. destruct (look d path) as [| |t] eqn:El.
    - destruct c; cbn [format_of model_name] in Hn; rewrite look_join; try (repeat split; discriminate); try exact Hp; destruct (d_at d _) as [| |u]; try reflexivity; destruct (Hn u eq_refl).
    - destruct c; cbn [format_of model_name] in Hn; rewrite look_join; try (repeat split; discriminate); try exact Hp; destruct (d_at d _) as [| |u]; try reflexivity; destruct (Hn u eq_refl).
    - exfalso. unfold look in El. destruct (String.eqb path ""); [discriminate|]. destruct (d_at d (place_of d path)) as [| |u]; try discriminate. exact (Hn u eq_refl). }
  rewrite R. reflexivity.
Qed.
Print Assumptions C182_no_file.

(** The robot of the collision example, in a directory with a file that lists one pair. Loaded from the directory, or with a path that tells the directory, it has this
    pair; with the name of the file in the working directory it has all of them. *)
Definition lx_disk : disk := Disk ["home"; "robot"]%list (fun l =>
  match l with
  | ["home"; "robot"; "robot.urdf"]%list | ["home"; "robot"; ".."; "robot"; "robot.urdf"]%list => Regular "<robot>"
  | ["home"; "robot"; "collisions.json"]%list | ["home"; "robot"; ".."; "robot"; "collisions.json"]%list => Regular "[[0, 1]]"
  | ["home"; "robot"]%list => Directory
  | _ => Nothing
  end).
Definition lx_build (f : format) (t : string) : outcome rmodel := Ok ex_model.
Definition lx_geom (f : format) (t : string) (m : rmodel) (g : geometry) (p : string) : outcome (list gobject) := Ok cx_objects.
Definition lx_json (t : string) : file := Entries [[JInt 0; JInt 1]].
Definition lx_load (path : string) : outcome loaded := load (fun _ => ex_pin) 1 lx_build lx_geom lx_json lx_disk path (flags_of false false false) "".
Theorem C182_beside_refuted : exists x y z, lx_load "/home/robot" = Ok x /\ lx_load "../robot/robot.urdf" = Ok y /\ lx_load "robot.urdf" = Ok z /\
  d_at lx_disk (model_folder lx_disk "robot.urdf" ++ ["collisions.json"])%list = Regular "[[0, 1]]" /\
  ld_pairs x = [(0, 1)]%nat /\ ld_pairs y = [(0, 1)]%nat /\ ~ wanted_pairs lx_json false (m_frames (r_model (ld_robot z))) (ld_collision z) (Regular "[[0, 1]]") (ld_pairs z).
Proof.
  unfold lx_load, load. cbv zeta. cbn -[new_robot ex_model cx_objects].
  eexists. eexists. eexists. split; [unfold new_robot; cbn; reflexivity|]. split; [unfold new_robot; cbn; reflexivity|]. split; [unfold new_robot; cbn; reflexivity|].
  split; [reflexivity|]. split; [reflexivity|]. split; [reflexivity|]. unfold wanted_pairs. intros H. destruct (H 0%nat 2%nat) as [H1 _].
  destruct H1 as (_ & L & x & E & Hx & Hl); [left; cbn; auto|]. unfold lx_json in E. injection E as <-. destruct Hx as [<-|[]].
  destruct Hl as [[Hl|(? & ? & Hl & _)]|[Hl|(? & ? & Hl & _)]]; discriminate.
Qed.
Print Assumptions C182_beside_refuted.
