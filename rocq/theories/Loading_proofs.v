(** Proofs about the files that a robot is read from. *)
From Coq Require Import Reals List ZArith Bool String Ascii Lia.
From Verif Require Import Base Geom3 Tools_model Geometry_model Robot_model Collision_model Collision_spec Loading_model Loading_spec.
Import ListNotations.
Open Scope string_scope.

Lemma append_assoc (a b c : string) : (a ++ b) ++ c = a ++ b ++ c.
Proof. induction a as [|x a IH]; cbn; [reflexivity|]. now rewrite IH. Qed.
Lemma append_nil (a : string) : a ++ "" = a.
Proof. induction a as [|x a IH]; cbn; [reflexivity|]. now rewrite IH. Qed.
Lemma append_snoc (a b : string) c : a ++ String c b = (a ++ String c "") ++ b.
Proof. rewrite append_assoc. reflexivity. Qed.

Lemma names_join a b : forall cur, names_from cur (a ++ String "/" b) = (names_from cur a ++ names b)%list.
Proof.
  induction a as [|c a IH]; intros cur; cbn [append names_from]; [reflexivity|]. destruct (is_slash c); [|apply IH]. rewrite IH. now rewrite app_assoc.
Qed.
Fixpoint no_slash (s : string) : Prop := match s with EmptyString => True | String c s' => is_slash c = false /\ no_slash s' end.
Lemma names_plain b : no_slash b -> forall cur, names_from cur b = flush (cur ++ b).
Proof.
  induction b as [|c b IH]; intros H cur; cbn [names_from]; [now rewrite append_nil|]. destruct H as [H1 H2]. rewrite H1, (IH H2), <- append_snoc. reflexivity.
Qed.
Lemma last_slash_none s : last_slash s = None -> no_slash s.
Proof.
  induction s as [|c s IH]; cbn [last_slash]; [intros; exact I|]. destruct (last_slash s) as [[a b]|]; [discriminate|]. destruct (is_slash c) eqn:E; [discriminate|]. intros _. split; auto.
Qed.
Lemma slash_char c : is_slash c = true -> c = "/"%char.
Proof. apply Ascii.eqb_eq. Qed.
Lemma last_slash_some s : forall a b, last_slash s = Some (a, b) -> s = a ++ String "/" b /\ no_slash b.
Proof.
  induction s as [|c s IH]; intros a b H; cbn [last_slash] in H; [discriminate|]. destruct (last_slash s) as [[a' b']|] eqn:E.
  - injection H as <- <-. destruct (IH _ _ eq_refl) as [-> N]. split; [reflexivity|exact N].
  - destruct (is_slash c) eqn:Ec; [|discriminate]. injection H as <- <-. apply slash_char in Ec. subst c. split; [reflexivity|now apply last_slash_none].
Qed.
Lemma no_slash_has s : no_slash s -> ~ has_slash s.
Proof. intros H (a & b & ->). induction a as [|c a IH]; cbn in H; [destruct H; discriminate|]. destruct H as [_ H]. exact (IH H). Qed.

Lemma strip_empty s : strip s = "" -> forall cur, names_from cur s = flush cur.
Proof.
  induction s as [|c s IH]; intros H cur; [reflexivity|]. cbn [strip] in H. destruct (strip s) eqn:E; [|discriminate]. destruct (is_slash c) eqn:Ec; [|discriminate].
  cbn [names_from]. rewrite Ec, (IH eq_refl ""). apply app_nil_r.
Qed.
Lemma strip_names s : forall cur, names_from cur (strip s) = names_from cur s.
Proof.
  induction s as [|c s IH]; intros cur; [reflexivity|]. cbn [strip]. destruct (strip s) as [|c' t] eqn:E.
  - cbn [names_from]. rewrite !(strip_empty s E). destruct (is_slash c) eqn:Ec; cbn [names_from]; [now rewrite app_nil_r|]. now rewrite Ec.
  - change (names_from cur (String c (String c' t)) = names_from cur (String c s)). cbn [names_from] in *. destruct (is_slash c); [f_equal; apply IH|apply IH].
Qed.
Lemma strip_absolute s : strip s <> "" -> is_absolute (strip s) = is_absolute s.
Proof. destruct s as [|c s]; [contradiction|]. cbn [strip]. destruct (strip s); [|reflexivity]. destruct (is_slash c) eqn:E; [contradiction|]. reflexivity. Qed.
Lemma strip_root s : strip s = "" -> s = "" \/ is_absolute s = true.
Proof. destruct s as [|c s]; [auto|]. cbn [strip]. destruct (strip s); [|discriminate]. destruct (is_slash c) eqn:E; [|discriminate]. right. exact E. Qed.

Lemma absolute_join a b : a <> "" -> is_absolute (a ++ b) = is_absolute a.
Proof. destruct a; [contradiction|reflexivity]. Qed.
Lemma place_join d a b : a <> "" -> no_slash b -> b <> "" -> place_of d (a ++ String "/" b) = (place_of d a ++ [b])%list.
Proof.
  intros Ha Nb Hb. assert (Eb : names b = [b]) by (unfold names; rewrite (names_plain b Nb); cbn [append]; unfold flush; destruct (String.eqb_spec b ""); [contradiction|reflexivity]).
  unfold place_of. rewrite (absolute_join _ _ Ha). change (names (a ++ String "/" b)) with (names_from "" (a ++ String "/" b)). rewrite names_join, Eb. destruct (is_absolute a); [reflexivity|]. apply app_assoc.
Qed.
Lemma ends_join a b : ends_with_slash (a ++ String "/" b) = if String.eqb b "" then true else ends_with_slash b.
Proof.
  induction a as [|c a IH].
  - cbn [append ends_with_slash]. destruct b; reflexivity.
  - cbn [append]. rewrite <- IH. destruct (a ++ String "/" b) eqn:E; [destruct a; discriminate|]. reflexivity.
Qed.

(** The directory of a file, when its path has a slash. *)
Lemma parent_place d s t : look d s = Regular t -> has_slash s -> parent_path s <> "" /\ place_of d (parent_path s) = removelast (place_of d s).
Proof.
  intros H Hs. unfold parent_path. destruct (last_slash s) as [[a b]|] eqn:E; [|destruct (no_slash_has s (last_slash_none s E) Hs)]. destruct (last_slash_some s a b E) as [-> Nb].
  assert (Hb : b <> "").
  { intros ->. unfold look in H. rewrite ends_join in H. cbn [String.eqb] in H. destruct (String.eqb _ _); [discriminate|]. destruct (d_at d _); discriminate. }
  assert (Eb : names b = [b]) by (unfold names; rewrite (names_plain b Nb); cbn [append]; unfold flush; destruct (String.eqb_spec b ""); [contradiction|reflexivity]).
  destruct (strip a) as [|c t'] eqn:Ea.
  - split; [discriminate|]. unfold place_of at 2. unfold names. rewrite names_join, Eb. rewrite (strip_empty a Ea "").
    assert (A : is_absolute (a ++ String "/" b) = true) by (destruct (strip_root a Ea) as [->|Ha]; [reflexivity|rewrite absolute_join; [exact Ha|now destruct a]]).
    rewrite A. reflexivity.
  - split; [discriminate|]. rewrite <- Ea. assert (Na : strip a <> "") by (rewrite Ea; discriminate). assert (Ha : a <> "") by (intros ->; now apply Na).
    unfold place_of. rewrite (strip_absolute a Na), (absolute_join a _ Ha). unfold names. rewrite strip_names, names_join, Eb.
    destruct (is_absolute a); rewrite ?app_assoc, removelast_last; reflexivity.
Qed.
(** The directory of a file whose path has no slash. *)
Lemma parent_plain s : ~ has_slash s -> parent_path s = "".
Proof. intros H. unfold parent_path. destruct (last_slash s) as [[a b]|] eqn:E; [|reflexivity]. destruct (last_slash_some s a b E) as [-> _]. destruct H. now exists a, b. Qed.

Lemma look_join d a b : a <> "" -> no_slash b -> b <> "" -> look d (a ++ String "/" b) = d_at d (place_of d a ++ [b])%list.
Proof.
  intros Ha Nb Hb. unfold look. rewrite (place_join d a b Ha Nb Hb). destruct (String.eqb_spec (a ++ String "/" b) ""); [destruct a; discriminate|].
  rewrite ends_join. destruct (String.eqb_spec b ""); [contradiction|].
  assert (E : ends_with_slash b = false). { clear - Nb. induction b as [|c b IH]; [reflexivity|]. destruct Nb as [N1 N2]. destruct b; [exact N1|]. exact (IH N2). }
  rewrite E. destruct (d_at d _); reflexivity.
Qed.
