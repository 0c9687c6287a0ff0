From Coq Require Import Reals List Arith Bool String Lia.
From Verif Require Import Base Geom3 Geometry_model Robot_model Manip_model ByName_model ByName_spec.
Import ListNotations.
Open Scope R_scope.

Lemma position_none : forall l name, ~ In name l -> position_of name l = None.
Proof.
  induction l as [|n l IH]; intros name H; [reflexivity|]. cbn [position_of].
  destruct (String.eqb n name) eqn:E.
  - apply String.eqb_eq in E. exfalso. apply H. left. exact E.
  - rewrite IH; [reflexivity|]. intros K. apply H. right. exact K.
Qed.

Lemma position_first : forall l name i, first_at name l i -> position_of name l = Some i.
Proof.
  induction l as [|n l IH]; intros name i [H K]; [destruct i; discriminate|]. cbn [position_of].
  destruct i as [|i].
  - cbn in H. injection H as ->. rewrite String.eqb_refl. reflexivity.
  - destruct (String.eqb n name) eqn:E.
    + apply String.eqb_eq in E. subst n. exfalso. apply (K O); [lia|]. reflexivity.
    + rewrite (IH name i); [reflexivity|]. split; [exact H|]. intros k L. apply (K (S k)). lia.
Qed.

Lemma in_first : forall l name, In name l -> exists i, first_at name l i /\ (i < List.length l)%nat.
Proof.
  induction l as [|n l IH]; intros name H; [destruct H|].
  destruct (String.eqb n name) eqn:E.
  - apply String.eqb_eq in E. subst n. exists O. split; [split; [reflexivity|intros k L; lia]|cbn; lia].
  - destruct H as [H|H]; [apply String.eqb_neq in E; congruence|]. destruct (IH name H) as [i [[A B] L]].
    exists (S i). split; [|cbn; lia]. split; [exact A|]. intros k Lk. destruct k as [|k].
    + cbn. intros K. injection K as K. apply String.eqb_neq in E. congruence.
    + apply (B k). lia.
Qed.

Lemma first_lt : forall l name i, first_at name l i -> (i < List.length l)%nat.
Proof. intros l name i [H _]. apply nth_error_Some. congruence. Qed.

Lemma frame_missing : forall r f, no_frame r f -> get_frame_index r f = Throw ERuntime.
Proof. intros r f H. unfold get_frame_index. rewrite (position_none _ _ H). reflexivity. Qed.

Lemma find_missing : forall l j, ~ In j (map jt_name l) -> find (fun x => String.eqb (jt_name x) j) l = None.
Proof.
  induction l as [|x l IH]; intros j H; [reflexivity|]. cbn [find]. destruct (String.eqb (jt_name x) j) eqn:E.
  - apply String.eqb_eq in E. exfalso. apply H. left. exact E.
  - apply IH. intros K. apply H. right. exact K.
Qed.

Lemma joint_missing : forall r j, no_joint r j -> joint_of (r_model r) j = UB /\ exist_joint_name (r_model r) j = false.
Proof.
  intros r j [H U]. unfold joint_of, exist_joint_name, find_joint. rewrite (find_missing _ _ H).
  apply String.eqb_neq in U. rewrite U. auto.
Qed.

Lemma joint_of_quiet : forall m j e, joint_of m j <> Throw e.
Proof. intros m j e. unfold joint_of. destruct (String.eqb j "universe"); [discriminate|]. destruct (find_joint m j); discriminate. Qed.

Lemma frame_known : forall r f i, first_at f (m_frames (r_model r)) i -> get_frame_index r f = Ok i.
Proof. intros r f i H. unfold get_frame_index. rewrite (position_first _ _ _ H). reflexivity. Qed.
