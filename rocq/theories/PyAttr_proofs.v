From Coq Require Import List String Bool.
From Verif Require Import PyAttr_model PyAttr_spec.
Import ListNotations.
Local Open Scope string_scope.

Definition family (c : string) : list attribute :=
  flat_map (fun d => filter (fun e => String.eqb (at_class e) d) table) (lineage c).

Lemma resolve_in : forall c a e, resolve c a = Some e -> In e (family c) /\ at_name e = a.
Proof.
  intros c a e H. unfold resolve in H. apply find_some in H. destruct H as [H1 H2].
  apply String.eqb_eq in H2. split; assumption.
Qed.

(** The attribute [e] found on the class [c] reads the member it writes, and nothing else of the class reads it. *)
Definition sound_at (c : string) (e : attribute) : bool :=
  match at_write e with
  | None => true
  | Some m =>
      String.eqb (at_read e) m && accepted c e &&
      forallb (fun f => String.eqb (at_name f) (at_name e) ||
                        negb (String.eqb (at_read f) m)) (family c)
  end.

Lemma sound_ordinary : forall c a e m,
  resolve c a = Some e -> at_write e = Some m -> sound_at c e = true -> ordinary c a.
Proof.
  intros c a e m He Hm Hs V x v. unfold sound_at in Hs. rewrite Hm in Hs.
  apply andb_prop in Hs. destruct Hs as [Hs Hf]. apply andb_prop in Hs. destruct Hs as [Hr Ha].
  apply String.eqb_eq in Hr.
  exists (fun k => if String.eqb k m then v else x k). split; [|split].
  - unfold py_set. rewrite He, Hm, Ha. reflexivity.
  - unfold py_get. rewrite He, Ha, Hr, String.eqb_refl. reflexivity.
  - intros b Hb. unfold py_get. destruct (resolve c b) as [f|] eqn:Eb; [|reflexivity].
    destruct (accepted c f); [|reflexivity].
    apply resolve_in in Eb. destruct Eb as [Hin Hname].
    apply resolve_in in He. destruct He as [_ Hname'].
    rewrite forallb_forall in Hf. specialize (Hf f Hin). apply orb_prop in Hf. destruct Hf as [Hf|Hf].
    + apply String.eqb_eq in Hf. exfalso. apply Hb. congruence.
    + apply negb_true_iff in Hf. rewrite Hf. reflexivity.
Qed.

(** The two attributes whose declaration is wrong. *)
Definition broken (c a : string) : bool :=
  (String.eqb c "Segment" && String.eqb a "end") ||
  (String.eqb c "LineContact" && String.eqb a "R_world_surface").

Lemma classes_sound :
  forallb (fun c => forallb (fun e => broken c (at_name e) || sound_at c e) (family c)) classes = true.
Proof. vm_compute. reflexivity. Qed.

Lemma table_classes : forallb (fun e => existsb (String.eqb (at_class e)) classes) table = true.
Proof. vm_compute. reflexivity. Qed.

Lemma bases_classes :
  forallb (fun p => existsb (String.eqb (fst p)) classes) bases = true.
Proof. vm_compute. reflexivity. Qed.

Lemma class_of_family : forall c e, In e (family c) -> In c classes.
Proof.
  intros c e He. destruct (existsb (String.eqb c) classes) eqn:Ec.
  - apply existsb_exists in Ec. destruct Ec as [d [Hd Hcd]]. apply String.eqb_eq in Hcd. subst. exact Hd.
  - exfalso.
    assert (Hl : lineage c = [c]).
    { unfold lineage. cbn [ancestry].
      destruct (find (fun p => String.eqb (fst p) c) bases) as [p|] eqn:Ep; [|reflexivity].
      apply find_some in Ep. destruct Ep as [Hin Hp]. apply String.eqb_eq in Hp.
      pose proof bases_classes as Hb. rewrite forallb_forall in Hb. specialize (Hb p Hin). rewrite Hp in Hb.
      congruence. }
    unfold family in He. rewrite Hl in He. apply in_flat_map in He. destruct He as [d [[<-|[]] He]].
    apply filter_In in He. destruct He as [Hin Hd]. apply String.eqb_eq in Hd.
    pose proof table_classes as Ht. rewrite forallb_forall in Ht. specialize (Ht e Hin). rewrite Hd in Ht.
    congruence.
Qed.
