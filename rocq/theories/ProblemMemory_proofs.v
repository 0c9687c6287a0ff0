(** Proofs about the memory of a Problem. *)
From Coq Require Import List Arith Bool Lia.
From Verif Require Import Base ProblemMemory_model ProblemMemory_spec.
Import ListNotations.

Definition holds (p : pmem) (a : nat) : Prop := In a (pm_vars p) \/ In a (pm_cons p).

Record tidy (h : pheap) (p : pmem) : Prop := Tidy {
  t_nodup : NoDup (pm_vars p ++ pm_cons p);
  t_alive : forall a, ph_alive h a = true <-> holds p a;
  t_range : forall a, holds p a -> a < ph_count h;
  t_deletes : forall a, ph_deletes h a = if Nat.ltb a (ph_count h) then (if ph_alive h a then 0 else 1) else 0 }.

Lemma pset_same : forall A (f : nat -> A) a v, pset f a v a = v.
Proof. intros. unfold pset. now rewrite Nat.eqb_refl. Qed.

Lemma pset_other : forall A (f : nat -> A) a v b, b <> a -> pset f a v b = f b.
Proof. intros A f a v b H. unfold pset. apply Nat.eqb_neq in H. now rewrite H. Qed.

(** Deleting a list of distinct live objects. *)
Lemma pdelete_all_ok : forall l h, NoDup l -> (forall a, In a l -> ph_alive h a = true) ->
  exists h', pdelete_all h l = Ok h' /\ ph_count h' = ph_count h /\
    (forall a, ph_alive h' a = (ph_alive h a && negb (existsb (Nat.eqb a) l))%bool) /\
    (forall a, ph_deletes h' a = ph_deletes h a + (if existsb (Nat.eqb a) l then 1 else 0)).
Proof.
  induction l as [|b l IH]; intros h N L.
  - exists h. cbn. repeat split; intros; [now rewrite andb_true_r|lia].
  - inversion N as [|b' l' Nb Nl]; subst. cbn [pdelete_all]. unfold pdelete. rewrite (L b) by now left. cbn [guard obind].
    match goal with |- context [pdelete_all ?h0 l] => destruct (IH h0 Nl) as (h' & E & C & A & D) end.
    + intros a Ha. cbn [ph_alive]. rewrite pset_other; [apply L; now right|]. intros ->. contradiction.
    + exists h'. split; [exact E|]. split; [exact C|]. cbn [ph_alive ph_deletes] in A, D. split; intros a.
      * rewrite A. cbn [existsb]. unfold pset. destruct (Nat.eqb a b) eqn:Eab; cbn; [|reflexivity].
        apply Nat.eqb_eq in Eab. subst. now rewrite andb_false_r.
      * rewrite D. cbn [existsb]. unfold pset. destruct (Nat.eqb a b) eqn:Eab; cbn [orb]; [|reflexivity].
        apply Nat.eqb_eq in Eab. subst a. destruct (existsb (Nat.eqb b) l) eqn:Ex; [|lia].
        apply existsb_exists in Ex. destruct Ex as (x & Hx & Ex). apply Nat.eqb_eq in Ex. subst. contradiction.
Qed.

Lemma existsb_eqb : forall a l, existsb (Nat.eqb a) l = true <-> In a l.
Proof.
  intros a l. rewrite existsb_exists. split.
  - intros (x & Hx & E). apply Nat.eqb_eq in E. now subst.
  - intros H. exists a. split; [exact H|apply Nat.eqb_refl].
Qed.

Lemma existsb_eqb_false : forall a l, existsb (Nat.eqb a) l = false <-> ~ In a l.
Proof.
  intros a l. rewrite <- existsb_eqb. destruct (existsb (Nat.eqb a) l); split; intros; congruence.
Qed.

(** Clearing a part [d] of what is held, leaving [p']. *)
Lemma clear_tidy : forall h p p' d, tidy h p -> NoDup d -> NoDup (pm_vars p' ++ pm_cons p') -> (forall a, In a d -> holds p a) ->
  (forall a, holds p' a <-> holds p a /\ ~ In a d) ->
  exists h', pdelete_all h d = Ok h' /\ ph_count h' = ph_count h /\ tidy h' p'.
Proof.
  intros h p p' d [T1 T2 T3 T4] N N' I H. destruct (pdelete_all_ok d h N) as (h' & E & C & A & D).
  - intros a Ha. apply T2. auto.
  - exists h'. split; [exact E|]. split; [exact C|]. constructor; [exact N'| | |].
    + intros a. rewrite A, andb_true_iff, negb_true_iff, existsb_eqb_false, T2, H. tauto.
    + intros a Ha. rewrite C. apply T3. apply H in Ha. tauto.
    + intros a. rewrite C, D, A, T4. destruct (Nat.ltb a (ph_count h)) eqn:L.
      * destruct (ph_alive h a) eqn:Al, (existsb (Nat.eqb a) d) eqn:Ex; cbn; try reflexivity.
        apply existsb_eqb in Ex. apply I in Ex. apply T2 in Ex. congruence.
      * destruct (existsb (Nat.eqb a) d) eqn:Ex; [|reflexivity]. apply existsb_eqb in Ex. apply I, T3 in Ex.
        apply Nat.ltb_ge in L. lia.
Qed.

Lemma tidy_new : tidy empty_pheap new_pmem.
Proof.
  constructor; cbn.
  - constructor.
  - intros a. unfold holds. cbn. split; [discriminate|tauto].
  - unfold holds. cbn. tauto.
  - intros a. reflexivity.
Qed.

Lemma add_tidy : forall h p p', tidy h p -> NoDup (pm_vars p' ++ pm_cons p') -> (forall a, holds p' a <-> holds p a \/ a = ph_count h) ->
  tidy (pnew h) p'.
Proof.
  intros h p p' [T1 T2 T3 T4] N H. constructor; [exact N| | |].
  - intros a. unfold pnew. cbn [ph_alive]. rewrite H. unfold pset. destruct (Nat.eqb a (ph_count h)) eqn:E.
    + apply Nat.eqb_eq in E. tauto.
    + apply Nat.eqb_neq in E. rewrite T2. tauto.
  - intros a Ha. cbn. apply H in Ha. destruct Ha as [Ha| ->]; [apply T3 in Ha; lia|lia].
  - intros a. unfold pnew. cbn [ph_alive ph_deletes ph_count]. rewrite T4. unfold pset.
    destruct (Nat.eqb a (ph_count h)) eqn:E.
    + apply Nat.eqb_eq in E. subst. rewrite Nat.ltb_irrefl. destruct (Nat.ltb (ph_count h) (S (ph_count h))); reflexivity.
    + apply Nat.eqb_neq in E. destruct (Nat.ltb a (ph_count h)) eqn:L.
      * apply Nat.ltb_lt in L. assert (Nat.ltb a (S (ph_count h)) = true) as -> by (apply Nat.ltb_lt; lia). reflexivity.
      * apply Nat.ltb_ge in L. assert (Nat.ltb a (S (ph_count h)) = false) as -> by (apply Nat.ltb_ge; lia). reflexivity.
Qed.

Lemma NoDup_parts : forall (a b : list nat), NoDup (a ++ b) -> NoDup a /\ NoDup b /\ (forall x, In x a -> In x b -> False).
Proof.
  induction a as [|x a IH]; intros b N; cbn in *.
  - repeat split; auto; constructor.
  - inversion N as [|x' l' Nx Nl]; subst. destruct (IH b Nl) as (A & B & D). repeat split.
    + constructor; [|exact A]. intros H. apply Nx. apply in_or_app. now left.
    + exact B.
    + intros y [<-|Hy] Hb; [apply Nx; apply in_or_app; now right|eauto].
Qed.

(** The link with the history. *)
Lemma handed_app : forall l o, handed (l ++ [o]) = handed l + match o with PAddVariable | PAddConstraint => 1 | _ => 0 end.
Proof. intros l o. unfold handed. rewrite filter_app, app_length. destruct o; reflexivity. Qed.

Lemma valid_variable_snoc : forall l o a, valid_variable (l ++ [o]) a <->
  (valid_variable l a /\ o <> PClearVariables) \/ (o = PAddVariable /\ a = handed l).
Proof.
  intros l o a. split.
  - intros (l1 & l2 & E & H & N). destruct l2 as [|x l2] using rev_ind.
    + apply app_inj_tail in E. destruct E as [<- ->]. right. auto.
    + clear IHl2. rewrite app_comm_cons, app_assoc in E. apply app_inj_tail in E. destruct E as [-> ->]. left. split.
      * exists l1, l2. repeat split; auto. intros I. apply N, in_or_app. now left.
      * intros ->. apply N, in_or_app. right. now left.
  - intros [[(l1 & l2 & -> & H & N) O]|[-> ->]].
    + exists l1, (l2 ++ [o]). rewrite <- app_assoc. repeat split; auto. intros I. apply in_app_or in I. destruct I as [I|[I|[]]]; auto.
    + exists l, []. repeat split; auto.
Qed.

Lemma valid_constraint_snoc : forall l o a, valid_constraint (l ++ [o]) a <->
  (valid_constraint l a /\ o <> PClearConstraints) \/ (o = PAddConstraint /\ a = handed l).
Proof.
  intros l o a. split.
  - intros (l1 & l2 & E & H & N). destruct l2 as [|x l2] using rev_ind.
    + apply app_inj_tail in E. destruct E as [<- ->]. right. auto.
    + clear IHl2. rewrite app_comm_cons, app_assoc in E. apply app_inj_tail in E. destruct E as [-> ->]. left. split.
      * exists l1, l2. repeat split; auto. intros I. apply N, in_or_app. now left.
      * intros ->. apply N, in_or_app. right. now left.
  - intros [[(l1 & l2 & -> & H & N) O]|[-> ->]].
    + exists l1, (l2 ++ [o]). rewrite <- app_assoc. repeat split; auto. intros I. apply in_app_or in I. destruct I as [I|[I|[]]]; auto.
    + exists l, []. repeat split; auto.
Qed.

Lemma prun_snoc : forall l s o, prun s (l ++ [o]) = (s' <- prun s l ;; prun_op s' o).
Proof.
  induction l as [|x l IH]; intros s o.
  - cbn [prun app obind]. destruct (prun_op s o); reflexivity.
  - cbn [prun app]. destruct (prun_op s x); cbn [obind]; [apply IH|reflexivity|reflexivity].
Qed.

Record reached (l : list pop) (h : pheap) (p : pmem) : Prop := Reached {
  r_tidy : tidy h p; r_count : ph_count h = handed l;
  r_vars : forall a, In a (pm_vars p) <-> valid_variable l a;
  r_cons : forall a, In a (pm_cons p) <-> valid_constraint l a }.

Lemma forallb_alive : forall h p l, tidy h p -> (forall a, In a l -> holds p a) -> forallb (ph_alive h) l = true.
Proof. intros h p l T H. apply forallb_forall. intros a Ha. apply (t_alive _ _ T). auto. Qed.

Lemma disciplined_reached : forall l, disciplined l -> exists h p, prun (empty_pheap, new_pmem) l = Ok (h, p) /\ reached l h p.
Proof.
  intros l D. induction D as [|l o D IH G].
  - exists empty_pheap, new_pmem. split; [reflexivity|]. constructor; [apply tidy_new|reflexivity| |]; intros a; cbn; split; try tauto;
      intros (l1 & l2 & E & _); destruct l1; discriminate.
  - destruct IH as (h & p & E & [T C V K]). rewrite prun_snoc, E. cbn [obind].
    destruct (NoDup_parts _ _ (t_nodup _ _ T)) as (NV & NK & NX).
    destruct o; cbn [prun_op].
    + eexists _, _. split; [reflexivity|]. constructor.
      * apply (add_tidy h p); [exact T| |].
        -- cbn [pm_vars pm_cons]. rewrite <- app_assoc. cbn [app]. apply NoDup_Add with (a := ph_count h) (l := pm_vars p ++ pm_cons p).
           ++ apply Add_app.
           ++ split; [apply (t_nodup _ _ T)|]. intros I. apply in_app_or in I. apply (t_range _ _ T) in I. lia.
        -- intros a. unfold holds. cbn [pm_vars pm_cons]. rewrite in_app_iff. cbn. intuition congruence.
      * cbn. rewrite handed_app. lia.
      * intros a. cbn [pm_vars]. rewrite in_app_iff, valid_variable_snoc, V, <- C. cbn. intuition (try congruence; auto).
      * intros a. cbn [pm_cons]. rewrite valid_constraint_snoc, K. intuition congruence.
    + eexists _, _. split; [reflexivity|]. constructor.
      * apply (add_tidy h p); [exact T| |].
        -- cbn [pm_vars pm_cons]. rewrite app_assoc. apply NoDup_Add with (a := ph_count h) (l := pm_vars p ++ pm_cons p).
           ++ pose proof (Add_app (ph_count h) (pm_vars p ++ pm_cons p) []) as A. now rewrite app_nil_r in A.
           ++ split; [apply (t_nodup _ _ T)|]. intros I. apply in_app_or in I. apply (t_range _ _ T) in I. lia.
        -- intros a. unfold holds. cbn [pm_vars pm_cons]. rewrite in_app_iff. cbn. intuition congruence.
      * cbn. rewrite handed_app. lia.
      * intros a. cbn [pm_vars]. rewrite valid_variable_snoc, V. intuition congruence.
      * intros a. cbn [pm_cons]. rewrite in_app_iff, valid_constraint_snoc, K, <- C. cbn. intuition (try congruence; auto).
    + destruct (clear_tidy h p (PMem (pm_vars p) []) (pm_cons p) T NK) as (h' & E' & C' & T').
      * cbn. now rewrite app_nil_r.
      * intros a. unfold holds. tauto.
      * intros a. unfold holds. cbn. intuition eauto.
      * unfold pclear_constraints. rewrite E'. cbn [obind]. eexists _, _. split; [reflexivity|]. constructor; [exact T'| | |].
        -- rewrite C', handed_app. lia.
        -- intros a. cbn [pm_vars]. rewrite valid_variable_snoc, V. intuition congruence.
        -- intros a. cbn [pm_cons]. rewrite valid_constraint_snoc. cbn. intuition congruence.
    + destruct (clear_tidy h p (PMem [] (pm_cons p)) (pm_vars p) T NV) as (h' & E' & C' & T').
      * exact NK.
      * intros a. unfold holds. tauto.
      * intros a. unfold holds. cbn. intuition eauto.
      * unfold pclear_variables. rewrite E'. cbn [obind]. eexists _, _. split; [reflexivity|]. constructor; [exact T'| | |].
        -- rewrite C', handed_app. lia.
        -- intros a. cbn [pm_vars]. rewrite valid_variable_snoc. cbn. intuition congruence.
        -- intros a. cbn [pm_cons]. rewrite valid_constraint_snoc, K. intuition congruence.
    + unfold psolve. rewrite !(forallb_alive h p) by (try exact T; unfold holds; tauto). cbn [andb guard]. exists h, p. split; [reflexivity|].
      constructor; [exact T|rewrite C, handed_app; lia| |]; intros a.
      * rewrite V, valid_variable_snoc. intuition congruence.
      * rewrite K, valid_constraint_snoc. intuition congruence.
    + unfold puse. assert (ph_alive h a = true) as ->.
      { apply (t_alive _ _ T). destruct G as [G|G]; [left; now apply V|right; now apply K]. }
      cbn [guard]. exists h, p. split; [reflexivity|]. constructor; [exact T|rewrite C, handed_app; lia| |]; intros b.
      * rewrite V, valid_variable_snoc. intuition congruence.
      * rewrite K, valid_constraint_snoc. intuition congruence.
    + contradiction.
Qed.

Lemma holds_valid : forall l h p a, reached l h p -> holds p a <-> valid_after l a.
Proof. intros l h p a [_ _ V K]. unfold holds, valid_after. now rewrite V, K. Qed.

Lemma destroy_tidy : forall h p, tidy h p -> exists h', pdestroy h p = Ok h' /\ ph_count h' = ph_count h /\ tidy h' new_pmem.
Proof.
  intros h p T. destruct (NoDup_parts _ _ (t_nodup _ _ T)) as (NV & NK & NX).
  destruct (clear_tidy h p (PMem (pm_vars p) []) (pm_cons p) T NK) as (h1 & E1 & C1 & T1).
  - cbn. now rewrite app_nil_r.
  - intros a. unfold holds. tauto.
  - intros a. unfold holds. cbn. intuition eauto.
  - destruct (clear_tidy h1 (PMem (pm_vars p) []) new_pmem (pm_vars p) T1 NV) as (h2 & E2 & C2 & T2).
    + constructor.
    + intros a. unfold holds. cbn. tauto.
    + intros a. unfold holds. cbn. intuition eauto.
    + exists h2. unfold pdestroy. rewrite E1. cbn [obind]. repeat split; [exact E2|congruence|apply T2..].
Qed.

Lemma pdelete_all_dead : forall l h, l <> [] -> (forall a, ph_alive h a = false) -> pdelete_all h l = UB.
Proof. intros [|a l] h N D; [congruence|]. cbn. unfold pdelete. now rewrite D. Qed.
