From Coq Require Import List ZArith Reals Lia Bool Lra Psatz.
From Verif Require Import Base Sparsity_model Sparsity_spec.
Import ListNotations.
Open Scope Z_scope.

Lemma canonical_from_weaken lo lo' s : lo' <= lo -> canonical_from lo s -> canonical_from lo' s.
Proof. destruct s; simpl; intuition lia. Qed.

Lemma canonical_from_canonical lo s : canonical_from lo s -> canonical s.
Proof. destruct s; simpl; intuition lia. Qed.

Lemma canonical_exists_from s : canonical s -> exists lo, canonical_from lo s.
Proof. destruct s as [|iv r]; simpl; intros H; [exists 0; exact I|exists (i_start iv); exact H]. Qed.

Lemma covers_nil i : covers [] i <-> False.
Proof. split; [intros (iv & [] & _)|tauto]. Qed.

Lemma covers_cons o s i : covers (o :: s) i <-> (i_start o <= i <= i_end o \/ covers s i).
Proof.
  split.
  - intros (iv & [<-|H] & Hi); [now left|right; now exists iv].
  - intros [H|(iv & H & Hi)]; [exists o; simpl; tauto|exists iv; simpl; tauto].
Qed.

Lemma loop_inserted s a b : add_interval_loop s true a b = s.
Proof. induction s as [|o r IH]; simpl; [reflexivity|now rewrite IH]. Qed.

Lemma contains_true iv i : contains iv i = true <-> i_start iv <= i <= i_end iv.
Proof. unfold contains. rewrite andb_true_iff, !Z.leb_le. tauto. Qed.

Lemma contains_false iv i : contains iv i = false <-> ~ (i_start iv <= i <= i_end iv).
Proof. rewrite <- contains_true. destruct (contains iv i); intuition congruence. Qed.

Lemma add_loop_spec s : forall lo start end_,
  canonical_from lo s -> start <= end_ ->
  canonical_from (Z.min lo start) (add_interval_loop s false start end_) /\
  forall i, covers (add_interval_loop s false start end_) i <-> covers s i \/ start <= i <= end_.
Proof.
  induction s as [|o r IH]; intros lo start end_ Hc Hse.
  - simpl. split; [intuition lia|]. intros i. rewrite covers_cons, covers_nil. simpl. tauto.
  - destruct Hc as (H1 & H2 & H3). cbn [add_interval_loop].
    destruct (end_ <? i_start o) eqn:E1.
    { rewrite loop_inserted. apply Z.ltb_lt in E1. split.
      - cbn [canonical_from]; cbn [i_start i_end]. repeat split; try lia. exact H3.
      - intros i. rewrite !covers_cons. cbn [i_start i_end]. tauto. }
    apply Z.ltb_ge in E1.
    destruct (contains o start) eqn:E2; destruct (contains o end_) eqn:E3; cbn [andb].
    + rewrite loop_inserted. apply contains_true in E2, E3. split.
      * cbn [canonical_from]. repeat split; try lia. exact H3.
      * intros i. rewrite !covers_cons. intuition lia.
    + apply contains_true in E2. apply contains_false in E3.
      destruct (IH (i_end o + 1) (i_start o) end_ H3 ltac:(lia)) as [A B]. split.
      * eapply canonical_from_weaken; [|exact A]. lia.
      * intros i. rewrite B, covers_cons.
        destruct (Z_le_dec (i_start o) i), (Z_le_dec i (i_end o)), (Z_le_dec i end_), (Z_le_dec start i); intuition lia.
    + apply contains_true in E3. apply contains_false in E2. rewrite loop_inserted. split.
      * cbn [canonical_from]; cbn [i_start i_end]. repeat split; try lia. exact H3.
      * intros i. rewrite !covers_cons. cbn [i_start i_end].
        destruct (Z_le_dec (i_start o) i), (Z_le_dec i (i_end o)), (Z_le_dec i end_), (Z_le_dec start i); intuition lia.
    + apply contains_false in E2, E3. destruct (start >? i_start o) eqn:E4.
      * rewrite Z.gtb_lt in E4.
        destruct (IH (i_end o + 1) start end_ H3 Hse) as [A B]. split.
        { cbn [canonical_from]. repeat split; try lia. eapply canonical_from_weaken; [|exact A]. lia. }
        { intros i. rewrite !covers_cons, B. tauto. }
      * rewrite Z.gtb_ltb, Z.ltb_ge in E4.
        destruct (IH (i_end o + 1) start end_ H3 Hse) as [A B]. split.
        { eapply canonical_from_weaken; [|exact A]. lia. }
        { intros i. rewrite B, covers_cons. intuition lia. }
Qed.

Lemma add_interval_spec s start end_ :
  canonical s -> start <= end_ ->
  canonical (add_interval s start end_) /\
  forall i, covers (add_interval s start end_) i <-> covers s i \/ start <= i <= end_.
Proof.
  intros Hc Hse. destruct (canonical_exists_from s Hc) as [lo Hlo].
  destruct (add_loop_spec s lo start end_ Hlo Hse) as [A B]. split; [|exact B].
  eapply canonical_from_canonical; exact A.
Qed.

Lemma built_spec s P : built s P -> canonical s /\ forall i, covers s i <-> P i.
Proof.
  induction 1 as [|s P a b Hb [IH1 IH2] Hab].
  - split; [exact I|]. apply covers_nil.
  - destruct (add_interval_spec s a b IH1 Hab) as [A B]. split; [exact A|].
    intros i. rewrite B, IH2. tauto.
Qed.

Lemma canonical_from_nonempty lo s iv : canonical_from lo s -> In iv s -> i_start iv <= i_end iv.
Proof.
  revert lo. induction s as [|o r IH]; intros lo H Hin; [destruct Hin|].
  destruct H as (_ & H2 & H3). destruct Hin as [<-|Hin]; [exact H2|]. eapply IH; eauto.
Qed.

Lemma fold_add_spec t : forall s,
  canonical s -> (forall iv, In iv t -> i_start iv <= i_end iv) ->
  let r := fold_left (fun s iv => add_interval s (i_start iv) (i_end iv)) t s in
  canonical r /\ forall i, covers r i <-> covers s i \/ covers t i.
Proof.
  induction t as [|o t IH]; intros s Hs Ht; cbn [fold_left].
  - split; [exact Hs|]. intros i. rewrite covers_nil. tauto.
  - destruct (add_interval_spec s (i_start o) (i_end o) Hs (Ht o (or_introl eq_refl))) as [A B].
    destruct (IH _ A (fun iv H => Ht iv (or_intror H))) as [C D]. split; [exact C|].
    intros i. rewrite D, B, covers_cons. tauto.
Qed.

Lemma plus_spec s1 s2 : canonical s1 -> canonical s2 ->
  canonical (sparsity_plus s1 s2) /\ forall i, covers (sparsity_plus s1 s2) i <-> covers s1 i \/ covers s2 i.
Proof.
  intros H1 H2. destruct (canonical_exists_from _ H1) as [l1 L1]. destruct (canonical_exists_from _ H2) as [l2 L2].
  destruct (fold_add_spec s1 [] I (fun iv => canonical_from_nonempty l1 s1 iv L1)) as [A B].
  destruct (fold_add_spec s2 _ A (fun iv => canonical_from_nonempty l2 s2 iv L2)) as [C D].
  split; [exact C|]. intros i. unfold sparsity_plus. rewrite D, B, covers_nil. tauto.
Qed.

(** Column scan. *)
Lemma col_is_zero_false k M j :
  col_is_zero k M j = false <-> exists i, (i < k)%nat /\ (Rabs (mat_at M i j) > 1 / 1000000000000)%R.
Proof.
  induction k as [|k IH]; simpl.
  - split; [discriminate|]. intros (i & H & _). lia.
  - destruct (Rle_dec (Rabs (mat_at M k j)) (1 / 1000000000000)) as [H|H]; simpl.
    + rewrite IH. split; intros (i & Hi & Hr).
      * exists i; split; [lia|exact Hr].
      * destruct (Nat.eq_dec i k) as [->|]; [exfalso; lra|]. exists i; split; [lia|exact Hr].
    + split; [|reflexivity]. intros _. exists k; split; [lia|]. apply Rnot_le_lt in H. lra.
Qed.

Lemma col_is_zero_nonzero M j : col_is_zero (mrows M) M j = false <-> nonzero_column M j.
Proof. apply col_is_zero_false. Qed.

(** Appending an interval strictly after everything. *)
Lemma add_interval_append s : forall lo start end_,
  canonical_from lo s -> start <= end_ -> (forall i, covers s i -> i < start) ->
  add_interval_loop s false start end_ = s ++ [Interval start end_].
Proof.
  induction s as [|o r IH]; intros lo a b Hc Hab Hlt; [reflexivity|].
  destruct Hc as (H1 & H2 & H3). cbn [add_interval_loop app].
  assert (Ho : i_end o < a) by (apply Hlt; rewrite covers_cons; left; lia).
  replace (b <? i_start o) with false by (symmetry; apply Z.ltb_ge; lia).
  replace (contains o a) with false by (symmetry; apply contains_false; lia).
  replace (contains o b) with false by (symmetry; apply contains_false; lia). cbn [andb].
  replace (a >? i_start o) with true by (symmetry; rewrite Z.gtb_ltb; apply Z.ltb_lt; lia).
  f_equal. eapply IH; eauto. intros i Hi. apply Hlt. rewrite covers_cons. tauto.
Qed.

Lemma separated_app s iv : separated s -> (forall i, covers s i -> i + 1 < i_start iv) ->
  (forall x, In x s -> i_start x <= i_end x) -> separated (s ++ [iv]).
Proof.
  induction s as [|a r IH]; intros Hs Hlt Hne; [exact I|].
  destruct r as [|b r].
  - simpl. split; [|exact I]. apply Hlt. exists a. split; [now left|]. specialize (Hne a (or_introl eq_refl)). lia.
  - simpl in *. destruct Hs as [H1 H2]. split; [exact H1|]. apply IH; [exact H2| |].
    + intros i Hi. apply Hlt. rewrite covers_cons. tauto.
    + intros x Hx. apply Hne. tauto.
Qed.

Definition scan_inv (M : mat) (column : nat) (last : Z) (s : sparsity) : Prop :=
  canonical s /\ separated s /\
  (last = -1 \/ (0 <= last < Z.of_nat column /\
                 (forall j, (Z.to_nat last <= j < column)%nat -> nonzero_column M j) /\
                 (last = 0 \/ ~ nonzero_column M (Z.to_nat last - 1)))) /\
  (last = -1 -> (column = 0%nat \/ ~ nonzero_column M (column - 1) )) /\
  (forall i, covers s i <-> exists j, i = Z.of_nat j /\ (j < (if (last =? -1)%Z then column else Z.to_nat last))%nat /\ nonzero_column M j).

Lemma covers_lt_canon s iv : canonical s -> In iv s -> i_start iv <= i_end iv.
Proof. intros H. destruct (canonical_exists_from _ H). now apply canonical_from_nonempty with x. Qed.

Lemma detect_flush M column last s :
  scan_inv M column last s -> last <> -1 ->
  let s' := add_interval s last (Z.of_nat column - 1) in
  canonical s' /\ separated s' /\
  (forall i, covers s' i <-> exists j, i = Z.of_nat j /\ (j < column)%nat /\ nonzero_column M j).
Proof.
  intros (Hc & Hsep & Hl & _ & Hcov) Hne. cbv zeta.
  destruct Hl as [Hl|(Hl1 & Hl2 & Hl3)]; [contradiction|].
  apply Z.eqb_neq in Hne. rewrite Hne in Hcov.
  destruct (add_interval_spec s last (Z.of_nat column - 1) Hc ltac:(lia)) as [A B].
  assert (Hlt : forall i, covers s i -> i + 1 < last).
  { intros i Hi. apply Hcov in Hi. destruct Hi as (j & -> & Hj & Hnz).
    destruct Hl3 as [->|Hz]; [simpl in Hj; lia|].
    destruct (Nat.eq_dec j (Z.to_nat last - 1)) as [->|]; [contradiction|]. lia. }
  split; [exact A|]. split.
  - destruct (canonical_exists_from _ Hc) as [lo Hlo]. unfold add_interval.
    rewrite (add_interval_append s lo); [|exact Hlo|lia|intros i Hi; specialize (Hlt i Hi); lia].
    apply separated_app; [exact Hsep|exact Hlt|]. intros x. now apply covers_lt_canon.
  - intros i. rewrite B, Hcov. split.
    + intros [(j & -> & Hj & Hnz)|H].
      * exists j. repeat split; [lia|exact Hnz].
      * exists (Z.to_nat i). split; [lia|]. split; [lia|]. apply Hl2. lia.
    + intros (j & -> & Hj & Hnz). destruct (le_lt_dec (Z.to_nat last) j).
      * right. lia.
      * left. exists j. repeat split; [lia|exact Hnz].
Qed.

Lemma detect_loop_spec M : forall n column last s,
  (column + n)%nat = mcols M -> scan_inv M column last s ->
  let r := detect_loop n M column last s in
  canonical r /\ separated r /\
  (forall i, covers r i <-> exists j, i = Z.of_nat j /\ (j < mcols M)%nat /\ nonzero_column M j).
Proof.
  induction n as [|n IH]; intros column last s Hn Hinv; cbn [detect_loop].
  - destruct (last =? -1) eqn:E.
    + destruct Hinv as (Hc & Hs & _ & _ & Hcov). rewrite E in Hcov. split; [exact Hc|]. split; [exact Hs|].
      rewrite <- Hn, Nat.add_0_r. exact Hcov.
    + apply Z.eqb_neq in E. rewrite <- Hn, Nat.add_0_r. apply detect_flush; assumption.
  - destruct (col_is_zero (mrows M) M column) eqn:Ez.
    + assert (Hz : ~ nonzero_column M column).
      { intros H. apply col_is_zero_nonzero in H. congruence. }
      destruct (last =? -1) eqn:E.
      * apply IH; [lia|]. destruct Hinv as (Hc & Hs & Hl & Hm & Hcov). rewrite E in Hcov.
        apply Z.eqb_eq in E. subst last. repeat split; try assumption.
        { now left. }
        { intros _. right. now replace (S column - 1)%nat with column by lia. }
        { intros H. apply Hcov in H. destruct H as (j & -> & Hj & Hnz). exists j. cbn. repeat split; [lia|exact Hnz]. }
        { intros (j & -> & Hj & Hnz). cbn in Hj. apply Hcov. exists j. repeat split; [|exact Hnz].
          destruct (Nat.eq_dec j column); [subst; contradiction|lia]. }
      * apply Z.eqb_neq in E. destruct (detect_flush M column last s Hinv E) as (A & B & C).
        apply IH; [lia|]. repeat split; try assumption.
        { now left. }
        { intros _. right. now replace (S column - 1)%nat with column by lia. }
        { intros H. apply C in H. destruct H as (j & -> & Hj & Hnz). exists j. cbn. repeat split; [lia|exact Hnz]. }
        { intros (j & -> & Hj & Hnz). cbn in Hj. apply C. exists j. repeat split; [|exact Hnz].
          destruct (Nat.eq_dec j column); [subst; contradiction|lia]. }
    + apply col_is_zero_nonzero in Ez. destruct (last =? -1) eqn:E.
      * apply IH; [lia|]. destruct Hinv as (Hc & Hs & Hl & Hm & Hcov). rewrite E in Hcov.
        apply Z.eqb_eq in E. subst last. specialize (Hm eq_refl). repeat split; try assumption.
        { right. split; [lia|]. rewrite Nat2Z.id. split.
          - intros j Hj. replace j with column by lia. exact Ez.
          - destruct Hm as [->|Hm]; [now left|now right]. }
        { lia. }
        { intros H. apply Hcov in H. destruct H as (j & -> & Hj & Hnz). exists j.
          replace (Z.of_nat column =? -1) with false by (symmetry; apply Z.eqb_neq; lia).
          rewrite Nat2Z.id. repeat split; [lia|exact Hnz]. }
        { intros (j & -> & Hj & Hnz). apply Hcov. exists j.
          replace (Z.of_nat column =? -1) with false in Hj by (symmetry; apply Z.eqb_neq; lia).
          rewrite Nat2Z.id in Hj. repeat split; [lia|exact Hnz]. }
      * apply Z.eqb_neq in E. apply IH; [lia|]. destruct Hinv as (Hc & Hs & Hl & Hm & Hcov).
        destruct Hl as [Hl|(Hl1 & Hl2 & Hl3)]; [contradiction|]. apply Z.eqb_neq in E. rewrite E in Hcov.
        split; [exact Hc|]. split; [exact Hs|]. split; [|split].
        { right. split; [lia|]. split; [|exact Hl3]. intros j Hj.
          destruct (Nat.eq_dec j column) as [->|]; [exact Ez|]. apply Hl2. lia. }
        { lia. }
        { intros i. rewrite E, Hcov. reflexivity. }
Qed.

Lemma detect_spec M :
  let r := detect_columns_sparsity M in
  canonical r /\ separated r /\
  (forall i, covers r i <-> exists j, i = Z.of_nat j /\ (j < mcols M)%nat /\ nonzero_column M j).
Proof.
  apply detect_loop_spec; [lia|]. repeat split.
  - now left.
  - now left.
  - intros H. now apply covers_nil in H.
  - intros (j & _ & Hj & _). cbn in Hj. lia.
Qed.
