From Coq Require Import Reals List ZArith Bool Lia Lra String.
From Verif Require Import Base Linalg Expression_model Expression_spec.
Import ListNotations.
Open Scope R_scope.

Definition ev (e : expr) (x : nat -> R) (i : nat) : R :=
  Rsum (cols e) (fun j => mat_at (eA e) i j * x j) + vat (eb e) i.

Lemma denotes_intro e n m f :
  rows e = n -> vlen (eb e) = n -> cols e = m -> (forall x i, (i < n)%nat -> ev e x i = f x i) -> denotes e n m f.
Proof.
  intros H1 H2 H3 H4. repeat split; try assumption. intros x Hx. unfold value.
  replace (Nat.leb (cols e) (vlen x)) with true by (symmetry; apply Nat.leb_le; lia).
  replace (Nat.eqb (rows e) (vlen (eb e))) with true by (symmetry; apply Nat.eqb_eq; lia).
  eexists. split; [reflexivity|]. split; [exact H1|]. intros i Hi. apply (H4 (vat x) i Hi).
Qed.

Lemma denotes_elim e n m f :
  denotes e n m f -> rows e = n /\ vlen (eb e) = n /\ cols e = m /\ forall x i, (i < n)%nat -> ev e x i = f x i.
Proof.
  intros (H1 & H2 & H3 & H4). repeat split; try assumption. intros x i Hi.
  destruct (H4 (Vec m x) (le_n _)) as (v & Hv & Hl & Hf). specialize (Hf i Hi). cbn [vat] in Hf. rewrite <- Hf.
  unfold value in Hv.
  replace (Nat.leb (cols e) (vlen (Vec m x))) with true in Hv by (symmetry; apply Nat.leb_le; simpl; lia).
  replace (Nat.eqb (rows e) (vlen (eb e))) with true in Hv by (symmetry; apply Nat.eqb_eq; lia).
  injection Hv as <-. reflexivity.
Qed.

Lemma wf_denotes e : wf e -> denotes e (rows e) (cols e) (ev e).
Proof. intros H. apply denotes_intro; auto. Qed.

Lemma denotes_ext e n m f g : (forall x i, (i < n)%nat -> f x i = g x i) -> denotes e n m f -> denotes e n m g.
Proof.
  intros H D. apply denotes_elim in D. destruct D as (A & B & C & D). apply denotes_intro; auto.
  intros x i Hi. rewrite D, H; auto.
Qed.

Lemma Rsum_padded M i x n : (mcols M <= n)%nat ->
  Rsum n (fun j => padded M i j * x j) = Rsum (mcols M) (fun j => mat_at M i j * x j).
Proof.
  intros H. rewrite (Rsum_extend (mcols M) n _ H).
  - apply Rsum_ext. intros j Hj. unfold padded. replace (Nat.ltb j (mcols M)) with true; [reflexivity|].
    symmetry. apply Nat.ltb_lt. exact Hj.
  - intros j Hj. unfold padded. replace (Nat.ltb j (mcols M)) with false; [ring|].
    symmetry. apply Nat.ltb_ge. lia.
Qed.

Lemma scalar_constant_b e : is_scalar e && is_constant e = true <-> scalar_constant e.
Proof. unfold is_scalar, is_constant, scalar_constant. rewrite andb_true_iff, !Nat.eqb_eq. tauto. Qed.

Lemma ev_scalar_constant e x : scalar_constant e -> ev e x 0 = vat (eb e) 0.
Proof. intros [_ H]. unfold ev. rewrite H. simpl. lra. Qed.

Lemma ev_piecewise_add e f x i : ev (piecewise_add e f) x i = ev e x i + f.
Proof. unfold ev, piecewise_add, cols. simpl. lra. Qed.

Lemma piecewise_add_denotes e n m f c : denotes e n m f -> denotes (piecewise_add e c) n m (fun x i => f x i + c).
Proof.
  intros D. apply denotes_elim in D. destruct D as (A & B & C & D). apply denotes_intro; auto.
  intros x i Hi. rewrite ev_piecewise_add, D; auto.
Qed.

Lemma scale_denotes e n m f c : denotes e n m f -> denotes (e_scale e c) n m (fun x i => f x i * c).
Proof.
  intros D. apply denotes_elim in D. destruct D as (A & B & C & D). apply denotes_intro; auto.
  intros x i Hi. rewrite <- D by exact Hi. unfold ev, e_scale, cols. simpl.
  rewrite (Rsum_ext _ _ (fun j => (mat_at (eA e) i j * x j) * c)) by (intros; ring). rewrite Rsum_scal_r. ring.
Qed.

(** Addition: exact behaviour in every case. *)
Lemma e_add_bcast_l e o n m f : scalar_constant e -> wf e -> denotes o n m f ->
  exists r, e_add e o = Ok r /\ denotes r n m (fun x i => ev e x 0 + f x i).
Proof.
  intros Hs Hw D. unfold e_add. rewrite (proj2 (scalar_constant_b e) Hs).
  replace (Nat.ltb 0 (vlen (eb e))) with true
    by (symmetry; apply Nat.ltb_lt; destruct Hs as [H _]; unfold wf in Hw; lia).
  eexists. split; [reflexivity|]. eapply denotes_ext; [|apply piecewise_add_denotes; exact D].
  intros x i _. cbv beta. rewrite ev_scalar_constant by exact Hs. ring.
Qed.

Lemma e_add_bcast_r e o n m f : scalar_constant o -> wf o -> denotes e n m f ->
  exists r, e_add e o = Ok r /\ denotes r n m (fun x i => f x i + ev o x 0) \/
            scalar_constant e.
Proof.
  intros Hs Hw D. destruct (is_scalar e && is_constant e) eqn:E.
  { eexists e. right. now apply scalar_constant_b. }
  unfold e_add. rewrite E, (proj2 (scalar_constant_b o) Hs).
  replace (Nat.ltb 0 (vlen (eb o))) with true
    by (symmetry; apply Nat.ltb_lt; destruct Hs as [H _]; unfold wf in Hw; lia).
  eexists. left. split; [reflexivity|]. eapply denotes_ext; [|apply piecewise_add_denotes; exact D].
  intros x i _. cbv beta. rewrite ev_scalar_constant by exact Hs. ring.
Qed.

Lemma e_add_same e o n m1 m2 f g :
  denotes e n m1 f -> denotes o n m2 g ->
  exists r, e_add e o = Ok r /\ denotes r n (Nat.max m1 m2) (fun x i => f x i + g x i).
Proof.
  intros D1 D2. pose proof (denotes_elim _ _ _ _ D1) as (A1 & B1 & C1 & E1).
  pose proof (denotes_elim _ _ _ _ D2) as (A2 & B2 & C2 & E2).
  destruct (is_scalar e && is_constant e) eqn:Ee.
  { apply scalar_constant_b in Ee. destruct (e_add_bcast_l e o n m2 g Ee) as (r & Hr & Dr); [unfold wf; lia|exact D2|].
    exists r. split; [exact Hr|]. destruct Ee as [Er Ec].
    replace (Nat.max m1 m2) with m2 by lia.
    eapply denotes_ext; [|exact Dr]. intros x i Hi. cbv beta. replace i with 0%nat by lia.
    rewrite E1 by lia. reflexivity. }
  destruct (is_scalar o && is_constant o) eqn:Eo.
  { pose proof Eo as Eo'. apply scalar_constant_b in Eo. destruct (e_add_bcast_r e o n m1 f Eo) as (r & [[Hr Dr]|Hc]).
    - unfold wf; lia.
    - exact D1.
    - exists r. split; [exact Hr|]. destruct Eo as [Er Ec]. replace (Nat.max m1 m2) with m1 by lia.
      eapply denotes_ext; [|exact Dr]. intros x i Hi. cbv beta. replace i with 0%nat by lia.
      rewrite E2 by lia. reflexivity.
    - apply scalar_constant_b in Hc. congruence. }
  unfold e_add. rewrite Ee, Eo.
  replace (Nat.eqb (rows e) (rows o)) with true by (symmetry; apply Nat.eqb_eq; lia).
  replace (Nat.eqb (vlen (eb e)) (vlen (eb o))) with true by (symmetry; apply Nat.eqb_eq; lia).
  cbn [negb guard]. eexists. split; [reflexivity|]. apply denotes_intro.
  - exact A1.
  - exact B1.
  - cbn. now rewrite C1, C2.
  - intros x i Hi. rewrite <- E1, <- E2 by exact Hi. unfold ev. cbn [cols rows eA eb mcols mat_at vat].
    rewrite (Rsum_ext _ _ (fun j => padded (eA e) i j * x j + padded (eA o) i j * x j)) by (intros; ring).
    rewrite Rsum_plus. unfold cols at 1 2 3 4. cbn [mcols].
    rewrite !Rsum_padded by (unfold cols; lia). unfold cols. ring.
Qed.

(** The full case analysis of operator+. *)
Lemma e_add_cases e o : wf e -> wf o ->
  (rows e = rows o \/ scalar_constant e \/ scalar_constant o ->
     exists r, e_add e o = Ok r /\
       denotes r (if is_scalar e && is_constant e then rows o else rows e)
         (Nat.max (cols e) (cols o))
         (fun x i => ev e x (if is_scalar e && is_constant e then 0 else i) +
                     ev o x (if is_scalar o && is_constant o then 0 else i))) /\
  (~ (rows e = rows o \/ scalar_constant e \/ scalar_constant o) -> e_add e o = Throw ERuntime).
Proof.
  intros W1 W2. split.
  - intros H. destruct (is_scalar e && is_constant e) eqn:Ee.
    + apply scalar_constant_b in Ee.
      destruct (e_add_bcast_l e o (rows o) (cols o) (ev o) Ee W1 (wf_denotes o W2)) as (r & Hr & D).
      exists r. split; [exact Hr|]. destruct Ee as [E1 E2]. rewrite E2, Nat.max_0_l.
      destruct (is_scalar o && is_constant o) eqn:Eo; [|exact D].
      eapply denotes_ext; [|exact D]. intros x i Hi. cbv beta. apply scalar_constant_b in Eo. destruct Eo.
      replace i with 0%nat by lia. reflexivity.
    + destruct (is_scalar o && is_constant o) eqn:Eo.
      * apply scalar_constant_b in Eo.
        destruct (e_add_bcast_r e o (rows e) (cols e) (ev e) Eo W2 (wf_denotes e W1)) as (r & [[Hr D]|Hc]).
        -- exists r. split; [exact Hr|]. destruct Eo as [E1 E2]. rewrite E2, Nat.max_0_r. exact D.
        -- apply scalar_constant_b in Hc. congruence.
      * assert (Hrow : rows e = rows o).
        { destruct H as [H|[H|H]]; [exact H|apply scalar_constant_b in H; congruence|apply scalar_constant_b in H; congruence]. }
        apply e_add_same; [now apply wf_denotes|]. rewrite Hrow. now apply wf_denotes.
  - intros H. unfold e_add. destruct (is_scalar e && is_constant e) eqn:Ee.
    { apply scalar_constant_b in Ee. tauto. }
    destruct (is_scalar o && is_constant o) eqn:Eo.
    { apply scalar_constant_b in Eo. tauto. }
    destruct (Nat.eqb (rows e) (rows o)) eqn:Er; [apply Nat.eqb_eq in Er; tauto|reflexivity].
Qed.

Lemma e_sub_same e o n m1 m2 f g :
  denotes e n m1 f -> denotes o n m2 g ->
  exists r, e_sub e o = Ok r /\ denotes r n (Nat.max m1 m2) (fun x i => f x i - g x i).
Proof.
  intros D1 D2. destruct (e_add_same e (e_scale o (-1)) n m1 m2 f _ D1 (scale_denotes _ _ _ _ (-1) D2)) as (r & Hr & D).
  exists r. split; [exact Hr|]. eapply denotes_ext; [|exact D]. intros x i _. cbv beta. ring.
Qed.

Lemma e_opp_denotes e n m f : denotes e n m f -> denotes (e_opp e) n m (fun x i => - f x i).
Proof. intros D. eapply denotes_ext; [|apply scale_denotes; exact D]. intros x i _. cbv beta. ring. Qed.

Lemma from_double_denotes c : denotes (from_double c) 1 0 (fun _ _ => c).
Proof. apply denotes_intro; try reflexivity. intros x i _. unfold ev; cbn. ring. Qed.

Lemma from_vector_denotes v : denotes (from_vector v) (vlen v) 0 (fun _ i => vat v i).
Proof. apply denotes_intro; try reflexivity. intros x i _. unfold ev; cbn. ring. Qed.

(** Broadcast of a one-row constant in a subtraction. *)
Lemma e_sub_const_r e c n m f : denotes e n m f ->
  exists r, e_sub e (from_double c) = Ok r /\ denotes r n m (fun x i => f x i - c).
Proof.
  intros D. pose proof (denotes_elim _ _ _ _ D) as (A & B & C & E).
  unfold e_sub. destruct (is_scalar e && is_constant e) eqn:Ee.
  - apply scalar_constant_b in Ee. destruct Ee as [E1 E2].
    rewrite A in E1. rewrite C in E2. rewrite E1, E2 in D |- *.
    destruct (e_sub_same e (from_double c) 1 0 0 f _ D (from_double_denotes c)) as (r & Hr & Dr).
    exists r. split; assumption.
  - destruct (e_add_bcast_r e (e_scale (from_double c) (-1)) n m f) as (r & [[Hr Dr]|Hc]).
    + split; reflexivity.
    + reflexivity.
    + exact D.
    + exists r. split; [exact Hr|]. eapply denotes_ext; [|exact Dr]. intros x i _. cbn. unfold ev; cbn. ring.
    + apply scalar_constant_b in Hc. congruence.
Qed.

Lemma e_sub_const_l e c n m f : denotes e n m f ->
  exists r, e_sub (from_double c) e = Ok r /\ denotes r n m (fun x i => c - f x i).
Proof.
  intros D. unfold e_sub.
  destruct (e_add_bcast_l (from_double c) (e_scale e (-1)) n m (fun x i => f x i * -1)) as (r & Hr & Dr).
  - split; reflexivity.
  - reflexivity.
  - now apply scale_denotes.
  - exists r. split; [exact Hr|]. eapply denotes_ext; [|exact Dr]. intros x i _. unfold ev; cbn. ring.
Qed.

Lemma e_add_v_denotes e n m f v : denotes e n m f -> vlen v = n ->
  exists r, e_add_v e v = Ok r /\ denotes r n m (fun x i => f x i + vat v i).
Proof.
  intros D Hv. apply denotes_elim in D. destruct D as (A & B & C & E). unfold e_add_v.
  replace (Nat.eqb (vlen (eb e)) (vlen v)) with true by (symmetry; apply Nat.eqb_eq; lia).
  eexists. split; [reflexivity|]. apply denotes_intro; try assumption.
  intros x i Hi. rewrite <- E by exact Hi. unfold ev, cols; cbn. ring.
Qed.

Lemma e_sub_v_denotes e n m f v : denotes e n m f -> vlen v = n ->
  exists r, e_sub_v e v = Ok r /\ denotes r n m (fun x i => f x i - vat v i).
Proof.
  intros D Hv. apply denotes_elim in D. destruct D as (A & B & C & E). unfold e_sub_v.
  replace (Nat.eqb (vlen (eb e)) (vlen v)) with true by (symmetry; apply Nat.eqb_eq; lia).
  eexists. split; [reflexivity|]. apply denotes_intro; try assumption.
  intros x i Hi. rewrite <- E by exact Hi. unfold ev, cols; cbn. ring.
Qed.

Lemma e_add_d_denotes e n m f c : denotes e n m f ->
  exists r, e_add_d e c = Ok r /\ denotes r n m (fun x i => f x i + c).
Proof.
  intros D. pose proof (denotes_elim _ _ _ _ D) as (A & _).
  destruct (e_add_v_denotes e n m f (Vec (rows e) (fun _ => c)) D A) as (r & Hr & Dr). exists r. auto.
Qed.

Lemma m_mul_e_denotes M e n m f : denotes e n m f -> mcols M = n ->
  exists r, m_mul_e M e = Ok r /\ denotes r (mrows M) m (fun x i => Rsum n (fun k => mat_at M i k * f x k)).
Proof.
  intros D HM. apply denotes_elim in D. destruct D as (A & B & C & E). unfold m_mul_e.
  replace (Nat.eqb (mcols M) (rows e)) with true by (symmetry; apply Nat.eqb_eq; lia).
  replace (Nat.eqb (mcols M) (vlen (eb e))) with true by (symmetry; apply Nat.eqb_eq; lia).
  eexists. split; [reflexivity|]. apply denotes_intro; try reflexivity; [exact C|].
  intros x i Hi. rewrite (Rsum_ext n _ (fun k => mat_at M i k * ev e x k)) by (intros k Hk; now rewrite E).
  unfold ev. cbn [cols rows eA eb mcols mat_at vat]. rewrite HM.
  rewrite (Rsum_ext (cols _) _ (fun j => Rsum n (fun k => mat_at M i k * (mat_at (eA e) k j * x j)))).
  2:{ intros j _. rewrite <- Rsum_scal_r. apply Rsum_ext. intros; ring. }
  rewrite Rsum_swap. unfold cols. cbn [eA mcols].
  rewrite <- Rsum_plus. apply Rsum_ext. intros k _. rewrite Rsum_scal_l. ring.
Qed.

Lemma e_mul_cases e o : wf e -> wf o ->
  (rows e = 1%nat /\ cols o = 0%nat ->
     exists r, e_mul e o = Ok r /\ denotes r (rows o) (cols e) (fun x i => ev e x 0 * ev o x i)) /\
  (rows o = 1%nat /\ cols e = 0%nat ->
     exists r, e_mul e o = Ok r /\ denotes r (rows e) (cols o) (fun x i => ev e x i * ev o x 0)) /\
  (~ (rows e = 1%nat /\ cols o = 0%nat) -> ~ (rows o = 1%nat /\ cols e = 0%nat) -> e_mul e o = Throw ERuntime).
Proof.
  assert (G : forall e o, wf e -> wf o -> rows e = 1%nat -> cols o = 0%nat ->
     exists r, e_mul_scalar_constant e o = Ok r /\ denotes r (rows o) (cols e) (fun x i => ev e x 0 * ev o x i)).
  { clear e o. intros e o W1 W2 H1 H2. unfold e_mul_scalar_constant, wf in *.
    replace (Nat.leb (rows o) (vlen (eb o))) with true by (symmetry; apply Nat.leb_le; lia).
    replace (Nat.ltb 0 (vlen (eb e))) with true by (symmetry; apply Nat.ltb_lt; lia).
    eexists. split; [reflexivity|]. apply denotes_intro; try reflexivity.
    intros x i Hi. unfold ev. rewrite H2. cbn [cols rows eA eb mcols mat_at vat Rsum]. unfold cols. cbn [eA mcols].
    rewrite (Rsum_ext _ _ (fun j => (mat_at (eA e) 0 j * x j) * vat (eb o) i)) by (intros; ring).
    rewrite Rsum_scal_r. ring. }
  intros W1 W2. unfold e_mul, is_scalar, is_constant. repeat split.
  - intros [H1 H2]. rewrite (proj2 (Nat.eqb_eq _ _) H1), (proj2 (Nat.eqb_eq _ _) H2). now apply G.
  - intros [H1 H2]. destruct (Nat.eqb (rows e) 1 && Nat.eqb (cols o) 0) eqn:E.
    + apply andb_true_iff in E. rewrite !Nat.eqb_eq in E. destruct E as [E1 E2].
      destruct (G e o W1 W2 E1 E2) as (r & Hr & D). exists r. split; [exact Hr|].
      rewrite E1, E2, H1 in *. rewrite H2 in D. eapply denotes_ext; [|exact D]. intros x i Hi. cbv beta.
      replace i with 0%nat by lia. reflexivity.
    + rewrite (proj2 (Nat.eqb_eq _ _) H1), (proj2 (Nat.eqb_eq _ _) H2). cbn [andb].
      destruct (G o e W2 W1 H1 H2) as (r & Hr & D). exists r. split; [exact Hr|].
      eapply denotes_ext; [|exact D]. intros x i _. cbv beta. ring.
  - intros H1 H2.
    destruct (Nat.eqb (rows e) 1 && Nat.eqb (cols o) 0) eqn:E1;
      [apply andb_true_iff in E1; rewrite !Nat.eqb_eq in E1; contradiction|].
    destruct (Nat.eqb (rows o) 1 && Nat.eqb (cols e) 0) eqn:E2;
      [apply andb_true_iff in E2; rewrite !Nat.eqb_eq in E2; contradiction|reflexivity].
Qed.

Lemma slice_denotes e n m f start k :
  denotes e n m f -> (start + k <= n)%nat ->
  exists r, slice e (Z.of_nat start) (Z.of_nat k) = Ok r /\ denotes r k m (fun x i => f x (start + i)%nat).
Proof.
  intros D H. apply denotes_elim in D. destruct D as (A & B & C & E). unfold slice.
  replace (Z.of_nat k <? 0)%Z with false by (symmetry; apply Z.ltb_ge; lia).
  replace (0 <=? Z.of_nat start)%Z with true by (symmetry; apply Z.leb_le; lia).
  replace (0 <=? Z.of_nat k)%Z with true by (symmetry; apply Z.leb_le; lia).
  rewrite A, B. replace (Z.of_nat start + Z.of_nat k <=? Z.of_nat n)%Z with true by (symmetry; apply Z.leb_le; lia).
  cbn [andb guard]. eexists. split; [reflexivity|]. rewrite !Nat2Z.id. apply denotes_intro; try reflexivity; [exact C|].
  intros x i Hi. rewrite <- E by lia. unfold ev, cols. reflexivity.
Qed.

Lemma slice_neg e n m f start k :
  denotes e n m f -> (start <= n)%nat -> (k < 0)%Z ->
  slice e (Z.of_nat start) k = slice e (Z.of_nat start) (Z.of_nat (n - start)).
Proof.
  intros D H Hk. apply denotes_elim in D. destruct D as (A & _). unfold slice.
  replace (k <? 0)%Z with true by (symmetry; apply Z.ltb_lt; lia).
  replace (Z.of_nat (n - start) <? 0)%Z with false by (symmetry; apply Z.ltb_ge; lia).
  rewrite A. replace (Z.of_nat n - Z.of_nat start)%Z with (Z.of_nat (n - start)) by lia. reflexivity.
Qed.

Lemma slice_ub e n m f start k :
  denotes e n m f ->
  (start < 0)%Z \/ ((0 <= k)%Z /\ (start + k > Z.of_nat n)%Z) \/ (k < 0 /\ start > Z.of_nat n)%Z ->
  slice e start k = UB.
Proof.
  intros D H. apply denotes_elim in D. destruct D as (A & B & _). unfold slice. rewrite A, B.
  unfold guard. match goal with |- (if ?b then _ else _) = _ => destruct b eqn:Eb; [|reflexivity] end.
  rewrite !andb_true_iff, !Z.leb_le in Eb. destruct (k <? 0)%Z eqn:Ek; [apply Z.ltb_lt in Ek|apply Z.ltb_ge in Ek]; lia.
Qed.

Lemma sum_denotes e n m f : denotes e n m f ->
  exists r, sum e = Ok r /\ denotes r 1 m (fun x _ => Rsum n (fun k => f x k)).
Proof.
  intros D. apply denotes_elim in D. destruct D as (A & B & C & E). unfold sum.
  replace (Nat.leb (rows e) (vlen (eb e))) with true by (symmetry; apply Nat.leb_le; lia).
  eexists. split; [reflexivity|]. apply denotes_intro; try reflexivity; [exact C|].
  intros x i _. rewrite (Rsum_ext n _ (fun k => ev e x k)) by (intros k Hk; now rewrite E).
  unfold ev. cbn [eA eb mcols mat_at vat]. unfold cols at 1. cbn [eA mcols]. rewrite A.
  rewrite (Rsum_ext (cols e) _ (fun j => Rsum n (fun k => mat_at (eA e) k j * x j))) by (intros; now rewrite Rsum_scal_r).
  rewrite Rsum_swap, <- Rsum_plus. reflexivity.
Qed.

Lemma mean_denotes e n m f : denotes e n m f -> (0 < m)%nat ->
  exists r, mean e = Ok r /\ denotes r 1 m (fun x _ => Rsum n (fun k => f x k) / INR m).
Proof.
  intros D Hm. pose proof (denotes_elim _ _ _ _ D) as (_ & _ & C & _).
  destruct (sum_denotes e n m f D) as (s & Hs & Ds). unfold mean. rewrite Hs. cbn [obind].
  eexists. split; [reflexivity|]. apply denotes_elim in Ds. destruct Ds as (A1 & B1 & C1 & E1).
  apply denotes_intro; try assumption.
  intros x i Hi. rewrite <- (E1 x i Hi). unfold ev. cbn [eA eb mcols mat_at vat]. unfold cols at 1. cbn [eA mcols].
  unfold Rdiv. rewrite C.
  rewrite (Rsum_ext (cols s) _ (fun j => (mat_at (eA s) i j * x j) * / INR m)) by (intros; ring).
  rewrite Rsum_scal_r. ring.
Qed.

Lemma e_stack_denotes e o n1 n2 m1 m2 f g :
  denotes e n1 m1 f -> denotes o n2 m2 g ->
  exists r, e_stack e o = Ok r /\
    denotes r (n1 + n2) (Nat.max m1 m2) (fun x i => if Nat.ltb i n1 then f x i else g x (i - n1)%nat).
Proof.
  intros D1 D2. apply denotes_elim in D1, D2. destruct D1 as (A1 & B1 & C1 & E1). destruct D2 as (A2 & B2 & C2 & E2).
  unfold e_stack. rewrite A1, A2, B1, B2, !Nat.eqb_refl. cbn [andb guard].
  eexists. split; [reflexivity|]. apply denotes_intro; try reflexivity.
  - cbn. now rewrite C1, C2.
  - intros x i Hi. unfold ev. cbn [eA eb mcols mat_at vat]. unfold cols at 1. cbn [eA mcols].
    destruct (Nat.ltb i n1) eqn:Ei.
    + apply Nat.ltb_lt in Ei. rewrite <- E1 by exact Ei. rewrite Rsum_padded by (unfold cols; lia). reflexivity.
    + apply Nat.ltb_ge in Ei. rewrite <- E2 by lia. rewrite Rsum_padded by (unfold cols; lia). reflexivity.
Qed.

(** Constraints. *)
Lemma satisfied_ineq e p w a n m f x : denotes e n m f -> (m <= vlen x)%nat ->
  (satisfied (PConstraint e Inequality p w a) x <-> forall i, (i < n)%nat -> 0 <= f (vat x) i).
Proof.
  intros (A & B & C & D) Hx. destruct (D x Hx) as (v & Hv & Hl & Hf). unfold satisfied. cbn [c_expr c_type]. split.
  - intros (v' & Hv' & _ & H). rewrite Hv in Hv'. injection Hv' as <-. intros i Hi. rewrite <- Hf by exact Hi.
    apply H. lia.
  - intros H. exists v. split; [exact Hv|]. split; [lia|]. intros i Hi. rewrite Hf by lia. apply H. lia.
Qed.

Lemma satisfied_eq e p w a n m f x : denotes e n m f -> (m <= vlen x)%nat ->
  (satisfied (PConstraint e Equality p w a) x <-> forall i, (i < n)%nat -> f (vat x) i = 0).
Proof.
  intros (A & B & C & D) Hx. destruct (D x Hx) as (v & Hv & Hl & Hf). unfold satisfied. cbn [c_expr c_type]. split.
  - intros (v' & Hv' & _ & H). rewrite Hv in Hv'. injection Hv' as <-. intros i Hi. rewrite <- Hf by exact Hi.
    apply H. lia.
  - intros H. exists v. split; [exact Hv|]. split; [lia|]. intros i Hi. rewrite Hf by lia. apply H. lia.
Qed.

Definition sub_means (a b : expr) (n m : nat) (d : (nat -> R) -> nat -> R) : Prop :=
  exists r, e_sub a b = Ok r /\ denotes r n m d.

Lemma ge_means a b n m d P : sub_means a b n m d -> (forall x i, 0 <= d x i <-> P x i) ->
  constraint_means (e_ge a b) n m Inequality P.
Proof.
  intros (r & Hr & D) HP. unfold e_ge. rewrite Hr. eexists. split; [reflexivity|].
  pose proof (denotes_elim _ _ _ _ D) as (A & _ & C & _).
  repeat split; try assumption.
  - intros Hs i Hi. apply HP. revert i Hi. now apply (satisfied_ineq r Hard 1 false n m d x D).
  - intros Hs. apply (satisfied_ineq r Hard 1 false n m d x D); [assumption|]. intros i Hi. now apply HP, Hs.
Qed.

Lemma le_means a b n m d P : sub_means a b n m d -> (forall x i, 0 <= - d x i <-> P x i) ->
  constraint_means (e_le a b) n m Inequality P.
Proof.
  intros (r & Hr & D) HP. unfold e_le. rewrite Hr. eexists. split; [reflexivity|].
  apply e_opp_denotes in D.
  pose proof (denotes_elim _ _ _ _ D) as (A & _ & C & _).
  repeat split; try assumption.
  - intros Hs i Hi. apply HP. revert i Hi. now apply (satisfied_ineq (e_opp r) Hard 1 false n m _ x D).
  - intros Hs. apply (satisfied_ineq (e_opp r) Hard 1 false n m _ x D); [assumption|]. intros i Hi. now apply HP, Hs.
Qed.

Lemma eq_means a b n m d P : sub_means a b n m d -> (forall x i, d x i = 0 <-> P x i) ->
  constraint_means (e_eq a b) n m Equality P.
Proof.
  intros (r & Hr & D) HP. unfold e_eq. rewrite Hr. eexists. split; [reflexivity|].
  pose proof (denotes_elim _ _ _ _ D) as (A & _ & C & _).
  repeat split; try assumption.
  - intros Hs i Hi. apply HP. revert i Hi. now apply (satisfied_eq r Hard 1 false n m d x D).
  - intros Hs. apply (satisfied_eq r Hard 1 false n m d x D); [assumption|]. intros i Hi. now apply HP, Hs.
Qed.

Lemma sub_means_e e o n m1 m2 f g : denotes e n m1 f -> denotes o n m2 g ->
  sub_means e o n (Nat.max m1 m2) (fun x i => f x i - g x i).
Proof. apply e_sub_same. Qed.

Lemma sub_means_ev e v n m f : denotes e n m f -> vlen v = n -> sub_means e (from_vector v) n m (fun x i => f x i - vat v i).
Proof.
  intros D <-. rewrite <- (Nat.max_0_r m). apply sub_means_e; [exact D|apply from_vector_denotes].
Qed.

Lemma sub_means_ve e v n m f : denotes e n m f -> vlen v = n -> sub_means (from_vector v) e n m (fun x i => vat v i - f x i).
Proof.
  intros D <-. rewrite <- (Nat.max_0_l m). apply sub_means_e; [apply from_vector_denotes|exact D].
Qed.

Lemma cmp_e_e e o n m1 m2 f g : denotes e n m1 f -> denotes o n m2 g ->
  constraint_means (e_ge e o) n (Nat.max m1 m2) Inequality (fun x i => f x i >= g x i) /\
  constraint_means (e_le e o) n (Nat.max m1 m2) Inequality (fun x i => f x i <= g x i) /\
  constraint_means (e_eq e o) n (Nat.max m1 m2) Equality (fun x i => f x i = g x i).
Proof.
  intros D1 D2. pose proof (sub_means_e _ _ _ _ _ _ _ D1 D2) as S. repeat split.
  - eapply ge_means; [exact S|]. intros; cbv beta; lra.
  - eapply le_means; [exact S|]. intros; cbv beta; lra.
  - eapply eq_means; [exact S|]. intros; cbv beta; lra.
Qed.

Lemma cmp_e_v e v n m f : denotes e n m f -> vlen v = n ->
  constraint_means (e_ge_v e v) n m Inequality (fun x i => f x i >= vat v i) /\
  constraint_means (e_le_v e v) n m Inequality (fun x i => f x i <= vat v i) /\
  constraint_means (e_eq_v e v) n m Equality (fun x i => f x i = vat v i) /\
  constraint_means (v_ge_e v e) n m Inequality (fun x i => vat v i >= f x i) /\
  constraint_means (v_le_e v e) n m Inequality (fun x i => vat v i <= f x i) /\
  constraint_means (v_eq_e v e) n m Equality (fun x i => vat v i = f x i).
Proof.
  intros D Hv. pose proof (sub_means_ev _ _ _ _ _ D Hv) as S1. pose proof (sub_means_ve _ _ _ _ _ D Hv) as S2.
  repeat split.
  - eapply ge_means; [exact S1|]. intros; cbv beta; lra.
  - eapply le_means; [exact S1|]. intros; cbv beta; lra.
  - eapply eq_means; [exact S1|]. intros; cbv beta; lra.
  - eapply ge_means; [exact S2|]. intros; cbv beta; lra.
  - eapply le_means; [exact S2|]. intros; cbv beta; lra.
  - eapply eq_means; [exact S1|]. intros; cbv beta; lra.
Qed.

Lemma cmp_e_d e c n m f : denotes e n m f ->
  constraint_means (e_ge_d e c) n m Inequality (fun x i => f x i >= c) /\
  constraint_means (e_le_d e c) n m Inequality (fun x i => f x i <= c) /\
  constraint_means (e_eq_d e c) n m Equality (fun x i => f x i = c) /\
  constraint_means (d_ge_e c e) n m Inequality (fun x i => c >= f x i) /\
  constraint_means (d_le_e c e) n m Inequality (fun x i => c <= f x i) /\
  constraint_means (d_eq_e c e) n m Equality (fun x i => c = f x i).
Proof.
  intros D. pose proof (e_sub_const_r _ c _ _ _ D) as S1. pose proof (e_sub_const_l _ c _ _ _ D) as S2.
  repeat split.
  - eapply ge_means; [exact S1|]. intros; cbv beta; lra.
  - eapply le_means; [exact S1|]. intros; cbv beta; lra.
  - eapply eq_means; [exact S1|]. intros; cbv beta; lra.
  - eapply ge_means; [exact S2|]. intros; cbv beta; lra.
  - eapply le_means; [exact S2|]. intros; cbv beta; lra.
  - eapply eq_means; [exact S1|]. intros; cbv beta; lra.
Qed.

(** Comparisons of incompatible heights are rejected. *)
Lemma cmp_throws e o : wf e -> wf o -> ~ (rows e = rows o \/ scalar_constant e \/ scalar_constant o) ->
  e_ge e o = Throw ERuntime /\ e_le e o = Throw ERuntime /\ e_eq e o = Throw ERuntime.
Proof.
  intros W1 W2 H. assert (e_sub e o = Throw ERuntime) as E.
  { unfold e_sub. apply e_add_cases; auto. }
  unfold e_ge, e_le, e_eq. rewrite E. auto.
Qed.

(** Variables. *)
Lemma Rsum_unit n k x : (k < n)%nat -> Rsum n (fun j => (if (Z.of_nat j =? Z.of_nat k)%Z then 1 else 0) * x j) = x k.
Proof.
  intros H. rewrite (Rsum_delta n k); [rewrite Z.eqb_refl; ring|exact H|].
  intros i _ Hi. replace (Z.of_nat i =? Z.of_nat k)%Z with false; [ring|]. symmetry. apply Z.eqb_neq. lia.
Qed.

Lemma var_expr_denotes v start n : (k_start v <= k_end v)%nat -> (start + n <= var_size v)%nat ->
  exists e, var_expr v (Z.of_nat start) (Z.of_nat n) = Ok e /\
    denotes e n (k_end v) (fun x i => x (k_start v + start + i)%nat).
Proof.
  intros Hv H. unfold var_size in H. unfold var_expr.
  replace (Z.of_nat start =? -1)%Z with false by (symmetry; apply Z.eqb_neq; lia).
  replace (Z.of_nat n =? -1)%Z with false by (symmetry; apply Z.eqb_neq; lia).
  replace (0 <=? Z.of_nat n)%Z with true by (symmetry; apply Z.leb_le; lia).
  replace (0 <=? Z.of_nat (k_start v) + Z.of_nat start)%Z with true by (symmetry; apply Z.leb_le; lia).
  replace (Z.of_nat (k_start v) + Z.of_nat start + Z.of_nat n <=? Z.of_nat (k_end v))%Z with true
    by (symmetry; apply Z.leb_le; lia).
  rewrite orb_true_r. cbn [andb guard]. eexists. split; [reflexivity|]. rewrite Nat2Z.id.
  apply denotes_intro; try reflexivity. intros x i Hi. unfold ev. cbn [eA eb mcols mat_at vat].
  unfold cols. cbn [eA mcols].
  rewrite (Rsum_ext _ _ (fun j => (if (Z.of_nat j =? Z.of_nat (k_start v + start + i))%Z then 1 else 0) * x j)).
  - rewrite Rsum_unit by lia. ring.
  - intros j _. do 2 f_equal. rewrite !Nat2Z.inj_add. reflexivity.
Qed.

Lemma var_expr_default_rows v start : (k_start v <= k_end v)%nat -> (start <= var_size v)%nat ->
  var_expr v (Z.of_nat start) (-1) = var_expr v (Z.of_nat start) (Z.of_nat (var_size v - start)).
Proof.
  intros Hv H. unfold var_expr.
  replace (Z.of_nat start =? -1)%Z with false by (symmetry; apply Z.eqb_neq; lia).
  replace (Z.of_nat (var_size v - start) =? -1)%Z with false by (symmetry; apply Z.eqb_neq; lia).
  replace (-1 =? -1)%Z with true by reflexivity.
  replace (Z.of_nat (var_size v) - Z.of_nat start)%Z with (Z.of_nat (var_size v - start)) by lia. reflexivity.
Qed.

Lemma var_expr_default_start v n : var_expr v (-1) n = var_expr v 0 n.
Proof. reflexivity. Qed.

(** Requests beyond the end of the variable. *)
Lemma var_expr_out_of_range v start n : (k_start v <= k_end v)%nat ->
  (start >= 0)%Z -> (n >= 1)%Z -> (start + n > Z.of_nat (var_size v))%Z -> var_expr v start n = UB.
Proof.
  intros Hv Hs Hn H. unfold var_size in H. unfold var_expr.
  replace (start =? -1)%Z with false by (symmetry; apply Z.eqb_neq; lia).
  replace (n =? -1)%Z with false by (symmetry; apply Z.eqb_neq; lia).
  replace (n =? 0)%Z with false by (symmetry; apply Z.eqb_neq; lia).
  replace (Z.of_nat (k_start v) + start + n <=? Z.of_nat (k_end v))%Z with false by (symmetry; apply Z.leb_gt; lia).
  rewrite andb_false_r. cbn [orb]. now rewrite andb_false_r.
Qed.
