From Coq Require Import Reals List ZArith Bool Lia Lra Psatz.
From Verif Require Import Base Linalg Sparsity_model Sparsity_spec Sparsity_proofs Expression_model Expression_spec Expression_proofs
  Problem_model Problem_spec Problem_proofs Problem_proofs2.
Import ListNotations.
Open Scope R_scope.

(** ** Independence of the stacked equalities *)

Lemma hard_equality_rows_count cs : hard_equality_rows cs = equality_count cs.
Proof. induction cs as [|c r IH]; cbn; [reflexivity|]. rewrite IH. unfold is_eq, is_hard. destruct (c_prio c), (c_type c); reflexivity. Qed.

Lemma combination_reset cs mu j : forall k, combination (map reset_active cs) mu k j = combination cs mu k j.
Proof. induction cs as [|c r IH]; intros k; cbn; [reflexivity|]. rewrite !IH. destruct (c_prio c), (c_type c); reflexivity. Qed.

Lemma stack_combination cs : forall n k A0 b0 A b,
  stack_equalities cs n k A0 b0 = Ok (A, b) ->
  (forall i j, (k <= i)%nat -> A0 i j = 0) ->
  (forall i j, (i < k)%nat -> A i j = A0 i j) /\
  forall mu j, Rsum (equality_count cs) (fun i => mu (k + i)%nat * A (k + i)%nat j) = combination cs mu k j.
Proof.
  induction cs as [|c r IH]; intros n k A0 b0 A b Hs Hz.
  - cbn in Hs. injection Hs as <- <-. split; auto.
  - cbn [stack_equalities equality_count combination] in *. destruct (is_eq c && is_hard c) eqn:E.
    + apply andb_true_iff in E. destruct E as [E1 E2]. apply is_eq_iff in E1. apply is_hard_iff in E2. rewrite E1, E2.
      unfold guard in Hs. destruct (Nat.leb (cols (c_expr c)) n && _); [|discriminate].
      apply IH in Hs.
      2:{ intros i j Hi. rewrite (ltb_false i) by lia. rewrite andb_false_r. cbn [andb]. apply Hz. lia. }
      destruct Hs as (HA & Hr). split.
      * intros i j Hi. rewrite HA by lia. rewrite (leb_false k i) by lia. reflexivity.
      * intros mu j. rewrite Rsum_split. f_equal.
        -- apply Rsum_ext. intros i Hi. rewrite HA by lia. rewrite (leb_true k), (ltb_true (k + i)) by lia. cbn [andb].
           replace (k + i - k)%nat with i by lia. f_equal. destruct (Nat.ltb j (cols (c_expr c))); [reflexivity|]. apply Hz. lia.
        -- rewrite <- Hr. apply Rsum_ext. intros i Hi. rewrite !Nat.add_assoc. reflexivity.
    + apply IH in Hs; [|exact Hz]. destruct Hs as [HA Hr]. split; [exact HA|]. intros mu j. cbn [Nat.add]. rewrite Hr.
      unfold is_eq, is_hard in E. destruct (c_prio c), (c_type c); try reflexivity; discriminate.
Qed.

Lemma assemble_complete pb qr : independent_equalities pb -> well_formed pb -> (exists a, assemble pb qr = Ok a) \/ qr_fails qr.
Proof.
  intros Hi Hw. unfold assemble.
  assert (Hs : Forall (stackable (p_n pb)) (p_cons pb)).
  { apply Forall_forall. intros c Hc _ _. destruct (Hw c Hc) as (_ & H1 & H2). auto. }
  destruct (stack_total _ _ Hs 0%nat (fun _ _ => 0) (fun _ => 0)) as ([A b] & Es). rewrite Es. cbn [obind fst snd].
  destruct (stack_combination _ _ _ _ _ _ _ Es ltac:(reflexivity)) as [_ Hc]. cbn [Nat.add] in Hc.
  assert (Hwf : Forall (well_shaped (p_n pb)) (p_cons pb)) by (apply Forall_forall; exact Hw).
  set (M := Mat (p_n pb) (equality_count (p_cons pb)) (fun i j => A j i)).
  assert (HM : independent_columns M).
  { intros mu Hmu j Hj. apply Hi; [|now rewrite hard_equality_rows_count]. intros i Hi'. rewrite <- Hc. now apply Hmu. }
  unfold eliminate. cbn [mrows mcols mat_at]. fold M.
  destruct (Nat.eqb (qr_rank (qr M)) (equality_count (p_cons pb))) eqn:Er.
  2:{ right. exists M. split; [exact HM|]. now apply Nat.eqb_neq in Er. }
  left. cbn [negb].
  destruct (p_rewrite pb && Nat.ltb 0 (equality_count (p_cons pb))); cbn [obind];
  match goal with |- context [objective_loop ?s ?n ?rd ?cs ?P ?q] => destruct (objective_loop_cases s n rd cs P q) as [[_ [[? ?] ->]]|[H _]] end;
    try contradiction; cbn; eauto.
Qed.

(** ** Strict convexity of the program *)

Definition neg (z : nat -> R) : nat -> R := fun i => - z i.
Definition zero : nat -> R := fun _ => 0.

Lemma quad_from_cost Q z :
  Rsum (vlen (qp_q Q)) (fun i => Rsum (vlen (qp_q Q)) (fun j => z i * mat_at (qp_P Q) i j * z j)) =
  qp_cost Q z + qp_cost Q (neg z) - 2 * qp_cost Q zero.
Proof.
  unfold qp_cost, neg, zero. cbv zeta. set (N := vlen (qp_q Q)).
  rewrite (Rsum_ext N (fun i => Rsum N (fun j => - z i * mat_at (qp_P Q) i j * - z j)) (fun i => Rsum N (fun j => z i * mat_at (qp_P Q) i j * z j)))
    by (intros; apply Rsum_ext; intros; ring).
  rewrite (Rsum_ext N (fun i => vat (qp_q Q) i * - z i) (fun i => - (vat (qp_q Q) i * z i))) by (intros; ring). rewrite Rsum_opp.
  rewrite (Rsum_zero_ext N (fun i => Rsum N (fun j => 0 * mat_at (qp_P Q) i j * 0))) by (intros; apply Rsum_zero_ext; intros; ring).
  rewrite (Rsum_zero_ext N (fun i => vat (qp_q Q) i * 0)) by (intros; ring). field.
Qed.


Lemma xz_mid n rd z i : r_det rd <> 0%nat -> xz n rd z i + xz n rd (neg z) i = 2 * xz n rd zero i.
Proof.
  intros H. unfold xz. apply Nat.eqb_neq in H. rewrite H. rewrite <- Rsum_plus, <- Rsum_scal_l. apply Rsum_ext. intros j _.
  unfold neg, zero. destruct (Nat.ltb j (r_det rd)); ring.
Qed.

Lemma classic_free n (z : nat -> R) : (exists j, (j < n)%nat /\ z j <> 0) \/ (forall j, (j < n)%nat -> z j = 0).
Proof.
  induction n as [|n [(j & Hj & Hz)|IH]]; [right; intros; lia|left; exists j; split; [lia|exact Hz]|].
  destruct (Req_EM_T (z n) 0) as [E|E]; [right|left; exists n; split; [lia|exact E]].
  intros j Hj. destruct (Nat.eq_dec j n) as [->|]; [exact E|apply IH; lia].
Qed.

Lemma xz_mid' n rd z i : xz n rd z i + xz n rd (neg z) i = 2 * xz n rd zero i.
Proof.
  destruct (Nat.eq_dec (r_det rd) 0) as [E|E]; [|now apply xz_mid].
  unfold xz. rewrite E. cbn. unfold neg, zero. ring.
Qed.

Lemma row_mid e x y m i : (forall j, x j + y j = 2 * m j) -> row e x i + row e y i = 2 * row e m i.
Proof.
  intros H. unfold row.
  assert (E : Rsum (cols e) (fun j => mat_at (eA e) i j * x j) + Rsum (cols e) (fun j => mat_at (eA e) i j * y j)
     = 2 * Rsum (cols e) (fun j => mat_at (eA e) i j * m j)).
  { rewrite <- Rsum_plus, <- Rsum_scal_l. apply Rsum_ext. intros j _. rewrite <- Rmult_plus_distr_l, H. ring. }
  lra.
Qed.

Lemma sqr_mid a b m : a + b = 2 * m -> 0 <= Rsqr a + Rsqr b - 2 * Rsqr m.
Proof. intros H. replace b with (2 * m - a) by lra. assert (0 <= Rsqr (a - m)) by apply Rle_0_sqr. unfold Rsqr in *. nra. Qed.

Lemma Rsum_sqr_mid n (a b m : nat -> R) : (forall i, a i + b i = 2 * m i) ->
  0 <= Rsum n (fun i => Rsqr (a i)) + Rsum n (fun i => Rsqr (b i)) - 2 * Rsum n (fun i => Rsqr (m i)).
Proof.
  intros H. rewrite <- Rsum_plus, <- Rsum_scal_l, <- Rsum_minus. apply Rsum_nonneg. intros i _. now apply sqr_mid.
Qed.

(** Second difference of the slack cost. *)
Lemma slack_cost_mid cs x y m s t u :
  (forall c, In c cs -> c_prio c = Soft -> 0 <= c_weight c) ->
  (forall j, x j + y j = 2 * m j) -> (forall j, s j + t j = 2 * u j) ->
  forall k, 0 <= slack_cost cs x s k + slack_cost cs y t k - 2 * slack_cost cs m u k.
Proof.
  intros Hw Hx Hs. induction cs as [|c r IH]; intros k; cbn; [lra|].
  assert (Hw' : forall c, In c r -> c_prio c = Soft -> 0 <= c_weight c) by (intros; apply Hw; auto; now right).
  specialize (IH Hw'). pose proof (Hw c (or_introl eq_refl)) as Hc.
  destruct (c_prio c), (c_type c); try apply IH.
  - pose proof (Rsum_sqr_mid (rows (c_expr c)) (row (c_expr c) x) (row (c_expr c) y) (row (c_expr c) m)
      (fun i => row_mid _ _ _ _ i Hx)) as G. specialize (IH k). specialize (Hc eq_refl).
    assert (0 <= c_weight c / 2 * (Rsum (rows (c_expr c)) (fun i => Rsqr (row (c_expr c) x i)) + Rsum (rows (c_expr c)) (fun i => Rsqr (row (c_expr c) y i))
       - 2 * Rsum (rows (c_expr c)) (fun i => Rsqr (row (c_expr c) m i)))) by (apply Rmult_le_pos; lra). lra.
  - specialize (IH (k + rows (c_expr c))%nat). specialize (Hc eq_refl).
    pose proof (Rsum_sqr_mid (rows (c_expr c)) (fun i => row (c_expr c) x i - s (k + i)%nat) (fun i => row (c_expr c) y i - t (k + i)%nat)
      (fun i => row (c_expr c) m i - u (k + i)%nat)) as G.
    assert (G' := G ltac:(intros i; pose proof (row_mid (c_expr c) x y m i Hx); pose proof (Hs (k + i)%nat); lra)).
    assert (0 <= c_weight c / 2 * (Rsum (rows (c_expr c)) (fun i => Rsqr (row (c_expr c) x i - s (k + i)%nat)) +
       Rsum (rows (c_expr c)) (fun i => Rsqr (row (c_expr c) y i - t (k + i)%nat))
       - 2 * Rsum (rows (c_expr c)) (fun i => Rsqr (row (c_expr c) m i - u (k + i)%nat)))) by (apply Rmult_le_pos; lra). lra.
Qed.

Lemma slack_cost_pos cs x s :
  (forall c, In c cs -> c_prio c = Soft -> 0 <= c_weight c) ->
  (forall c, In c cs -> c_prio c = Soft -> c_type c = Inequality -> 0 < c_weight c) ->
  forall k, (exists i, (i < soft_inequality_rows cs)%nat /\ s (k + i)%nat <> 0) ->
  0 < slack_cost cs x s k + slack_cost cs x (neg s) k - 2 * slack_cost cs x zero k.
Proof.
  intros Hw0 Hw. induction cs as [|c r IH]; intros k (i & Hi & Hs); [cbn in Hi; lia|].
  assert (Hw' : forall c, In c r -> c_prio c = Soft -> c_type c = Inequality -> 0 < c_weight c) by (intros; apply Hw; auto; now right).
  assert (Hw0' : forall c, In c r -> c_prio c = Soft -> 0 <= c_weight c) by (intros; apply Hw0; auto; now right).
  specialize (IH Hw0' Hw'). pose proof (Hw c (or_introl eq_refl)) as Hc. cbn in Hi. cbn [slack_cost].
  destruct (c_prio c), (c_type c); cbn [Nat.add] in Hi.
  - specialize (IH k (ex_intro _ i (conj Hi Hs))). lra.
  - specialize (Hc eq_refl eq_refl).
    assert (E : Rsum (rows (c_expr c)) (fun i => Rsqr (row (c_expr c) x i - s (k + i)%nat)) + Rsum (rows (c_expr c)) (fun i => Rsqr (row (c_expr c) x i - neg s (k + i)%nat))
      - 2 * Rsum (rows (c_expr c)) (fun i => Rsqr (row (c_expr c) x i - zero (k + i)%nat)) = 2 * Rsum (rows (c_expr c)) (fun i => Rsqr (s (k + i)%nat))).
    { rewrite <- !Rsum_scal_l, <- Rsum_plus, <- Rsum_minus. apply Rsum_ext. intros j _. unfold neg, zero, Rsqr. ring. }
    assert (N : 0 <= Rsum (rows (c_expr c)) (fun i => Rsqr (s (k + i)%nat))) by (apply Rsum_nonneg; intros; apply Rle_0_sqr).
    assert (Hnn : 0 <= slack_cost r x s (k + rows (c_expr c)) + slack_cost r x (neg s) (k + rows (c_expr c)) - 2 * slack_cost r x zero (k + rows (c_expr c))).
    { apply slack_cost_mid; [exact Hw0'| |].
      - intros j. ring.
      - intros j. unfold neg, zero. ring. }
    destruct (lt_dec i (rows (c_expr c))) as [L|L].
    + assert (P : 0 < Rsum (rows (c_expr c)) (fun i => Rsqr (s (k + i)%nat))).
      { clear - L Hs. revert L. generalize (rows (c_expr c)). induction n as [|n IH]; intros L; [lia|]. cbn.
        assert (0 <= Rsum n (fun i => Rsqr (s (k + i)%nat))) by (apply Rsum_nonneg; intros; apply Rle_0_sqr).
        destruct (Nat.eq_dec i n) as [->|Hne].
        - pose proof (Rsqr_pos_lt _ Hs). lra.
        - specialize (IH ltac:(lia)). pose proof (Rle_0_sqr (s (k + n)%nat)). lra. }
      assert (0 < c_weight c * Rsum (rows (c_expr c)) (fun i => Rsqr (s (k + i)%nat))) by (apply Rmult_lt_0_compat; lra). nra.
    + assert (0 <= c_weight c * Rsum (rows (c_expr c)) (fun i => Rsqr (s (k + i)%nat))) by (apply Rmult_le_pos; lra).
      assert (G : 0 < slack_cost r x s (k + rows (c_expr c)) + slack_cost r x (neg s) (k + rows (c_expr c)) - 2 * slack_cost r x zero (k + rows (c_expr c))).
      { apply IH. exists (i - rows (c_expr c))%nat. split; [lia|]. replace (k + rows (c_expr c) + (i - rows (c_expr c)))%nat with (k + i)%nat by lia. exact Hs. }
      nra.
  - specialize (IH k (ex_intro _ i (conj Hi Hs))). lra.
  - specialize (IH k (ex_intro _ i (conj Hi Hs))). lra.
Qed.

Lemma assemble_strictly_convex pb qr a : qr_correct qr -> p_sparse pb = false -> assemble pb qr = Ok a ->
  0 < p_reg pb ->
  (forall c, In c (p_cons pb) -> c_prio c = Soft -> 0 <= c_weight c) ->
  (forall c, In c (p_cons pb) -> c_prio c = Soft -> c_type c = Inequality -> 0 < c_weight c) ->
  strictly_convex (a_qp a).
Proof.
  intros Hqr Hsp Ha Hreg Hw0 Hw z (i & Hi & Hz).
  destruct (assemble_spec pb qr a Hqr Hsp Ha) as (Hok & EF & Hf & Hs & Hl & _ & _ & (K & HK)).
  rewrite quad_from_cost, !HK.
  set (x := xz (p_n pb) (a_red a)). set (sl := fun z : nat -> R => fun k => z (a_free a + k)%nat).
  fold (sl z) (sl (neg z)) (sl zero).
  assert (Hn : forall f : nat -> R, 0 <= Rsum (a_free a) (fun j => Rsqr (f j))) by (intros; apply Rsum_nonneg; intros; apply Rle_0_sqr).
  assert (E1 : Rsum (a_free a) (fun j => Rsqr (neg z j)) = Rsum (a_free a) (fun j => Rsqr (z j))) by (apply Rsum_ext; intros; unfold neg, Rsqr; ring).
  assert (E2 : Rsum (a_free a) (fun j => Rsqr (zero j)) = 0) by (apply Rsum_zero_ext; intros; unfold zero, Rsqr; ring).
  rewrite E1, E2.
  destruct (classic_free (a_free a) z) as [(j & Hj & Hzj)|Hz0].
  - assert (P : 0 < Rsum (a_free a) (fun j => Rsqr (z j))).
    { clear - Hj Hzj. revert Hj. generalize (a_free a). induction n as [|n IH]; intros L; [lia|]. cbn.
      assert (0 <= Rsum n (fun i => Rsqr (z i))) by (apply Rsum_nonneg; intros; apply Rle_0_sqr).
      destruct (Nat.eq_dec j n) as [->|Hne].
      - pose proof (Rsqr_pos_lt _ Hzj). lra.
      - specialize (IH ltac:(lia)). pose proof (Rle_0_sqr (z n)). lra. }
    pose proof (slack_cost_mid (p_cons pb) (x z) (x (neg z)) (x zero) (sl z) (sl (neg z)) (sl zero) Hw0
      (fun j => xz_mid' _ _ _ j) ltac:(intros k; unfold sl, neg, zero; ring) 0%nat) as G.
    assert (0 < p_reg pb * Rsum (a_free a) (fun j => Rsqr (z j))) by (apply Rmult_lt_0_compat; lra). lra.
  - assert (Hx1 : forall j, (j < p_n pb)%nat -> x z j = x zero j) by (apply (xz_ext pb _ _ _ EF); intros j Hj; apply Hz0; lia).
    assert (Hx2 : forall j, (j < p_n pb)%nat -> x (neg z) j = x zero j)
      by (apply (xz_ext pb _ _ _ EF); intros j Hj; unfold neg, zero; rewrite Hz0 by lia; ring).
    rewrite (slack_cost_x_ext _ _ _ _ _ Hok Hx1), (slack_cost_x_ext _ _ _ _ _ Hok Hx2).
    assert (Hi' : (a_free a <= i)%nat). { destruct (le_lt_dec (a_free a) i) as [L|L]; [exact L|]. exfalso. apply Hz, Hz0, L. }
    assert (G : 0 < slack_cost (p_cons pb) (x zero) (sl z) 0 + slack_cost (p_cons pb) (x zero) (neg (sl z)) 0 - 2 * slack_cost (p_cons pb) (x zero) zero 0).
    { apply slack_cost_pos; [exact Hw0|exact Hw|]. exists (i - a_free a)%nat. split; [rewrite <- Hs; lia|]. cbn [Nat.add]. unfold sl.
      replace (a_free a + (i - a_free a))%nat with i by lia. exact Hz. }
    rewrite (Rsum_zero_ext (a_free a) (fun j => Rsqr (z j))) by (intros j Hj; rewrite Hz0 by exact Hj; apply Rsqr_0).
    unfold sl in *. unfold neg, zero in *. lra.
Qed.

(** ** Sparsity only changes the matrix of the cost *)

Definition same_but_P (s s' : ineq_state) : Prop :=
  s_G s = s_G s' /\ s_h s = s_h s' /\ s_q s = s_q s' /\ s_kin s = s_kin s' /\ s_ksl s = s_ksl s' /\ s_hard s = s_hard s' /\ s_soft s = s_soft s'.

Lemma inequality_loop_P n N free rd cs : forall idx s s', same_but_P s s' ->
  same_but_P (inequality_loop n N free rd cs idx s) (inequality_loop n N free rd cs idx s').
Proof.
  induction cs as [|c r IH]; intros idx s s' H; cbn [inequality_loop]; [exact H|].
  destruct (is_eq c); [now apply IH|]. destruct (constraint_expressions n rd (c_expr c)) as [A b].
  destruct H as (H1 & H2 & H3 & H4 & H5 & H6 & H7).
  destruct (is_hard c); apply IH; unfold same_but_P; cbn [s_G s_h s_q s_kin s_ksl s_hard s_soft];
    rewrite ?H1, ?H2, ?H3, ?H4, ?H5, ?H6, ?H7; auto 8.
Qed.

Lemma objective_loop_P sp sp' n rd cs : forall P P' q r, objective_loop sp n rd cs P q = Ok r ->
  exists r', objective_loop sp' n rd cs P' q = Ok r' /\ snd r' = snd r.
Proof.
  induction cs as [|c r IH]; intros P P' q r0 H; cbn [objective_loop] in *.
  - injection H as <-. exists (P', q). auto.
  - destruct (Nat.ltb _ _); [discriminate|]. destruct (_ || _); [discriminate|]. destruct (negb (Nat.eqb _ _)); [discriminate|].
    destruct (_ && _); [|eapply IH; exact H].
    destruct (constraint_expressions n rd (c_expr c)) as [A b]. eapply IH. exact H.
Qed.

Lemma assemble_any_sparsity pb qr a b : assemble pb qr = Ok a ->
  exists a', assemble (with_sparsity pb b) qr = Ok a' /\
    a_free a' = a_free a /\ a_slack a' = a_slack a /\ a_red a' = a_red a /\ a_hard a' = a_hard a /\ a_soft a' = a_soft a /\
    qp_q (a_qp a') = qp_q (a_qp a) /\ qp_A (a_qp a') = qp_A (a_qp a) /\ qp_b (a_qp a') = qp_b (a_qp a) /\
    qp_G (a_qp a') = qp_G (a_qp a) /\ qp_h (a_qp a') = qp_h (a_qp a).
Proof.
  unfold assemble. cbn [with_sparsity p_n p_cons p_rewrite p_sparse p_reg].
  destruct (stack_equalities _ _ _ _ _) as [[A0 b0]| |]; try discriminate. cbn [obind fst snd].
  destruct (eliminate _ _ _ _ _) as [rd| |]; try discriminate. cbn [obind].
  destruct (objective_loop _ _ _ _ _ _) as [[P q]| |] eqn:E; try discriminate. cbn [obind]. intros H. injection H as <-.
  eapply (objective_loop_P _ b) in E. destruct E as ([P' q'] & E & Eq). cbn in Eq. subst q'. rewrite E. cbn [obind fst snd].
  match goal with |- context [inequality_loop ?n ?N ?f ?r ?c ?i (IneqState ?G ?h P q ?k ?l ?u ?v)] =>
    destruct (inequality_loop_P n N f r c i (IneqState G h P' q k l u v) (IneqState G h P q k l u v)) as (H1 & H2 & H3 & _ & _ & H6 & H7);
      [unfold same_but_P; cbn; auto 8|] end.
  eexists. split; [reflexivity|]. cbn [a_free a_slack a_red a_hard a_soft a_qp qp_q qp_A qp_b qp_G qp_h].
  rewrite H1, H2, H3, H6, H7. auto 12.
Qed.

(** The feasible points of the program, for both values of use_sparsity. *)
Lemma assemble_feasible pb qr a : qr_correct qr -> assemble pb qr = Ok a ->
  (forall z, qp_feasible (a_qp a) z <->
     hard_holds (p_cons pb) (xz (p_n pb) (a_red a) z) /\
     forall k, (k < a_slack a)%nat -> 0 <= z (a_free a + k)%nat) /\
  elim_facts pb (a_red a) /\ a_free a = (p_n pb - r_det (a_red a))%nat /\ a_slack a = soft_inequality_rows (p_cons pb) /\
  (forall z, (forall k, (k < mrows (qp_G (a_qp a)))%nat ->
        0 <= Rsum (mcols (qp_G (a_qp a))) (fun j => mat_at (qp_G (a_qp a)) k j * z j) + vat (qp_h (a_qp a)) k) <->
     hard_inequalities_hold (p_cons pb) (xz (p_n pb) (a_red a) z) /\
     forall k, (k < a_slack a)%nat -> 0 <= z (a_free a + k)%nat).
Proof.
  intros Hqr Ha. destruct (assemble_any_sparsity pb qr a false Ha) as (a' & Ha' & F & S & R & _ & _ & _ & A & B & G & H).
  destruct (assemble_spec (with_sparsity pb false) qr a' Hqr eq_refl Ha') as (_ & EF & Hf & Hs & _ & Hfeas & HG & _).
  unfold qp_feasible in *. rewrite F, S, R, A, B, G, H in *. cbn [with_sparsity p_n p_cons] in *.
  split; [exact Hfeas|]. split; [|auto]. destruct EF. constructor; assumption.
Qed.

(** Quadratic forms. *)
Definition qf (N : nat) (P : nat -> nat -> R) (z : nat -> R) : R := Rsum N (fun i => Rsum N (fun j => z i * P i j * z j)).

Lemma qf_block N P (c : nat -> bool) w M z :
  qf N (fun i j => if c i && c j then P i j + w * Rsum (mrows M) (fun k => mat_at M k i * mat_at M k j) else P i j) z =
  qf N P z + w * Rsum (mrows M) (fun k => Rsqr (Rsum N (fun i => if c i then z i * mat_at M k i else 0))).
Proof.
  unfold qf. set (a := fun k i => if c i then z i * mat_at M k i else 0).
  rewrite (Rsum_ext N _ (fun i => Rsum N (fun j => z i * P i j * z j) + w * Rsum N (fun j => Rsum (mrows M) (fun k => a k i * a k j)))).
  - rewrite Rsum_plus, Rsum_scal_l. f_equal. f_equal.
    rewrite (Rsum_ext N _ (fun i => Rsum (mrows M) (fun k => Rsum N (fun j => a k i * a k j)))) by (intros; apply Rsum_swap).
    rewrite Rsum_swap. apply Rsum_ext. intros k _. unfold Rsqr. now rewrite Rsum_mult.
  - intros i _. rewrite <- Rsum_scal_l, <- Rsum_plus. apply Rsum_ext. intros j _. unfold a.
    destruct (c i) eqn:Ei, (c j) eqn:Ej; cbn [andb].
    + rewrite (Rsum_ext _ (fun k => z i * mat_at M k i * (z j * mat_at M k j)) (fun k => z i * z j * (mat_at M k i * mat_at M k j)))
        by (intros; ring). rewrite Rsum_scal_l. ring.
    + rewrite (Rsum_zero_ext (mrows M)) by (intros; ring). ring.
    + rewrite (Rsum_zero_ext (mrows M)) by (intros; ring). ring.
    + rewrite (Rsum_zero_ext (mrows M)) by (intros; ring). ring.
Qed.

Lemma qf_gram N P w M z : 0 <= w -> qf N P z <= qf N (add_gram w M P) z.
Proof.
  intros Hw. unfold add_gram. rewrite (qf_block N P (fun i => Nat.ltb i (mcols M)) w M z).
  assert (0 <= Rsum (mrows M) (fun k => Rsqr (Rsum N (fun i => if Nat.ltb i (mcols M) then z i * mat_at M k i else 0))))
    by (apply Rsum_nonneg; intros; apply Rle_0_sqr). nra.
Qed.

Lemma qf_gram_sparse N w M z P : 0 <= w -> qf N P z <= qf N (add_gram_sparse w M P) z.
Proof.
  intros Hw. unfold add_gram_sparse. revert P. induction (detect_columns_sparsity M) as [|iv l IH]; intros P; cbn [fold_left]; [lra|].
  eapply Rle_trans; [|apply IH]. rewrite (qf_block N P (fun i => contains iv (Z.of_nat i)) w M z).
  assert (0 <= Rsum (mrows M) (fun k => Rsqr (Rsum N (fun i => if contains iv (Z.of_nat i) then z i * mat_at M k i else 0))))
    by (apply Rsum_nonneg; intros; apply Rle_0_sqr). nra.
Qed.

Lemma qf_objective N z sp n rd cs : (forall c, In c cs -> c_prio c = Soft -> 0 <= c_weight c) ->
  forall P q r, objective_loop sp n rd cs P q = Ok r -> qf N P z <= qf N (fst r) z.
Proof.
  induction cs as [|c l IH]; intros Hw P q r H; cbn [objective_loop] in H; [injection H as <-; cbn; lra|].
  destruct (Nat.ltb _ _); [discriminate|]. destruct (_ || _); [discriminate|]. destruct (negb (Nat.eqb _ _)); [discriminate|].
  assert (Hw' : forall c, In c l -> c_prio c = Soft -> 0 <= c_weight c) by (intros; apply Hw; auto; now right).
  destruct (is_eq c && negb (is_hard c)) eqn:E; [|now apply (IH Hw' _ _ _ H)].
  assert (0 <= c_weight c). { apply Hw; [now left|]. unfold is_hard in E. destruct (c_prio c); [reflexivity|exfalso; destruct (is_eq c); cbn in E; discriminate]. }
  destruct (constraint_expressions n rd (c_expr c)) as [A b]. apply (IH Hw') in H.
  eapply Rle_trans; [|exact H]. destruct sp; [now apply qf_gram_sparse|now apply qf_gram].
Qed.

Lemma qf_inequality N z n N' free rd cs : (forall c, In c cs -> c_prio c = Soft -> 0 <= c_weight c) ->
  forall idx s, qf N (s_P s) z <= qf N (s_P (inequality_loop n N' free rd cs idx s)) z.
Proof.
  induction cs as [|c l IH]; intros Hw idx s; cbn [inequality_loop]; [lra|].
  assert (Hw' : forall c, In c l -> c_prio c = Soft -> 0 <= c_weight c) by (intros; apply Hw; auto; now right).
  specialize (IH Hw'). destruct (is_eq c); [apply IH|]. destruct (constraint_expressions n rd (c_expr c)) as [A b].
  destruct (is_hard c) eqn:E; [eapply Rle_trans; [|apply IH]; cbn [s_P]; lra|].
  assert (0 <= c_weight c). { apply Hw; [now left|]. unfold is_hard in E. destruct (c_prio c); [reflexivity|discriminate]. }
  eapply Rle_trans; [|apply IH]. cbn [s_P]. now apply qf_gram.
Qed.

(** Outside of the columns of the free unknowns, the soft equalities write nothing. *)
Lemma gram_sparse_outside w M i j P : (mcols M <= i \/ mcols M <= j)%nat -> add_gram_sparse w M P i j = P i j.
Proof.
  intros Hij. unfold add_gram_sparse.
  assert (Hc : forall iv, In iv (detect_columns_sparsity M) -> contains iv (Z.of_nat i) && contains iv (Z.of_nat j) = false).
  { intros iv Hiv. destruct (contains iv (Z.of_nat i)) eqn:Ei; [|reflexivity]. destruct (contains iv (Z.of_nat j)) eqn:Ej; [|reflexivity].
    exfalso. apply contains_true in Ei, Ej. destruct (detect_spec M) as (_ & _ & C).
    assert (C1 : covers (detect_columns_sparsity M) (Z.of_nat i)) by (exists iv; auto).
    assert (C2 : covers (detect_columns_sparsity M) (Z.of_nat j)) by (exists iv; auto).
    apply C in C1, C2. destruct C1 as (a & Ea & Ha & _). destruct C2 as (b & Eb & Hb & _). lia. }
  revert P. induction (detect_columns_sparsity M) as [|iv l IH]; intros P; cbn [fold_left]; [reflexivity|].
  rewrite IH by (intros; apply Hc; now right). now rewrite (Hc iv (or_introl eq_refl)).
Qed.

Lemma objective_outside sp sp' n rd cs free i j : (r_det rd <= n)%nat -> free = (n - r_det rd)%nat -> (free <= i \/ free <= j)%nat ->
  forall P P' q r r', P i j = P' i j -> objective_loop sp n rd cs P q = Ok r -> objective_loop sp' n rd cs P' q = Ok r' ->
  fst r i j = fst r' i j.
Proof.
  intros Hd Hf Hij. induction cs as [|c l IH]; intros P P' q r r' E H H'; cbn [objective_loop] in *; [injection H as <-; injection H' as <-; exact E|].
  destruct (Nat.ltb n (cols (c_expr c))) eqn:El; [discriminate|]. apply Nat.ltb_ge in El.
  destruct (_ || _); [discriminate|]. destruct (negb (Nat.eqb _ _)); [discriminate|].
  destruct (is_eq c && negb (is_hard c)); [|now apply (IH _ _ _ _ _ E H H')].
  destruct (constraint_expressions n rd (c_expr c)) as [A b] eqn:EA.
  assert (HA : (mcols A <= free)%nat).
  { unfold constraint_expressions in EA. destruct (Nat.eqb (r_det rd) 0) eqn:E0; injection EA as <- <-.
    - apply Nat.eqb_eq in E0. unfold cols in El. lia.
    - cbn [mcols]. lia. }
  refine (IH _ _ _ _ _ _ H H').
  assert (G : forall P, (if sp then add_gram_sparse (c_weight c) A P else add_gram (c_weight c) A P) i j = P i j /\
                        (if sp' then add_gram_sparse (c_weight c) A P else add_gram (c_weight c) A P) i j = P i j).
  { intros P0. assert (G1 : add_gram_sparse (c_weight c) A P0 i j = P0 i j) by (apply gram_sparse_outside; lia).
    assert (G2 : add_gram (c_weight c) A P0 i j = P0 i j).
    { unfold add_gram. destruct (Nat.ltb_spec i (mcols A)); [|reflexivity]. destruct (Nat.ltb_spec j (mcols A)); [lia|reflexivity]. }
    destruct sp, sp'; auto. }
  rewrite (proj1 (G P)), (proj2 (G P')). exact E.
Qed.

(** The inequalities add the same amounts whatever the rest. *)
Lemma inequality_outside n N free rd cs i j : forall idx s s', same_but_P s s' -> s_P s i j = s_P s' i j ->
  s_P (inequality_loop n N free rd cs idx s) i j = s_P (inequality_loop n N free rd cs idx s') i j.
Proof.
  induction cs as [|c l IH]; intros idx s s' H E; cbn [inequality_loop]; [exact E|].
  destruct (is_eq c); [now apply IH|]. destruct (constraint_expressions n rd (c_expr c)) as [A b].
  destruct H as (H1 & H2 & H3 & H4 & H5 & H6 & H7).
  destruct (is_hard c); (apply IH; [unfold same_but_P; cbn [s_G s_h s_q s_kin s_ksl s_hard s_soft];
    rewrite ?H1, ?H2, ?H3, ?H4, ?H5, ?H6, ?H7; auto 8|]); cbn [s_P]; [exact E|].
  unfold add_gram. rewrite H5, E. reflexivity.
Qed.

Lemma assemble_convex pb qr a : qr_correct qr -> assemble pb qr = Ok a ->
  0 < p_reg pb ->
  (forall c, In c (p_cons pb) -> c_prio c = Soft -> 0 <= c_weight c) ->
  (forall c, In c (p_cons pb) -> c_prio c = Soft -> c_type c = Inequality -> 0 < c_weight c) ->
  strictly_convex (a_qp a).
Proof.
  intros Hqr Ha Hreg Hw0 Hw.
  destruct (assemble_any_sparsity pb qr a false Ha) as (a' & Ha' & F & S & R & _ & _ & Q & _).
  pose proof (assemble_strictly_convex (with_sparsity pb false) qr a' Hqr eq_refl Ha' Hreg Hw0 Hw) as Hc.
  destruct (assemble_feasible pb qr a Hqr Ha) as (_ & EF & Hf & _). pose proof (ef_det _ _ EF) as Hd.
  revert Ha Ha'. unfold assemble. cbn [with_sparsity p_n p_cons p_rewrite p_sparse p_reg].
  destruct (stack_equalities _ _ _ _ _) as [[A0 b0]| |]; try discriminate. cbn [obind fst snd].
  destruct (eliminate _ _ _ _ _) as [rd| |]; try discriminate. cbn [obind].
  set (P0 := fun i j : nat => if Nat.eqb i j && Nat.ltb i (p_n pb - r_det rd) then p_reg pb else 0).
  destruct (objective_loop (p_sparse pb) _ _ _ _ _) as [[P q]| |] eqn:E1; try discriminate.
  destruct (objective_loop false _ _ _ _ _) as [[P' q']| |] eqn:E2; try discriminate. cbn [obind fst snd].
  intros H H'. injection H as <-. injection H' as <-. cbn [a_red a_free a_slack a_qp] in *.
  destruct (objective_loop_P false (p_sparse pb) _ _ _ _ P0 _ _ E2) as ([P1 q1] & E3 & Eq). rewrite E1 in E3. injection E3 as <- <-. cbn in Eq. subst q'.
  unfold strictly_convex in *. cbn [qp_q qp_P vlen mat_at] in *.
  set (free := (p_n pb - r_det rd)%nat) in *. set (N := (free + slack_count (p_cons pb))%nat) in *.
  intros z Hz. match goal with |- 0 < Rsum N (fun i => Rsum N (fun j => z i * ?P2 i j * z j)) => change (0 < qf N P2 z) end.
  destruct (classic_free free z) as [(k & Hk & Hzk)|Hz0].
  - eapply Rlt_le_trans; [|apply qf_inequality; exact Hw0]. cbn [s_P]. eapply Rlt_le_trans; [|exact (qf_objective N z _ _ _ _ Hw0 _ _ _ E1)].
    unfold qf, P0.
    rewrite (Rsum_ext N _ (fun i => if Nat.ltb i free then p_reg pb * Rsqr (z i) else 0)).
    + rewrite (Rsum_extend free N) by (try (intros i Hi; rewrite ltb_false by lia; reflexivity); unfold N; lia).
      rewrite (Rsum_ext free _ (fun i => p_reg pb * Rsqr (z i))) by (intros i Hi; now rewrite ltb_true by exact Hi).
      rewrite Rsum_scal_l. apply Rmult_lt_0_compat; [exact Hreg|].
      clear - Hk Hzk. revert Hk. generalize free. induction free0 as [|n IH]; intros L; [lia|]. cbn.
      assert (0 <= Rsum n (fun i => Rsqr (z i))) by (apply Rsum_nonneg; intros; apply Rle_0_sqr).
      destruct (Nat.eq_dec k n) as [->|Hne].
      * pose proof (Rsqr_pos_lt _ Hzk). lra.
      * specialize (IH ltac:(lia)). pose proof (Rle_0_sqr (z n)). lra.
    + intros i Hi. rewrite (Rsum_delta N i); [|exact Hi|].
      * rewrite Nat.eqb_refl. cbn [andb]. destruct (Nat.ltb i free); unfold Rsqr; ring.
      * intros j _ Hne. replace (Nat.eqb i j) with false by (symmetry; apply Nat.eqb_neq; lia). cbn [andb]. ring.
  - specialize (Hc z Hz). eapply Rlt_le_trans; [exact Hc|]. right. unfold qf. apply Rsum_ext. intros i Hi. apply Rsum_ext. intros j Hj.
    destruct (le_lt_dec free i) as [Li|Li]; [|rewrite (Hz0 i Li); ring].
    f_equal. f_equal. symmetry. apply inequality_outside; [unfold same_but_P; cbn; auto 8|]. cbn [s_P].
    apply (objective_outside _ _ _ _ _ free i j Hd eq_refl (or_introl Li) P0 P0 _ _ _ eq_refl E1 E2).
Qed.

Lemma assemble_ok pb qr a : assemble pb qr = Ok a -> Forall (ok_constraint (p_n pb)) (p_cons pb).
Proof.
  unfold assemble. destruct (stack_equalities _ _ _ _ _) as [[A0 b0]| |]; try discriminate. cbn [obind fst snd].
  destruct (eliminate _ _ _ _ _) as [rd| |]; try discriminate. cbn [obind].
  destruct (objective_loop_cases (p_sparse pb) (p_n pb) rd (p_cons pb)
    (fun i j => if Nat.eqb i j && Nat.ltb i (p_n pb - r_det rd) then p_reg pb else 0) (fun _ => 0)) as [[H _]|[_ H]].
  - intros _. eapply Forall_impl; [|exact H]. intros c (H1 & H2 & H3). unfold ok_constraint. lia.
  - rewrite H. discriminate.
Qed.

Lemma qp_nonempty pb qr a x : qr_correct qr -> assemble pb qr = Ok a -> hard_holds (p_cons pb) x ->
  exists z, qp_feasible (a_qp a) z.
Proof.
  intros Hqr Ha Hx. destruct (assemble_feasible pb qr a Hqr Ha) as (Hfeas & EF & Hf & Hs & _).
  pose proof (assemble_ok pb qr a Ha) as Hok.
  destruct (ef_onto _ _ EF x (proj1 (proj1 (hard_split _ _) Hx))) as (z & Hz).
  set (z' := fun j => if Nat.ltb j (a_free a) then z j else 0). exists z'. apply Hfeas. split.
  - apply (hard_holds_ext (p_n pb) _ x _ Hok); [|exact Hx]. intros j Hj. rewrite <- Hz by exact Hj. symmetry.
    apply (xz_ext pb _ _ _ EF); [|exact Hj]. intros i Hi. unfold z'. rewrite ltb_true by lia. reflexivity.
  - intros k _. unfold z'. rewrite ltb_false by lia. lra.
Qed.

Lemma well_formed_reset pb : well_formed pb -> well_formed (reset pb).
Proof. intros H c Hc. cbn in Hc. apply in_map_iff in Hc. destruct Hc as (c' & <- & Hc'). exact (H c' Hc'). Qed.

Lemma independent_reset pb : independent_equalities pb -> independent_equalities (reset pb).
Proof.
  intros H mu Hmu k Hk. cbn in Hmu, Hk. rewrite hard_equality_rows_count, equality_count_reset, <- hard_equality_rows_count in Hk.
  apply H; [|exact Hk]. intros j Hj. rewrite <- combination_reset. now apply Hmu.
Qed.

Lemma exists_below_false n f : (forall k, (k < n)%nat -> f k = false) -> exists_below n f = false.
Proof. induction n as [|n IH]; intros H; cbn; [reflexivity|]. rewrite H by lia. apply IH. intros; apply H; lia. Qed.

Lemma assemble_G_cols pb qr a : assemble pb qr = Ok a -> mcols (qp_G (a_qp a)) = vlen (qp_q (a_qp a)).
Proof.
  unfold assemble. destruct (stack_equalities _ _ _ _ _) as [[A b]| |]; try discriminate. cbn [obind fst snd].
  destruct (eliminate _ _ _ _ _) as [rd| |]; try discriminate. cbn [obind].
  destruct (objective_loop _ _ _ _ _ _) as [[P q]| |]; try discriminate. cbn [obind]. intros H. injection H as <-. reflexivity.
Qed.

Lemma solve_complete pb qr qp : qr_correct qr -> qp_correct qp ->
  tiles 0 (p_vars pb) (p_n pb) -> well_formed pb ->
  (p_rewrite pb = true \/ forall c, In c (p_cons pb) -> c_prio c = Soft -> c_type c <> Inequality) ->
  independent_equalities pb -> 0 < p_reg pb ->
  (forall c, In c (p_cons pb) -> c_prio c = Soft -> 0 <= c_weight c) ->
  (forall c, In c (p_cons pb) -> c_prio c = Soft -> c_type c = Inequality -> 0 < c_weight c) ->
  (exists x, hard_holds (p_cons pb) x) ->
  (exists pb', solve pb qr qp = (pb', Ok tt)) \/ qr_fails qr \/ qp_fails qp.
Proof.
  intros Hqr Hqp Ht Hw Hopt Hi Hreg Hw0 Hw1 (x & Hx).
  destruct (assemble_complete (reset pb) qr (independent_reset _ Hi) (well_formed_reset _ Hw)) as [(a & Ha)|F]; [|right; now left].
  assert (Hw0' : forall c, In c (p_cons (reset pb)) -> c_prio c = Soft -> 0 <= c_weight c).
  { intros c Hc. cbn in Hc. apply in_map_iff in Hc. destruct Hc as (c' & <- & Hc'). exact (Hw0 c' Hc'). }
  assert (Hw1' : forall c, In c (p_cons (reset pb)) -> c_prio c = Soft -> c_type c = Inequality -> 0 < c_weight c).
  { intros c Hc. cbn in Hc. apply in_map_iff in Hc. destruct Hc as (c' & <- & Hc'). exact (Hw1 c' Hc'). }
  pose proof (assemble_convex (reset pb) qr a Hqr Ha Hreg Hw0' Hw1') as Hpd.
  destruct (qp_nonempty (reset pb) qr a x Hqr Ha (proj2 (hard_holds_reset _ _) Hx)) as (z & Hz).
  destruct (assemble_qp_A (reset pb) qr a Ha) as (_ & _ & _ & Hl).
  assert (Hsz : qp_sizes_ok (a_qp a) = true).
  { apply (sizes_ok (reset pb) qr a Ha). cbn. destruct Hopt as [H|H]; [now left|right; right]. rewrite soft_rows_reset. now apply soft_rows_zero. }
  assert (Hsz' : mrows (qp_A (a_qp a)) = 0%nat \/ mcols (qp_A (a_qp a)) = vlen (qp_q (a_qp a))).
  { unfold qp_sizes_ok in Hsz. apply orb_true_iff in Hsz. now rewrite !Nat.eqb_eq in Hsz. }
  assert (HszG : mrows (qp_G (a_qp a)) = 0%nat \/ mcols (qp_G (a_qp a)) = vlen (qp_q (a_qp a))) by (right; exact (assemble_G_cols (reset pb) qr a Ha)).
  destruct (q_inf (qp (a_qp a))) eqn:Hinf; [right; right; exists (a_qp a); eauto 8|].
  destruct (exists_below (vlen (qp_q (a_qp a))) (q_nan (qp (a_qp a)))) eqn:Hx0.
  { apply exists_below_iff in Hx0. right; right. exists (a_qp a). eauto 8. }
  assert (Hnan : forall j, (j < vlen (qp_q (a_qp a)))%nat -> q_nan (qp (a_qp a)) j = false).
  { intros j Hj. destruct (q_nan (qp (a_qp a)) j) eqn:E; [|reflexivity].
    rewrite (proj2 (exists_below_iff _ _) (ex_intro _ j (conj Hj E))) in Hx0. discriminate. }
  left. unfold solve. fold (reset pb). rewrite Ha, Hsz. unfold finish. rewrite Hinf.
  destruct (assemble_feasible (reset pb) qr a Hqr Ha) as (Hfeas & EF & Hf & Hs & _). pose proof (assemble_ok (reset pb) qr a Ha) as Hok.
  destruct (Hqp (a_qp a) Hinf) as [Hq1 _].
  assert (Hv : equality_violated a (recompose (p_n (reset pb)) a (q_x (qp (a_qp a)))) = false).
  { unfold equality_violated. apply exists_below_false. intros k Hk. destruct Hq1 as [Hq1 _]. specialize (Hq1 k Hk).
    assert (Er : r_det (a_red a) = 0%nat \/ mrows (qp_A (a_qp a)) = 0%nat).
    { clear - Ha. revert Ha. unfold assemble. destruct (stack_equalities _ _ _ _ _) as [[A b]| |]; try discriminate. cbn [obind fst snd].
      destruct (eliminate _ _ _ _ _) as [rd| |] eqn:Ee; try discriminate. cbn [obind].
      destruct (objective_loop _ _ _ _ _ _) as [[P q]| |]; try discriminate. cbn [obind]. intros H. injection H as <-. cbn [a_red a_qp qp_A].
      unfold eliminate in Ee. destruct (_ && _); [destruct (negb _); [discriminate|]|]; injection Ee as <-; cbn; auto. }
    destruct Er as [Er|Er]; [|lia]. unfold recompose. rewrite Er. cbn [Nat.eqb vat]. rewrite Hq1, Rabs_R0.
    destruct (Rlt_dec (1 / 1000000) 0); [lra|reflexivity]. }
  rewrite Hv.
  assert (Hn : x_has_nan a (qp (a_qp a)) = false).
  { unfold x_has_nan. apply exists_below_false. intros k Hk. apply Hnan. rewrite Hl. destruct (Nat.eqb _ 0); lia. }
  rewrite Hn. cbn [p_vars set_slacks set_cons set_x reset].
  destruct (update_variables_total (recompose (p_n (reset pb)) a (q_x (qp (a_qp a)))) (p_vars pb)) as (vs & Hvs).
  - apply tiles_le in Ht. destruct Ht as [_ Ht]. eapply Forall_impl; [|exact Ht]. intros v [Hv' _].
    pose proof (recompose_len (reset pb) qr a (q_x (qp (a_qp a))) Ha) as L. cbn in *. lia.
  - cbn [p_vars set_slacks set_cons set_x reset] in *. rewrite Hvs. eauto.
Qed.

(** ** A decomposition of full rank is a proof of independence *)

Lemma full_rank_independent qr M : qr_correct qr -> qr_rank (qr M) = mcols M -> independent_columns M.
Proof.
  intros Hqr Hrk mu Hmu j0 Hj0. destruct (Hqr M Hrk) as (HQ1 & _ & Hp1 & Hp2 & HR & Htri & Hmn & Hdiag).
  set (n := mrows M) in *. set (m := mcols M) in *. set (d := qr M) in *.
  set (L := fun i j => qr_R d j i). set (y := forward_subst m L (fun p => mu (qr_perm d p))).
  set (u := fun k => if Nat.ltb k m then y k else 0).
  set (x := fun i => Rsum n (fun k => qr_Q d i k * u k)).
  assert (HM : forall j, (j < m)%nat -> Rsum n (fun i => mat_at M i j * x i) = mu j).
  { intros j Hj. destruct (Hp2 j Hj) as (p & Hp & <-).
    rewrite (Rsum_ext n _ (fun i => Rsum n (fun k => qr_R d k p * (qr_Q d i k * x i)))).
    2:{ intros i Hi. rewrite (HR i p Hi Hp). rewrite <- Rsum_scal_r. apply Rsum_ext. intros; ring. }
    rewrite Rsum_swap. rewrite (Rsum_extend (S p) n).
    - transitivity (Rsum (S p) (fun k => L p k * y k)).
      + apply Rsum_ext. intros k Hk. rewrite Rsum_scal_l. unfold L. f_equal. unfold x. rewrite orth_apply by (assumption || lia).
        unfold u. rewrite ltb_true by lia. reflexivity.
      + unfold y. now rewrite (forward_subst_solves m L (fun p => mu (qr_perm d p)) Hdiag p Hp).
    - lia.
    - intros k Hk. rewrite Rsum_scal_l, Htri by lia. ring. }
  assert (Hz : Rsum m (fun j => Rsqr (mu j)) = 0).
  { transitivity (Rsum m (fun j => Rsum n (fun i => x i * (mu j * mat_at M i j)))).
    - apply Rsum_ext. intros j Hj. unfold Rsqr. rewrite <- (HM j Hj) at 2. rewrite <- Rsum_scal_l. apply Rsum_ext. intros; ring.
    - rewrite Rsum_swap. apply Rsum_zero_ext. intros i Hi. rewrite Rsum_scal_l, Hmu by exact Hi. ring. }
  destruct (Req_dec (mu j0) 0) as [E|E]; [exact E|exfalso].
  assert (Hle : Rsum m (fun j => if Nat.eqb j j0 then Rsqr (mu j0) else 0) <= Rsum m (fun j => Rsqr (mu j))).
  { apply Rsum_le. intros j Hj. destruct (Nat.eqb j j0) eqn:Ej; [apply Nat.eqb_eq in Ej; subst; apply Rle_refl|apply Rle_0_sqr]. }
  rewrite Hz in Hle. rewrite (Rsum_delta m j0) in Hle; [|exact Hj0|].
  - rewrite Nat.eqb_refl in Hle. apply Rsqr_pos_lt in E. lra.
  - intros j Hj Hne. now replace (Nat.eqb j j0) with false by (symmetry; now apply Nat.eqb_neq).
Qed.

Lemma assemble_independent pb qr a : qr_correct qr -> p_rewrite pb = true -> assemble pb qr = Ok a -> independent_equalities pb.
Proof.
  intros Hqr Hr Ha. unfold assemble in Ha.
  destruct (stack_equalities _ _ _ _ _) as [[A b]|e|] eqn:Es; cbn [obind fst snd] in Ha; try discriminate.
  destruct (stack_combination _ _ _ _ _ _ _ Es ltac:(reflexivity)) as [_ Hc]. cbn [Nat.add] in Hc.
  intros mu Hmu k Hk. rewrite hard_equality_rows_count in Hk.
  unfold eliminate in Ha. cbn [mrows mcols mat_at vat] in Ha. rewrite Hr, ltb_true in Ha by lia. cbn [andb] in Ha.
  destruct (negb _) eqn:En; [discriminate|]. apply negb_false_iff, Nat.eqb_eq in En.
  apply (full_rank_independent qr _ Hqr En); [|exact Hk]. cbn [mrows mcols mat_at]. intros i Hi. rewrite Hc. now apply Hmu.
Qed.

Lemma solve_independent pb qr qp pb' : qr_correct qr -> p_rewrite pb = true -> solve pb qr qp = (pb', Ok tt) -> independent_equalities pb.
Proof.
  intros Hqr Hr H. unfold solve in H.
  destruct (assemble (set_cons pb (map reset_active (p_cons pb))) qr) as [a|e|] eqn:Ea; try discriminate.
  pose proof (assemble_independent (set_cons pb (map reset_active (p_cons pb))) qr a Hqr Hr Ea) as Hi. intros mu Hmu k Hk. apply Hi.
  - intros j Hj. cbn [set_cons p_cons]. rewrite combination_reset. now apply Hmu.
  - cbn [set_cons p_cons]. rewrite hard_equality_rows_count, equality_count_reset, <- hard_equality_rows_count. exact Hk.
Qed.

Lemma solve_dependent pb qr qp : qr_correct qr -> p_rewrite pb = true -> Forall (stackable (p_n pb)) (p_cons pb) ->
  ~ independent_equalities pb -> snd (solve pb qr qp) = Throw EQP.
Proof.
  intros Hqr Hr Hs Hn. unfold solve.
  assert (Ha : assemble (set_cons pb (map reset_active (p_cons pb))) qr = Throw EQP); [|rewrite Ha; reflexivity].
  unfold assemble. cbn [set_cons p_n p_cons p_rewrite]. rewrite Hr.
  assert (Hs' : Forall (stackable (p_n pb)) (map reset_active (p_cons pb))) by (rewrite Forall_map; exact Hs).
  destruct (stack_total _ _ Hs' 0%nat (fun _ _ => 0) (fun _ => 0)) as ([A b] & Es). rewrite Es. cbn [obind fst snd].
  destruct (stack_combination _ _ _ _ _ _ _ Es ltac:(reflexivity)) as [_ Hc]. cbn [Nat.add] in Hc.
  unfold eliminate. cbn [mrows mcols mat_at vat]. rewrite equality_count_reset in *.
  destruct (Nat.ltb 0 (equality_count (p_cons pb))) eqn:El; cbn [andb].
  2:{ exfalso. apply Hn. intros mu Hmu k Hk. apply Nat.ltb_ge in El. rewrite hard_equality_rows_count in Hk. lia. }
  destruct (negb _) eqn:En; [reflexivity|]. apply negb_false_iff, Nat.eqb_eq in En. exfalso. apply Hn.
  intros mu Hmu k Hk. rewrite hard_equality_rows_count in Hk. apply (full_rank_independent qr _ Hqr En); [|exact Hk].
  cbn [mrows mcols mat_at]. intros i Hi. rewrite Hc, combination_reset. now apply Hmu.
Qed.

(** Only one kind of error is thrown. *)
Lemma stack_throws cs n : forall k A b e, stack_equalities cs n k A b <> Throw e.
Proof.
  induction cs as [|c cs IH]; intros k A b e; cbn [stack_equalities]; [discriminate|].
  destruct (_ && _); [|apply IH]. unfold guard. repeat (destruct (_ && _); try discriminate); apply IH.
Qed.
Lemma objective_throws sp n rd cs : forall P q e, objective_loop sp n rd cs P q = Throw e -> e = EQP.
Proof.
  induction cs as [|c cs IH]; intros P q e; cbn [objective_loop]; [discriminate|].
  destruct (Nat.ltb _ _); [congruence|]. destruct (_ || _); [congruence|]. destruct (negb _); [congruence|].
  destruct (_ && _); [|apply IH]. destruct (constraint_expressions _ _ _). apply IH.
Qed.
Lemma solve_throws pb qr qp pb' e : solve pb qr qp = (pb', Throw e) -> e = EQP.
Proof.
  unfold solve. set (pb0 := set_cons _ _). destruct (assemble pb0 qr) as [a|e'|] eqn:Ea; [|intros [= <- <-]|discriminate].
  - destruct (qp_sizes_ok _); [|discriminate]. unfold finish. destruct (q_inf _); [congruence|]. destruct (equality_violated _ _); [congruence|].
    destruct (x_has_nan _ _); [congruence|]. destruct (update_variables _ _) as [vs|e'|] eqn:Eu; [discriminate| |discriminate].
    exfalso. clear - Eu. set (x := recompose _ _ _) in *. clearbody x. match type of Eu with update_variables _ ?l = _ => set (vs := l) in *; clearbody vs end.
    revert Eu. induction vs as [|v vs IH]; cbn [update_variables]; [discriminate|]. unfold update_variable, guard. destruct (Nat.leb _ _); [|discriminate].
    cbn [obind]. destruct (update_variables x vs); cbn [obind]; [discriminate|now intros E; apply IH|discriminate].
  - revert Ea. unfold assemble. destruct (stack_equalities _ _ _ _ _) as [Ab|e0|] eqn:Es; cbn [obind]; [|now apply stack_throws in Es|discriminate].
    unfold eliminate. destruct (_ && _); [destruct (negb _); [cbn; congruence|]|]; cbn [obind];
      (destruct (objective_loop _ _ _ _ _ _) as [Pq|e1|] eqn:Eo; cbn [obind]; [discriminate|intros [= <-]; exact (objective_throws _ _ _ _ _ _ _ Eo)|discriminate]).
Qed.
