From Coq Require Import Reals List ZArith Bool Lia Lra Psatz.
From Verif Require Import Base Linalg Sparsity_model Sparsity_spec Sparsity_proofs Expression_model Expression_spec Expression_proofs
  Problem_model Problem_spec.
Import ListNotations.
Open Scope R_scope.

Lemma row_ev e x i : row e x i = ev e x i.
Proof. reflexivity. Qed.

(** ** Quadratic terms *)

Definition quad (N : nat) (P : nat -> nat -> R) (z : nat -> R) : R :=
  Rsum N (fun i => Rsum N (fun j => z i * P i j * z j)).
Definition lin (N : nat) (q z : nat -> R) : R := Rsum N (fun i => q i * z i).
Definition mz (M : mat) (z : nat -> R) (k : nat) : R := Rsum (mcols M) (fun j => mat_at M k j * z j).

Lemma ltb_true a b : (a < b)%nat -> Nat.ltb a b = true.
Proof. apply Nat.ltb_lt. Qed.
Lemma ltb_false a b : (b <= a)%nat -> Nat.ltb a b = false.
Proof. apply Nat.ltb_ge. Qed.
Lemma leb_true a b : (a <= b)%nat -> Nat.leb a b = true.
Proof. apply Nat.leb_le. Qed.
Lemma leb_false a b : (b < a)%nat -> Nat.leb a b = false.
Proof. apply Nat.leb_gt. Qed.

Lemma quad_add_gram N w M P z : (mcols M <= N)%nat ->
  quad N (add_gram w M P) z = quad N P z + w * Rsum (mrows M) (fun k => Rsqr (mz M z k)).
Proof.
  intros H. unfold quad, add_gram.
  set (g := fun i j => Rsum (mrows M) (fun k => mat_at M k i * mat_at M k j)).
  rewrite (Rsum_ext N _ (fun i => Rsum N (fun j => z i * P i j * z j) +
    Rsum N (fun j => if Nat.ltb i (mcols M) && Nat.ltb j (mcols M) then w * (z i * g i j * z j) else 0))).
  2:{ intros i _. rewrite <- Rsum_plus. apply Rsum_ext. intros j _. unfold g. destruct (_ && _); ring. }
  rewrite Rsum_plus. f_equal.
  rewrite (Rsum_extend (mcols M) N _ H).
  2:{ intros i Hi. apply Rsum_zero_ext. intros j _. rewrite (ltb_false i) by lia. reflexivity. }
  rewrite (Rsum_ext (mcols M) _ (fun i => w * Rsum (mcols M) (fun j => z i * g i j * z j))).
  2:{ intros i Hi. rewrite (Rsum_extend (mcols M) N _ H).
      - rewrite <- Rsum_scal_l. apply Rsum_ext. intros j Hj. rewrite !ltb_true by assumption. reflexivity.
      - intros j Hj. rewrite (ltb_false j) by lia. rewrite andb_false_r. reflexivity. }
  rewrite Rsum_scal_l. f_equal.
  rewrite (Rsum_ext (mcols M) _ (fun i => Rsum (mrows M) (fun k => Rsum (mcols M) (fun j => (mat_at M k i * z i) * (mat_at M k j * z j))))).
  2:{ intros i _. rewrite Rsum_swap. apply Rsum_ext. intros j _. unfold g.
      rewrite Rmult_assoc, Rmult_comm, Rmult_assoc. rewrite <- Rsum_scal_r. apply Rsum_ext. intros; ring. }
  rewrite Rsum_swap. apply Rsum_ext. intros k _. unfold Rsqr, mz. rewrite Rsum_mult. reflexivity.
Qed.

Lemma lin_add_linear N w M b q z : (mcols M <= N)%nat ->
  lin N (add_linear w M b q) z = lin N q z + w * Rsum (mrows M) (fun k => mz M z k * vat b k).
Proof.
  intros H. unfold lin, add_linear.
  rewrite (Rsum_ext N _ (fun i => q i * z i +
    (if Nat.ltb i (mcols M) then w * Rsum (mrows M) (fun k => mat_at M k i * vat b k * z i) else 0))).
  2:{ intros i _. destruct (Nat.ltb i (mcols M)); [|ring]. rewrite Rsum_scal_r. ring. }
  rewrite Rsum_plus. f_equal. rewrite (Rsum_extend (mcols M) N _ H).
  2:{ intros i Hi. rewrite ltb_false by lia. reflexivity. }
  rewrite (Rsum_ext (mcols M) _ (fun i => w * Rsum (mrows M) (fun k => mat_at M k i * vat b k * z i))).
  2:{ intros i Hi. rewrite ltb_true by assumption. reflexivity. }
  rewrite Rsum_scal_l, Rsum_swap. f_equal. apply Rsum_ext. intros k _. unfold mz. rewrite <- Rsum_scal_r.
  apply Rsum_ext. intros; ring.
Qed.

Definition qcost (N : nat) (P : nat -> nat -> R) (q z : nat -> R) : R := / 2 * quad N P z + lin N q z.

Lemma qcost_add N w M b P q z : (mcols M <= N)%nat ->
  qcost N (add_gram w M P) (add_linear w M b q) z =
  qcost N P q z + w / 2 * Rsum (mrows M) (fun k => Rsqr (mz M z k + vat b k))
  - w / 2 * Rsum (mrows M) (fun k => Rsqr (vat b k)).
Proof.
  intros H. unfold qcost. rewrite quad_add_gram, lin_add_linear by exact H.
  rewrite (Rsum_ext (mrows M) (fun k => Rsqr (mz M z k + vat b k))
    (fun k => Rsqr (mz M z k) + 2 * (mz M z k * vat b k) + Rsqr (vat b k))) by (intros; unfold Rsqr; ring).
  rewrite !Rsum_plus, Rsum_scal_l. field.
Qed.

(** ** The hard equalities *)

Lemma is_hard_iff c : is_hard c = true <-> c_prio c = Hard.
Proof. unfold is_hard. destruct (c_prio c); intuition congruence. Qed.
Lemma is_eq_iff c : is_eq c = true <-> c_type c = Equality.
Proof. unfold is_eq. destruct (c_type c); intuition congruence. Qed.

Lemma stack_spec cs : forall n k A0 b0 A b,
  stack_equalities cs n k A0 b0 = Ok (A, b) ->
  (forall i j, (k <= i)%nat -> A0 i j = 0) ->
  (forall i j, (i < k)%nat -> A i j = A0 i j) /\ (forall i, (i < k)%nat -> b i = b0 i) /\
  (forall i j, (k + equality_count cs <= i)%nat -> A i j = 0) /\
  (forall x, hard_equalities_hold cs x <->
     forall i, (k <= i < k + equality_count cs)%nat -> Rsum n (fun j => A i j * x j) + b i = 0).
Proof.
  induction cs as [|c r IH]; intros n k A0 b0 A b Hs Hz.
  - cbn in Hs. injection Hs as <- <-. repeat split; auto.
    + intros i j Hi. apply Hz. cbn in Hi. lia.
    + intros _ i Hi. cbn in Hi. lia.
    + intros _ c [].
  - cbn [stack_equalities] in Hs. cbn [equality_count]. destruct (is_eq c && is_hard c) eqn:Ec.
    + unfold guard in Hs. destruct (Nat.leb (cols (c_expr c)) n && Nat.eqb (vlen (eb (c_expr c))) (rows (c_expr c))) eqn:Eg;
        [|discriminate].
      apply andb_true_iff in Eg. rewrite Nat.leb_le, Nat.eqb_eq in Eg. destruct Eg as [Eg1 Eg2].
      apply andb_true_iff in Ec. rewrite is_eq_iff, is_hard_iff in Ec. destruct Ec as [Et Eh].
      set (m := rows (c_expr c)) in *.
      apply IH in Hs.
      2:{ intros i j Hi. rewrite (ltb_false i) by lia. rewrite andb_false_r. cbn. apply Hz. lia. }
      destruct Hs as (H1 & H2 & H3 & H4). repeat split.
      * intros i j Hi. rewrite H1 by lia. rewrite (leb_false k i) by lia. reflexivity.
      * intros i Hi. rewrite H2 by lia. rewrite (leb_false k i) by lia. reflexivity.
      * intros i j Hi. apply H3. lia.
      * assert (Hrow : forall i, (k <= i < k + m)%nat ->
          Rsum n (fun j => A i j * x j) + b i = row (c_expr c) x (i - k)).
        { intros i Hi. unfold row. f_equal.
          - rewrite (Rsum_extend (cols (c_expr c)) n _ Eg1).
            + apply Rsum_ext. intros j Hj. rewrite H1 by lia. rewrite leb_true, ltb_true, ltb_true by lia. reflexivity.
            + intros j Hj. rewrite H1 by lia. rewrite (ltb_false j) by lia. rewrite andb_false_r. rewrite Hz by lia. ring.
          - rewrite H2 by lia. rewrite leb_true, ltb_true by lia. reflexivity. }
        intros Hh i Hi. destruct (le_lt_dec (k + m) i).
        -- apply H4; [|lia]. intros c' Hc' Hp' Ht'. apply Hh; auto. now right.
        -- rewrite Hrow by lia. specialize (Hh c (or_introl eq_refl) Eh Et (i - k)%nat). rewrite Et in Hh. apply Hh.
           fold m. lia.
      * assert (Hrow : forall i, (k <= i < k + m)%nat ->
          Rsum n (fun j => A i j * x j) + b i = row (c_expr c) x (i - k)).
        { intros i Hi. unfold row. f_equal.
          - rewrite (Rsum_extend (cols (c_expr c)) n _ Eg1).
            + apply Rsum_ext. intros j Hj. rewrite H1 by lia. rewrite leb_true, ltb_true, ltb_true by lia. reflexivity.
            + intros j Hj. rewrite H1 by lia. rewrite (ltb_false j) by lia. rewrite andb_false_r. rewrite Hz by lia. ring.
          - rewrite H2 by lia. rewrite leb_true, ltb_true by lia. reflexivity. }
        intros Hh c' [<-|Hc'] Hp' Ht'.
        -- intros i Hi. rewrite Et. fold m in Hi. specialize (Hh (k + i)%nat ltac:(lia)).
           rewrite Hrow in Hh by lia. replace (k + i - k)%nat with i in Hh by lia. exact Hh.
        -- assert (Hr : hard_equalities_hold r x) by (apply H4; intros i Hi; apply Hh; lia).
           exact (Hr c' Hc' Hp' Ht').
    + cbn [Nat.add]. apply IH in Hs; [|exact Hz]. destruct Hs as (H1 & H2 & H3 & H4).
      split; [exact H1|]. split; [exact H2|]. split; [exact H3|].
      intros x. rewrite <- H4. unfold hard_equalities_hold. split; intros Hh c' Hc' Hp' Ht'.
      * apply Hh; auto. now right.
      * destruct Hc' as [<-|Hc']; [|now apply Hh].
        apply is_hard_iff in Hp'. apply is_eq_iff in Ht'. rewrite Hp', Ht' in Ec. discriminate.
Qed.

(** ** Forward substitution *)

Lemma forward_subst_stable n L c : forall m i, (i < n)%nat -> (n <= m)%nat -> forward_subst m L c i = forward_subst n L c i.
Proof.
  induction m as [|m IH]; intros i Hi Hm; [lia|].
  destruct (Nat.eq_dec n (S m)) as [->|Hne]; [reflexivity|].
  cbn. replace (Nat.eqb i m) with false by (symmetry; apply Nat.eqb_neq; lia). apply IH; lia.
Qed.

Lemma forward_subst_solves n L c : (forall j, (j < n)%nat -> L j j <> 0) ->
  forall i, (i < n)%nat -> Rsum (S i) (fun j => L i j * forward_subst n L c j) = c i.
Proof.
  intros HL i Hi. cbn [Rsum].
  rewrite (Rsum_ext i _ (fun j => L i j * forward_subst i L c j)).
  2:{ intros j Hj. rewrite (forward_subst_stable i L c n j) by lia. reflexivity. }
  rewrite (forward_subst_stable (S i) L c n i) by lia.
  cbn [forward_subst]. rewrite Nat.eqb_refl. field. apply HL. lia.
Qed.

Lemma triangular_unique n L (u v : nat -> R) : (forall j, (j < n)%nat -> L j j <> 0) ->
  (forall i, (i < n)%nat -> Rsum (S i) (fun j => L i j * u j) = Rsum (S i) (fun j => L i j * v j)) ->
  forall i, (i < n)%nat -> u i = v i.
Proof.
  intros HL H i. induction i as [i IH] using lt_wf_ind. intros Hi.
  specialize (H i Hi). cbn [Rsum] in H.
  rewrite (Rsum_ext i (fun j => L i j * u j) (fun j => L i j * v j)) in H.
  - apply (Rmult_eq_reg_l (L i i)); [lra|now apply HL].
  - intros j Hj. now rewrite IH by lia.
Qed.

(** ** Orthogonal change of unknowns *)

Lemma orth_apply n (Q : nat -> nat -> R) u i :
  (forall a b, (a < n)%nat -> (b < n)%nat -> Rsum n (fun k => Q k a * Q k b) = if Nat.eqb a b then 1 else 0) ->
  (i < n)%nat -> Rsum n (fun k => Q k i * Rsum n (fun j => Q k j * u j)) = u i.
Proof.
  intros H Hi.
  rewrite (Rsum_ext n _ (fun k => Rsum n (fun j => (Q k i * Q k j) * u j))).
  2:{ intros k _. rewrite <- Rsum_scal_l. apply Rsum_ext. intros; ring. }
  rewrite Rsum_swap. rewrite (Rsum_delta n i).
  - rewrite Rsum_scal_r, H by assumption. rewrite Nat.eqb_refl. ring.
  - exact Hi.
  - intros j Hj Hne. rewrite Rsum_scal_r, H by assumption.
    replace (Nat.eqb i j) with false by (symmetry; apply Nat.eqb_neq; lia). ring.
Qed.

Lemma orth_norm n (Q : nat -> nat -> R) u :
  (forall a b, (a < n)%nat -> (b < n)%nat -> Rsum n (fun k => Q k a * Q k b) = if Nat.eqb a b then 1 else 0) ->
  Rsum n (fun i => Rsqr (Rsum n (fun j => Q i j * u j))) = Rsum n (fun j => Rsqr (u j)).
Proof.
  intros H. unfold Rsqr.
  rewrite (Rsum_ext n _ (fun i => Rsum n (fun j => u j * (Q i j * Rsum n (fun k => Q i k * u k))))).
  2:{ intros i _. rewrite <- Rsum_scal_r. apply Rsum_ext. intros; ring. }
  rewrite Rsum_swap. apply Rsum_ext. intros j Hj. rewrite Rsum_scal_l. f_equal. now apply orth_apply.
Qed.

(** ** Elimination *)

(** Facts about the reduction used everywhere else. [xz z] is the recomposed vector (first n entries). *)
Definition xz (n : nat) (rd : reduction) (z : nat -> R) : nat -> R :=
  if Nat.eqb (r_det rd) 0 then z
  else fun i => Rsum n (fun j => r_Q rd i j * (if Nat.ltb j (r_det rd) then r_y rd j else z (j - r_det rd)%nat)).

Lemma recompose_xz n a z : vat (recompose n a z) = xz n (a_red a) z.
Proof. unfold recompose, xz. destruct (Nat.eqb (r_det (a_red a)) 0); reflexivity. Qed.

Lemma Rsum_padded_le M i x n : (mcols M <= n)%nat ->
  Rsum n (fun j => padded M i j * x j) = Rsum (mcols M) (fun j => mat_at M i j * x j).
Proof. apply Rsum_padded. Qed.

(** The reduced expression evaluates, on the free unknowns, to the original one on the recomposed unknowns. *)
Lemma constraint_expressions_row n rd e A b z i :
  constraint_expressions n rd e = (A, b) -> (r_det rd <= n)%nat -> (cols e <= n)%nat ->
  mz A z i + vat b i = row e (xz n rd z) i.
Proof.
  unfold constraint_expressions, xz, row, mz. intros H Hd Hc.
  destruct (Nat.eqb (r_det rd) 0) eqn:Ed; injection H as <- <-; [reflexivity|].
  cbn [mcols mat_at vat].
  set (full := fun j => Rsum n (fun k => padded (eA e) i k * r_Q rd k j)).
  set (u := fun j => if Nat.ltb j (r_det rd) then r_y rd j else z (j - r_det rd)%nat).
  assert (E : Rsum (cols e) (fun j => mat_at (eA e) i j * Rsum n (fun k => r_Q rd j k * u k)) = Rsum n (fun j => full j * u j)).
  { unfold cols in *. rewrite <- (Rsum_padded_le (eA e) i (fun j => Rsum n (fun k => r_Q rd j k * u k)) n Hc).
    rewrite (Rsum_ext n _ (fun j => Rsum n (fun k => padded (eA e) i j * r_Q rd j k * u k))).
    2:{ intros j _. rewrite <- Rsum_scal_l. apply Rsum_ext. intros; ring. }
    rewrite Rsum_swap. apply Rsum_ext. intros k _. unfold full. rewrite Rsum_scal_r. reflexivity. }
  transitivity (Rsum n (fun j => full j * u j) + vat (eb e) i); [|rewrite <- E; reflexivity].
  replace (Rsum n (fun j => full j * u j)) with (Rsum (r_det rd + (n - r_det rd)) (fun j => full j * u j)) by (f_equal; lia).
  rewrite Rsum_split.
  rewrite (Rsum_ext (r_det rd) (fun j => full j * u j) (fun j => full j * r_y rd j)).
  2:{ intros j Hj. unfold u. rewrite ltb_true by exact Hj. reflexivity. }
  rewrite (Rsum_ext (n - r_det rd) (fun j => full (r_det rd + j)%nat * u (r_det rd + j)%nat)
    (fun j => full (r_det rd + j)%nat * z j)).
  2:{ intros j Hj. unfold u. rewrite ltb_false by lia. do 2 f_equal. lia. }
  unfold full. ring.
Qed.

Lemma constraint_expressions_size n rd e A b :
  constraint_expressions n rd e = (A, b) -> (r_det rd <= n)%nat -> (cols e <= n)%nat ->
  mrows A = rows e /\ (mcols A <= n - r_det rd)%nat.
Proof.
  unfold constraint_expressions. intros H Hd Hc.
  destruct (Nat.eqb (r_det rd) 0) eqn:Ed; injection H as <- <-.
  - apply Nat.eqb_eq in Ed. split; [reflexivity|]. unfold cols in Hc. lia.
  - cbn. split; [reflexivity|lia].
Qed.

Record elim_facts (pb : problem) (rd : reduction) : Prop := {
  ef_det : (r_det rd <= p_n pb)%nat;
  ef_feasible : forall z,
    hard_equalities_hold (p_cons pb) (xz (p_n pb) rd z) <->
    forall k, (k < mrows (r_A rd))%nat ->
      Rsum (mcols (r_A rd)) (fun j => mat_at (r_A rd) k j * xz (p_n pb) rd z j) + vat (r_b rd) k = 0;
  ef_A : (r_det rd = 0%nat -> mcols (r_A rd) = p_n pb) /\ ((0 < r_det rd)%nat -> mrows (r_A rd) = 0%nat);
  ef_onto : forall x, hard_equalities_hold (p_cons pb) x ->
    exists z, forall i, (i < p_n pb)%nat -> xz (p_n pb) rd z i = x i;
  ef_inj : forall z z', (forall i, (i < p_n pb)%nat -> xz (p_n pb) rd z i = xz (p_n pb) rd z' i) ->
    forall j, (j < p_n pb - r_det rd)%nat -> z j = z' j;
  ef_norm : exists K, forall z,
    Rsum (p_n pb) (fun j => Rsqr (xz (p_n pb) rd z j)) = Rsum (p_n pb - r_det rd) (fun j => Rsqr (z j)) + K }.

Lemma eliminate_facts pb A b qr rd :
  qr_correct qr ->
  stack_equalities (p_cons pb) (p_n pb) 0 (fun _ _ => 0) (fun _ => 0) = Ok (A, b) ->
  eliminate (p_rewrite pb) (p_n pb) (Mat (equality_count (p_cons pb)) (p_n pb) A)
    (Vec (equality_count (p_cons pb)) b) qr = Ok rd ->
  elim_facts pb rd.
Proof.
  intros Hqr Hs He. apply stack_spec in Hs; [|reflexivity]. destruct Hs as (_ & _ & _ & Hs).
  set (n := p_n pb) in *. set (m := equality_count (p_cons pb)) in *.
  unfold eliminate in He. cbn [mrows mcols mat_at vat] in He.
  destruct (p_rewrite pb && Nat.ltb 0 m) eqn:Er.
  2:{ injection He as <-. unfold xz. cbn [r_det r_A r_b r_Q r_y Nat.eqb mrows mcols mat_at vat].
      split; cbn [r_det r_A r_b r_Q r_y Nat.eqb mrows mcols mat_at vat]; unfold xz;
        cbn [r_det r_A r_b r_Q r_y Nat.eqb mrows mcols mat_at vat].
      - lia.
      - intros z. rewrite Hs. cbn [Nat.add]. split; intros H k Hk; apply H; lia.
      - split; [reflexivity|lia].
      - intros x _. exists x. reflexivity.
      - intros z z' H j Hj. apply H. lia.
      - exists 0. intros z. rewrite Nat.sub_0_r. ring. }
  apply andb_true_iff in Er. destruct Er as [_ Em]. apply Nat.ltb_lt in Em.
  set (M := Mat n m (fun i j => A j i)) in *.
  set (d := qr M) in *.
  destruct (negb (Nat.eqb (qr_rank d) m)) eqn:Ek; [discriminate|].
  apply negb_false_iff, Nat.eqb_eq in Ek.
  injection He as <-.
  pose proof (Hqr M) as HM. cbv zeta in HM. change (mrows M) with n in HM. change (mcols M) with m in HM. fold d in HM.
  destruct (HM Ek) as (HQ1 & HQ2 & Hp1 & Hp2 & HR & Htri & Hrk & Hdiag). clear HM.
  change (mat_at M) with (fun i j => A j i) in HR. cbv beta in HR.
  rewrite Ek in *.
  set (L := fun i j => qr_R d j i) in *. set (c := fun i => - b (qr_perm d i)) in *.
  set (y := forward_subst m L c) in *.
  set (U := fun z j => if Nat.ltb j m then y j else z (j - m)%nat).
  assert (HU : forall z, xz n {| r_det := m; r_Q := qr_Q d; r_y := y; r_A := Mat 0 0 (fun _ _ => 0); r_b := Vec 0 (fun _ => 0) |} z
                         = fun i => Rsum n (fun j => qr_Q d i j * U z j)).
  { intros z. unfold xz. cbn [r_det r_Q r_y]. replace (Nat.eqb m 0) with false by (symmetry; apply Nat.eqb_neq; lia).
    reflexivity. }
  (* the rows of A in terms of u = Q^T x *)
  assert (HA : forall x p, (p < m)%nat ->
    Rsum n (fun j => A (qr_perm d p) j * x j) =
    Rsum (S p) (fun k => L p k * Rsum n (fun j => qr_Q d j k * x j))).
  { intros x p Hp.
    rewrite (Rsum_ext n _ (fun j => Rsum n (fun k => qr_R d k p * (qr_Q d j k * x j)))).
    2:{ intros j Hj. rewrite (HR j p Hj Hp). rewrite <- Rsum_scal_r. apply Rsum_ext. intros; ring. }
    rewrite Rsum_swap. rewrite (Rsum_extend (S p) n).
    - apply Rsum_ext. intros k _. rewrite Rsum_scal_l. reflexivity.
    - lia.
    - intros k Hk. rewrite Rsum_scal_l, Htri by lia. ring. }
  assert (Hfeas : forall x, hard_equalities_hold (p_cons pb) x <->
    forall p, (p < m)%nat -> Rsum n (fun j => qr_Q d j p * x j) = y p).
  { intros x. rewrite Hs. cbn [Nat.add]. split.
    - intros H p Hp. revert p Hp. apply (triangular_unique m L); [exact Hdiag|].
      intros p Hp. unfold y. rewrite forward_subst_solves by assumption.
      rewrite <- HA by exact Hp. unfold c. specialize (H (qr_perm d p)). specialize (Hp1 p Hp). lra || (specialize (H ltac:(lia)); lra).
    - intros H i Hi. destruct (Hp2 i) as (p & Hp & <-); [lia|]. rewrite HA by exact Hp.
      rewrite (Rsum_ext (S p) _ (fun k => L p k * y k)) by (intros k Hk; rewrite H by lia; reflexivity).
      unfold y. rewrite forward_subst_solves by assumption. unfold c. ring. }
  assert (HQU : forall z p, (p < n)%nat -> Rsum n (fun j => qr_Q d j p * Rsum n (fun k => qr_Q d j k * U z k)) = U z p).
  { intros z p Hp. now apply orth_apply. }
  split; cbn [r_det r_A r_b mrows mcols mat_at vat].
  - exact Hrk.
  - intros z. rewrite HU. split.
    + intros _ k Hk. lia.
    + intros _. apply Hfeas. intros p Hp. rewrite HQU by lia. unfold U. rewrite ltb_true by exact Hp. reflexivity.
  - split; [lia|reflexivity].
  - intros x Hx. exists (fun j => Rsum n (fun i => qr_Q d i (m + j)%nat * x i)). intros i Hi. rewrite HU.
    rewrite (Rsum_ext n _ (fun j => qr_Q d i j * Rsum n (fun k => qr_Q d k j * x k))).
    + apply (orth_apply n (fun a b => qr_Q d b a) x i); [exact HQ2|exact Hi].
    + intros j Hj. unfold U. destruct (Nat.ltb j m) eqn:E.
      * apply Nat.ltb_lt in E. rewrite (proj1 (Hfeas x) Hx j E). reflexivity.
      * apply Nat.ltb_ge in E. replace (m + (j - m))%nat with j by lia. reflexivity.
  - intros z z' H j Hj.
    assert (E : U z (m + j)%nat = U z' (m + j)%nat).
    { rewrite <- (HQU z), <- (HQU z') by lia. apply Rsum_ext. intros k Hk. f_equal.
      specialize (H k Hk). rewrite !HU in H. exact H. }
    unfold U in E. rewrite ltb_false in E by lia. replace (m + j - m)%nat with j in E by lia. exact E.
  - exists (Rsum m (fun j => Rsqr (y j))). intros z. rewrite HU. rewrite orth_norm by exact HQ1.
    replace n with (m + (n - m))%nat at 1 by lia. rewrite Rsum_split. rewrite Rplus_comm. f_equal.
    + apply Rsum_ext. intros j Hj. unfold U. rewrite ltb_false by lia. do 2 f_equal. lia.
    + apply Rsum_ext. intros j Hj. unfold U. rewrite ltb_true by exact Hj. reflexivity.
Qed.

(** ** The objective *)

Definition ok_constraint (n : nat) (c : pconstraint) : Prop :=
  (0 < rows (c_expr c))%nat /\ vlen (eb (c_expr c)) = rows (c_expr c) /\ (cols (c_expr c) <= n)%nat.

(** Penalty of the soft equalities only. *)
Fixpoint soft_eq_cost (cs : list pconstraint) (x : nat -> R) : R :=
  match cs with
  | [] => 0
  | c :: r => (if is_eq c && negb (is_hard c) then
                 c_weight c / 2 * Rsum (rows (c_expr c)) (fun i => Rsqr (row (c_expr c) x i)) else 0) + soft_eq_cost r x
  end.

Lemma objective_spec n rd N cs : (r_det rd <= n)%nat -> (n - r_det rd <= N)%nat -> forall P q P' q',
  objective_loop false n rd cs P q = Ok (P', q') ->
  Forall (ok_constraint n) cs /\
  exists K, forall z, qcost N P' q' z = qcost N P q z + soft_eq_cost cs (xz n rd z) + K.
Proof.
  intros Hd HN. induction cs as [|c r IH]; intros P q P' q' H; cbn [objective_loop] in H.
  - injection H as <- <-. split; [constructor|]. exists 0. intros z. cbn. ring.
  - destruct (Nat.ltb n (cols (c_expr c))) eqn:E1; [discriminate|]. apply Nat.ltb_ge in E1.
    destruct (Nat.eqb (rows (c_expr c)) 0 || Nat.eqb (vlen (eb (c_expr c))) 0) eqn:E2; [discriminate|].
    apply orb_false_iff in E2. rewrite !Nat.eqb_neq in E2.
    destruct (negb (Nat.eqb (rows (c_expr c)) (vlen (eb (c_expr c))))) eqn:E3; [discriminate|].
    apply negb_false_iff, Nat.eqb_eq in E3.
    assert (Hok : ok_constraint n c) by (unfold ok_constraint; lia).
    cbn [soft_eq_cost].
    destruct (is_eq c && negb (is_hard c)) eqn:Ec.
    + destruct (constraint_expressions n rd (c_expr c)) as [A b] eqn:Ex.
      apply IH in H. destruct H as [HF (K & HK)]. split; [now constructor|].
      destruct (constraint_expressions_size n rd _ A b Ex Hd E1) as [HA1 HA2].
      exists (K - c_weight c / 2 * Rsum (mrows A) (fun k => Rsqr (vat b k))). intros z.
      rewrite HK, qcost_add by lia.
      rewrite (Rsum_ext (mrows A) (fun k => Rsqr (mz A z k + vat b k)) (fun i => Rsqr (row (c_expr c) (xz n rd z) i))).
      2:{ intros i _. rewrite (constraint_expressions_row n rd _ A b z i Ex Hd E1). reflexivity. }
      rewrite HA1. ring.
    + apply IH in H. destruct H as [HF (K & HK)]. split; [now constructor|].
      exists K. intros z. rewrite HK. ring.
Qed.

(** ** Inequalities *)

Fixpoint soft_ineq_cost (cs : list pconstraint) (x s : nat -> R) (k : nat) : R :=
  match cs with
  | [] => 0
  | c :: r =>
      if negb (is_eq c) && negb (is_hard c) then
        c_weight c / 2 * Rsum (rows (c_expr c)) (fun i => Rsqr (row (c_expr c) x i - s (k + i)%nat))
        + soft_ineq_cost r x s (k + rows (c_expr c))
      else soft_ineq_cost r x s k
  end.

Definition grow (N : nat) (s : ineq_state) (z : nat -> R) (i : nat) : R :=
  Rsum N (fun j => s_G s i j * z j) + s_h s i.

Lemma slack_matrix_mz N free ksl A z i :
  (mcols A <= free)%nat -> (free + ksl + i < N)%nat ->
  mz (slack_matrix N free ksl A) z i = mz A z i - z (free + (ksl + i))%nat.
Proof.
  intros HA HN. unfold mz, slack_matrix. cbn [mcols mat_at].
  rewrite (Rsum_ext N _ (fun j => (if Nat.ltb j (mcols A) then mat_at A i j * z j else 0) +
     (if Nat.eqb j (free + (ksl + i)) then - z j else 0))).
  2:{ intros j Hj. destruct (Nat.eqb j (free + (ksl + i))) eqn:E.
      - apply Nat.eqb_eq in E. rewrite ltb_false by lia. ring.
      - destruct (Nat.ltb j (mcols A)); ring. }
  rewrite Rsum_plus. rewrite (Rsum_extend (mcols A) N); [|lia|intros j Hj; rewrite ltb_false by lia; reflexivity].
  rewrite (Rsum_ext (mcols A) _ (fun j => mat_at A i j * z j)) by (intros j Hj; rewrite ltb_true by exact Hj; reflexivity).
  rewrite (Rsum_delta N (free + (ksl + i))).
  - rewrite Nat.eqb_refl. ring.
  - lia.
  - intros j _ Hj. apply Nat.eqb_neq in Hj. rewrite Hj. reflexivity.
Qed.

Lemma hard_rows_cons c r :
  hard_inequality_rows (c :: r) = ((if negb (is_eq c) && is_hard c then rows (c_expr c) else 0) + hard_inequality_rows r)%nat.
Proof. cbn. unfold is_eq, is_hard. destruct (c_prio c), (c_type c); reflexivity. Qed.

Lemma inequality_spec n rd N free slack : (r_det rd <= n)%nat -> free = (n - r_det rd)%nat -> N = (free + slack)%nat ->
  forall cs idx s, Forall (ok_constraint n) cs -> (s_ksl s + slack_count cs <= slack)%nat ->
  (forall i j, (s_kin s <= i)%nat -> s_G s i j = 0) ->
  let s' := inequality_loop n N free rd cs idx s in
  s_kin s' = (s_kin s + hard_inequality_rows cs)%nat /\
  (forall z, (forall i, (i < s_kin s')%nat -> 0 <= grow N s' z i) <->
     (forall i, (i < s_kin s)%nat -> 0 <= grow N s z i) /\ hard_inequalities_hold cs (xz n rd z)) /\
  (exists K, forall z, qcost N (s_P s') (s_q s') z =
     qcost N (s_P s) (s_q s) z + soft_ineq_cost cs (xz n rd z) (fun k => z (free + k)%nat) (s_ksl s) + K).
Proof.
  intros Hd Hfree HN. induction cs as [|c r IH]; intros idx s Hok Hsl Hz; cbn [inequality_loop soft_ineq_cost]; rewrite ?hard_rows_cons.
  - cbv zeta. cbn [hard_inequality_rows]. split; [lia|]. split.
    + intros z. split; [intros H; split; [exact H|]; now intros c []|]. intros [H _]. exact H.
    + exists 0. intros z. ring.
  - pose proof (Forall_inv Hok) as Hc. pose proof (Forall_inv_tail Hok) as Hr. destruct Hc as (Hc1 & Hc2 & Hc3).
    cbn [slack_count] in Hsl. destruct (is_eq c) eqn:Et; cbn [negb andb] in *.
    + specialize (IH (S idx) s Hr ltac:(lia) Hz). cbv zeta in IH. destruct IH as (I1 & I2 & I3).
      split; [exact I1|]. split; [|exact I3].
      intros z. rewrite I2. apply is_eq_iff in Et. unfold hard_inequalities_hold. split; intros [H1 H2]; split; try exact H1.
      * intros c' [<-|Hc'] Hp Ht; [congruence|]. now apply H2.
      * intros c' Hc' Hp Ht. apply H2; auto. now right.
    + assert (Ht : c_type c = Inequality).
      { destruct (c_type c) eqn:E; [apply is_eq_iff in E; congruence|reflexivity]. }
      destruct (constraint_expressions n rd (c_expr c)) as [A b] eqn:Ex.
      destruct (constraint_expressions_size n rd _ A b Ex Hd Hc3) as [HA1 HA2].
      assert (Hrow : forall z i, mz A z i + vat b i = row (c_expr c) (xz n rd z) i)
        by (intros; now apply constraint_expressions_row).
      destruct (is_hard c) eqn:Eh; cbn [negb] in *.
      * set (s1 := IneqState _ _ _ _ _ _ _ _).
        specialize (IH (S idx) s1 Hr). cbv zeta in IH.
        assert (P1 : (s_ksl s1 + slack_count r <= slack)%nat) by (cbn; lia).
        assert (P2 : forall i j, (s_kin s1 <= i)%nat -> s_G s1 i j = 0).
        { intros i j Hi. cbn [s1 s_kin s_G] in Hi |- *. rewrite (ltb_false i) by lia. rewrite andb_false_r. cbn. apply Hz. lia. }
        specialize (IH P1 P2). destruct IH as (I1 & I2 & I3).
        split; [rewrite I1; cbn [s1 s_kin]; lia|]. split; [|exact I3].
        assert (G1 : forall z i, (i < s_kin s)%nat -> grow N s1 z i = grow N s z i).
        { intros z i Hi. unfold grow. cbn [s1 s_G s_h]. rewrite (leb_false (s_kin s) i) by lia. reflexivity. }
        assert (G2 : forall z i, (s_kin s <= i < s_kin s + mrows A)%nat -> grow N s1 z i = row (c_expr c) (xz n rd z) (i - s_kin s)).
        { intros z i Hi. rewrite <- Hrow. unfold grow, mz. cbn [s1 s_G s_h]. rewrite leb_true, ltb_true by lia. cbn [andb].
          f_equal. rewrite (Rsum_extend (mcols A) N).
          - apply Rsum_ext. intros j Hj. rewrite ltb_true by exact Hj. reflexivity.
          - lia.
          - intros j Hj. rewrite ltb_false by lia. rewrite Hz by lia. ring. }
        intros z. rewrite I2. unfold hard_inequalities_hold. split.
        -- intros [H1 H2]. split.
           ++ intros i Hi. rewrite <- G1 by exact Hi. apply H1. cbn. lia.
           ++ intros c' [<-|Hc'] Hp' Ht'; [|now apply H2].
              intros i Hi. rewrite Ht. specialize (H1 (s_kin s + i)%nat). cbn [s1 s_kin] in H1.
              fold s1 in H1. rewrite G2 in H1 by lia. replace (s_kin s + i - s_kin s)%nat with i in H1 by lia. apply H1. lia.
        -- intros [H1 H2]. split.
           ++ intros i Hi. cbn [s1 s_kin] in Hi. fold s1. destruct (lt_dec i (s_kin s)) as [Hl|Hl].
              ** rewrite G1 by exact Hl. now apply H1.
              ** rewrite G2 by lia. apply is_hard_iff in Eh. specialize (H2 c (or_introl eq_refl) Eh Ht (i - s_kin s)%nat).
                 rewrite Ht in H2. apply H2. lia.
           ++ intros c' Hc' Hp' Ht'. apply H2; auto. now right.
      * set (s1 := IneqState _ _ _ _ _ _ _ _).
        specialize (IH (S idx) s1 Hr). cbv zeta in IH.
        assert (P1 : (s_ksl s1 + slack_count r <= slack)%nat) by (cbn; lia).
        specialize (IH P1 Hz). destruct IH as (I1 & I2 & (K & I3)).
        split; [exact I1|]. split.
        -- intros z. rewrite I2. unfold hard_inequalities_hold. cbn [s1 s_kin]. split; intros [H1 H2]; (split; [exact H1|]).
           ++ intros c' [<-|Hc'] Hp' Ht'; [apply is_hard_iff in Hp'; congruence|]. now apply H2.
           ++ intros c' Hc' Hp' Ht'. apply H2; auto. now right.
        -- set (As := slack_matrix N free (s_ksl s) A) in *.
           exists (K - c_weight c / 2 * Rsum (mrows As) (fun k => Rsqr (vat b k))). intros z. rewrite I3.
           cbn [s1 s_P s_q s_ksl]. fold As. rewrite qcost_add by (cbn; lia).
           rewrite (Rsum_ext (mrows As) (fun k => Rsqr (mz As z k + vat b k))
             (fun i => Rsqr (row (c_expr c) (xz n rd z) i - z (free + (s_ksl s + i))%nat))).
           2:{ intros i Hi. cbn in Hi. rewrite <- Hrow. unfold As. rewrite slack_matrix_mz by lia. f_equal. ring. }
           replace (mrows As) with (rows (c_expr c)) by (cbn; lia). replace (mrows A) with (rows (c_expr c)) by lia. ring.
Qed.

Lemma split_costs cs x s : forall k,
  slack_cost cs x s k = soft_eq_cost cs x + soft_ineq_cost cs x s k.
Proof.
  induction cs as [|c r IH]; intros k; cbn; [ring|].
  unfold is_eq, is_hard. destruct (c_prio c), (c_type c); cbn [andb negb]; rewrite IH; ring.
Qed.

Lemma slack_count_spec cs : slack_count cs = soft_inequality_rows cs.
Proof.
  induction cs as [|c r IH]; cbn; [reflexivity|]. unfold is_eq, is_hard.
  destruct (c_prio c), (c_type c); cbn [andb negb]; rewrite IH; reflexivity.
Qed.

Lemma inequality_count_split cs : inequality_count cs = (slack_count cs + hard_inequality_rows cs)%nat.
Proof.
  induction cs as [|c r IH]; [reflexivity|]. rewrite hard_rows_cons. cbn [inequality_count slack_count].
  destruct (is_eq c), (is_hard c); cbn [negb andb]; lia.
Qed.

Lemma hard_split cs x : hard_holds cs x <-> hard_equalities_hold cs x /\ hard_inequalities_hold cs x.
Proof.
  unfold hard_holds, hard_equalities_hold, hard_inequalities_hold. split.
  - intros H. split; intros c Hc Hp _; now apply H.
  - intros [H1 H2] c Hc Hp. destruct (c_type c) eqn:E; [now apply H1|now apply H2].
Qed.

Lemma qcost_reg N n reg z : (n <= N)%nat ->
  qcost N (fun i j => if Nat.eqb i j && Nat.ltb i n then reg else 0) (fun _ => 0) z = reg / 2 * Rsum n (fun j => Rsqr (z j)).
Proof.
  intros H. unfold qcost, lin, quad.
  rewrite (Rsum_zero_ext N (fun i => 0 * z i)) by (intros; ring).
  rewrite (Rsum_extend n N _ H).
  2:{ intros i Hi. apply Rsum_zero_ext. intros j _. rewrite (ltb_false i) by lia. rewrite andb_false_r. ring. }
  rewrite (Rsum_ext n _ (fun i => reg * Rsqr (z i))).
  2:{ intros i Hi. rewrite (Rsum_delta N i).
      - rewrite Nat.eqb_refl, ltb_true by exact Hi. unfold Rsqr; cbn. ring.
      - lia.
      - intros j _ Hj. replace (Nat.eqb i j) with false by (symmetry; apply Nat.eqb_neq; lia). cbn. ring. }
  rewrite Rsum_scal_l. field.
Qed.

(** Everything about a successful assembly with sparsity off. *)
Lemma assemble_spec pb qr a :
  qr_correct qr -> p_sparse pb = false -> assemble pb qr = Ok a ->
  Forall (ok_constraint (p_n pb)) (p_cons pb) /\
  elim_facts pb (a_red a) /\
  a_free a = (p_n pb - r_det (a_red a))%nat /\ a_slack a = soft_inequality_rows (p_cons pb) /\
  vlen (qp_q (a_qp a)) = (a_free a + a_slack a)%nat /\
  (forall z, qp_feasible (a_qp a) z <->
     hard_holds (p_cons pb) (xz (p_n pb) (a_red a) z) /\
     forall k, (k < a_slack a)%nat -> 0 <= z (a_free a + k)%nat) /\
  (forall z, (forall k, (k < mrows (qp_G (a_qp a)))%nat ->
        0 <= Rsum (mcols (qp_G (a_qp a))) (fun j => mat_at (qp_G (a_qp a)) k j * z j) + vat (qp_h (a_qp a)) k) <->
     hard_inequalities_hold (p_cons pb) (xz (p_n pb) (a_red a) z) /\
     forall k, (k < a_slack a)%nat -> 0 <= z (a_free a + k)%nat) /\
  (exists K, forall z, qp_cost (a_qp a) z =
     slack_cost (p_cons pb) (xz (p_n pb) (a_red a) z) (fun k => z (a_free a + k)%nat) 0
     + p_reg pb / 2 * Rsum (a_free a) (fun j => Rsqr (z j)) + K).
Proof.
  intros Hqr Hsp H. unfold assemble in H.
  destruct (stack_equalities _ _ _ _ _) as [[A b]| |] eqn:Es; try discriminate. cbn [obind fst snd] in H.
  destruct (eliminate _ _ _ _ _) as [rd| |] eqn:Ee; try discriminate. cbn [obind] in H.
  pose proof (eliminate_facts pb A b qr rd Hqr Es Ee) as EF.
  rewrite Hsp in H.
  set (n := p_n pb) in *. set (cs := p_cons pb) in *. set (free := (n - r_det rd)%nat) in *.
  set (slack := slack_count cs) in *. set (N := (free + slack)%nat) in *.
  destruct (objective_loop _ _ _ _ _ _) as [[P q]| |] eqn:Eo; try discriminate. cbn [obind fst snd] in H.
  injection H as <-. cbn [a_red a_free a_slack a_qp qp_q vlen].
  pose proof (ef_det _ _ EF) as Hd.
  destruct (objective_spec n rd N cs Hd ltac:(unfold N, free; lia) _ _ _ _ Eo) as [Hok (K1 & HK1)].
  set (s0 := IneqState _ _ _ _ _ _ _ _).
  assert (P1 : (s_ksl s0 + slack_count cs <= slack)%nat) by (cbn; unfold slack; lia).
  assert (P2 : forall i j, (s_kin s0 <= i)%nat -> s_G s0 i j = 0).
  { intros i j Hi. cbn [s0 s_kin s_G] in Hi |- *. rewrite ltb_false by lia. reflexivity. }
  destruct (inequality_spec n rd N free slack Hd eq_refl eq_refl cs 0 s0 Hok P1 P2) as (I1 & I2 & (K2 & I3)).
  set (s' := inequality_loop n N free rd cs 0 s0) in *.
  split; [exact Hok|]. split; [exact EF|]. split; [reflexivity|].
  split; [apply slack_count_spec|]. split; [reflexivity|].
  assert (HG : forall z, (forall k, (k < inequality_count cs)%nat -> 0 <= Rsum N (fun j => s_G s' k j * z j) + s_h s' k) <->
     hard_inequalities_hold cs (xz n rd z) /\ forall k, (k < slack)%nat -> 0 <= z (free + k)%nat).
  { intros z.
    assert (Hm : inequality_count cs = s_kin s').
    { rewrite I1, inequality_count_split. reflexivity. }
    rewrite Hm. specialize (I2 z).
    assert (Hg0 : (forall i, (i < s_kin s0)%nat -> 0 <= grow N s0 z i) <-> (forall k, (k < slack)%nat -> 0 <= z (free + k)%nat)).
    { assert (E : forall k, (k < slack)%nat -> grow N s0 z k = z (free + k)%nat).
      { intros k Hk. unfold grow. cbn [s0 s_G s_h].
        rewrite (Rsum_delta N (free + k)); [|unfold N; lia|].
        - rewrite Nat.eqb_refl, ltb_true by exact Hk. cbn. ring.
        - intros j _ Hj. apply Nat.eqb_neq in Hj. rewrite Hj, andb_false_r. ring. }
      cbn [s0 s_kin]. split; intros H k Hk; specialize (H k Hk); [rewrite <- E by exact Hk|rewrite E by exact Hk]; exact H. }
    rewrite Hg0 in I2.
    change (forall k, (k < s_kin s')%nat -> 0 <= Rsum N (fun j => s_G s' k j * z j) + s_h s' k)
      with (forall k, (k < s_kin s')%nat -> 0 <= grow N s' z k).
    rewrite I2. tauto. }
  split; [|split; [exact HG|]].
  - intros z. unfold qp_feasible. cbn [qp_A qp_b qp_G qp_h mrows mcols mat_at vat].
    assert (HA : (forall k, (k < mrows (r_A rd))%nat -> Rsum (mcols (r_A rd)) (fun j => mat_at (r_A rd) k j * z j) + vat (r_b rd) k = 0)
                 <-> hard_equalities_hold cs (xz n rd z)).
    { pose proof (ef_feasible _ _ EF z) as EFz. fold cs n in EFz. rewrite EFz. clear EFz. destruct (Nat.eq_dec (r_det rd) 0) as [E0|E0].
      - fold n. unfold xz. rewrite E0. cbn [Nat.eqb]. reflexivity.
      - destruct (ef_A _ _ EF) as [_ E1]. rewrite E1 by lia. split; intros _ k Hk; lia. }
    rewrite HA. fold cs n. rewrite hard_split. rewrite (HG z). tauto.
  - exists (K1 + K2). intros z. unfold qp_cost. cbn [qp_q qp_P vlen mat_at vat].
    change (/ 2 * Rsum N (fun i => Rsum N (fun j => z i * s_P s' i j * z j)) + Rsum N (fun i => s_q s' i * z i))
      with (qcost N (s_P s') (s_q s') z).
    rewrite I3. cbn [s0 s_P s_q s_ksl]. rewrite HK1, qcost_reg by (unfold N; lia).
    rewrite split_costs. ring.
Qed.

(** ** Slacks *)

Fixpoint best_slack (cs : list pconstraint) (x : nat -> R) (k : nat) : R :=
  match cs with
  | [] => 0
  | c :: r => if negb (is_eq c) && negb (is_hard c) then
                if Nat.ltb k (rows (c_expr c)) then Rmax 0 (row (c_expr c) x k) else best_slack r x (k - rows (c_expr c))
              else best_slack r x k
  end.

Lemma best_slack_nonneg cs x : forall k, 0 <= best_slack cs x k.
Proof.
  induction cs as [|c r IH]; intros k; cbn [best_slack]; [lra|].
  destruct (negb (is_eq c) && negb (is_hard c)); [|apply IH].
  destruct (Nat.ltb k (rows (c_expr c))); [apply Rmax_l|apply IH].
Qed.

Lemma Rmin_max r : r - Rmax 0 r = Rmin 0 r.
Proof. unfold Rmax, Rmin. destruct (Rle_dec 0 r); lra. Qed.

Lemma slack_cost_shift cs x s : forall k, slack_cost cs x s k = slack_cost cs x (fun i => s (k + i)%nat) 0.
Proof.
  revert s. induction cs as [|c r IH]; intros s k; cbn; [reflexivity|].
  destruct (c_prio c), (c_type c).
  - rewrite IH. reflexivity.
  - rewrite (IH s). rewrite (IH (fun i => s (k + i)%nat) (rows (c_expr c))).
    f_equal. f_equal.
    apply FunctionalExtensionality.functional_extensionality. intros i. f_equal. lia.
  - apply IH.
  - apply IH.
Qed.

Lemma slack_cost_ext cs x s s' : forall k, (forall i, (k <= i < k + soft_inequality_rows cs)%nat -> s i = s' i) ->
  slack_cost cs x s k = slack_cost cs x s' k.
Proof.
  induction cs as [|c r IH]; intros k H; cbn; [reflexivity|]. cbn in H.
  destruct (c_prio c), (c_type c); try (rewrite IH by (intros; apply H; cbn; lia); reflexivity).
  rewrite (IH (k + rows (c_expr c))%nat) by (intros; apply H; lia).
  f_equal. f_equal. apply Rsum_ext. intros i Hi. rewrite H by lia. reflexivity.
Qed.

Lemma best_slack_cost cs x : slack_cost cs x (best_slack cs x) 0 = soft_cost cs x.
Proof.
  induction cs as [|c r IH]; cbn [slack_cost soft_cost]; [reflexivity|].
  unfold soft_penalty. destruct (c_prio c) eqn:Ep, (c_type c) eqn:Et.
  - rewrite <- IH. f_equal. apply slack_cost_ext. intros i _. cbn [best_slack]. unfold is_eq, is_hard. rewrite Ep, Et. reflexivity.
  - rewrite <- IH. rewrite slack_cost_shift. f_equal.
    + f_equal. apply Rsum_ext. intros i Hi. cbn [best_slack]. unfold is_eq, is_hard. rewrite Ep, Et. cbn [negb andb].
      rewrite ltb_true by exact Hi. rewrite Rmin_max. reflexivity.
    + apply slack_cost_ext. intros i _. cbn [best_slack]. unfold is_eq, is_hard. rewrite Ep, Et. cbn [negb andb].
      rewrite ltb_false by lia. f_equal. lia.
  - rewrite <- IH, Rplus_0_l. apply slack_cost_ext. intros i _. cbn [best_slack]. unfold is_eq, is_hard. rewrite Ep, Et. reflexivity.
  - rewrite <- IH, Rplus_0_l. apply slack_cost_ext. intros i _. cbn [best_slack]. unfold is_eq, is_hard. rewrite Ep, Et. reflexivity.
Qed.

Lemma slack_cost_ge cs x s :
  (forall c, In c cs -> c_prio c = Soft -> c_type c = Inequality -> 0 <= c_weight c) ->
  forall k, (forall i, (i < soft_inequality_rows cs)%nat -> 0 <= s (k + i)%nat) ->
  soft_cost cs x <= slack_cost cs x s k.
Proof.
  intros Hw. induction cs as [|c r IH]; intros k Hs; cbn; [lra|]. cbn in Hs.
  assert (Hw' : forall c, In c r -> c_prio c = Soft -> c_type c = Inequality -> 0 <= c_weight c)
    by (intros; apply Hw; auto; now right).
  unfold soft_penalty. specialize (IH Hw').
  destruct (c_prio c) eqn:Ep, (c_type c) eqn:Et; cbn in Hs.
  - specialize (IH k Hs). lra.
  - specialize (IH (k + rows (c_expr c))%nat).
    assert (H1 : soft_cost r x <= slack_cost r x s (k + rows (c_expr c))).
    { apply IH. intros i Hi. replace (k + rows (c_expr c) + i)%nat with (k + (rows (c_expr c) + i))%nat by lia.
      apply Hs. lia. }
    assert (H2 : Rsum (rows (c_expr c)) (fun i => Rsqr (Rmin 0 (row (c_expr c) x i))) <=
                 Rsum (rows (c_expr c)) (fun i => Rsqr (row (c_expr c) x i - s (k + i)%nat))).
    { apply Rsum_le. intros i Hi. specialize (Hs i ltac:(lia)). unfold Rmin.
      destruct (Rle_dec 0 (row (c_expr c) x i)) as [Hr|Hr].
      - rewrite Rsqr_0. apply Rle_0_sqr.
      - apply Rnot_le_lt in Hr. unfold Rsqr. generalize dependent (row (c_expr c) x i). generalize dependent (s (k + i)%nat).
        intros u Hu v Hv. nra. }
    specialize (Hw c (or_introl eq_refl) Ep Et). nra.
  - specialize (IH k Hs). lra.
  - specialize (IH k Hs). lra.
Qed.

Lemma row_ext e n x x' i : (cols e <= n)%nat -> (forall j, (j < n)%nat -> x j = x' j) -> row e x i = row e x' i.
Proof.
  intros Hc H. unfold row. f_equal. apply Rsum_ext. intros j Hj. rewrite H by lia. reflexivity.
Qed.

Lemma holds_ext n c x x' : (cols (c_expr c) <= n)%nat -> (forall j, (j < n)%nat -> x j = x' j) -> holds c x -> holds c x'.
Proof.
  intros Hc H Hh i Hi. specialize (Hh i Hi). destruct (c_type c); rewrite (row_ext _ n x' x) by (auto; intros; symmetry; auto); exact Hh.
Qed.

Lemma slack_cost_x_ext n cs x x' s : Forall (ok_constraint n) cs -> (forall j, (j < n)%nat -> x j = x' j) ->
  forall k, slack_cost cs x s k = slack_cost cs x' s k.
Proof.
  intros HF H. induction HF as [|c r (Hc1 & Hc2 & Hc3) Hr IH]; intros k; cbn; [reflexivity|].
  destruct (c_prio c), (c_type c); rewrite IH; try reflexivity; f_equal; f_equal; apply Rsum_ext; intros i _;
    rewrite (row_ext _ n x x') by auto; reflexivity.
Qed.

Lemma soft_cost_x_ext n cs x x' : Forall (ok_constraint n) cs -> (forall j, (j < n)%nat -> x j = x' j) ->
  soft_cost cs x = soft_cost cs x'.
Proof.
  intros HF H. induction HF as [|c r (Hc1 & Hc2 & Hc3) Hr IH]; cbn; [reflexivity|]. rewrite IH. f_equal.
  unfold soft_penalty. destruct (c_prio c), (c_type c); try reflexivity; f_equal; apply Rsum_ext; intros i _;
    rewrite (row_ext _ n x x') by auto; reflexivity.
Qed.

Lemma hard_holds_ext n cs x x' : Forall (ok_constraint n) cs -> (forall j, (j < n)%nat -> x j = x' j) ->
  hard_holds cs x -> hard_holds cs x'.
Proof.
  intros HF H Hh c Hc Hp. rewrite Forall_forall in HF. destruct (HF c Hc) as (_ & _ & H3).
  apply (holds_ext n c x x' H3 H). now apply Hh.
Qed.

(** ** Optimality of the recomposed solution *)
Lemma optimum_spec pb qr qp a :
  qr_correct qr -> qp_correct qp -> p_sparse pb = false -> assemble pb qr = Ok a ->
  (forall c, In c (p_cons pb) -> c_prio c = Soft -> c_type c = Inequality -> 0 <= c_weight c) ->
  q_inf (qp (a_qp a)) = false ->
  let x := xz (p_n pb) (a_red a) (q_x (qp (a_qp a))) in
  hard_holds (p_cons pb) x /\
  forall x', hard_holds (p_cons pb) x' -> cost pb x <= cost pb x'.
Proof.
  intros Hqr Hqp Hsp Ha Hw Hinf. cbv zeta.
  destruct (assemble_spec pb qr a Hqr Hsp Ha) as (Hok & EF & Hfree & Hslack & Hlen & Hfeas & _ & (K & Hcost)).
  set (z := q_x (qp (a_qp a))) in *. destruct (Hqp (a_qp a) Hinf) as [Hz Hopt]. fold z in Hz, Hopt.
  set (n := p_n pb) in *. set (cs := p_cons pb) in *. set (rd := a_red a) in *.
  pose proof (proj1 (Hfeas z) Hz) as [Hh Hs]. split; [exact Hh|].
  intros x' Hx'. destruct (ef_onto _ _ EF x') as (f & Hf); [now apply hard_split in Hx'|].
  fold n rd in Hf.
  set (z' := fun j => if Nat.ltb j (a_free a) then f j else best_slack cs x' (j - a_free a)%nat).
  assert (Hxz : forall i, (i < n)%nat -> xz n rd z' i = x' i).
  { intros i Hi. rewrite <- Hf by exact Hi. unfold xz. pose proof (ef_det _ _ EF) as Hd. fold rd n in Hd.
    destruct (Nat.eqb (r_det rd) 0) eqn:E0.
    - apply Nat.eqb_eq in E0. unfold z'. rewrite ltb_true; [reflexivity|]. rewrite Hfree. lia.
    - apply Rsum_ext. intros j Hj. f_equal. destruct (Nat.ltb j (r_det rd)) eqn:Ej; [reflexivity|].
      apply Nat.ltb_ge in Ej. unfold z'. rewrite ltb_true; [reflexivity|]. rewrite Hfree. lia. }
  assert (Hz' : qp_feasible (a_qp a) z').
  { apply Hfeas. split.
    - apply (hard_holds_ext n cs x'); [exact Hok| |exact Hx']. intros; symmetry; now apply Hxz.
    - intros k Hk. unfold z'. rewrite ltb_false by lia. apply best_slack_nonneg. }
  specialize (Hopt z' Hz'). rewrite !Hcost in Hopt.
  destruct (ef_norm _ _ EF) as (K2 & HK2). fold n rd in HK2. rewrite <- Hfree in HK2.
  assert (E1 : slack_cost cs (xz n rd z') (fun k => z' (a_free a + k)%nat) 0 = soft_cost cs x').
  { rewrite (slack_cost_x_ext n cs _ x' _ Hok Hxz). rewrite <- best_slack_cost. apply slack_cost_ext.
    intros i _. unfold z'. rewrite ltb_false by lia. f_equal. lia. }
  assert (E2 : soft_cost cs (xz n rd z) <= slack_cost cs (xz n rd z) (fun k => z (a_free a + k)%nat) 0).
  { apply slack_cost_ge; [exact Hw|]. intros i Hi. cbn. apply Hs. lia. }
  pose proof (HK2 z) as N1. pose proof (HK2 z') as N2.
  rewrite (Rsum_ext n (fun j => Rsqr (xz n rd z' j)) (fun j => Rsqr (x' j))) in N2 by (intros j Hj; now rewrite Hxz).
  rewrite E1 in Hopt. unfold cost. fold n cs. rewrite N1, N2.
  set (a1 := Rsum (a_free a) (fun j => Rsqr (z j))) in *. set (a2 := Rsum (a_free a) (fun j => Rsqr (z' j))) in *.
  set (rg := p_reg pb) in *.
  apply Rle_trans with (slack_cost cs (xz n rd z) (fun k => z (a_free a + k)%nat) 0 + rg / 2 * a1 + rg / 2 * K2).
  - rewrite Rmult_plus_distr_l. lra.
  - rewrite Rmult_plus_distr_l. lra.
Qed.
