From Coq Require Import Reals List ZArith Bool Lia Lra Psatz FunctionalExtensionality.
From Verif Require Import Base Linalg Sparsity_model Sparsity_spec Sparsity_proofs Expression_model Expression_spec Expression_proofs
  Problem_model Problem_spec Problem_proofs.
Import ListNotations.
Open Scope R_scope.

(** ** Resetting is_active does not change the meaning of a problem *)

Definition reset (pb : problem) : problem := set_cons pb (map reset_active (p_cons pb)).

Lemma holds_reset c x : holds (reset_active c) x <-> holds c x.
Proof. reflexivity. Qed.

Lemma hard_holds_reset cs x : hard_holds (map reset_active cs) x <-> hard_holds cs x.
Proof.
  unfold hard_holds. split; intros H c Hc Hp.
  - apply (holds_reset c x). apply (H (reset_active c)); [|exact Hp]. exact (in_map reset_active cs c Hc).
  - apply in_map_iff in Hc. destruct Hc as (c' & <- & Hc'). apply holds_reset. now apply H.
Qed.

Lemma hard_equalities_reset cs x : hard_equalities_hold (map reset_active cs) x <-> hard_equalities_hold cs x.
Proof.
  unfold hard_equalities_hold. split; intros H c Hc Hp Ht.
  - apply (holds_reset c x). apply (H (reset_active c)); [|exact Hp|exact Ht]. exact (in_map reset_active cs c Hc).
  - apply in_map_iff in Hc. destruct Hc as (c' & <- & Hc'). apply holds_reset. now apply H.
Qed.

Lemma soft_cost_reset cs x : soft_cost (map reset_active cs) x = soft_cost cs x.
Proof. induction cs as [|c r IH]; cbn; [reflexivity|]. rewrite IH. reflexivity. Qed.

Lemma slack_cost_reset cs x s : forall k, slack_cost (map reset_active cs) x s k = slack_cost cs x s k.
Proof. induction cs as [|c r IH]; intros k; cbn; [reflexivity|]. rewrite !IH. destruct (c_prio c), (c_type c); reflexivity. Qed.

Lemma soft_rows_reset cs : soft_inequality_rows (map reset_active cs) = soft_inequality_rows cs.
Proof. induction cs as [|c r IH]; cbn; [reflexivity|]. rewrite IH. reflexivity. Qed.

Lemma hard_rows_reset cs : hard_inequality_rows (map reset_active cs) = hard_inequality_rows cs.
Proof. induction cs as [|c r IH]; cbn; [reflexivity|]. rewrite IH. reflexivity. Qed.

Lemma cost_reset pb x : cost (reset pb) x = cost pb x.
Proof. unfold cost. cbn. now rewrite soft_cost_reset. Qed.

(** ** Variables *)

Lemma tiles_app start vs n size v0 ver :
  tiles start vs n -> tiles start (vs ++ [MkVar n (n + size) v0 ver]) (n + size).
Proof.
  revert start. induction vs as [|v r IH]; intros start H; cbn in *.
  - subst n. repeat split; lia.
  - destruct H as (H1 & H2 & H3). repeat split; auto.
Qed.

Definition same_range (v v' : variable) : Prop := k_start v = k_start v' /\ k_end v = k_end v'.

Lemma tiles_same vs vs' : Forall2 same_range vs vs' -> forall start n, tiles start vs n -> tiles start vs' n.
Proof.
  induction 1 as [|v v' r r' [H1 H2] _ IH]; intros start n H; [exact H|]. cbn in *.
  destruct H as (A & B & C). rewrite <- H1, <- H2. auto.
Qed.

Lemma sizes_same vs vs' : Forall2 same_range vs vs' -> map var_size vs = map var_size vs'.
Proof.
  induction 1 as [|v v' r r' [H1 H2] _ IH]; [reflexivity|]. cbn. rewrite IH. unfold var_size. now rewrite H1, H2.
Qed.

(** What a successful update does to a variable. *)
Definition updated (x : vec) (v v' : variable) : Prop :=
  same_range v v' /\ v_version v' = S (v_version v) /\ vlen (v_value v') = var_size v /\
  forall i, (i < var_size v)%nat -> vat (v_value v') i = vat x (k_start v + i)%nat.

Lemma update_variables_ok x vs vs' : update_variables x vs = Ok vs' -> Forall2 (updated x) vs vs'.
Proof.
  revert vs'. induction vs as [|v r IH]; intros vs' H; cbn in H.
  - injection H as <-. constructor.
  - unfold update_variable, guard in H. destruct (Nat.leb (k_end v) (vlen x)); [|discriminate]. cbn [obind] in H.
    destruct (update_variables x r) as [r'| |]; try discriminate. cbn [obind] in H. injection H as <-.
    constructor; [|now apply IH]. repeat split; reflexivity.
Qed.

Lemma update_variables_no_throw x vs e : update_variables x vs <> Throw e.
Proof.
  induction vs as [|v r IH]; cbn; [discriminate|]. unfold update_variable, guard.
  destruct (Nat.leb (k_end v) (vlen x)); [|discriminate]. cbn [obind].
  destruct (update_variables x r); cbn [obind]; [discriminate|exact IH|discriminate].
Qed.

Lemma update_variables_total x vs : Forall (fun v => (k_end v <= vlen x)%nat) vs -> exists vs', update_variables x vs = Ok vs'.
Proof.
  induction 1 as [|v r Hv _ [r' IH]]; [exists []; reflexivity|]. cbn. unfold update_variable, guard.
  rewrite leb_true by exact Hv. cbn [obind]. rewrite IH. cbn. eauto.
Qed.

(** The shape of the result of solve. *)
Lemma solve_cases pb qr qp :
  (exists pb' e, solve pb qr qp = (pb', Throw e) /\ p_vars pb' = p_vars pb /\ p_n pb' = p_n pb) \/
  (exists pb', solve pb qr qp = (pb', UB)) \/
  (exists a pb' vs, assemble (reset pb) qr = Ok a /\ qp_sizes_ok (a_qp a) = true /\ solve pb qr qp = (pb', Ok tt) /\
     q_inf (qp (a_qp a)) = false /\
     p_x pb' = recompose (p_n pb) a (q_x (qp (a_qp a))) /\
     p_slacks pb' = Vec (a_slack a) (fun k => q_x (qp (a_qp a)) (a_free a + k)%nat) /\
     equality_violated a (p_x pb') = false /\ x_has_nan a (qp (a_qp a)) = false /\
     p_n pb' = p_n pb /\ p_vars pb' = vs /\ update_variables (p_x pb') (p_vars pb) = Ok vs /\
     p_cons pb' = report_soft (a_slack a) (a_free a) (qp (a_qp a)) (a_soft a)
                    (report_hard (a_hard a) (q_active (qp (a_qp a))) (map reset_active (p_cons pb)))).
Proof.
  unfold solve. fold (reset pb). destruct (assemble (reset pb) qr) as [a|e|] eqn:Ea.
  - destruct (qp_sizes_ok (a_qp a)) eqn:E0; [|right; left; eexists; reflexivity].
    unfold finish. destruct (q_inf (qp (a_qp a))) eqn:E1.
    { left. eexists _, _. split; [reflexivity|]. split; reflexivity. }
    destruct (equality_violated a (recompose (p_n (reset pb)) a (q_x (qp (a_qp a))))) eqn:E2.
    { left. eexists _, _. split; [reflexivity|]. split; reflexivity. }
    destruct (x_has_nan a (qp (a_qp a))) eqn:E3.
    { left. eexists _, _. split; [reflexivity|]. split; reflexivity. }
    cbn [p_vars set_slacks set_cons set_x reset].
    destruct (update_variables (recompose (p_n (reset pb)) a (q_x (qp (a_qp a)))) (p_vars pb)) as [vs|e|] eqn:E4.
    + right; right. exists a, (set_vars (set_slacks (set_cons (set_x (reset pb) (recompose (p_n (reset pb)) a (q_x (qp (a_qp a)))))
        (report_soft (a_slack a) (a_free a) (qp (a_qp a)) (a_soft a)
                    (report_hard (a_hard a) (q_active (qp (a_qp a))) (map reset_active (p_cons pb)))))
        (Vec (a_slack a) (fun k => q_x (qp (a_qp a)) (a_free a + k)%nat))) (p_n pb) vs), vs.
      repeat split; try reflexivity; try assumption.
    + exfalso. eapply update_variables_no_throw; exact E4.
    + right; left. eexists. reflexivity.
  - left. eexists _, _. split; [reflexivity|]. split; reflexivity.
  - right; left. eexists. reflexivity.
Qed.

Lemma updated_same x v v' : updated x v v' -> same_range v v'.
Proof. intros (H & _). exact H. Qed.

Lemma Forall2_impl {A B} (P Q : A -> B -> Prop) l l' : (forall a b, P a b -> Q a b) -> Forall2 P l l' -> Forall2 Q l l'.
Proof. intros H. induction 1; constructor; auto. Qed.

Lemma reachable_tiles pb sizes : reachable pb sizes ->
  tiles 0 (p_vars pb) (p_n pb) /\ map var_size (p_vars pb) = sizes.
Proof.
  induction 1 as [|pb sizes size _ [IH1 IH2]|pb sizes _ [IH1 IH2]|pb sizes c _ [IH1 IH2]|pb sizes e t pb' _ [IH1 IH2] Hl
                 |pb sizes _ [IH1 IH2]|pb sizes reg sp rw _ [IH1 IH2]|pb sizes qr qp _ [IH1 IH2] Hs].
  - split; reflexivity.
  - cbn. split; [now apply tiles_app|]. rewrite map_app, IH2. cbn. unfold var_size. cbn. do 3 f_equal. lia.
  - split; reflexivity.
  - split; assumption.
  - unfold add_limit in Hl. destruct (e_le_v _ _); try discriminate. cbn in Hl. injection Hl as <-. split; assumption.
  - split; assumption.
  - split; assumption.
  - destruct (solve_cases pb qr qp) as [(pb' & e & E & V & N)|[(pb' & E)|(a & pb' & vs & _ & _ & E & _ & _ & _ & _ & _ & N & V & U & _)]];
      rewrite E in *; cbn [fst snd] in *.
    + rewrite V, N. split; assumption.
    + congruence.
    + rewrite V, N. apply update_variables_ok in U. apply (Forall2_impl _ same_range) in U; [|apply updated_same].
      split; [eapply tiles_same; eauto|]. rewrite <- IH2. symmetry. now apply sizes_same.
Qed.

Lemma tiles_le vs : forall start n, tiles start vs n -> (start <= n)%nat /\ Forall (fun v => (k_start v <= k_end v <= n)%nat /\ (start <= k_start v)%nat) vs.
Proof.
  induction vs as [|v r IH]; intros start n H; cbn in H.
  - subst. split; [lia|constructor].
  - destruct H as (H1 & H2 & H3). apply IH in H3. destruct H3 as [H3 H4]. split; [lia|]. constructor; [lia|].
    eapply Forall_impl; [|exact H4]. cbn. intros a. lia.
Qed.

(** Two variables at different positions never share an unknown; every unknown belongs to one variable. *)
Lemma tiles_disjoint vs : forall start n i j v w, tiles start vs n -> (i < j)%nat ->
  nth_error vs i = Some v -> nth_error vs j = Some w -> (k_end v <= k_start w)%nat.
Proof.
  induction vs as [|u r IH]; intros start n i j v w H Hij Hi Hj; [destruct i; discriminate|].
  destruct H as (H1 & H2 & H3). destruct i as [|i], j as [|j]; try lia; cbn in Hi, Hj.
  - injection Hi as <-. apply tiles_le in H3. destruct H3 as [_ H3]. rewrite Forall_forall in H3.
    apply nth_error_In in Hj. specialize (H3 w Hj). lia.
  - eapply IH with (i := i) (j := j); eauto. lia.
Qed.

Lemma tiles_cover vs : forall start n k, tiles start vs n -> (start <= k < n)%nat ->
  exists v, In v vs /\ (k_start v <= k < k_end v)%nat.
Proof.
  induction vs as [|u r IH]; intros start n k H Hk; cbn in H; [lia|].
  destruct H as (H1 & H2 & H3). destruct (lt_dec k (k_end u)) as [Hl|Hl].
  - exists u. split; [now left|lia].
  - destruct (IH _ _ k H3 ltac:(lia)) as (v & Hv & Hk'). exists v. split; [now right|exact Hk'].
Qed.

(** ** add_limit *)

Lemma limit_expression_denotes e n m f : denotes e n m f ->
  denotes (limit_expression e) (n * 2) m (fun x i => if Nat.ltb i n then f x i else - f x (i - n)%nat).
Proof.
  intros D. apply denotes_elim in D. destruct D as (A & B & C & E). apply denotes_intro.
  - cbn. now rewrite A.
  - cbn. now rewrite B.
  - exact C.
  - intros x i Hi. unfold ev, limit_expression. cbn [eA eb mcols mat_at vat]. unfold cols at 1. cbn [eA mcols].
    rewrite A, B. destruct (Nat.ltb i n) eqn:Ei.
    + apply Nat.ltb_lt in Ei. rewrite <- E by exact Ei. reflexivity.
    + apply Nat.ltb_ge in Ei. rewrite <- E by lia. unfold ev.
      rewrite (Rsum_ext _ _ (fun j => - (mat_at (eA e) (i - n) j * x j))) by (intros; ring). rewrite Rsum_opp. ring.
Qed.

Lemma add_limit_spec pb e n m f t : denotes e n m f -> vlen t = n ->
  exists c, add_limit pb e t = Ok (add_constraint pb c) /\ c_type c = Inequality /\ c_prio c = Hard /\ c_weight c = 1 /\
    rows (c_expr c) = (n * 2)%nat /\ cols (c_expr c) = m /\
    forall x : vec, (m <= vlen x)%nat -> (satisfied c x <-> forall i, (i < n)%nat -> Rabs (f (vat x) i) <= vat t i).
Proof.
  intros D Ht. pose proof (limit_expression_denotes e n m f D) as DL.
  assert (HL : vlen (limit_targets t) = (n * 2)%nat) by (cbn; now rewrite Ht).
  destruct (cmp_e_v (limit_expression e) (limit_targets t) _ _ _ DL HL) as (_ & H & _).
  destruct H as (c & Hc & H1 & H2 & H3 & _ & H4 & H5 & H6).
  exists c. unfold add_limit. rewrite Hc. cbn [obind]. repeat split; try assumption.
  - intros Hs i Hi. pose proof (proj1 (H6 x H) Hs) as Hs'.
    pose proof (Hs' i ltac:(lia)) as S1. pose proof (Hs' (n + i)%nat ltac:(lia)) as S2.
    cbn [limit_targets vat] in S1, S2. rewrite Ht in S1, S2. rewrite !(ltb_true i n) in S1 by exact Hi.
    rewrite !(ltb_false (n + i) n) in S2 by lia. replace (n + i - n)%nat with i in S2 by lia.
    apply Rabs_le. lra.
  - intros Hs. apply H6; [assumption|]. intros i Hi. cbn [limit_targets vat]. rewrite Ht.
    destruct (Nat.ltb i n) eqn:Ei.
    + apply Nat.ltb_lt in Ei. specialize (Hs i Ei). apply Rabs_le_inv in Hs || idtac.
      unfold Rabs in Hs. destruct (Rcase_abs (f (vat x) i)); lra.
    + apply Nat.ltb_ge in Ei. specialize (Hs (i - n)%nat ltac:(lia)).
      unfold Rabs in Hs. destruct (Rcase_abs (f (vat x) (i - n)%nat)); lra.
Qed.

Lemma add_limit_mismatch pb e n m f t : denotes e n m f -> vlen t <> n -> add_limit pb e t = Throw ERuntime.
Proof.
  intros D Ht. pose proof (limit_expression_denotes e n m f D) as DL. apply denotes_elim in DL. destruct DL as (A & B & C & _).
  unfold add_limit, e_le_v.
  destruct (cmp_throws (limit_expression e) (from_vector (limit_targets t))) as (_ & H & _).
  - unfold wf. lia.
  - reflexivity.
  - unfold scalar_constant. rewrite A, C. cbn. lia.
  - rewrite H. reflexivity.
Qed.

(** ** Active sets *)

Lemma activate_nth cs : forall idx i c, nth_error (activate cs idx) i = Some c ->
  exists c0, nth_error cs i = Some c0 /\ c_expr c = c_expr c0 /\ c_type c = c_type c0 /\ c_prio c = c_prio c0 /\
    c_weight c = c_weight c0 /\ c_active c = (if Nat.eqb i idx then true else c_active c0).
Proof.
  induction cs as [|c0 r IH]; intros idx i c H; [destruct i, idx; discriminate|].
  destruct idx as [|idx], i as [|i]; cbn in H.
  - injection H as <-. exists c0. repeat split.
  - exists c. repeat split; auto.
  - injection H as <-. exists c0. repeat split.
  - apply IH in H. exact H.
Qed.

(** [same_meaning c c0 b]: [c] is [c0] with its flag set to [b]. *)
Definition flagged (c c0 : pconstraint) (b : bool) : Prop :=
  c_expr c = c_expr c0 /\ c_type c = c_type c0 /\ c_prio c = c_prio c0 /\ c_weight c = c_weight c0 /\ c_active c = b.

Definition hits (hard : nat -> option nat) (active : list Z) (i : nat) : bool :=
  existsb (fun k => (0 <=? k)%Z && match hard (Z.to_nat k) with Some idx => Nat.eqb i idx | None => false end) active.

Lemma report_hard_nth hard active : forall cs i c, nth_error (report_hard hard active cs) i = Some c ->
  exists c0, nth_error cs i = Some c0 /\ flagged c c0 (hits hard active i || c_active c0).
Proof.
  induction active as [|k r IH]; intros cs i c H; cbn [report_hard fold_left hits existsb] in *.
  - exists c. repeat split; auto.
  - unfold report_hard in IH. apply IH in H. destruct H as (c1 & H1 & F). fold (hits hard r i) in *.
    destruct (0 <=? k)%Z; cbn [andb]; [|exists c1; split; [exact H1|exact F]].
    destruct (hard (Z.to_nat k)) as [idx|]; [|exists c1; split; [exact H1|exact F]].
    apply activate_nth in H1. destruct H1 as (c0 & H0 & A1 & A2 & A3 & A4 & A5).
    exists c0. split; [exact H0|]. destruct F as (F1 & F2 & F3 & F4 & F5). repeat split; try congruence.
    rewrite F5, A5. destruct (Nat.eqb i idx), (hits hard r i), (c_active c0); reflexivity.
Qed.

Definition soft_hit (free : nat) (r : qp_result) (soft : nat -> option nat) (i k : nat) : bool :=
  (if Rle_dec (q_x r (free + k)%nat) (1 / 1000000) then true else false) && negb (q_nan r (free + k)%nat)
  && match soft k with Some idx => Nat.eqb i idx | None => false end.

Lemma report_soft_nth n free r soft : forall cs i c, nth_error (report_soft n free r soft cs) i = Some c ->
  exists c0, nth_error cs i = Some c0 /\ flagged c c0 (exists_below n (soft_hit free r soft i) || c_active c0).
Proof.
  induction n as [|n IH]; intros cs i c H; cbn [report_soft exists_below] in *.
  - exists c. repeat split; auto.
  - unfold soft_hit at 1.
    destruct ((if Rle_dec (q_x r (free + n)%nat) (1 / 1000000) then true else false) && negb (q_nan r (free + n)%nat)); cbn [andb orb].
    2:{ apply IH in H. exact H. }
    destruct (soft n) as [idx|]; [|apply IH in H; exact H].
    apply activate_nth in H. destruct H as (c1 & H1 & A1 & A2 & A3 & A4 & A5).
    apply IH in H1. destruct H1 as (c0 & H0 & F1 & F2 & F3 & F4 & F5). exists c0. split; [exact H0|].
    repeat split; try congruence. rewrite A5, F5.
    destruct (Nat.eqb i idx), (exists_below n (soft_hit free r soft i)), (c_active c0); reflexivity.
Qed.

Lemma exists_below_iff n f : exists_below n f = true <-> exists k, (k < n)%nat /\ f k = true.
Proof.
  induction n as [|n IH]; cbn; [split; [discriminate|intros (k & H & _); lia]|].
  rewrite orb_true_iff, IH. split.
  - intros [H|(k & H & E)]; [exists n; auto|exists k; split; [lia|exact E]].
  - intros (k & H & E). destruct (Nat.eq_dec k n) as [->|]; [now left|right; exists k; split; [lia|exact E]].
Qed.

(** The maps built by the inequality loop. *)
Lemma constraint_expressions_rows n rd e : mrows (fst (constraint_expressions n rd e)) = rows e.
Proof. unfold constraint_expressions. destruct (Nat.eqb _ 0); reflexivity. Qed.

Lemma soft_rows_cons c r :
  soft_inequality_rows (c :: r) = ((if negb (is_eq c) && negb (is_hard c) then rows (c_expr c) else 0) + soft_inequality_rows r)%nat.
Proof. cbn. unfold is_eq, is_hard. destruct (c_prio c), (c_type c); reflexivity. Qed.

Lemma loop_maps n N free rd cs : forall idx s,
  (forall k, (s_kin s <= k)%nat -> s_hard s k = None) -> (forall k, (s_ksl s <= k)%nat -> s_soft s k = None) ->
  let s' := inequality_loop n N free rd cs idx s in
  (forall k j, s_hard s' k = Some j <->
     (s_hard s k = Some j \/
      exists i c, nth_error cs i = Some c /\ j = (idx + i)%nat /\ c_prio c = Hard /\ c_type c = Inequality /\
        (s_kin s + hard_inequality_rows (firstn i cs) <= k < s_kin s + hard_inequality_rows (firstn i cs) + rows (c_expr c))%nat)) /\
  (forall k j, s_soft s' k = Some j <->
     (s_soft s k = Some j \/
      exists i c, nth_error cs i = Some c /\ j = (idx + i)%nat /\ c_prio c = Soft /\ c_type c = Inequality /\
        (s_ksl s + soft_inequality_rows (firstn i cs) <= k < s_ksl s + soft_inequality_rows (firstn i cs) + rows (c_expr c))%nat)).
Proof.
  induction cs as [|c r IH]; intros idx s Hh Hs; cbn [inequality_loop]; cbv zeta.
  - split; intros k j; (split; [now left|]); intros [H|(i & c & H & _)]; try exact H; destruct i; discriminate.
  - (* position 0 or later *)
    assert (Hpos : forall (P : nat -> pconstraint -> Prop),
      (exists i c0, nth_error (c :: r) i = Some c0 /\ P i c0) <-> (P O c \/ exists i c0, nth_error r i = Some c0 /\ P (S i) c0)).
    { intros P. split.
      - intros ([|i] & c0 & Hn & HP); [left; cbn in Hn; injection Hn as <-; exact HP|right; exists i, c0; auto].
      - intros [HP|(i & c0 & Hn & HP)]; [exists O, c; auto|exists (S i), c0; auto]. }
    destruct (is_eq c) eqn:Et.
    + specialize (IH (S idx) s Hh Hs). cbv zeta in IH. destruct IH as [I1 I2]. apply is_eq_iff in Et. split; intros k j.
      * rewrite I1. rewrite (Hpos (fun i c0 => j = (idx + i)%nat /\ c_prio c0 = Hard /\ c_type c0 = Inequality /\ _)).
        apply or_iff_compat_l. split.
        -- intros (i & c0 & Hn & -> & Hp & Ht & Hk). right. exists i, c0. cbn [firstn hard_inequality_rows]. rewrite Et.
           repeat split; auto; try lia; destruct (c_prio c); lia.
        -- intros [(_ & _ & Ht & _)|(i & c0 & Hn & -> & Hp & Ht & Hk)]; [congruence|].
           exists i, c0. cbn [firstn hard_inequality_rows] in Hk. rewrite Et in Hk.
           repeat split; auto; try lia; destruct (c_prio c); lia.
      * rewrite I2. rewrite (Hpos (fun i c0 => j = (idx + i)%nat /\ c_prio c0 = Soft /\ c_type c0 = Inequality /\ _)).
        apply or_iff_compat_l. split.
        -- intros (i & c0 & Hn & -> & Hp & Ht & Hk). right. exists i, c0. cbn [firstn soft_inequality_rows]. rewrite Et.
           repeat split; auto; try lia; destruct (c_prio c); lia.
        -- intros [(_ & _ & Ht & _)|(i & c0 & Hn & -> & Hp & Ht & Hk)]; [congruence|].
           exists i, c0. cbn [firstn soft_inequality_rows] in Hk. rewrite Et in Hk.
           repeat split; auto; try lia; destruct (c_prio c); lia.
    + assert (Ht : c_type c = Inequality) by (destruct (c_type c) eqn:E; [apply is_eq_iff in E; congruence|reflexivity]).
      pose proof (constraint_expressions_rows n rd (c_expr c)) as HA.
      destruct (constraint_expressions n rd (c_expr c)) as [A b]. cbn [fst] in HA.
      destruct (is_hard c) eqn:Eh.
      * apply is_hard_iff in Eh. set (s1 := IneqState _ _ _ _ _ _ _ _).
        specialize (IH (S idx) s1). cbv zeta in IH.
        assert (P1 : forall k, (s_kin s1 <= k)%nat -> s_hard s1 k = None).
        { intros k Hk. cbn [s1 s_kin s_hard] in *. rewrite (ltb_false k) by lia. rewrite andb_false_r. apply Hh. lia. }
        destruct (IH P1 Hs) as [I1 I2]. split; intros k j.
        -- rewrite I1. rewrite (Hpos (fun i c0 => j = (idx + i)%nat /\ c_prio c0 = Hard /\ c_type c0 = Inequality /\ _)).
           cbn [s1 s_kin s_hard firstn hard_inequality_rows]. rewrite HA, Eh, Ht.
           destruct (Nat.leb (s_kin s) k && Nat.ltb k (s_kin s + rows (c_expr c))) eqn:Ek.
           ++ apply andb_true_iff in Ek. rewrite Nat.leb_le, Nat.ltb_lt in Ek. rewrite (Hh k) by lia. split.
              ** intros [H|(i & c0 & Hn & -> & Hp & Ht' & Hk)]; [injection H as <-; right; left; repeat split; lia|lia].
              ** intros [H|[(-> & _)|(i & c0 & Hn & -> & Hp & Ht' & Hk)]]; [discriminate|left; f_equal; lia|lia].
           ++ apply andb_false_iff in Ek. rewrite Nat.leb_gt, Nat.ltb_ge in Ek. apply or_iff_compat_l. split.
              ** intros (i & c0 & Hn & -> & Hp & Ht' & Hk). right. exists i, c0. repeat split; auto; lia.
              ** intros [(_ & _ & _ & Hk)|(i & c0 & Hn & -> & Hp & Ht' & Hk)]; [lia|]. exists i, c0. repeat split; auto; lia.
        -- rewrite I2. rewrite (Hpos (fun i c0 => j = (idx + i)%nat /\ c_prio c0 = Soft /\ c_type c0 = Inequality /\ _)).
           cbn [s1 s_ksl s_soft firstn soft_inequality_rows]. rewrite Eh. apply or_iff_compat_l. split.
           ++ intros (i & c0 & Hn & -> & Hp & Ht' & Hk). right. exists i, c0. repeat split; auto; lia.
           ++ intros [(_ & Hp & _)|(i & c0 & Hn & -> & Hp & Ht' & Hk)]; [congruence|]. exists i, c0. repeat split; auto; lia.
      * assert (Ep : c_prio c = Soft) by (destruct (c_prio c) eqn:E; [reflexivity|apply is_hard_iff in E; congruence]).
        set (s1 := IneqState _ _ _ _ _ _ _ _).
        specialize (IH (S idx) s1). cbv zeta in IH.
        assert (P1 : forall k, (s_ksl s1 <= k)%nat -> s_soft s1 k = None).
        { intros k Hk. cbn [s1 s_ksl s_soft] in *. rewrite (ltb_false k) by lia. rewrite andb_false_r. apply Hs. lia. }
        destruct (IH Hh P1) as [I1 I2]. split; intros k j.
        -- rewrite I1. rewrite (Hpos (fun i c0 => j = (idx + i)%nat /\ c_prio c0 = Hard /\ c_type c0 = Inequality /\ _)).
           cbn [s1 s_kin s_hard firstn hard_inequality_rows]. rewrite Ep. apply or_iff_compat_l. split.
           ++ intros (i & c0 & Hn & -> & Hp & Ht' & Hk). right. exists i, c0. repeat split; auto; lia.
           ++ intros [(_ & Hp & _)|(i & c0 & Hn & -> & Hp & Ht' & Hk)]; [congruence|]. exists i, c0. repeat split; auto; lia.
        -- rewrite I2. rewrite (Hpos (fun i c0 => j = (idx + i)%nat /\ c_prio c0 = Soft /\ c_type c0 = Inequality /\ _)).
           cbn [s1 s_ksl s_soft firstn soft_inequality_rows]. rewrite HA, Ep, Ht.
           destruct (Nat.leb (s_ksl s) k && Nat.ltb k (s_ksl s + rows (c_expr c))) eqn:Ek.
           ++ apply andb_true_iff in Ek. rewrite Nat.leb_le, Nat.ltb_lt in Ek. rewrite (Hs k) by lia. split.
              ** intros [H|(i & c0 & Hn & -> & Hp & Ht' & Hk)]; [injection H as <-; right; left; repeat split; lia|lia].
              ** intros [H|[(-> & _)|(i & c0 & Hn & -> & Hp & Ht' & Hk)]]; [discriminate|left; f_equal; lia|lia].
           ++ apply andb_false_iff in Ek. rewrite Nat.leb_gt, Nat.ltb_ge in Ek. apply or_iff_compat_l. split.
              ** intros (i & c0 & Hn & -> & Hp & Ht' & Hk). right. exists i, c0. repeat split; auto; lia.
              ** intros [(_ & _ & _ & Hk)|(i & c0 & Hn & -> & Hp & Ht' & Hk)]; [lia|]. exists i, c0. repeat split; auto; lia.
Qed.

Lemma assemble_maps pb qr a : assemble pb qr = Ok a ->
  a_slack a = soft_inequality_rows (p_cons pb) /\
  (forall k j, a_hard a k = Some j <->
      exists c, nth_error (p_cons pb) j = Some c /\ c_prio c = Hard /\ c_type c = Inequality /\
        (soft_inequality_rows (p_cons pb) + hard_inequality_rows (firstn j (p_cons pb)) <= k <
         soft_inequality_rows (p_cons pb) + hard_inequality_rows (firstn j (p_cons pb)) + rows (c_expr c))%nat) /\
  (forall k j, a_soft a k = Some j <->
      exists c, nth_error (p_cons pb) j = Some c /\ c_prio c = Soft /\ c_type c = Inequality /\
        (soft_inequality_rows (firstn j (p_cons pb)) <= k < soft_inequality_rows (firstn j (p_cons pb)) + rows (c_expr c))%nat).
Proof.
  intros H. unfold assemble in H.
  destruct (stack_equalities _ _ _ _ _) as [[A b]| |]; try discriminate. cbn [obind fst snd] in H.
  destruct (eliminate _ _ _ _ _) as [rd| |]; try discriminate. cbn [obind] in H.
  destruct (objective_loop _ _ _ _ _ _) as [[P q]| |]; try discriminate. cbn [obind fst snd] in H.
  injection H as <-. cbn [a_slack a_hard a_soft].
  split; [apply slack_count_spec|].
  match goal with |- context [inequality_loop ?n ?N ?f ?rd ?cs ?i ?s] => destruct (loop_maps n N f rd cs i s) as [L1 L2] end;
    try reflexivity.
  split; intros k j; [rewrite L1|rewrite L2]; cbn [s_hard s_soft s_kin s_ksl]; rewrite ?slack_count_spec; split.
  - intros [H|(i & c & Hn & -> & Hr)]; [discriminate|]. exists c. auto.
  - intros (c & Hn & Hr). right. exists j, c. auto.
  - intros [H|(i & c & Hn & -> & Hr)]; [discriminate|]. exists c. auto.
  - intros (c & Hn & Hr). right. exists j, c. auto.
Qed.

(** ** Sparsity *)

Lemma canonical_from_ge s : forall lo i, canonical_from lo s -> covers s i -> (lo <= i)%Z.
Proof.
  induction s as [|b r IH]; intros lo i H C; [now apply covers_nil in C|]. destruct H as (H1 & H2 & H3).
  apply covers_cons in C. destruct C as [C|C]; [lia|]. specialize (IH _ _ H3 C). lia.
Qed.

Lemma contiguous_pattern M lo hi : (hi <= mcols M)%nat ->
  (forall i j, (i < mrows M)%nat -> (j < mcols M)%nat -> ~ (lo <= j < hi)%nat -> mat_at M i j = 0) ->
  (forall j, (lo <= j < hi)%nat -> exists i, (i < mrows M)%nat /\ Rabs (mat_at M i j) > 1 / 1000000000000) ->
  (detect_columns_sparsity M = [] /\ (hi <= lo)%nat) \/
  (detect_columns_sparsity M = [Interval (Z.of_nat lo) (Z.of_nat hi - 1)%Z] /\ (lo < hi)%nat).
Proof.
  intros Hhi Hz Hnz. destruct (detect_spec M) as (Hc & Hs & Hcov).
  assert (Hiff : forall i, covers (detect_columns_sparsity M) i <-> (Z.of_nat lo <= i < Z.of_nat hi)%Z).
  { intros i. rewrite Hcov. split.
    - intros (j & -> & Hj & (k & Hk & Hr)). destruct (Nat.le_gt_cases lo j), (Nat.lt_ge_cases j hi); try lia;
        rewrite Hz in Hr by lia; rewrite Rabs_R0 in Hr; lra.
    - intros Hi. exists (Z.to_nat i). split; [lia|]. split; [lia|]. apply Hnz. lia. }
  clear Hcov. destruct (detect_columns_sparsity M) as [|a r].
  { left. split; [reflexivity|]. destruct (Nat.le_gt_cases hi lo) as [H|H]; [exact H|]. exfalso. apply (covers_nil (Z.of_nat lo)).
    apply Hiff. lia. }
  right. cbn in Hc. destruct Hc as (_ & Ha & Hr).
  assert (Hlo : i_start a = Z.of_nat lo).
  { apply Z.le_antisymm.
    - assert (C : covers (a :: r) (Z.of_nat lo)).
      { apply Hiff. assert (H0 : covers (a :: r) (i_start a)) by (apply covers_cons; left; lia). apply Hiff in H0. lia. }
      apply covers_cons in C. destruct C as [C|C]; [lia|].
      pose proof (canonical_from_ge _ _ _ Hr C). lia.
    - apply Hiff. apply covers_cons. left. lia. }
  assert (Hlt : (lo < hi)%nat).
  { assert (C : covers (a :: r) (i_start a)) by (apply covers_cons; left; lia). apply Hiff in C. lia. }
  split; [|exact Hlt].
  destruct r as [|b r].
  - assert (Hend : i_end a = (Z.of_nat hi - 1)%Z).
    { assert (C : covers [a] (i_end a)) by (apply covers_cons; left; lia). apply Hiff in C.
      assert (C' : covers [a] (Z.of_nat hi - 1)) by (apply Hiff; lia). apply covers_cons in C'.
      destruct C' as [C'|C']; [lia|now apply covers_nil in C']. }
    destruct a as [s e]. cbn in *. now subst.
  - exfalso. cbn in Hs. destruct Hs as [Hs _]. destruct Hr as (_ & Hb & Hr).
    assert (C : covers (a :: b :: r) (i_start b)) by (rewrite !covers_cons; right; left; lia). apply Hiff in C.
    assert (C1 : covers (a :: b :: r) (i_end a)) by (rewrite !covers_cons; left; lia). apply Hiff in C1.
    assert (C2 : covers (a :: b :: r) (i_end a + 1)) by (apply Hiff; lia).
    rewrite !covers_cons in C2. destruct C2 as [C2|[C2|C2]]; [lia|lia|].
    pose proof (canonical_from_ge _ _ _ Hr C2). lia.
Qed.

Lemma add_gram_sparse_contiguous w M P : contiguous M -> add_gram_sparse w M P = add_gram w M P.
Proof.
  intros (lo & hi & Hhi & Hz & Hnz). unfold add_gram_sparse, add_gram.
  apply functional_extensionality. intros i. apply functional_extensionality. intros j.
  assert (Hzero : forall a b, (a < mcols M)%nat -> ~ (lo <= a < hi)%nat -> Rsum (mrows M) (fun k => mat_at M k a * mat_at M k b) = 0).
  { intros a b Ha Hn. apply Rsum_zero_ext. intros k Hk. rewrite Hz by assumption. ring. }
  destruct (contiguous_pattern M lo hi Hhi Hz Hnz) as [[E Hlh]|[E Hlh]]; rewrite E; cbn [fold_left].
  - destruct (Nat.ltb i (mcols M) && Nat.ltb j (mcols M)) eqn:Eij; [|reflexivity].
    apply andb_true_iff in Eij. rewrite !Nat.ltb_lt in Eij. rewrite Hzero by lia. ring.
  - destruct (contains _ (Z.of_nat i) && contains _ (Z.of_nat j)) eqn:Ec.
    + apply andb_true_iff in Ec. rewrite !contains_true in Ec. cbn in Ec. rewrite !ltb_true by lia. reflexivity.
    + destruct (Nat.ltb i (mcols M) && Nat.ltb j (mcols M)) eqn:Eij; [|reflexivity].
      apply andb_true_iff in Eij. rewrite !Nat.ltb_lt in Eij.
      apply andb_false_iff in Ec. rewrite !contains_false in Ec. cbn in Ec.
      destruct Ec as [Ec|Ec].
      * rewrite Hzero by lia. ring.
      * rewrite (Rsum_ext _ _ (fun k => mat_at M k j * mat_at M k i)) by (intros; ring). rewrite Hzero by lia. ring.
Qed.

Lemma objective_loop_sparse n rd cs : r_det rd = 0%nat ->
  (forall c, In c cs -> c_prio c = Soft -> c_type c = Equality -> contiguous (eA (c_expr c))) ->
  forall P q, objective_loop true n rd cs P q = objective_loop false n rd cs P q.
Proof.
  intros Hd. induction cs as [|c r IH]; intros Hc P q; [reflexivity|]. cbn [objective_loop].
  destruct (Nat.ltb n (cols (c_expr c))); [reflexivity|].
  destruct (Nat.eqb (rows (c_expr c)) 0 || Nat.eqb (vlen (eb (c_expr c))) 0); [reflexivity|].
  destruct (negb (Nat.eqb (rows (c_expr c)) (vlen (eb (c_expr c))))); [reflexivity|].
  destruct (is_eq c && negb (is_hard c)) eqn:E.
  - unfold constraint_expressions. rewrite Hd. cbn [Nat.eqb].
    rewrite add_gram_sparse_contiguous.
    + apply IH. intros; apply Hc; auto. now right.
    + apply Hc; [now left| |]; unfold is_eq, is_hard in E; destruct (c_prio c), (c_type c); cbn in E; congruence.
  - apply IH. intros; apply Hc; auto. now right.
Qed.

Definition with_sparsity (pb : problem) (b : bool) : problem :=
  Problem (p_n pb) (p_vars pb) (p_cons pb) (p_reg pb) b (p_rewrite pb) (p_x pb) (p_slacks pb).

Lemma eliminate_det rewrite n A b qr rd : (rewrite = false \/ mrows A = 0%nat) -> eliminate rewrite n A b qr = Ok rd -> r_det rd = 0%nat.
Proof.
  unfold eliminate. intros [->|H]; cbn; [intros E; injection E as <-; reflexivity|].
  rewrite H. cbn. rewrite andb_false_r. intros E; injection E as <-; reflexivity.
Qed.

Lemma equality_count_zero cs : (forall c, In c cs -> c_prio c = Hard -> c_type c <> Equality) -> equality_count cs = 0%nat.
Proof.
  induction cs as [|c r IH]; intros H; [reflexivity|]. cbn. rewrite IH by (intros; apply H; auto; now right).
  destruct (is_eq c && is_hard c) eqn:E; [|reflexivity]. apply andb_true_iff in E. destruct E as [E1 E2].
  exfalso. apply (H c); [now left|now apply is_hard_iff|now apply is_eq_iff].
Qed.

Lemma assemble_sparse pb qr :
  (p_rewrite pb = false \/ forall c, In c (p_cons pb) -> c_prio c = Hard -> c_type c <> Equality) ->
  (forall c, In c (p_cons pb) -> c_prio c = Soft -> c_type c = Equality -> contiguous (eA (c_expr c))) ->
  assemble (with_sparsity pb true) qr = assemble (with_sparsity pb false) qr.
Proof.
  intros Hr Hc. unfold assemble. cbn [with_sparsity p_n p_cons p_rewrite p_sparse p_reg].
  destruct (stack_equalities _ _ _ _ _) as [[A b]| |]; [|reflexivity|reflexivity]. cbn [obind fst snd].
  destruct (eliminate _ _ _ _ _) as [rd| |] eqn:Ee; [|reflexivity|reflexivity]. cbn [obind].
  apply eliminate_det in Ee; [|destruct Hr as [Hr|Hr]; [now left|right; cbn; now apply equality_count_zero]].
  rewrite objective_loop_sparse by assumption. reflexivity.
Qed.

(** ** Ill-formed constraints *)

(** One constraint passes the checks of the objective loop. *)
Definition well_shaped (n : nat) (c : pconstraint) : Prop :=
  (0 < rows (c_expr c))%nat /\ vlen (eb (c_expr c)) = rows (c_expr c) /\ (cols (c_expr c) <= n)%nat.

Lemma objective_loop_cases sp n rd cs : forall P q,
  (Forall (well_shaped n) cs /\ exists r, objective_loop sp n rd cs P q = Ok r) \/
  (~ Forall (well_shaped n) cs /\ objective_loop sp n rd cs P q = Throw EQP).
Proof.
  induction cs as [|c r IH]; intros P q; [left; split; [constructor|eexists; reflexivity]|]. cbn [objective_loop].
  destruct (Nat.ltb n (cols (c_expr c))) eqn:E1.
  { right. split; [|reflexivity]. intros H. inversion H as [|? ? (_ & _ & H1) _]; subst. apply Nat.ltb_lt in E1. lia. }
  destruct (Nat.eqb (rows (c_expr c)) 0 || Nat.eqb (vlen (eb (c_expr c))) 0) eqn:E2.
  { right. split; [|reflexivity]. intros H. inversion H as [|? ? (H1 & H2 & _) _]; subst.
    apply orb_true_iff in E2. rewrite !Nat.eqb_eq in E2. lia. }
  destruct (negb (Nat.eqb (rows (c_expr c)) (vlen (eb (c_expr c))))) eqn:E3.
  { right. split; [|reflexivity]. intros H. inversion H as [|? ? (_ & H1 & _) _]; subst.
    apply negb_true_iff, Nat.eqb_neq in E3. lia. }
  apply Nat.ltb_ge in E1. apply orb_false_iff in E2. rewrite !Nat.eqb_neq in E2. apply negb_false_iff, Nat.eqb_eq in E3.
  assert (W : well_shaped n c) by (unfold well_shaped; lia).
  assert (G : forall P q, (Forall (well_shaped n) (c :: r) /\ exists x, objective_loop sp n rd r P q = Ok x) \/
     (~ Forall (well_shaped n) (c :: r) /\ objective_loop sp n rd r P q = Throw EQP)).
  { intros P' q'. destruct (IH P' q') as [[H1 H2]|[H1 H2]].
    - left. split; [now constructor|exact H2].
    - right. split; [|exact H2]. intros H. inversion H; subst. contradiction. }
  destruct (is_eq c && negb (is_hard c)); [|apply G].
  destruct (constraint_expressions n rd (c_expr c)). apply G.
Qed.

Definition stackable (n : nat) (c : pconstraint) : Prop :=
  c_prio c = Hard -> c_type c = Equality -> (cols (c_expr c) <= n)%nat /\ vlen (eb (c_expr c)) = rows (c_expr c).

Lemma stack_total cs n : Forall (stackable n) cs -> forall k A b, exists r, stack_equalities cs n k A b = Ok r.
Proof.
  induction 1 as [|c r Hc _ IH]; intros k A b; [eexists; reflexivity|]. cbn [stack_equalities].
  destruct (is_eq c && is_hard c) eqn:E; [|apply IH].
  apply andb_true_iff in E. destruct E as [E1 E2]. apply is_eq_iff in E1. apply is_hard_iff in E2.
  destruct (Hc E2 E1) as [H1 H2]. unfold guard. rewrite leb_true by exact H1. rewrite H2, Nat.eqb_refl. cbn [andb]. apply IH.
Qed.

Lemma stack_not cs n : ~ Forall (stackable n) cs -> forall k A b, stack_equalities cs n k A b = UB.
Proof.
  induction cs as [|c r IH]; intros H k A b; [exfalso; apply H; constructor|]. cbn [stack_equalities].
  destruct (is_eq c && is_hard c) eqn:E.
  - unfold guard. destruct (Nat.leb (cols (c_expr c)) n && Nat.eqb (vlen (eb (c_expr c))) (rows (c_expr c))) eqn:E2; [|reflexivity].
    apply andb_true_iff in E2. rewrite Nat.leb_le, Nat.eqb_eq in E2. apply IH. intros HF. apply H. constructor; [|exact HF].
    intros _ _. exact E2.
  - apply IH. intros HF. apply H. constructor; [|exact HF]. intros H1 H2.
    apply is_hard_iff in H1. apply is_eq_iff in H2. rewrite H1, H2 in E. discriminate.
Qed.

Lemma assemble_ill_formed pb qr : Forall (stackable (p_n pb)) (p_cons pb) -> ~ Forall (well_shaped (p_n pb)) (p_cons pb) ->
  assemble pb qr = Throw EQP.
Proof.
  intros Hs Hw. unfold assemble. destruct (stack_total _ _ Hs 0%nat (fun _ _ => 0) (fun _ => 0)) as ([A b] & ->). cbn [obind fst snd].
  unfold eliminate at 1. destruct (p_rewrite pb && _); cbn [obind].
  - destruct (negb _); cbn [obind]; [reflexivity|].
    match goal with |- context [objective_loop ?s ?n ?rd ?cs ?P ?q] => destruct (objective_loop_cases s n rd cs P q) as [[H _]|[_ ->]] end; [contradiction|reflexivity].
  - match goal with |- context [objective_loop ?s ?n ?rd ?cs ?P ?q] => destruct (objective_loop_cases s n rd cs P q) as [[H _]|[_ ->]] end; [contradiction|reflexivity].
Qed.

Lemma assemble_not_UB pb qr : Forall (stackable (p_n pb)) (p_cons pb) -> assemble pb qr <> UB.
Proof.
  intros Hs. unfold assemble. destruct (stack_total _ _ Hs 0%nat (fun _ _ => 0) (fun _ => 0)) as ([A b] & ->). cbn [obind fst snd].
  unfold eliminate at 1. destruct (p_rewrite pb && _); cbn [obind].
  - destruct (negb _); cbn [obind]; [discriminate|].
    match goal with |- context [objective_loop ?s ?n ?rd ?cs ?P ?q] => destruct (objective_loop_cases s n rd cs P q) as [[_ [[? ?] ->]]|[_ ->]] end; cbn; discriminate.
  - match goal with |- context [objective_loop ?s ?n ?rd ?cs ?P ?q] => destruct (objective_loop_cases s n rd cs P q) as [[_ [[? ?] ->]]|[_ ->]] end; cbn; discriminate.
Qed.

(** The size of x after a solve. *)
Lemma assemble_free pb qr a : assemble pb qr = Ok a -> a_free a = (p_n pb - r_det (a_red a))%nat.
Proof.
  unfold assemble. destruct (stack_equalities _ _ _ _ _) as [[A b]| |]; try discriminate. cbn [obind fst snd].
  destruct (eliminate _ _ _ _ _) as [rd| |]; try discriminate. cbn [obind].
  destruct (objective_loop _ _ _ _ _ _) as [[P q]| |]; try discriminate. cbn [obind]. intros H. injection H as <-. reflexivity.
Qed.

Lemma recompose_len pb qr a z : assemble pb qr = Ok a -> (p_n pb <= vlen (recompose (p_n pb) a z))%nat.
Proof.
  intros H. apply assemble_free in H. unfold recompose. destruct (Nat.eqb (r_det (a_red a)) 0) eqn:E; cbn; [|lia].
  apply Nat.eqb_eq in E. lia.
Qed.

Lemma assemble_qp_A pb qr a : assemble pb qr = Ok a ->
  (mrows (qp_A (a_qp a)) = 0%nat \/ mcols (qp_A (a_qp a)) = p_n pb) /\
  ((p_rewrite pb = true \/ equality_count (p_cons pb) = 0%nat) -> mrows (qp_A (a_qp a)) = 0%nat) /\
  (p_rewrite pb = false -> mrows (qp_A (a_qp a)) = equality_count (p_cons pb) /\ a_free a = p_n pb) /\
  vlen (qp_q (a_qp a)) = (a_free a + a_slack a)%nat.
Proof.
  unfold assemble. destruct (stack_equalities _ _ _ _ _) as [[A b]| |]; try discriminate. cbn [obind fst snd].
  destruct (eliminate _ _ _ _ _) as [rd| |] eqn:Ee; try discriminate. cbn [obind].
  destruct (objective_loop _ _ _ _ _ _) as [[P q]| |]; try discriminate. cbn [obind]. intros H. injection H as <-.
  cbn [a_qp qp_A qp_q vlen a_free a_slack]. unfold eliminate in Ee. cbn [mrows mcols] in Ee.
  destruct (p_rewrite pb && Nat.ltb 0 (equality_count (p_cons pb))) eqn:E.
  - destruct (negb _); [discriminate|]. injection Ee as <-. cbn. apply andb_true_iff in E. destruct E as [E _].
    split; [now left|]. split; [reflexivity|]. split; [congruence|reflexivity].
  - injection Ee as <-. cbn. apply andb_false_iff in E. rewrite Nat.ltb_ge in E.
    split; [now right|]. split; [intros [H|H]; destruct E; try congruence; lia|].
    split; [intros _; split; [reflexivity|lia]|reflexivity].
Qed.

Lemma equality_count_reset cs : equality_count (map reset_active cs) = equality_count cs.
Proof. induction cs as [|c r IH]; cbn; [reflexivity|]. rewrite IH. reflexivity. Qed.

(** The back-end is never given an inconsistent program when equalities are rewritten or when there are no slacks. *)
Lemma sizes_ok pb qr a : assemble pb qr = Ok a ->
  (p_rewrite pb = true \/ equality_count (p_cons pb) = 0%nat \/ soft_inequality_rows (p_cons pb) = 0%nat) ->
  qp_sizes_ok (a_qp a) = true.
Proof.
  intros Ha H. destruct (assemble_qp_A pb qr a Ha) as (H1 & H2 & H3 & H4). destruct (assemble_maps pb qr a Ha) as (H5 & _).
  unfold qp_sizes_ok. destruct (Nat.eqb (mrows (qp_A (a_qp a))) 0) eqn:E; [reflexivity|]. apply Nat.eqb_neq in E. cbn [orb].
  apply Nat.eqb_eq. rewrite H4, H5. destruct (p_rewrite pb) eqn:Er; [exfalso; apply E, H2; now left|].
  destruct (H3 eq_refl) as [H6 H7]. destruct H as [H|[H|H]]; [discriminate|exfalso; apply E, H2; now right|].
  destruct H1 as [H1|H1]; [congruence|]. lia.
Qed.

Lemma solve_not_UB pb qr qp : tiles 0 (p_vars pb) (p_n pb) -> Forall (stackable (p_n pb)) (p_cons pb) ->
  (p_rewrite pb = true \/ equality_count (p_cons pb) = 0%nat \/ soft_inequality_rows (p_cons pb) = 0%nat) ->
  snd (solve pb qr qp) <> UB.
Proof.
  intros Ht Hs Hq. unfold solve. fold (reset pb).
  assert (Hs' : Forall (stackable (p_n (reset pb))) (p_cons (reset pb))).
  { cbn. rewrite Forall_map. exact Hs. }
  pose proof (assemble_not_UB (reset pb) qr Hs') as HU.
  destruct (assemble (reset pb) qr) as [a|e|] eqn:Ea; [|discriminate|congruence].
  rewrite (sizes_ok (reset pb) qr a Ea) by (cbn; rewrite equality_count_reset, soft_rows_reset; exact Hq).
  unfold finish. destruct (q_inf _); [discriminate|]. destruct (equality_violated _ _); [discriminate|].
  destruct (x_has_nan _ _); [discriminate|]. cbn [p_vars set_slacks set_cons set_x reset].
  destruct (update_variables_total (recompose (p_n (reset pb)) a (q_x (qp (a_qp a)))) (p_vars pb)) as (vs & Hv).
  - apply tiles_le in Ht. destruct Ht as [_ Ht]. eapply Forall_impl; [|exact Ht]. intros v [Hv _].
    pose proof (recompose_len (reset pb) qr a (q_x (qp (a_qp a))) Ea) as L. cbn in *. lia.
  - cbn [p_vars set_slacks set_cons set_x reset] in *. rewrite Hv. discriminate.
Qed.

Lemma solve_ill_formed pb qr qp : Forall (stackable (p_n pb)) (p_cons pb) -> ~ Forall (well_shaped (p_n pb)) (p_cons pb) ->
  snd (solve pb qr qp) = Throw EQP.
Proof.
  intros Hs Hw. unfold solve. fold (reset pb).
  rewrite assemble_ill_formed; [reflexivity| |]; cbn; rewrite Forall_map; assumption.
Qed.

(** ** Rows of the stacked equalities *)

Lemma stack_rows cs : forall n k A0 b0 A b,
  stack_equalities cs n k A0 b0 = Ok (A, b) ->
  (forall i j, (k <= i)%nat -> A0 i j = 0) ->
  (forall i j, (i < k)%nat -> A i j = A0 i j) /\ (forall i, (i < k)%nat -> b i = b0 i) /\
  forall c i, In c cs -> c_prio c = Hard -> c_type c = Equality -> (i < rows (c_expr c))%nat ->
    exists r, (k <= r < k + equality_count cs)%nat /\
      forall x, Rsum n (fun j => A r j * x j) + b r = row (c_expr c) x i.
Proof.
  induction cs as [|c r IH]; intros n k A0 b0 A b Hs Hz.
  - cbn in Hs. injection Hs as <- <-. repeat split; auto. intros c i [].
  - cbn [stack_equalities equality_count] in *. destruct (is_eq c && is_hard c) eqn:E.
    + unfold guard in Hs. destruct (Nat.leb (cols (c_expr c)) n && Nat.eqb (vlen (eb (c_expr c))) (rows (c_expr c))) eqn:G; [|discriminate].
      apply andb_true_iff in G. rewrite Nat.leb_le in G. destruct G as [G _].
      apply IH in Hs.
      2:{ intros i j Hi. rewrite (ltb_false i) by lia. rewrite andb_false_r. cbn [andb]. apply Hz. lia. }
      destruct Hs as (HA & Hb & Hr). split; [|split].
      * intros i j Hi. rewrite HA by lia. rewrite (leb_false k i) by lia. reflexivity.
      * intros i Hi. rewrite Hb by lia. rewrite (leb_false k i) by lia. reflexivity.
      * intros c' i [<-|Hin] Hp Ht Hi.
        -- exists (k + i)%nat. split; [lia|]. intros x. rewrite Hb by lia.
           rewrite (leb_true k), (ltb_true (k + i)) by lia. cbn [andb]. replace (k + i - k)%nat with i by lia. unfold row. f_equal.
           rewrite (Rsum_extend (cols (c_expr c)) n _ G).
           ++ apply Rsum_ext. intros j Hj. rewrite HA by lia. rewrite (leb_true k), (ltb_true (k + i)), (ltb_true j) by lia. cbn [andb].
              replace (k + i - k)%nat with i by lia. reflexivity.
           ++ intros j Hj. rewrite HA by lia. rewrite (ltb_false j) by lia. rewrite andb_false_r. rewrite Hz by lia. ring.
        -- destruct (Hr c' i Hin Hp Ht Hi) as (r' & Hr' & Hx). exists r'. split; [lia|exact Hx].
    + apply IH in Hs; [|exact Hz]. destruct Hs as (HA & Hb & Hr). split; [exact HA|]. split; [exact Hb|].
      intros c' i [<-|Hin] Hp Ht Hi.
      * apply is_hard_iff in Hp. apply is_eq_iff in Ht. rewrite Hp, Ht in E. discriminate.
      * destruct (Hr c' i Hin Hp Ht Hi) as (r' & Hr' & Hx). exists r'. split; [lia|exact Hx].
Qed.

Lemma violated_bound pb qr a x : p_rewrite pb = false -> assemble pb qr = Ok a -> equality_violated a x = false ->
  forall c i, In c (p_cons pb) -> c_prio c = Hard -> c_type c = Equality -> (i < rows (c_expr c))%nat ->
    Rabs (row (c_expr c) (vat x) i) <= 1 / 1000000.
Proof.
  intros Hr Ha Hv c i Hc Hp Ht Hi. unfold assemble in Ha.
  destruct (stack_equalities _ _ _ _ _) as [[A b]| |] eqn:Es; try discriminate. cbn [obind fst snd] in Ha.
  unfold eliminate in Ha. rewrite Hr in Ha. cbn [andb obind] in Ha.
  destruct (objective_loop _ _ _ _ _ _) as [[P q]| |]; try discriminate. cbn [obind] in Ha. injection Ha as <-.
  unfold equality_violated in Hv. cbn [a_qp qp_A qp_b r_A r_b mrows mcols mat_at vat] in Hv.
  destruct (stack_rows _ _ _ _ _ _ _ Es ltac:(reflexivity)) as (_ & _ & Hrow).
  destruct (Hrow c i Hc Hp Ht Hi) as (r & Hrr & Hx). rewrite <- Hx.
  destruct (Rle_lt_dec (Rabs (Rsum (p_n pb) (fun j => A r j * vat x j) + b r)) (1 / 1000000)) as [H|H]; [exact H|exfalso].
  assert (E : exists_below (equality_count (p_cons pb)) (fun k =>
      if Rlt_dec (1 / 1000000) (Rabs (Rsum (p_n pb) (fun j => A k j * vat x j) + b k)) then true else false) = true).
  { apply exists_below_iff. exists r. split; [lia|]. destruct (Rlt_dec _ _); [reflexivity|contradiction]. }
  congruence.
Qed.

(** ** Dependence on the free unknowns only *)

Lemma xz_ext pb rd z z' : elim_facts pb rd -> (forall j, (j < p_n pb - r_det rd)%nat -> z j = z' j) ->
  forall i, (i < p_n pb)%nat -> xz (p_n pb) rd z i = xz (p_n pb) rd z' i.
Proof.
  intros EF H i Hi. unfold xz. destruct (Nat.eqb (r_det rd) 0) eqn:E.
  - apply Nat.eqb_eq in E. apply H. lia.
  - apply Rsum_ext. intros j Hj. destruct (Nat.ltb j (r_det rd)) eqn:El; [reflexivity|]. apply Nat.ltb_ge in El.
    rewrite H by lia. reflexivity.
Qed.

Lemma cost_x_ext pb x x' : Forall (ok_constraint (p_n pb)) (p_cons pb) -> (forall j, (j < p_n pb)%nat -> x j = x' j) ->
  cost pb x = cost pb x'.
Proof.
  intros HF H. unfold cost. rewrite (soft_cost_x_ext (p_n pb) _ x x' HF H). f_equal. f_equal.
  apply Rsum_ext. intros j Hj. rewrite H by exact Hj. reflexivity.
Qed.

(** The QP cost, in the original unknowns and the slacks. *)
Lemma qp_cost_spec pb qr a : qr_correct qr -> p_sparse pb = false -> assemble pb qr = Ok a ->
  exists K, forall z, qp_cost (a_qp a) z =
    slack_cost (p_cons pb) (vat (recompose (p_n pb) a z)) (fun k => z (a_free a + k)%nat) 0
    + p_reg pb / 2 * Rsum (p_n pb) (fun j => Rsqr (vat (recompose (p_n pb) a z) j)) + K.
Proof.
  intros Hqr Hsp Ha. destruct (assemble_spec pb qr a Hqr Hsp Ha) as (_ & EF & Hf & _ & _ & _ & _ & (K & HK)).
  destruct (ef_norm _ _ EF) as (K' & HK'). exists (K - p_reg pb / 2 * K'). intros z. rewrite HK, recompose_xz, HK', Hf. ring.
Qed.

(** ** Redundant equalities *)

Lemma stack_at cs : forall n k A0 b0 A b,
  stack_equalities cs n k A0 b0 = Ok (A, b) ->
  (forall i j, (k <= i)%nat -> A0 i j = 0) ->
  (forall i j, (i < k)%nat -> A i j = A0 i j) /\
  forall l1 c l2 i, cs = l1 ++ c :: l2 -> c_prio c = Hard -> c_type c = Equality -> (i < rows (c_expr c))%nat ->
    forall j, A (k + equality_count l1 + i)%nat j = if Nat.ltb j (cols (c_expr c)) then mat_at (eA (c_expr c)) i j else 0.
Proof.
  induction cs as [|c r IH]; intros n k A0 b0 A b Hs Hz.
  - cbn in Hs. injection Hs as <- <-. split; auto. intros [|? ?] c l2 i E; discriminate.
  - cbn [stack_equalities] in *. destruct (is_eq c && is_hard c) eqn:E.
    + unfold guard in Hs. destruct (Nat.leb (cols (c_expr c)) n && _); [|discriminate].
      apply IH in Hs.
      2:{ intros i j Hi. rewrite (ltb_false i) by lia. rewrite andb_false_r. cbn [andb]. apply Hz. lia. }
      destruct Hs as (HA & Hr). split.
      * intros i j Hi. rewrite HA by lia. rewrite (leb_false k i) by lia. reflexivity.
      * intros [|d l1] c' l2 i El Hp Ht Hi j; cbn in El; injection El as <- El.
        -- cbn [equality_count]. rewrite HA by lia. rewrite (leb_true k), (ltb_true (k + 0 + i)) by lia. cbn [andb].
           replace (k + 0 + i - k)%nat with i by lia. destruct (Nat.ltb j (cols (c_expr c))); [reflexivity|]. apply Hz. lia.
        -- cbn [equality_count]. rewrite E. rewrite <- (Hr l1 c' l2 i El Hp Ht Hi j). f_equal. lia.
    + apply IH in Hs; [|exact Hz]. destruct Hs as (HA & Hr). split; [exact HA|].
      intros [|d l1] c' l2 i El Hp Ht Hi j; cbn in El; injection El as <- El.
      * apply is_hard_iff in Hp. apply is_eq_iff in Ht. rewrite Hp, Ht in E. discriminate.
      * cbn [equality_count]. rewrite E. apply (Hr l1 c' l2 i El Hp Ht Hi j).
Qed.

Lemma equality_count_app l1 l2 : equality_count (l1 ++ l2) = (equality_count l1 + equality_count l2)%nat.
Proof. induction l1 as [|c l IH]; cbn; [reflexivity|]. rewrite IH. lia. Qed.

(** Two equal columns contradict full rank. *)
Lemma equal_columns qr M r1 r2 : qr_correct qr -> qr_rank (qr M) = mcols M -> (r1 < r2)%nat -> (r2 < mcols M)%nat ->
  (forall i, (i < mrows M)%nat -> mat_at M i r1 = mat_at M i r2) -> False.
Proof.
  intros Hqr Hrk H12 H2 Heq. destruct (Hqr M Hrk) as (HQ1 & _ & Hp1 & Hp2 & HR & Htri & Hmn & Hdiag).
  set (n := mrows M) in *. set (d := qr M) in *.
  assert (Hcol : forall p q, (p < mcols M)%nat -> (q < mcols M)%nat ->
     (forall i, (i < n)%nat -> mat_at M i (qr_perm d p) = mat_at M i (qr_perm d q)) ->
     forall k, (k < n)%nat -> qr_R d k p = qr_R d k q).
  { intros p q Hp Hq He k Hk.
    assert (A : forall p, (p < mcols M)%nat -> Rsum n (fun i => qr_Q d i k * mat_at M i (qr_perm d p)) = qr_R d k p).
    { intros p' Hp'. rewrite (Rsum_ext n _ (fun i => qr_Q d i k * Rsum n (fun l => qr_Q d i l * qr_R d l p'))).
      - now apply (orth_apply n (qr_Q d) (fun l => qr_R d l p') k).
      - intros i Hi. rewrite (HR i p' Hi Hp'). reflexivity. }
    rewrite <- (A p Hp), <- (A q Hq). apply Rsum_ext. intros i Hi. rewrite He by exact Hi. reflexivity. }
  destruct (Hp2 r1 ltac:(lia)) as (p1 & Hp1' & E1). destruct (Hp2 r2 H2) as (p2 & Hp2' & E2).
  assert (He : forall i, (i < n)%nat -> mat_at M i (qr_perm d p1) = mat_at M i (qr_perm d p2)) by (intros i Hi; rewrite E1, E2; now apply Heq).
  destruct (Nat.lt_trichotomy p1 p2) as [L|[L|L]].
  - apply (Hdiag p2 Hp2'). rewrite <- (Hcol p1 p2 Hp1' Hp2' He p2) by lia. now apply Htri.
  - subst p2. lia.
  - apply (Hdiag p1 Hp1'). rewrite (Hcol p1 p2 Hp1' Hp2' He p1) by lia. now apply Htri.
Qed.

Lemma solve_duplicate pb qr qp c l1 l2 l3 : qr_correct qr -> p_rewrite pb = true -> Forall (stackable (p_n pb)) (p_cons pb) ->
  p_cons pb = l1 ++ c :: l2 ++ c :: l3 -> c_prio c = Hard -> c_type c = Equality -> (0 < rows (c_expr c))%nat ->
  snd (solve pb qr qp) = Throw EQP.
Proof.
  intros Hqr Hr Hs Hcs Hp Ht Hrow. unfold solve.
  assert (Ha : assemble (set_cons pb (map reset_active (p_cons pb))) qr = Throw EQP); [|rewrite Ha; reflexivity].
  unfold assemble. cbn [set_cons p_n p_cons p_rewrite]. rewrite Hr.
  assert (Hs' : Forall (stackable (p_n pb)) (map reset_active (p_cons pb))) by (rewrite Forall_map; exact Hs).
  destruct (stack_total _ _ Hs' 0%nat (fun _ _ => 0) (fun _ => 0)) as ([A b] & Es). rewrite Es. cbn [obind fst snd].
  set (cs := map reset_active (p_cons pb)) in *.
  assert (Ecs : cs = map reset_active l1 ++ reset_active c :: map reset_active l2 ++ reset_active c :: map reset_active l3).
  { unfold cs. rewrite Hcs, map_app. cbn. rewrite map_app. reflexivity. }
  assert (Ehc : is_eq c && is_hard c = true) by (apply andb_true_iff; split; [now apply is_eq_iff|now apply is_hard_iff]).
  assert (Ecnt : equality_count cs = (equality_count l1 + rows (c_expr c) + equality_count l2 + rows (c_expr c) + equality_count l3)%nat).
  { unfold cs. rewrite equality_count_reset, Hcs, equality_count_app. cbn [equality_count]. rewrite equality_count_app. cbn [equality_count].
    rewrite Ehc. lia. }
  destruct (stack_at _ _ _ _ _ _ _ Es ltac:(reflexivity)) as [_ Hat].
  unfold eliminate. cbn [mrows mcols mat_at vat]. rewrite ltb_true by lia. cbn [andb].
  destruct (negb _) eqn:En; [reflexivity|]. apply negb_false_iff, Nat.eqb_eq in En. exfalso.
  eapply (equal_columns qr _ (equality_count l1) (equality_count l1 + rows (c_expr c) + equality_count l2) Hqr En); cbn [mcols mrows mat_at]; try lia.
  intros i Hi.
  pose proof (Hat (map reset_active l1) (reset_active c) _ 0%nat Ecs Hp Ht Hrow i) as H1.
  assert (Ecs2 : cs = (map reset_active l1 ++ reset_active c :: map reset_active l2) ++ reset_active c :: map reset_active l3).
  { rewrite Ecs, <- app_assoc. reflexivity. }
  pose proof (Hat _ (reset_active c) _ 0%nat Ecs2 Hp Ht Hrow i) as H2.
  rewrite equality_count_app in H2. cbn [equality_count] in H2. rewrite !equality_count_reset in H1, H2.
  change (is_eq (reset_active c) && is_hard (reset_active c)) with (is_eq c && is_hard c) in H2. rewrite Ehc in H2. cbn [reset_active c_expr Nat.add] in H1, H2.
  rewrite ?equality_count_reset in H2. rewrite Nat.add_0_r in H1, H2. rewrite Nat.add_assoc in H2. rewrite H1, H2. reflexivity.
Qed.

(** ** Equalities left to the back-end together with slacks *)

Lemma equality_count_pos cs c : In c cs -> c_prio c = Hard -> c_type c = Equality -> (0 < rows (c_expr c))%nat -> (0 < equality_count cs)%nat.
Proof.
  induction cs as [|d r IH]; intros [] Hp Ht Hr; cbn.
  - subst d. apply is_hard_iff in Hp. apply is_eq_iff in Ht. rewrite Hp, Ht. cbn. lia.
  - specialize (IH H Hp Ht Hr). lia.
Qed.

Lemma soft_rows_pos cs c : In c cs -> c_prio c = Soft -> c_type c = Inequality -> (0 < rows (c_expr c))%nat -> (0 < soft_inequality_rows cs)%nat.
Proof.
  induction cs as [|d r IH]; intros [] Hp Ht Hr; cbn.
  - subst d. rewrite Hp, Ht. lia.
  - specialize (IH H Hp Ht Hr). lia.
Qed.

Lemma soft_rows_zero cs : (forall c, In c cs -> c_prio c = Soft -> c_type c <> Inequality) -> soft_inequality_rows cs = 0%nat.
Proof.
  induction cs as [|c r IH]; intros H; [reflexivity|]. cbn. rewrite IH by (intros; apply H; auto; now right).
  specialize (H c (or_introl eq_refl)). destruct (c_prio c), (c_type c); try reflexivity. exfalso. now apply H.
Qed.

Lemma solve_short_rows pb qr qp : p_rewrite pb = false -> Forall (well_shaped (p_n pb)) (p_cons pb) ->
  (0 < equality_count (p_cons pb))%nat -> (0 < soft_inequality_rows (p_cons pb))%nat -> snd (solve pb qr qp) = UB.
Proof.
  intros Hr Hw He Hs. unfold solve. fold (reset pb).
  destruct (assemble (reset pb) qr) as [a|e|] eqn:Ea; [|exfalso|reflexivity].
  - destruct (assemble_qp_A (reset pb) qr a Ea) as (H1 & _ & H3 & H4). destruct (assemble_maps (reset pb) qr a Ea) as (H5 & _).
    destruct (H3 Hr) as [H6 H7]. cbn [reset set_cons p_cons p_n] in *. rewrite equality_count_reset in H6. rewrite soft_rows_reset in H5.
    unfold qp_sizes_ok. replace (Nat.eqb (mrows (qp_A (a_qp a))) 0) with false by (symmetry; apply Nat.eqb_neq; lia).
    replace (Nat.eqb (mcols (qp_A (a_qp a))) (vlen (qp_q (a_qp a)))) with false; [reflexivity|].
    symmetry. apply Nat.eqb_neq. destruct H1 as [H1|H1]; lia.
  - revert Ea. unfold assemble. cbn [reset set_cons p_n p_cons p_rewrite]. rewrite Hr.
    assert (Hst : Forall (stackable (p_n pb)) (map reset_active (p_cons pb))).
    { rewrite Forall_map. eapply Forall_impl; [|exact Hw]. intros c (H1 & H2 & H3) _ _. auto. }
    destruct (stack_total _ _ Hst 0%nat (fun _ _ => 0) (fun _ => 0)) as ([A b] & ->). cbn [obind fst snd eliminate andb].
    match goal with |- context [objective_loop ?s ?n ?rd ?cs ?P ?q] => destruct (objective_loop_cases s n rd cs P q) as [[_ [[? ?] ->]]|[H _]] end; [discriminate|].
    intros _. apply H. rewrite Forall_map. exact Hw.
Qed.
