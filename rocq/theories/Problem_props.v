(** Theorems about placo::problem::Problem: C04, C14-C24, C81-C83. *)
From Coq Require Import Reals List ZArith Bool Lia Lra Psatz.
From Verif Require Import Base Linalg Sparsity_model Sparsity_spec Sparsity_proofs Expression_model Expression_spec Expression_proofs
  Problem_model Problem_spec Problem_proofs Problem_proofs2 Problem_proofs3.
Import ListNotations.
Open Scope R_scope.

(** ** C04 *)

Theorem C04_variables_tile pb sizes : reachable pb sizes ->
  tiles 0 (p_vars pb) (p_n pb) /\ map var_size (p_vars pb) = sizes.
Proof. apply reachable_tiles. Qed.

(** Consequences in words: two variables never share an unknown, and every unknown belongs to a variable. *)
Theorem C04_variables_disjoint pb sizes i j v w k : reachable pb sizes -> i <> j ->
  nth_error (p_vars pb) i = Some v -> nth_error (p_vars pb) j = Some w ->
  (k_start v <= k < k_end v)%nat -> ~ (k_start w <= k < k_end w)%nat.
Proof.
  intros H Hij Hi Hj Hk Hk'. apply reachable_tiles in H. destruct H as [H _].
  destruct (Nat.lt_trichotomy i j) as [L|[L|L]]; [|contradiction|].
  - pose proof (tiles_disjoint _ _ _ _ _ _ _ H L Hi Hj). lia.
  - pose proof (tiles_disjoint _ _ _ _ _ _ _ H L Hj Hi). lia.
Qed.

Theorem C04_variables_cover pb sizes k : reachable pb sizes -> (k < p_n pb)%nat ->
  exists v, In v (p_vars pb) /\ (k_start v <= k < k_end v)%nat.
Proof. intros H Hk. apply reachable_tiles in H. destruct H as [H _]. eapply tiles_cover; eauto. lia. Qed.

Example C04_example : reachable (fst (add_variable (fst (add_variable (clear_variables (fst (add_variable new_problem 7))) 2)) 3)) [2; 3]%nat.
Proof. apply (reach_variable _ [2%nat]). apply (reach_variable _ []). eapply reach_clear_variables. apply (reach_variable _ []). constructor. Qed.

(** ** C14 *)

Theorem C14_add_limit pb e n m f t : denotes e n m f -> vlen t = n ->
  exists c, add_limit pb e t = Ok (add_constraint pb c) /\ c_type c = Inequality /\ c_prio c = Hard /\ c_weight c = 1 /\
    forall x : vec, (m <= vlen x)%nat -> (satisfied c x <-> forall i, (i < n)%nat -> Rabs (f (vat x) i) <= vat t i).
Proof. intros D H. destruct (add_limit_spec pb e n m f t D H) as (c & H1 & H2 & H3 & H4 & _ & _ & H5). exists c. auto 6. Qed.

Theorem C14_add_limit_mismatch pb e n m f t : denotes e n m f -> vlen t <> n -> add_limit pb e t = Throw ERuntime.
Proof. apply add_limit_mismatch. Qed.

Example C14_example : denotes (Expr (Mat 1 2 (fun _ j => if Nat.eqb j 0 then 2 else -1)) (Vec 1 (fun _ => 3))) 1 2
  (fun x _ => 2 * x 0%nat - x 1%nat + 3).
Proof.
  apply denotes_intro; try reflexivity. intros x i Hi. unfold ev, cols. cbn. ring.
Qed.

(** ** C15, C17, C18, C19: the quadratic program given to the back-end

    [assemble pb qr] is the program built by solve; [recompose n a z] is the vector of unknowns solve() derives from
    an answer [z] of the back-end; the entries of [z] from [a_free a] on are the slacks. *)

Theorem C15_cost pb qr a : qr_correct qr -> p_sparse pb = false -> assemble pb qr = Ok a ->
  (forall c, In c (p_cons pb) -> c_prio c = Soft -> c_type c = Equality) ->
  exists K, forall z, qp_cost (a_qp a) z = cost pb (vat (recompose (p_n pb) a z)) + K.
Proof.
  intros Hqr Hsp Ha Hc. destruct (qp_cost_spec pb qr a Hqr Hsp Ha) as (K & HK). exists K. intros z. rewrite HK. unfold cost. f_equal. f_equal.
  clear - Hc. revert Hc. generalize (fun k => z (a_free a + k)%nat), (vat (recompose (p_n pb) a z)), 0%nat.
  induction (p_cons pb) as [|c r IH]; intros s x k Hc; cbn [slack_cost soft_cost]; [reflexivity|].
  unfold soft_penalty. pose proof (Hc c (or_introl eq_refl)) as H0.
  destruct (c_prio c), (c_type c); try (specialize (H0 eq_refl); discriminate);
    rewrite (IH s x k) by (intros; apply Hc; auto; now right); ring.
Qed.

(** With soft inequalities, the same with explicit slacks. *)
Theorem C15_cost_with_slacks pb qr a : qr_correct qr -> p_sparse pb = false -> assemble pb qr = Ok a ->
  exists K, forall z, qp_cost (a_qp a) z =
    slack_cost (p_cons pb) (vat (recompose (p_n pb) a z)) (fun k => z (a_free a + k)%nat) 0
    + p_reg pb / 2 * Rsum (p_n pb) (fun j => Rsqr (vat (recompose (p_n pb) a z) j)) + K.
Proof. apply qp_cost_spec. Qed.

Theorem C17_inequalities pb qr a : qr_correct qr -> assemble pb qr = Ok a ->
  a_slack a = soft_inequality_rows (p_cons pb) /\
  forall z,
    (forall k, (k < mrows (qp_G (a_qp a)))%nat ->
       0 <= Rsum (mcols (qp_G (a_qp a))) (fun j => mat_at (qp_G (a_qp a)) k j * z j) + vat (qp_h (a_qp a)) k) <->
    hard_inequalities_hold (p_cons pb) (vat (recompose (p_n pb) a z)) /\
    forall k, (k < a_slack a)%nat -> 0 <= z (a_free a + k)%nat.
Proof.
  intros Hqr Ha. destruct (assemble_feasible pb qr a Hqr Ha) as (_ & _ & _ & Hs & HG).
  split; [exact Hs|]. intros z. rewrite recompose_xz. apply HG.
Qed.

Theorem C18_soft_inequalities pb qr a : qr_correct qr -> p_sparse pb = false -> assemble pb qr = Ok a ->
  (forall c, In c (p_cons pb) -> c_prio c = Soft -> c_type c = Inequality -> 0 <= c_weight c) ->
  exists K, forall z,
    (* whatever the slacks *)
    ((forall k, (k < a_slack a)%nat -> 0 <= z (a_free a + k)%nat) ->
       cost pb (vat (recompose (p_n pb) a z)) + K <= qp_cost (a_qp a) z) /\
    (* and some slacks reach the bound *)
    exists z', (forall j, (j < a_free a)%nat -> z' j = z j) /\
      (forall i, (i < p_n pb)%nat -> vat (recompose (p_n pb) a z') i = vat (recompose (p_n pb) a z) i) /\
      (forall k, (k < a_slack a)%nat -> 0 <= z' (a_free a + k)%nat) /\
      qp_cost (a_qp a) z' = cost pb (vat (recompose (p_n pb) a z)) + K.
Proof.
  intros Hqr Hsp Ha Hw. destruct (qp_cost_spec pb qr a Hqr Hsp Ha) as (K & HK).
  destruct (assemble_spec pb qr a Hqr Hsp Ha) as (Hok & EF & Hf & Hs & _). exists K. intros z. split.
  - intros Hp. rewrite HK. unfold cost.
    pose proof (slack_cost_ge (p_cons pb) (vat (recompose (p_n pb) a z)) (fun k => z (a_free a + k)%nat) Hw 0%nat) as G.
    cbn [Nat.add] in G. rewrite Hs in Hp. specialize (G Hp). lra.
  - set (x := vat (recompose (p_n pb) a z)).
    set (z' := fun j => if Nat.ltb j (a_free a) then z j else best_slack (p_cons pb) x (j - a_free a)).
    assert (Hz : forall j, (j < a_free a)%nat -> z' j = z j) by (intros j Hj; unfold z'; rewrite ltb_true by exact Hj; reflexivity).
    assert (Hx : forall i, (i < p_n pb)%nat -> vat (recompose (p_n pb) a z') i = x i).
    { intros i Hi. unfold x. rewrite !recompose_xz. apply (xz_ext pb _ _ _ EF); [|exact Hi]. intros j Hj. apply Hz. lia. }
    exists z'. split; [exact Hz|]. split; [exact Hx|]. split.
    + intros k _. unfold z'. rewrite ltb_false by lia. apply best_slack_nonneg.
    + rewrite HK. rewrite (slack_cost_x_ext (p_n pb) _ _ x _ Hok Hx).
      rewrite (slack_cost_ext _ _ _ (best_slack (p_cons pb) x)).
      2:{ intros i _. unfold z'. rewrite ltb_false by lia. f_equal. lia. }
      rewrite best_slack_cost. unfold cost. f_equal. f_equal. f_equal. apply Rsum_ext. intros j Hj. rewrite Hx by exact Hj. reflexivity.
Qed.

(** A soft inequality that holds costs nothing; otherwise only its violated rows do. *)
Theorem C18_no_penalty_when_satisfied c x : c_prio c = Soft -> c_type c = Inequality -> holds c x -> soft_penalty c x = 0.
Proof.
  intros Hp Ht H. unfold soft_penalty. rewrite Hp, Ht. rewrite Rsum_zero_ext; [ring|]. intros i Hi. specialize (H i Hi).
  rewrite Ht in H. rewrite Rmin_left by exact H. apply Rsqr_0.
Qed.

Theorem C19_elimination pb qr a : qr_correct qr -> p_rewrite pb = true -> assemble pb qr = Ok a ->
  mrows (qp_A (a_qp a)) = 0%nat /\
  (forall z, hard_equalities_hold (p_cons pb) (vat (recompose (p_n pb) a z))) /\
  (forall x, hard_equalities_hold (p_cons pb) x ->
     exists z, (forall i, (i < p_n pb)%nat -> vat (recompose (p_n pb) a z) i = x i) /\
       forall z', (forall i, (i < p_n pb)%nat -> vat (recompose (p_n pb) a z') i = x i) ->
         forall j, (j < a_free a)%nat -> z' j = z j).
Proof.
  intros Hqr Hr Ha. destruct (assemble_feasible pb qr a Hqr Ha) as (Hfeas & EF & Hf & _ & HG).
  destruct (assemble_qp_A pb qr a Ha) as (_ & HA & _). specialize (HA (or_introl Hr)).
  split; [exact HA|]. split.
  - intros z. rewrite recompose_xz. apply (ef_feasible _ _ EF z). intros k Hk. exfalso.
    assert (E : mrows (r_A (a_red a)) = mrows (qp_A (a_qp a))); [|lia].
    clear - Ha. unfold assemble in Ha. destruct (stack_equalities _ _ _ _ _) as [[A b]| |]; try discriminate. cbn [obind fst snd] in Ha.
    destruct (eliminate _ _ _ _ _) as [rd| |]; try discriminate. cbn [obind] in Ha.
    destruct (objective_loop _ _ _ _ _ _) as [[P q]| |]; try discriminate. cbn [obind] in Ha. injection Ha as <-. reflexivity.
  - intros x Hx. destruct (ef_onto _ _ EF x Hx) as (z & Hz). exists z. rewrite recompose_xz. split; [exact Hz|].
    intros z' Hz' j Hj. rewrite recompose_xz in Hz'. apply (ef_inj _ _ EF); [|lia]. intros i Hi. rewrite Hz, Hz' by exact Hi. reflexivity.
Qed.

(** ** C20 *)

Theorem C20_optimum pb qr qp pb' : qr_correct qr -> qp_correct qp -> p_sparse pb = false ->
  (forall c, In c (p_cons pb) -> c_prio c = Soft -> c_type c = Inequality -> 0 <= c_weight c) ->
  solve pb qr qp = (pb', Ok tt) ->
  hard_holds (p_cons pb) (vat (p_x pb')) /\
  forall x, hard_holds (p_cons pb) x -> cost pb (vat (p_x pb')) <= cost pb x.
Proof.
  intros Hqr Hqp Hsp Hw Hs.
  destruct (solve_cases pb qr qp) as [(pb1 & e & E & _)|[(pb1 & E)|(a & pb1 & vs & Ha & _ & E & Hi & Hx & _)]];
    rewrite E in Hs; [discriminate Hs|discriminate Hs|injection Hs as <-].
  destruct (optimum_spec (reset pb) qr qp a Hqr Hqp Hsp Ha) as [O1 O2]; [|exact Hi|].
  { intros c Hc Hp Ht. cbn in Hc. apply in_map_iff in Hc. destruct Hc as (c' & <- & Hc'). cbn in *. now apply Hw. }
  rewrite Hx, recompose_xz. cbn [reset set_cons p_n p_cons] in O1, O2. split.
  - exact (proj1 (hard_holds_reset _ _) O1).
  - intros x Hx'. specialize (O2 x). fold (reset pb) in O2. rewrite !cost_reset in O2. apply O2. now apply hard_holds_reset.
Qed.

(** Whatever the value of use_sparsity (on by default), a solution satisfies the hard constraints. *)
Theorem C20_feasible pb qr qp pb' : qr_correct qr -> qp_correct qp -> solve pb qr qp = (pb', Ok tt) ->
  hard_holds (p_cons pb) (vat (p_x pb')).
Proof.
  intros Hqr Hqp Hs.
  destruct (solve_cases pb qr qp) as [(pb1 & e & E & _)|[(pb1 & E)|(a & pb1 & vs & Ha & _ & E & Hi & Hx & _)]];
    rewrite E in Hs; [discriminate Hs|discriminate Hs|injection Hs as <-].
  destruct (assemble_feasible (reset pb) qr a Hqr Ha) as (F & _). destruct (Hqp (a_qp a) Hi) as [Hz _].
  apply F in Hz. destruct Hz as [Hz _]. rewrite Hx, recompose_xz. exact (proj1 (hard_holds_reset _ _) Hz).
Qed.

(** A problem with a hard and a soft equality, solved with equality elimination by a back-end that solves
    one-dimensional programs. *)
Definition ex_row (n k : nat) (v : R) : expr := Expr (Mat 1 n (fun _ j => if Nat.eqb j k then 1 else 0)) (Vec 1 (fun _ => - v)).
Definition ex_pb : problem :=
  Problem 2 [MkVar 0 2 (Vec 0 (fun _ => 0)) 0]
    [PConstraint (ex_row 2 0 3) Equality Hard 1 false; PConstraint (ex_row 2 1 2) Equality Soft 1 false]
    1 false true (Vec 0 (fun _ => 0)) (Vec 0 (fun _ => 0)).
Definition ex_qr (M : mat) : qr_result :=
  if Nat.eqb (mrows M) 2 && Nat.eqb (mcols M) 1 then
    if Req_EM_T (mat_at M 0 0) 1 then
      if Req_EM_T (mat_at M 1 0) 0 then
        QRResult 1 (fun i j => if Nat.eqb i j then 1 else 0) (fun i j => if Nat.eqb i 0 && Nat.eqb j 0 then 1 else 0) (fun _ => 0%nat)
      else QRResult 0 (fun _ _ => 0) (fun _ _ => 0) (fun j => j)
    else QRResult 0 (fun _ _ => 0) (fun _ _ => 0) (fun j => j)
  else QRResult (S (mcols M)) (fun _ _ => 0) (fun _ _ => 0) (fun j => j).
Definition ex_qp (Q : qp_problem) : qp_result :=
  if Nat.eqb (vlen (qp_q Q)) 1 && Nat.eqb (mrows (qp_A Q)) 0 && Nat.eqb (mrows (qp_G Q)) 0 then
    if Rlt_dec 0 (mat_at (qp_P Q) 0 0) then
      QPResult false (fun _ => - vat (qp_q Q) 0 / mat_at (qp_P Q) 0 0) (fun _ => false) []
    else QPResult true (fun _ => 0) (fun _ => false) []
  else QPResult true (fun _ => 0) (fun _ => false) [].

Lemma ex_qr_correct : qr_correct ex_qr.
Proof.
  intros M. unfold ex_qr. cbv zeta.
  destruct (Nat.eqb (mrows M) 2 && Nat.eqb (mcols M) 1) eqn:E; [|cbn [qr_rank]; lia].
  apply andb_true_iff in E. rewrite !Nat.eqb_eq in E. destruct E as [En Em]. rewrite En, Em.
  destruct (Req_EM_T (mat_at M 0 0) 1) as [H0|]; [|cbn [qr_rank]; lia].
  destruct (Req_EM_T (mat_at M 1 0) 0) as [H1|]; [|cbn [qr_rank]; lia].
  intros _. cbn [qr_Q qr_R qr_perm Rsum]. repeat split.
  - intros [|[|i]] [|[|j]] Hi Hj; try lia; cbn; ring.
  - intros [|[|i]] [|[|j]] Hi Hj; try lia; cbn; ring.
  - intros; lia.
  - intros j Hj. exists 0%nat. lia.
  - intros [|[|i]] [|j] Hi Hj; try lia; cbn; rewrite ?H0, ?H1; ring.
  - intros k j Hk. replace (Nat.eqb k 0) with false by (symmetry; apply Nat.eqb_neq; lia). reflexivity.
  - lia.
  - intros [|j] Hj; [|lia]. cbn. lra.
Qed.

Lemma ex_qp_correct : qp_correct ex_qp.
Proof.
  intros Q. unfold ex_qp. destruct (_ && _) eqn:E; [|discriminate].
  apply andb_true_iff in E. destruct E as [E E3]. apply andb_true_iff in E. destruct E as [E1 E2]. rewrite !Nat.eqb_eq in *.
  destruct (Rlt_dec 0 (mat_at (qp_P Q) 0 0)) as [H|]; [|discriminate]. intros _. cbn [q_x]. split.
  - split; intros k Hk; lia.
  - intros z _. unfold qp_cost. rewrite E1. cbn [Rsum].
    set (p := mat_at (qp_P Q) 0 0) in *. set (q := vat (qp_q Q) 0). set (y := z 0%nat).
    assert (E : / 2 * (0 + (0 + y * p * y)) + (0 + q * y) - (/ 2 * (0 + (0 + - q / p * p * (- q / p))) + (0 + q * (- q / p)))
            = p / 2 * Rsqr (y + q / p)) by (unfold Rsqr; field; lra).
    pose proof (Rle_0_sqr (y + q / p)). assert (0 <= p / 2 * Rsqr (y + q / p)) by (apply Rmult_le_pos; lra). lra.
Qed.

Lemma ex_solve : exists pb', solve ex_pb ex_qr ex_qp = (pb', Ok tt) /\ vat (p_x pb') 0%nat = 3 /\ vat (p_x pb') 1%nat = 1.
Proof.
  unfold solve. set (pb0 := set_cons _ _).
  assert (Ha : exists a, assemble pb0 ex_qr = Ok a /\ a_free a = 1%nat /\ a_slack a = 0%nat /\ r_det (a_red a) = 1%nat /\
     (forall i j, r_Q (a_red a) i j = if Nat.eqb i j then 1 else 0) /\ r_y (a_red a) 0%nat = 3 /\
     mrows (qp_A (a_qp a)) = 0%nat /\ vlen (qp_q (a_qp a)) = 1%nat /\ mrows (qp_G (a_qp a)) = 0%nat /\
     mat_at (qp_P (a_qp a)) 0 0 = 2 /\ vat (qp_q (a_qp a)) 0%nat = -2).
  { unfold assemble. cbn [pb0 set_cons ex_pb p_n p_cons p_rewrite p_sparse p_reg map reset_active stack_equalities is_eq is_hard c_type c_prio c_expr
      andb cols rows ex_row eA eb mcols mrows vlen Nat.leb Nat.eqb guard obind fst snd equality_count slack_count Nat.add negb].
    unfold eliminate. cbn [mrows mcols mat_at andb Nat.ltb Nat.leb]. unfold ex_qr at 1 2 3 4 5. cbn [mrows mcols Nat.eqb andb mat_at Nat.leb Nat.ltb Nat.sub Nat.add].
    destruct (Req_EM_T 1 1) as [_|]; [|lra]. destruct (Req_EM_T 0 0) as [_|]; [|lra].
    cbn [qr_rank Nat.eqb negb obind r_det]. cbn [objective_loop Nat.sub c_expr reset_active cols rows eA eb mcols mrows vlen Nat.ltb Nat.leb Nat.eqb orb negb is_eq is_hard c_type c_prio andb].
    eexists. split; [reflexivity|].
    cbn [a_free a_slack a_red r_det a_qp qp_A qp_q qp_G qp_P r_A r_Q r_y mrows vlen qr_Q qr_R qr_perm mat_at vat].
    repeat split.
    - cbn. unfold padded. repeat match goal with |- context [Req_EM_T ?u ?u] => destruct (Req_EM_T u u) as [_|]; [|congruence] end. cbn. field.
    - cbn. unfold padded. repeat match goal with |- context [Req_EM_T ?u ?u] => destruct (Req_EM_T u u) as [_|]; [|congruence] end. cbn. try ring.
    - cbn. unfold padded. repeat match goal with |- context [Req_EM_T ?u ?u] => destruct (Req_EM_T u u) as [_|]; [|congruence] end. cbn. try ring. }
  destruct Ha as (a & -> & Hf & Hs & Hd & HQ & Hy & HA & Hq & HG & HP & Hq0).
  assert (Hqp : ex_qp (a_qp a) = QPResult false (fun _ => 1) (fun _ => false) []).
  { unfold ex_qp. rewrite Hq, HA, HG, HP, Hq0. cbn [Nat.eqb andb]. destruct (Rlt_dec 0 2); [|lra]. f_equal.
    apply FunctionalExtensionality.functional_extensionality. intros _. field. }
  unfold qp_sizes_ok. rewrite HA. cbn [Nat.eqb orb]. unfold finish. rewrite Hqp. cbn [q_inf q_x q_active].
  assert (E1 : forall x, equality_violated a x = false) by (intros x; unfold equality_violated; rewrite HA; reflexivity).
  assert (E2 : forall r, q_nan r = (fun _ => false) -> x_has_nan a r = false).
  { intros r Hr. unfold x_has_nan. rewrite Hd, Hf, Hr. reflexivity. }
  rewrite E1, E2 by reflexivity. rewrite Hs. cbn [pb0 set_cons set_x set_slacks p_vars ex_pb update_variables]. unfold update_variable.
  unfold recompose. rewrite Hd. cbn [Nat.eqb p_n ex_pb set_cons guard vlen k_end Nat.leb obind].
  eexists. split; [reflexivity|]. cbn [set_vars set_slacks set_cons set_x p_x p_n pb0 ex_pb vat]. cbn [Rsum]. rewrite !HQ. cbn [Nat.eqb Nat.ltb Nat.leb]. rewrite Hy. split; ring.
Qed.

Example C20_example : qr_correct ex_qr /\ qp_correct ex_qp /\ p_sparse ex_pb = false /\
  (forall c, In c (p_cons ex_pb) -> c_prio c = Soft -> c_type c = Inequality -> 0 <= c_weight c) /\
  exists pb', solve ex_pb ex_qr ex_qp = (pb', Ok tt) /\ vat (p_x pb') 0%nat = 3 /\ vat (p_x pb') 1%nat = 1.
Proof.
  split; [apply ex_qr_correct|]. split; [apply ex_qp_correct|]. split; [reflexivity|]. split; [|apply ex_solve].
  intros c [<-|[<-|[]]]; cbn; intros; try discriminate; lra.
Qed.

(** ** C16 *)

(** A default-constructed problem with three unknowns and the soft constraint x0 + x2 = 1. *)
Definition ex_sparse : problem :=
  Problem 3 [] [PConstraint (Expr (Mat 1 3 (fun _ j => if Nat.eqb j 1 then 0 else 1)) (Vec 1 (fun _ => -1))) Equality Soft 1 false]
    (1 / 100000000) true true (Vec 0 (fun _ => 0)) (Vec 0 (fun _ => 0)).

Lemma ex_sparse_pattern : detect_columns_sparsity (Mat 1 3 (fun _ j => if Nat.eqb j 1 then 0 else 1)) = [Interval 0 0; Interval 2 2].
Proof.
  unfold detect_columns_sparsity. cbn [mcols mrows].
  assert (Z0 : col_is_zero 1 (Mat 1 3 (fun _ j => if Nat.eqb j 1 then 0 else 1)) 0 = false).
  { apply col_is_zero_false. exists 0%nat. split; [lia|]. cbn. rewrite Rabs_R1. lra. }
  assert (Z1 : col_is_zero 1 (Mat 1 3 (fun _ j => if Nat.eqb j 1 then 0 else 1)) 1 = true).
  { cbn. rewrite Rabs_R0. destruct (Rle_dec 0 (1 / 1000000000000)); [reflexivity|lra]. }
  assert (Z2 : col_is_zero 1 (Mat 1 3 (fun _ j => if Nat.eqb j 1 then 0 else 1)) 2 = false).
  { apply col_is_zero_false. exists 0%nat. split; [lia|]. cbn. rewrite Rabs_R1. lra. }
  cbn [detect_loop mrows]. rewrite Z0, Z1, Z2. reflexivity.
Qed.

(** The back-end can return an optimum of the program it is given whose cost, for the user, is not optimal: the
    products between the two groups of columns are lost. *)
Theorem C16_sparsity_refuted : exists pb a z,
  p_sparse pb = true /\ (forall qr, assemble pb qr = Ok a) /\
  qp_feasible (a_qp a) z /\ (forall z', qp_feasible (a_qp a) z' -> qp_cost (a_qp a) z <= qp_cost (a_qp a) z') /\
  exists x, hard_holds (p_cons pb) x /\ cost pb x < cost pb (vat (recompose (p_n pb) a z)).
Proof.
  set (r := 1 / 100000000).
  assert (Ha : exists a, (forall qr, assemble ex_sparse qr = Ok a) /\ r_det (a_red a) = 0%nat /\ mrows (qp_A (a_qp a)) = 0%nat /\
    mrows (qp_G (a_qp a)) = 0%nat /\ vlen (qp_q (a_qp a)) = 3%nat /\
    (forall i j, (i < 3)%nat -> (j < 3)%nat -> mat_at (qp_P (a_qp a)) i j = if Nat.eqb i j then (if Nat.eqb i 1 then r else r + 1) else 0) /\
    (forall i, (i < 3)%nat -> vat (qp_q (a_qp a)) i = if Nat.eqb i 1 then 0 else -1)).
  { unfold assemble. cbn [ex_sparse p_n p_cons p_rewrite p_sparse p_reg stack_equalities is_eq is_hard c_type c_prio c_expr andb
      equality_count slack_count negb obind fst snd Nat.add eliminate mrows mcols Nat.ltb Nat.leb r_det Nat.sub objective_loop cols rows eA eb vlen Nat.eqb orb].
    unfold constraint_expressions. cbn [r_det Nat.eqb eA eb objective_loop obind fst snd c_weight].
    unfold add_gram_sparse. rewrite ex_sparse_pattern.
    eexists. split; [reflexivity|]. cbn [a_red a_qp r_det qp_A qp_G qp_q qp_P r_A mrows vlen mat_at vat inequality_loop is_eq c_type s_P s_q inequality_count].
    repeat split.
    - intros [|[|[|i]]] [|[|[|j]]] Hi Hj; try lia; cbn [fold_left contains i_start i_end Z.of_nat andb Z.leb Z.compare Pos.compare Pos.compare_cont Nat.eqb Nat.ltb Nat.leb Rsum mat_at mrows Pos.of_succ_nat Pos.succ]; unfold r; try reflexivity; try ring.
    - intros [|[|[|i]]] Hi; try lia; unfold add_linear; cbn; ring. }
  destruct Ha as (a & Ha & Hd & HA & HG & Hq & HP & Hq0).
  exists ex_sparse, a, (fun j => if Nat.eqb j 1 then 0 else 1 / (1 + r)).
  split; [reflexivity|]. split; [exact Ha|].
  assert (Hf : forall z, qp_feasible (a_qp a) z) by (intros z; split; intros k Hk; lia).
  split; [apply Hf|].
  assert (Hc : forall z, qp_cost (a_qp a) z = (1 + r) / 2 * (Rsqr (z 0%nat) + Rsqr (z 2%nat)) + r / 2 * Rsqr (z 1%nat) - z 0%nat - z 2%nat).
  { intros z. unfold qp_cost. rewrite Hq. cbn [Rsum]. rewrite !HP, !Hq0 by lia. cbn [Nat.eqb]. unfold Rsqr. field. }
  split.
  - intros z' _. rewrite !Hc. cbn [Nat.eqb]. rewrite Rsqr_0.
    assert (E : forall y, (1 + r) / 2 * Rsqr y - y - ((1 + r) / 2 * Rsqr (1 / (1 + r)) - 1 / (1 + r)) = (1 + r) / 2 * Rsqr (y - 1 / (1 + r)))
      by (intros y; unfold Rsqr, r; field).
    assert (Hp : forall y, 0 <= (1 + r) / 2 * Rsqr y) by (intros y; apply Rmult_le_pos; [unfold r; lra|apply Rle_0_sqr]).
    assert (Hp1 : 0 <= r / 2 * Rsqr (z' 1%nat)) by (apply Rmult_le_pos; [unfold r; lra|apply Rle_0_sqr]).
    pose proof (E (z' 0%nat)) as E0. pose proof (E (z' 2%nat)) as E2.
    pose proof (Hp (z' 0%nat - 1 / (1 + r))). pose proof (Hp (z' 2%nat - 1 / (1 + r))). lra.
  - exists (fun j => if Nat.eqb j 1 then 0 else 1 / 2). split.
    + intros c [<-|[]]; discriminate.
    + unfold recompose. rewrite Hd. cbn [Nat.eqb vat]. unfold cost, soft_cost, soft_penalty, row.
      cbn [ex_sparse p_cons p_reg p_n c_prio c_type c_weight c_expr rows cols eA eb mrows mcols mat_at vat Rsum Nat.eqb].
      unfold Rsqr, r. lra.
Qed.

(** What is proved instead: the option changes nothing when the non-zero columns of each soft equality are
    contiguous, and equalities are not rewritten or there are none. Missing: the property for other matrices, where
    it is false. *)
Theorem C16_sparsity_partial pb qr qp :
  (p_rewrite pb = false \/ forall c, In c (p_cons pb) -> c_prio c = Hard -> c_type c <> Equality) ->
  (forall c, In c (p_cons pb) -> c_prio c = Soft -> c_type c = Equality -> contiguous (eA (c_expr c))) ->
  assemble (with_sparsity pb true) qr = assemble (with_sparsity pb false) qr /\
  snd (solve (with_sparsity pb true) qr qp) = snd (solve (with_sparsity pb false) qr qp) /\
  p_x (fst (solve (with_sparsity pb true) qr qp)) = p_x (fst (solve (with_sparsity pb false) qr qp)) /\
  p_vars (fst (solve (with_sparsity pb true) qr qp)) = p_vars (fst (solve (with_sparsity pb false) qr qp)).
Proof.
  intros Hr Hc. split; [now apply assemble_sparse|].
  assert (E : assemble (with_sparsity (reset pb) true) qr = assemble (with_sparsity (reset pb) false) qr).
  { apply assemble_sparse; cbn.
    - destruct Hr as [Hr|Hr]; [now left|right]. intros c Hin. apply in_map_iff in Hin. destruct Hin as (c' & <- & Hin). exact (Hr c' Hin).
    - intros c Hin. apply in_map_iff in Hin. destruct Hin as (c' & <- & Hin). exact (Hc c' Hin). }
  unfold solve. change (set_cons (with_sparsity pb true) (map reset_active (p_cons (with_sparsity pb true)))) with (with_sparsity (reset pb) true).
  change (set_cons (with_sparsity pb false) (map reset_active (p_cons (with_sparsity pb false)))) with (with_sparsity (reset pb) false).
  rewrite E. destruct (assemble (with_sparsity (reset pb) false) qr) as [a| |]; [|repeat split; reflexivity..].
  destruct (qp_sizes_ok (a_qp a)); [|repeat split; reflexivity].
  unfold finish. cbn [with_sparsity p_n]. destruct (q_inf _); [repeat split; reflexivity|].
  destruct (equality_violated _ _); [repeat split; reflexivity|]. destruct (x_has_nan _ _); [repeat split; reflexivity|].
  cbn [set_slacks set_cons set_x with_sparsity reset p_vars p_n]. destruct (update_variables _ _); repeat split; reflexivity.
Qed.

Example C16_example : contiguous (Mat 2 4 (fun i j => if Nat.leb 1 j && Nat.leb j 2 then INR (i + j) else 0)).
Proof.
  exists 1%nat, 3%nat. cbn [mcols mrows mat_at]. split; [lia|]. split.
  - intros i [|[|[|j]]] _ _ H; try lia; reflexivity.
  - intros [|[|[|j]]] H; try lia; exists 1%nat; (split; [lia|]); cbn; rewrite Rabs_pos_eq; lra.
Qed.

(** ** C21 *)

Theorem C21_failed_solve pb qr qp pb' e : solve pb qr qp = (pb', Throw e) -> p_vars pb' = p_vars pb /\ p_n pb' = p_n pb.
Proof.
  intros H. destruct (solve_cases pb qr qp) as [(pb1 & e1 & E & V & N)|[(pb1 & E)|(a & pb1 & vs & _ & _ & E & _)]]; rewrite E in H;
    [injection H as <- _; auto|discriminate|discriminate].
Qed.

(** Every error of [solve] is a QPError. *)
Theorem C21_only_qp_errors pb qr qp pb' e : solve pb qr qp = (pb', Throw e) -> e = EQP.
Proof. apply solve_throws. Qed.

Theorem C21_successful_solve pb qr qp pb' : solve pb qr qp = (pb', Ok tt) ->
  Forall2 (fun v v' => k_start v' = k_start v /\ k_end v' = k_end v /\ v_version v' = S (v_version v) /\
             vlen (v_value v') = var_size v /\
             forall i, (i < var_size v)%nat -> vat (v_value v') i = vat (p_x pb') (k_start v + i)%nat)
    (p_vars pb) (p_vars pb').
Proof.
  intros H. destruct (solve_cases pb qr qp) as [(pb1 & e1 & E & V & N)|[(pb1 & E)|(a & pb1 & vs & _ & _ & E & _ & _ & _ & _ & _ & _ & V & U & _)]];
    rewrite E in H; [discriminate|discriminate|injection H as <-].
  rewrite V. apply update_variables_ok in U. eapply Forall2_impl; [|exact U]. intros v v' ((A & B) & C & D & F). auto 6.
Qed.

(** Both outcomes happen. *)
Example C21_example_success : exists pb', solve ex_pb ex_qr ex_qp = (pb', Ok tt).
Proof. destruct ex_solve as (pb' & H & _). eauto. Qed.
Example C21_example_failure : exists pb', solve ex_pb ex_qr (fun _ => QPResult true (fun _ => 0) (fun _ => false) []) = (pb', Throw EQP).
Proof.
  destruct (solve_cases ex_pb ex_qr (fun _ => QPResult true (fun _ => 0) (fun _ => false) [])) as [(pb1 & e1 & E & V & N)|[(pb1 & E)|H]].
  - exists pb1. rewrite E. f_equal. f_equal. destruct e1; [exfalso|exfalso|reflexivity].
    + revert E. unfold solve, finish. destruct (assemble _ _) as [a|[]|] eqn:Ea; try destruct (qp_sizes_ok _); cbn; try discriminate.
      intros _. revert Ea. clear. unfold assemble. destruct (stack_equalities _ _ _ _ _) as [[A b]|e|] eqn:Es; [|cbn in Es; discriminate|discriminate].
      cbn [obind fst snd]. unfold eliminate. destruct (_ && _); [destruct (negb _); [discriminate|]|]; cbn [obind];
      match goal with |- context [objective_loop ?s ?n ?rd ?cs ?P ?q] => destruct (objective_loop_cases s n rd cs P q) as [[_ [[? ?] ->]]|[_ ->]] end; cbn; discriminate.
    + revert E. unfold solve, finish. destruct (assemble _ _) as [a|[]|] eqn:Ea; try destruct (qp_sizes_ok _); cbn; try discriminate.
      intros _. revert Ea. clear. unfold assemble. destruct (stack_equalities _ _ _ _ _) as [[A b]|e|] eqn:Es; [|cbn in Es; discriminate|discriminate].
      cbn [obind fst snd]. unfold eliminate. destruct (_ && _); [destruct (negb _); [discriminate|]|]; cbn [obind];
      match goal with |- context [objective_loop ?s ?n ?rd ?cs ?P ?q] => destruct (objective_loop_cases s n rd cs P q) as [[_ [[? ?] ->]]|[_ ->]] end; cbn; discriminate.
  - exfalso. assert (H : snd (solve ex_pb ex_qr (fun _ => QPResult true (fun _ => 0) (fun _ => false) [])) <> UB).
    { apply solve_not_UB; [cbn; lia| |now left]. repeat constructor; cbn; lia. }
    rewrite E in H. now apply H.
  - destruct H as (a & pb1 & vs & _ & _ & _ & H & _). discriminate.
Qed.

(** ** C22 *)

(** Whatever the back-end answers, without rewriting. *)
Theorem C22_equalities_checked pb qr qp pb' : p_rewrite pb = false -> solve pb qr qp = (pb', Ok tt) ->
  forall c i, In c (p_cons pb) -> c_prio c = Hard -> c_type c = Equality -> (i < rows (c_expr c))%nat ->
    Rabs (row (c_expr c) (vat (p_x pb')) i) <= 1 / 1000000.
Proof.
  intros Hr H. destruct (solve_cases pb qr qp) as [(pb1 & e1 & E & V & N)|[(pb1 & E)|(a & pb1 & vs & Ha & _ & E & _ & _ & _ & Hv & _)]];
    rewrite E in H; [discriminate|discriminate|injection H as <-].
  intros c i Hc Hp Ht Hi.
  exact (violated_bound (reset pb) qr a (p_x pb1) Hr Ha Hv (reset_active c) i (in_map reset_active _ _ Hc) Hp Ht Hi).
Qed.

(** Whatever the back-end answers, with rewriting: the equalities hold by construction. *)
Theorem C22_equalities_rewritten pb qr qp pb' : qr_correct qr -> p_rewrite pb = true ->
  solve pb qr qp = (pb', Ok tt) -> hard_equalities_hold (p_cons pb) (vat (p_x pb')).
Proof.
  intros Hqr Hr H. destruct (solve_cases pb qr qp) as [(pb1 & e1 & E & V & N)|[(pb1 & E)|(a & pb1 & vs & Ha & _ & E & _ & Hx & _)]];
    rewrite E in H; [discriminate|discriminate|injection H as <-].
  destruct (C19_elimination (reset pb) qr a Hqr Hr Ha) as (_ & H & _). rewrite Hx.
  exact (proj1 (hard_equalities_reset _ _) (H _)).
Qed.

(** No NaN: none of the entries of the back-end's vector x is computed from is NaN. *)
Theorem C22_no_nan pb qr qp pb' : solve pb qr qp = (pb', Ok tt) ->
  exists a, assemble (set_cons pb (map reset_active (p_cons pb))) qr = Ok a /\ q_inf (qp (a_qp a)) = false /\
    forall j, (j < a_free a)%nat -> q_nan (qp (a_qp a)) j = false.
Proof.
  intros H. destruct (solve_cases pb qr qp) as [(pb1 & e1 & E & V & N)|[(pb1 & E)|(a & pb1 & vs & Ha & _ & E & Hi & _ & _ & _ & Hn & _)]];
    rewrite E in H; [discriminate|discriminate|injection H as <-].
  exists a. split; [exact Ha|]. split; [exact Hi|]. intros j Hj. destruct (q_nan (qp (a_qp a)) j) eqn:En; [|reflexivity].
  exfalso. unfold x_has_nan in Hn. assert (T : exists_below (if Nat.eqb (r_det (a_red a)) 0 then a_free a + a_slack a else a_free a) (q_nan (qp (a_qp a))) = true).
  { apply exists_below_iff. exists j. split; [destruct (Nat.eqb _ 0); lia|exact En]. }
  congruence.
Qed.

(** ** C23 *)

(** The rows of a soft inequality are numbered among all slacks, those of a hard inequality after all the slacks. *)
Theorem C23_active_sets pb qr qp pb' : solve pb qr qp = (pb', Ok tt) ->
  exists a, assemble (set_cons pb (map reset_active (p_cons pb))) qr = Ok a /\
  length (p_cons pb') = length (p_cons pb) /\
  forall i c, nth_error (p_cons pb) i = Some c ->
    exists c', nth_error (p_cons pb') i = Some c' /\
      c_expr c' = c_expr c /\ c_type c' = c_type c /\ c_prio c' = c_prio c /\ c_weight c' = c_weight c /\
      (c_active c' = true <->
         match c_type c, c_prio c with
         | Equality, _ => True
         | Inequality, Hard =>
             exists j, (j < rows (c_expr c))%nat /\
               In (Z.of_nat (soft_inequality_rows (p_cons pb) + hard_inequality_rows (firstn i (p_cons pb)) + j))
                  (q_active (qp (a_qp a)))
         | Inequality, Soft =>
             exists j, (j < rows (c_expr c))%nat /\
               let k := (soft_inequality_rows (firstn i (p_cons pb)) + j)%nat in
               q_nan (qp (a_qp a)) (a_free a + k)%nat = false /\ vat (p_slacks pb') k <= 1 / 1000000
         end).
Proof.
  intros H. destruct (solve_cases pb qr qp) as [(pb1 & e1 & E & V & N)|[(pb1 & E)|(a & pb1 & vs & Ha & _ & E & _ & _ & Hsl & _ & _ & _ & _ & _ & Hcs)]];
    rewrite E in H; [discriminate|discriminate|injection H as <-].
  exists a. split; [exact Ha|].
  destruct (assemble_maps (reset pb) qr a Ha) as (M1 & M2 & M3). cbn [reset set_cons p_cons] in M1, M2, M3.
  set (cs := map reset_active (p_cons pb)) in *. set (r := qp (a_qp a)) in *.
  assert (Lact : forall l k, length (activate l k) = length l).
  { induction l as [|x l IH]; intros [|k]; cbn; auto. }
  assert (Lh : forall act l, length (report_hard (a_hard a) act l) = length l).
  { induction act as [|k act IH]; intros l; [reflexivity|]. unfold report_hard in *. cbn [fold_left]. rewrite IH.
    destruct (0 <=? k)%Z; [|reflexivity]. destruct (a_hard a (Z.to_nat k)); [apply Lact|reflexivity]. }
  assert (Ls : forall n l, length (report_soft n (a_free a) r (a_soft a) l) = length l).
  { induction n as [|n IH]; intros l; [reflexivity|]. cbn [report_soft].
    destruct (_ && _); [|apply IH]. destruct (a_soft a n); [rewrite Lact|]; apply IH. }
  split.
  { rewrite Hcs, Ls, Lh. unfold cs. apply map_length. }
  intros i c Hc.
  assert (Hlen : (i < length (p_cons pb1))%nat).
  { rewrite Hcs, Ls, Lh. unfold cs. rewrite map_length. apply nth_error_Some. congruence. }
  destruct (nth_error (p_cons pb1) i) as [c'|] eqn:Ec'; [|apply nth_error_None in Ec'; lia].
  exists c'. split; [reflexivity|].
  rewrite Hcs in Ec'. apply report_soft_nth in Ec'. destruct Ec' as (c1 & Ec1 & F1 & F2 & F3 & F4 & F5).
  apply report_hard_nth in Ec1. destruct Ec1 as (c2 & Ec2 & G1 & G2 & G3 & G4 & G5).
  assert (Ec : nth_error cs i = Some (reset_active c)) by (unfold cs; rewrite nth_error_map, Hc; reflexivity).
  rewrite Ec in Ec2. injection Ec2 as <-. cbn [reset_active c_expr c_type c_prio c_weight c_active] in *.
  split; [congruence|]. split; [congruence|]. split; [congruence|]. split; [congruence|].
  rewrite F5, G5, !orb_true_iff, exists_below_iff.
  assert (Hs : (exists k, (k < a_slack a)%nat /\ soft_hit (a_free a) r (a_soft a) i k = true) <->
     (c_prio c = Soft /\ c_type c = Inequality /\ exists j, (j < rows (c_expr c))%nat /\
        let k := (soft_inequality_rows (firstn i (p_cons pb)) + j)%nat in
        q_nan r (a_free a + k)%nat = false /\ vat (p_slacks pb1) k <= 1 / 1000000)).
  { rewrite Hsl. cbn [vat]. split.
    - intros (k & Hk & Hh). unfold soft_hit in Hh. apply andb_true_iff in Hh. destruct Hh as [Hh Hm].
      apply andb_true_iff in Hh. destruct Hh as [Hx Hn]. destruct (a_soft a k) as [idx|] eqn:Es; [|discriminate].
      apply Nat.eqb_eq in Hm. subst idx. apply M3 in Es. destruct Es as (c0 & E0 & P0 & T0 & K0).
      rewrite Ec in E0. injection E0 as <-. cbn in P0, T0, K0. split; [exact P0|]. split; [exact T0|].
      assert (Hf : firstn i cs = map reset_active (firstn i (p_cons pb))) by (unfold cs; apply firstn_map).
      rewrite Hf, soft_rows_reset in K0. exists (k - soft_inequality_rows (firstn i (p_cons pb)))%nat. split; [lia|]. cbv zeta.
      replace (soft_inequality_rows (firstn i (p_cons pb)) + (k - soft_inequality_rows (firstn i (p_cons pb))))%nat with k by lia.
      apply negb_true_iff in Hn. split; [exact Hn|]. destruct (Rle_dec _ _); [assumption|discriminate].
    - intros (P0 & T0 & j & Hj & Hn & Hx). cbv zeta in Hn, Hx. set (k := (soft_inequality_rows (firstn i (p_cons pb)) + j)%nat) in *.
      assert (Hf : firstn i cs = map reset_active (firstn i (p_cons pb))) by (unfold cs; apply firstn_map).
      assert (Es : a_soft a k = Some i).
      { apply M3. exists (reset_active c). split; [exact Ec|]. cbn. rewrite Hf, soft_rows_reset. repeat split; auto; unfold k; lia. }
      exists k. split.
      + rewrite M1. unfold cs. rewrite soft_rows_reset. unfold k. clear - Hc Hj P0 T0.
        revert i Hc. induction (p_cons pb) as [|d l IH]; intros [|i] Hc; try discriminate; cbn in Hc.
        * injection Hc as ->. cbn. rewrite P0, T0. lia.
        * cbn [firstn soft_inequality_rows]. specialize (IH i Hc). lia.
      + unfold soft_hit. rewrite Es, Nat.eqb_refl, Hn. destruct (Rle_dec _ _); [reflexivity|contradiction]. }
  assert (Hh : hits (a_hard a) (q_active r) i = true <->
     (c_prio c = Hard /\ c_type c = Inequality /\ exists j, (j < rows (c_expr c))%nat /\
        In (Z.of_nat (soft_inequality_rows (p_cons pb) + hard_inequality_rows (firstn i (p_cons pb)) + j)) (q_active r))).
  { assert (Hf : firstn i cs = map reset_active (firstn i (p_cons pb))) by (unfold cs; apply firstn_map).
    unfold hits. rewrite existsb_exists. split.
    - intros (k & Hin & Hk). apply andb_true_iff in Hk. destruct Hk as [Hk0 Hk]. apply Z.leb_le in Hk0.
      destruct (a_hard a (Z.to_nat k)) as [idx|] eqn:Es; [|discriminate]. apply Nat.eqb_eq in Hk. subst idx.
      apply M2 in Es. destruct Es as (c0 & E0 & P0 & T0 & K0). rewrite Ec in E0. injection E0 as <-. cbn in P0, T0, K0.
      split; [exact P0|]. split; [exact T0|]. rewrite Hf, hard_rows_reset in K0. unfold cs in K0. rewrite soft_rows_reset in K0.
      exists (Z.to_nat k - (soft_inequality_rows (p_cons pb) + hard_inequality_rows (firstn i (p_cons pb))))%nat. split; [lia|].
      replace (Z.of_nat _) with k by lia. exact Hin.
    - intros (P0 & T0 & j & Hj & Hin). eexists. split; [exact Hin|].
      apply andb_true_iff. split; [apply Z.leb_le; lia|]. rewrite Nat2Z.id.
      assert (Es : a_hard a (soft_inequality_rows (p_cons pb) + hard_inequality_rows (firstn i (p_cons pb)) + j) = Some i).
      { apply M2. exists (reset_active c). split; [exact Ec|]. cbn. rewrite Hf, hard_rows_reset. unfold cs. rewrite soft_rows_reset.
        repeat split; auto; lia. }
      rewrite Es. apply Nat.eqb_refl. }
  rewrite Hs, Hh. unfold is_eq. destruct (c_type c), (c_prio c); split; try tauto; intros; try (right; right; reflexivity);
    try (left; repeat split; assumption); try (right; left; repeat split; assumption);
    repeat match goal with H : _ \/ _ |- _ => destruct H | H : _ /\ _ |- _ => destruct H end; try discriminate; assumption.
Qed.

(** ** C24 *)

(** What happens: a hard equality with too many columns, or with heights that differ, is undefined behaviour. *)
Theorem C24_ill_formed_behaviour pb qr qp c : In c (p_cons pb) -> c_prio c = Hard -> c_type c = Equality ->
  ((p_n pb < cols (c_expr c))%nat \/ vlen (eb (c_expr c)) <> rows (c_expr c)) -> snd (solve pb qr qp) = UB.
Proof.
  intros Hc Hp Ht Hbad. unfold solve, assemble. cbn [set_cons p_n p_cons].
  rewrite stack_not; [reflexivity|]. intros HF. rewrite Forall_map, Forall_forall in HF. destruct (HF c Hc Hp Ht) as [H1 H2]. cbn in H1, H2. lia.
Qed.

Theorem C24_ill_formed_refuted : exists pb sizes c, reachable pb sizes /\ In c (p_cons pb) /\ (p_n pb < cols (c_expr c))%nat /\
  forall qr qp, snd (solve pb qr qp) = UB.
Proof.
  set (c := PConstraint (ex_row 2 1 0) Equality Hard 1 false).
  exists (add_constraint (fst (add_variable new_problem 1)) c), [1%nat], c.
  split; [apply reach_constraint; apply (reach_variable _ []); constructor|].
  split; [now left|]. split; [cbn; lia|]. intros qr qp.
  apply (C24_ill_formed_behaviour _ qr qp c); [now left|reflexivity|reflexivity|left; cbn; lia].
Qed.

(** Missing: ill-formed hard equalities, for which it is false. *)
Theorem C24_ill_formed_partial pb qr qp c :
  (forall d, In d (p_cons pb) -> c_prio d = Hard -> c_type d = Equality ->
     (cols (c_expr d) <= p_n pb)%nat /\ vlen (eb (c_expr d)) = rows (c_expr d)) ->
  In c (p_cons pb) ->
  ((p_n pb < cols (c_expr c))%nat \/ rows (c_expr c) = 0%nat \/ vlen (eb (c_expr c)) <> rows (c_expr c)) ->
  snd (solve pb qr qp) = Throw EQP.
Proof.
  intros Hs Hc Hbad. apply solve_ill_formed.
  - apply Forall_forall. intros d Hd Hp Ht. now apply Hs.
  - intros HF. rewrite Forall_forall in HF. destruct (HF c Hc) as (H1 & H2 & H3). lia.
Qed.

Example C24_example : exists pb sizes c, reachable pb sizes /\
  (forall d, In d (p_cons pb) -> c_prio d = Hard -> c_type d = Equality ->
     (cols (c_expr d) <= p_n pb)%nat /\ vlen (eb (c_expr d)) = rows (c_expr d)) /\
  In c (p_cons pb) /\ (p_n pb < cols (c_expr c))%nat.
Proof.
  set (c := PConstraint (ex_row 2 1 0) Inequality Hard 1 false).
  exists (add_constraint (fst (add_variable new_problem 1)) c), [1%nat], c.
  split; [apply reach_constraint; apply (reach_variable _ []); constructor|].
  split; [intros d [<-|[]]; discriminate|]. split; [now left|cbn; lia].
Qed.

(** ** C81 *)

(** A hard equality added twice makes solve fail when equalities are rewritten, although the problem has the same
    solutions as with one copy. *)
Theorem C81_duplicate_equality_behaviour pb qr qp c l1 l2 l3 : qr_correct qr -> p_rewrite pb = true ->
  (forall d, In d (p_cons pb) -> c_prio d = Hard -> c_type d = Equality ->
     (cols (c_expr d) <= p_n pb)%nat /\ vlen (eb (c_expr d)) = rows (c_expr d)) ->
  p_cons pb = l1 ++ c :: l2 ++ c :: l3 -> c_prio c = Hard -> c_type c = Equality -> (0 < rows (c_expr c))%nat ->
  snd (solve pb qr qp) = Throw EQP.
Proof.
  intros Hqr Hr Hst Hcs Hp Ht Hrow. apply (solve_duplicate pb qr qp c l1 l2 l3); auto.
  apply Forall_forall. intros d Hd H1 H2. now apply Hst.
Qed.

(** A consistent problem (x0 = 3, twice) that no correct decomposition can solve. *)
Theorem C81_redundant_equalities_refuted : exists pb sizes x, reachable pb sizes /\ well_formed pb /\ p_rewrite pb = true /\
  hard_holds (p_cons pb) x /\ forall qr qp, qr_correct qr -> snd (solve pb qr qp) = Throw EQP.
Proof.
  set (c := PConstraint (ex_row 2 0 3) Equality Hard 1 false).
  exists (add_constraint (add_constraint (fst (add_variable new_problem 2)) c) c), [2%nat], (fun _ => 3).
  split; [do 2 apply reach_constraint; apply (reach_variable _ []); constructor|].
  split; [intros d [<-|[<-|[]]]; cbn; lia|]. split; [reflexivity|].
  split; [intros d [<-|[<-|[]]] _ i Hi; unfold row; cbn; ring|].
  intros qr qp Hqr. apply (C81_duplicate_equality_behaviour _ qr qp c [] [] []); try reflexivity; auto.
  intros d [<-|[<-|[]]] _ _; cbn; lia.
Qed.

(** In general: a well-formed problem whose hard equalities are linearly dependent is always refused, whatever the
    right-hand sides are. A successful [solve] is therefore a proof of independence. *)
Theorem C81_dependent_equalities_behaviour pb qr qp : qr_correct qr -> p_rewrite pb = true -> well_formed pb ->
  ~ independent_equalities pb -> snd (solve pb qr qp) = Throw EQP.
Proof.
  intros Hqr Hr Hw Hn. apply solve_dependent; auto. apply Forall_forall. intros c Hc _ _. destruct (Hw c Hc) as (_ & H1 & H2). auto.
Qed.

Theorem C81_success_means_independent pb qr qp pb' : qr_correct qr -> p_rewrite pb = true ->
  solve pb qr qp = (pb', Ok tt) -> independent_equalities pb.
Proof. intros Hqr Hr H. exact (solve_independent pb qr qp pb' Hqr Hr H). Qed.

(** What is proved instead: with linearly independent equalities the elimination succeeds, or the decomposition
    misjudged the rank of a matrix with independent columns. Missing: redundant but consistent systems. *)
Theorem C81_independent_equalities_partial pb qr : well_formed pb -> independent_equalities pb ->
  (exists a, assemble pb qr = Ok a) \/ qr_fails qr.
Proof. intros Hw Hi. now apply assemble_complete. Qed.

Example C81_example : well_formed ex_pb /\ independent_equalities ex_pb.
Proof.
  split; [intros d [<-|[<-|[]]]; cbn; lia|]. intros mu Hmu k Hk. cbn in Hk. destruct k as [|k]; [|lia].
  specialize (Hmu 0%nat ltac:(cbn; lia)). cbn in Hmu. lra.
Qed.

(** ** C82 *)

(** With rewriting off, hard equalities and soft inequalities together hand the back-end equality rows shorter than
    its vector of unknowns. *)
Theorem C82_options_behaviour pb qr qp : p_rewrite pb = false -> well_formed pb -> 
  (exists c, In c (p_cons pb) /\ c_prio c = Hard /\ c_type c = Equality) ->
  (exists c, In c (p_cons pb) /\ c_prio c = Soft /\ c_type c = Inequality) ->
  snd (solve pb qr qp) = UB.
Proof.
  intros Hr Hw (c1 & Hc1 & Hp1 & Ht1) (c2 & Hc2 & Hp2 & Ht2). apply solve_short_rows; auto.
  - apply Forall_forall. exact Hw.
  - apply (equality_count_pos _ c1); auto. apply Hw, Hc1.
  - apply (soft_rows_pos _ c2); auto. apply Hw, Hc2.
Qed.

Theorem C82_options_refuted : exists pb sizes, reachable pb sizes /\ well_formed pb /\ forall qr qp, snd (solve pb qr qp) = UB.
Proof.
  set (c1 := PConstraint (ex_row 2 0 3) Equality Hard 1 false). set (c2 := PConstraint (ex_row 2 1 0) Inequality Soft 1 false).
  set (pb := add_constraint (add_constraint (fst (add_variable new_problem 2)) c1) c2).
  exists (Problem (p_n pb) (p_vars pb) (p_cons pb) 1 false false (p_x pb) (p_slacks pb)), [2%nat].
  split; [apply reach_options; do 2 apply reach_constraint; apply (reach_variable _ []); constructor|].
  assert (Hw : well_formed (Problem (p_n pb) (p_vars pb) (p_cons pb) 1 false false (p_x pb) (p_slacks pb)))
    by (intros d [<-|[<-|[]]]; cbn; lia).
  split; [exact Hw|].
  intros qr qp. apply C82_options_behaviour; [reflexivity|exact Hw| |].
  - exists c1. cbn. auto.
  - exists c2. cbn. auto.
Qed.

(** With rewriting on (the default), or without hard equalities, or without soft inequalities, a well-formed problem
    never meets undefined behaviour, whatever the options and the back-end. Missing: the remaining combination. *)
Theorem C82_options_partial pb sizes qr qp : reachable pb sizes -> well_formed pb ->
  (p_rewrite pb = true \/ (forall c, In c (p_cons pb) -> c_prio c = Hard -> c_type c <> Equality) \/
   (forall c, In c (p_cons pb) -> c_prio c = Soft -> c_type c <> Inequality)) ->
  snd (solve pb qr qp) <> UB.
Proof.
  intros Hre Hw H. apply solve_not_UB.
  - now apply reachable_tiles in Hre.
  - apply Forall_forall. intros c Hc _ _. destruct (Hw c Hc) as (_ & H1 & H2). auto.
  - destruct H as [H|[H|H]]; [now left|right; left; now apply equality_count_zero|right; right]. now apply soft_rows_zero.
Qed.

(** ** C83 *)

Theorem C83_feasible_problems_are_solved pb sizes qr qp : reachable pb sizes -> well_formed pb ->
  qr_correct qr -> qp_correct qp ->
  (p_rewrite pb = true \/ forall c, In c (p_cons pb) -> c_prio c = Soft -> c_type c <> Inequality) ->
  independent_equalities pb -> 0 < p_reg pb ->
  (forall c, In c (p_cons pb) -> c_prio c = Soft -> 0 < c_weight c) ->
  (exists x, hard_holds (p_cons pb) x) ->
  (exists pb', solve pb qr qp = (pb', Ok tt)) \/ qr_fails qr \/ qp_fails qp.
Proof.
  intros Hre Hw Hqr Hqp Hopt Hi Hreg Hwt Hx. apply reachable_tiles in Hre. destruct Hre as [Ht _].
  apply solve_complete; auto. intros c Hc Hp. apply Rlt_le. now apply Hwt.
Qed.

Example C83_example : exists pb, reachable pb [2%nat] /\ well_formed pb /\ independent_equalities pb /\ 0 < p_reg pb /\ p_sparse pb = false /\
  p_rewrite pb = true /\ (forall c, In c (p_cons pb) -> c_prio c = Soft -> 0 < c_weight c) /\ exists x, hard_holds (p_cons pb) x.
Proof.
  exists ex_pb. split.
  - assert (R : reachable (add_constraint (add_constraint (fst (add_variable new_problem 2)) (PConstraint (ex_row 2 0 3) Equality Hard 1 false))
      (PConstraint (ex_row 2 1 2) Equality Soft 1 false)) [2%nat]) by (do 2 apply reach_constraint; apply (reach_variable _ []); constructor).
    apply (reach_options _ _ 1 false true) in R. exact R.
  - destruct C81_example as [W I]. split; [exact W|]. split; [exact I|]. split; [cbn; lra|]. split; [reflexivity|]. split; [reflexivity|].
    split; [intros c [<-|[<-|[]]]; cbn; intros; [discriminate|lra]|].
    exists (fun _ => 3). intros c [<-|[<-|[]]] Hp i Hi; [|discriminate]. unfold row. cbn. ring.
Qed.

Print Assumptions C04_variables_tile.
Print Assumptions C14_add_limit.
Print Assumptions C16_sparsity_partial.
Print Assumptions C20_optimum.
Print Assumptions C20_feasible.
Print Assumptions C21_only_qp_errors.
Print Assumptions C81_dependent_equalities_behaviour.
Print Assumptions C81_success_means_independent.
Print Assumptions C23_active_sets.
Print Assumptions C24_ill_formed_partial.
Print Assumptions C83_feasible_problems_are_solved.
