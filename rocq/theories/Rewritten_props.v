(** C16: the sparsity option when equalities are rewritten. *)
From Coq Require Import Reals Lra Lia List ZArith Bool.
From Verif Require Import Base Linalg Expression_model Problem_model Problem_spec Problem_proofs Problem_proofs2 Problem_proofs3 Problem_props.
Import ListNotations.
Open Scope R_scope.

Lemma objective_loop_sparse_red n rd cs :
  (forall c, In c cs -> c_prio c = Soft -> c_type c = Equality -> contiguous (fst (constraint_expressions n rd (c_expr c)))) ->
  forall P q, objective_loop true n rd cs P q = objective_loop false n rd cs P q.
Proof.
  induction cs as [|c r IH]; intros Hc P q; [reflexivity|]. cbn [objective_loop].
  destruct (Nat.ltb n (cols (c_expr c))); [reflexivity|].
  destruct (Nat.eqb (rows (c_expr c)) 0 || Nat.eqb (vlen (eb (c_expr c))) 0); [reflexivity|].
  destruct (negb (Nat.eqb (rows (c_expr c)) (vlen (eb (c_expr c))))); [reflexivity|].
  destruct (is_eq c && negb (is_hard c)) eqn:E.
  - assert (C : contiguous (fst (constraint_expressions n rd (c_expr c)))).
    { apply Hc; [now left| |]; unfold is_eq, is_hard in E; destruct (c_prio c), (c_type c); cbn in E; congruence. }
    destruct (constraint_expressions n rd (c_expr c)) as [A b]. rewrite add_gram_sparse_contiguous by exact C. apply IH. intros; apply Hc; auto. now right.
  - apply IH. intros; apply Hc; auto. now right.
Qed.

(** The matrix of a soft equality in the unknowns that remain once the equalities are eliminated. *)
Definition reduced (pb : problem) (a : assembled) (c : pconstraint) : mat := fst (constraint_expressions (p_n pb) (a_red a) (c_expr c)).

Lemma assemble_sparse_red pb qr a : assemble (with_sparsity pb true) qr = Ok a ->
  (forall c, In c (p_cons pb) -> c_prio c = Soft -> c_type c = Equality -> contiguous (reduced pb a c)) ->
  assemble (with_sparsity pb false) qr = Ok a.
Proof.
  unfold assemble, reduced. cbn [with_sparsity p_n p_cons p_rewrite p_sparse p_reg].
  destruct (stack_equalities _ _ _ _ _) as [[A b]| |]; [|discriminate|discriminate]. cbn [obind fst snd].
  destruct (eliminate _ _ _ _ _) as [rd| |]; [|discriminate|discriminate]. cbn [obind]. intros E Hc.
  rewrite <- objective_loop_sparse_red; [exact E|]. destruct (objective_loop true _ _ _ _ _) as [pq| |]; [|discriminate E|discriminate E]. cbn [obind] in E.
  injection E as <-. exact Hc.
Qed.

Lemma slack_count_reset cs : slack_count (map reset_active cs) = slack_count cs.
Proof. induction cs as [|c r IH]; [reflexivity|]. cbn [map slack_count]. now rewrite IH. Qed.
Lemma inequality_count_reset cs : inequality_count (map reset_active cs) = inequality_count cs.
Proof. induction cs as [|c r IH]; [reflexivity|]. cbn [map inequality_count]. now rewrite IH. Qed.
Lemma stack_reset cs n : forall k A b, stack_equalities (map reset_active cs) n k A b = stack_equalities cs n k A b.
Proof.
  induction cs as [|c r IH]; intros k A b; [reflexivity|]. cbn [map stack_equalities]. change (is_eq (reset_active c)) with (is_eq c). change (is_hard (reset_active c)) with (is_hard c).
  cbn [reset_active c_expr]. destruct (is_eq c && is_hard c); [|apply IH]. destruct (Nat.leb _ _ && Nat.eqb _ _); [|reflexivity]. cbn [guard]. apply IH.
Qed.
Lemma objective_reset sp n rd cs : forall P q, objective_loop sp n rd (map reset_active cs) P q = objective_loop sp n rd cs P q.
Proof.
  induction cs as [|c r IH]; intros P q; [reflexivity|]. cbn [map objective_loop]. change (is_eq (reset_active c)) with (is_eq c). change (is_hard (reset_active c)) with (is_hard c).
  cbn [reset_active c_expr c_weight]. destruct (constraint_expressions n rd (c_expr c)). now rewrite !IH.
Qed.
Lemma inequality_reset n N free rd cs : forall i s, inequality_loop n N free rd (map reset_active cs) i s = inequality_loop n N free rd cs i s.
Proof.
  induction cs as [|c r IH]; intros i s; [reflexivity|]. cbn [map inequality_loop]. change (is_eq (reset_active c)) with (is_eq c). change (is_hard (reset_active c)) with (is_hard c).
  cbn [reset_active c_expr c_weight]. destruct (constraint_expressions n rd (c_expr c)). now rewrite !IH.
Qed.
Lemma assemble_reset pb qr : assemble (reset pb) qr = assemble pb qr.
Proof.
  unfold assemble. cbn [reset set_cons p_n p_cons p_rewrite p_sparse p_reg]. rewrite slack_count_reset, stack_reset, equality_count_reset, inequality_count_reset.
  destruct (stack_equalities _ _ _ _ _) as [Ab| |]; [|reflexivity|reflexivity]. cbn [obind]. destruct (eliminate _ _ _ _ _) as [rd| |]; [|reflexivity|reflexivity]. cbn [obind].
  rewrite objective_reset. destruct (objective_loop _ _ _ _ _ _) as [Pq| |]; [|reflexivity|reflexivity]. cbn [obind]. now rewrite inequality_reset.
Qed.

Lemma with_sparsity_same pb : p_sparse pb = true -> with_sparsity pb true = pb.
Proof. destruct pb. cbn. now intros ->. Qed.

(** The option changes nothing either when equalities are rewritten, provided the non-zero columns of each soft equality are
    contiguous once written in the remaining unknowns: the solution is an optimum of the problem. Missing: the other matrices. *)
Theorem C16_rewritten_partial pb qr qp pb' : qr_correct qr -> qp_correct qp -> p_sparse pb = true ->
  (forall c, In c (p_cons pb) -> c_prio c = Soft -> c_type c = Inequality -> 0 <= c_weight c) ->
  (forall a, assemble pb qr = Ok a -> forall c, In c (p_cons pb) -> c_prio c = Soft -> c_type c = Equality -> contiguous (reduced pb a c)) ->
  solve pb qr qp = (pb', Ok tt) ->
  hard_holds (p_cons pb) (vat (p_x pb')) /\ forall x, hard_holds (p_cons pb) x -> cost pb (vat (p_x pb')) <= cost pb x.
Proof.
  intros Hqr Hqp Hs Hw Hc E.
  assert (K : exists pb'', solve (with_sparsity pb false) qr qp = (pb'', Ok tt) /\ p_x pb'' = p_x pb').
  { rewrite <- (with_sparsity_same pb Hs) in E. revert E. unfold solve.
    change (set_cons (with_sparsity pb true) (map reset_active (p_cons (with_sparsity pb true)))) with (with_sparsity (reset pb) true).
    change (set_cons (with_sparsity pb false) (map reset_active (p_cons (with_sparsity pb false)))) with (with_sparsity (reset pb) false).
    destruct (assemble (with_sparsity (reset pb) true) qr) as [a| |] eqn:Ea; [|discriminate|discriminate].
    rewrite (assemble_sparse_red (reset pb) qr a Ea).
    - destruct (qp_sizes_ok (a_qp a)); [|discriminate]. unfold finish. cbn [with_sparsity p_n]. destruct (q_inf _); [discriminate|].
      destruct (equality_violated _ _); [discriminate|]. destruct (x_has_nan _ _); [discriminate|].
      cbn [set_slacks set_cons set_x with_sparsity reset p_vars p_n]. destruct (update_variables _ _); try discriminate. intros E. injection E as <-. eexists. split; reflexivity.
    - intros c Hin Hp Ht. cbn in Hin. apply in_map_iff in Hin. destruct Hin as (c' & <- & Hin). cbn in Hp, Ht.
      refine (Hc a _ c' Hin Hp Ht). rewrite <- Ea. change (with_sparsity (reset pb) true) with (reset (with_sparsity pb true)). rewrite assemble_reset. now rewrite with_sparsity_same. }
  destruct K as (pb'' & E'' & <-). exact (C20_optimum (with_sparsity pb false) qr qp pb'' Hqr Hqp eq_refl Hw E'').
Qed.

Lemma solve_sparse_red pb qr qp pb' : (forall a, assemble (with_sparsity pb false) qr = Ok a ->
    forall c, In c (p_cons pb) -> c_prio c = Soft -> c_type c = Equality -> contiguous (reduced pb a c)) ->
  solve (with_sparsity pb false) qr qp = (pb', Ok tt) -> exists pb'', solve (with_sparsity pb true) qr qp = (pb'', Ok tt).
Proof.
  intros Hc. unfold solve.
  change (set_cons (with_sparsity pb true) (map reset_active (p_cons (with_sparsity pb true)))) with (reset (with_sparsity pb true)).
  change (set_cons (with_sparsity pb false) (map reset_active (p_cons (with_sparsity pb false)))) with (reset (with_sparsity pb false)). rewrite !assemble_reset.
  destruct (assemble (with_sparsity pb false) qr) as [a| |] eqn:Ea; [|discriminate|discriminate].
  assert (E : assemble (with_sparsity pb true) qr = Ok a).
  { specialize (Hc a eq_refl). revert Ea Hc. unfold assemble, reduced. cbn [with_sparsity p_n p_cons p_rewrite p_sparse p_reg].
    destruct (stack_equalities _ _ _ _ _) as [[A b]| |]; [|discriminate|discriminate]. cbn [obind fst snd].
    destruct (eliminate _ _ _ _ _) as [rd| |]; [|discriminate|discriminate]. cbn [obind]. intros Ea Hc.
    rewrite objective_loop_sparse_red; [exact Ea|]. destruct (objective_loop false _ _ _ _ _) as [pq| |]; [|discriminate Ea|discriminate Ea]. cbn [obind] in Ea.
    injection Ea as <-. exact Hc. }
  rewrite E. destruct (qp_sizes_ok (a_qp a)); [|discriminate]. unfold finish. cbn [reset set_cons with_sparsity p_n]. destruct (q_inf _); [discriminate|].
  destruct (equality_violated _ _); [discriminate|]. destruct (x_has_nan _ _); [discriminate|].
  cbn [set_slacks set_cons set_x with_sparsity reset p_vars p_n]. destruct (update_variables _ _); try discriminate. intros _. eexists. reflexivity.
Qed.

Lemma ex_reduced b a : assemble (with_sparsity ex_pb b) ex_qr = Ok a -> forall c, In c (p_cons ex_pb) -> c_prio c = Soft -> contiguous (reduced ex_pb a c).
Proof.
  unfold assemble. cbn [with_sparsity ex_pb p_n p_cons p_rewrite p_sparse p_reg stack_equalities is_eq is_hard c_type c_prio c_expr
      andb cols rows ex_row eA eb mcols mrows vlen Nat.leb Nat.eqb guard obind fst snd equality_count slack_count Nat.add negb].
  unfold eliminate. cbn [mrows mcols mat_at andb Nat.ltb Nat.leb]. unfold ex_qr at 1 2 3 4 5. cbn [mrows mcols Nat.eqb andb mat_at Nat.leb Nat.ltb Nat.sub Nat.add].
  destruct (Req_EM_T 1 1) as [_|]; [|lra]. destruct (Req_EM_T 0 0) as [_|]; [|lra].
  cbn [qr_rank Nat.eqb negb obind r_det]. cbn [objective_loop Nat.sub c_expr reset_active cols rows eA eb mcols mrows vlen Nat.ltb Nat.leb Nat.eqb orb negb is_eq is_hard c_type c_prio andb].
  intros E. injection E as <-. intros c [<-|[<-|[]]] Hp; [discriminate Hp|]. unfold reduced, constraint_expressions. cbn [a_red r_det r_Q Nat.eqb fst ex_pb p_n c_expr ex_row rows mrows eA].
  exists 0%nat, 1%nat. cbn [mcols mrows mat_at Nat.sub]. split; [lia|]. split; [intros; lia|]. intros j Hj. exists 0%nat. split; [lia|]. replace j with 0%nat by lia.
  cbn. unfold padded. cbn. repeat match goal with |- context [Req_EM_T ?u ?u] => destruct (Req_EM_T u u) as [_|]; [|congruence] end. cbn. rewrite Rabs_right; lra.
Qed.

(** A hard and a soft equality, the option being on. *)
Example C16_rewritten_example : qr_correct ex_qr /\ qp_correct ex_qp /\ let pb := with_sparsity ex_pb true in p_sparse pb = true /\ p_rewrite pb = true /\
  (forall a, assemble pb ex_qr = Ok a -> forall c, In c (p_cons pb) -> c_prio c = Soft -> c_type c = Equality -> contiguous (reduced pb a c)) /\
  exists pb', solve pb ex_qr ex_qp = (pb', Ok tt).
Proof.
  split; [exact ex_qr_correct|]. split; [exact ex_qp_correct|]. cbv zeta. split; [reflexivity|]. split; [reflexivity|]. split.
  - intros a Ha c Hc Hp _. exact (ex_reduced true a Ha c Hc Hp).
  - destruct ex_solve as (pb' & E & _). apply (solve_sparse_red ex_pb ex_qr ex_qp pb'); [|exact E]. intros a Ha c Hc Hp _. exact (ex_reduced false a Ha c Hc Hp).
Qed.

Print Assumptions C16_rewritten_partial.
