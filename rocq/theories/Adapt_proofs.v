(** Proofs about the choice of a ZMP. *)
From Coq Require Import Reals Lra Lia List ZArith Bool Psatz FunctionalExtensionality.
From Verif Require Import Base Linalg Geom3 Tools_model Expression_model Expression_spec Expression_proofs Problem_model Problem_spec Problem_proofs
  Problem_proofs2 Problem_proofs3 Problem_props Rewritten_props Polynom_model Polynom_spec Polynom_props Integrator_model
  Lipm_model Swing_model Geometry_model Footsteps_model Wpg_model Wpg_spec Wpg_proofs2 KinCons_spec Kin_proofs KinCons_proofs WpgPlan_spec WpgPlan_proofs WpgPlan_proofs4
  Adapt_model Adapt_spec.
Import ListNotations.
Open Scope R_scope.

(** ** The pendulum *)

Lemma repelled_exp omega z a : repelled omega z (fun t => z + (a - z) * exp (omega * t)).
Proof.
  intros t. replace (omega * (z + (a - z) * exp (omega * t) - z)) with (0 + (a - z) * (exp (omega * t) * (omega * 1))) by ring.
  apply (derivable_pt_lim_plus (fct_cte z) (fun t => (a - z) * exp (omega * t))); [apply derivable_pt_lim_const|].
  apply (derivable_pt_lim_scal (fun t => exp (omega * t)) (a - z)).
  apply (derivable_pt_lim_comp (fun t => omega * t) exp); [|apply derivable_pt_lim_exp].
  apply (derivable_pt_lim_scal id omega). apply derivable_pt_lim_id.
Qed.

Lemma repelled_unique omega z xi : repelled omega z xi -> forall t, xi t = z + (xi 0 - z) * exp (omega * t).
Proof.
  intros H t. set (h := fun t => (xi t - z) * exp (- omega * t)).
  assert (D : forall u, derivable_pt_lim h u 0).
  { intros u. replace 0 with (omega * (xi u - z) * exp (- omega * u) + (xi u - z) * (exp (- omega * u) * (- omega * 1))) by ring.
    apply (derivable_pt_lim_mult (fun t => xi t - z) (fun t => exp (- omega * t))).
    - replace (omega * (xi u - z)) with (omega * (xi u - z) - 0) by ring. apply (derivable_pt_lim_minus xi (fct_cte z)); [apply H|apply derivable_pt_lim_const].
    - apply (derivable_pt_lim_comp (fun t => - omega * t) exp); [|apply derivable_pt_lim_exp].
      apply (derivable_pt_lim_scal id (- omega)). apply derivable_pt_lim_id. }
  assert (pr : derivable h) by (intros u; exists 0; apply D).
  assert (E : forall u, derive_pt h u (pr u) = 0) by (intros u; apply derive_pt_eq_0, D).
  pose proof (null_derivative_1 h pr E t 0) as C. unfold h in C. rewrite Rmult_0_r, exp_0, Rmult_1_r in C.
  assert (P : exp (- omega * t) * exp (omega * t) = 1) by (rewrite <- exp_plus; replace (- omega * t + omega * t) with 0 by ring; apply exp_0).
  rewrite <- C. rewrite Rmult_assoc, P. ring.
Qed.

Lemma drives_exp omega d z a b : drives omega d z a b <->
  fst b = fst z + (fst a - fst z) * exp (omega * d) /\ snd b = snd z + (snd a - snd z) * exp (omega * d).
Proof.
  split.
  - intros (xi & eta & H1 & H2 & <- & <- & <- & <-). split; now apply repelled_unique.
  - intros [E1 E2]. exists (fun t => fst z + (fst a - fst z) * exp (omega * t)), (fun t => snd z + (snd a - snd z) * exp (omega * t)).
    split; [apply repelled_exp|]. split; [apply repelled_exp|]. rewrite !Rmult_0_r, exp_0. repeat split; try ring; now rewrite ?E1, ?E2.
Qed.

(** ** Solving *)

Lemma solve_answers L pb sizes : qr_correct (l_qr L) -> qp_correct (l_qp L) -> ~ qr_fails (l_qr L) -> ~ qp_fails (l_qp L) ->
  reachable pb sizes -> sound (p_n pb) (p_cons pb) -> p_rewrite pb = true -> independent_equalities pb -> 0 < p_reg pb ->
  ((exists x, hard_holds (p_cons pb) x) -> exists pb', solve pb (l_qr L) (l_qp L) = (pb', Ok tt)) /\
  ((~ exists x, hard_holds (p_cons pb) x) -> solve_or_throw L pb = Throw EQP).
Proof.
  intros Hqr Hqp Fqr Fqp Hre S Rw In' Rp.
  assert (W : Problem_spec.well_formed pb). { intros c Hc. pose proof (proj1 (Forall_forall _ _) S c Hc) as (S1 & S2 & S3 & _). auto. }
  assert (Wt : forall c, In c (p_cons pb) -> c_prio c = Soft -> 0 < c_weight c). { intros c Hc. now pose proof (proj1 (Forall_forall _ _) S c Hc) as (_ & _ & _ & S4). }
  split.
  - intros Hx. destruct (C83_feasible_problems_are_solved pb sizes (l_qr L) (l_qp L)) as [H|[H|H]]; auto; contradiction.
  - intros Hn. unfold solve_or_throw. assert (NU : snd (solve pb (l_qr L) (l_qp L)) <> UB) by (apply (C82_options_partial pb sizes); auto).
    destruct (solve pb (l_qr L) (l_qp L)) as [pb' [[]|e|]] eqn:E.
    + exfalso. apply Hn. eexists. exact (C20_feasible pb _ _ pb' Hqr Hqp E).
    + f_equal. exact (C21_only_qp_errors _ _ _ _ _ E).
    + cbn in NU. congruence.
Qed.

Lemma no_equalities_independent pb : filter hard_eq (p_cons pb) = [] -> independent_equalities pb.
Proof. intros E mu _ k Hk. rewrite rows_filter, E in Hk. cbn in Hk. lia. Qed.

Lemma value_read pb qr qp pb' i v : solve pb qr qp = (pb', Ok tt) -> nth_error (p_vars pb) i = Some v ->
  exists w, value_of pb' i = Ok w /\ forall k, (k < var_size v)%nat -> vat w k = vat (p_x pb') (k_start v + k)%nat.
Proof.
  intros E Hv. pose proof (C21_successful_solve _ _ _ _ E) as F. destruct (Wpg_proofs5.Forall2_nth_l _ _ _ _ _ F Hv) as (v' & Hv' & _ & _ & _ & _ & K).
  unfold value_of, deref. rewrite Hv'. eauto.
Qed.

(** The optimum of a problem without hard equalities, whose soft equalities have contiguous columns. *)
Lemma solve_best pb qr qp pb' : qr_correct qr -> qp_correct qp -> p_sparse pb = true ->
  (forall c, In c (p_cons pb) -> c_prio c = Soft -> 0 < c_weight c) ->
  (forall c, In c (p_cons pb) -> c_prio c = Hard -> c_type c <> Equality) ->
  (forall c, In c (p_cons pb) -> c_prio c = Soft -> c_type c = Equality -> Problem_spec.contiguous (eA (c_expr c))) ->
  solve pb qr qp = (pb', Ok tt) -> forall x, hard_holds (p_cons pb) x -> cost pb (vat (p_x pb')) <= cost pb x.
Proof.
  intros Hqr Hqp Hs Hw Hn Hc E. refine (proj2 (C16_rewritten_partial pb qr qp pb' Hqr Hqp Hs _ _ E)).
  - intros c Hin Hp _. apply Rlt_le. now apply Hw.
  - intros a Ha c Hin Hp Ht. unfold reduced, constraint_expressions.
    assert (D : r_det (a_red a) = 0%nat).
    { revert Ha. unfold assemble. destruct (stack_equalities _ _ _ _ _) as [[A b]| |]; [|discriminate|discriminate]. cbn [obind fst snd].
      destruct (eliminate _ _ _ _ _) as [rd| |] eqn:Ee; [|discriminate|discriminate]. cbn [obind]. destruct (objective_loop _ _ _ _ _ _); try discriminate. cbn [obind].
      intros Ha. injection Ha as <-. cbn [a_red]. apply eliminate_det in Ee; [exact Ee|]. right. cbn [mrows]. now apply equality_count_zero. }
    rewrite D. cbn [Nat.eqb fst]. now apply Hc.
Qed.

Definition axis (j : nat) : nat -> R := fun k => if Nat.eqb k j then 1 else 0.
Lemma made_coeff c t p w n m f i j : made c t p w n m f -> (i < n)%nat -> (j < m)%nat -> mat_at (eA (c_expr c)) i j = f (axis j) i - f (fun _ => 0) i.
Proof.
  intros (_ & _ & _ & _ & _ & Hm & Hr) Hi Hj. rewrite <- !Hr by exact Hi. unfold row. rewrite Hm.
  rewrite (Rsum_delta m j); [|exact Hj|intros k _ Hk; unfold axis; rewrite (proj2 (Nat.eqb_neq _ _) Hk); ring].
  rewrite Rsum_zero_ext by (intros; ring). unfold axis. rewrite Nat.eqb_refl. ring.
Qed.
Lemma made_contiguous c t p w n m f lo hi : made c t p w n m f -> (hi <= m)%nat ->
  (forall i j, (i < n)%nat -> (j < m)%nat -> ~ (lo <= j < hi)%nat -> f (axis j) i = f (fun _ => 0) i) ->
  (forall j, (lo <= j < hi)%nat -> exists i, (i < n)%nat /\ Rabs (f (axis j) i - f (fun _ => 0) i) > 1 / 1000000000000) ->
  Problem_spec.contiguous (eA (c_expr c)).
Proof.
  intros M Hh Z N. pose proof M as (_ & _ & _ & H4 & _ & H6 & _). unfold rows in H4. unfold cols in H6. exists lo, hi. rewrite H4, H6. split; [exact Hh|]. split.
  - intros i j Hi Hj Hn. rewrite (made_coeff _ _ _ _ _ _ _ _ _ M Hi Hj). rewrite (Z i j Hi Hj Hn). ring.
  - intros j Hj. destruct (N j Hj) as (i & Hi & K). exists i. split; [exact Hi|]. assert (Hm : (j < m)%nat) by lia. now rewrite (made_coeff _ _ _ _ _ _ _ _ _ M Hi Hm).
Qed.

Lemma var_all v : (k_start v <= k_end v)%nat -> exists e, var_expr v (-1) (-1) = Ok e /\ denotes e (var_size v) (k_end v) (fun x i => x (k_start v + i)%nat).
Proof. exact (Dyn_proofs2.var_whole v). Qed.

Section Zmp.
Variable L : libs.
Hypothesis Hqr : qr_correct (l_qr L).
Hypothesis Hqp : qp_correct (l_qp L).
Hypothesis Fqr : ~ qr_fails (l_qr L).
Hypothesis Fqp : ~ qp_fails (l_qp L).

Lemma optimal_zmp_total g a b d s polygon ideal : snd (support_support_polygon (l_hull L) s) = Ok polygon -> polygon <> [] -> (forall i A B, edge polygon i A B -> A <> B) ->
  g_omega g * d <> 0 -> drives (g_omega g) d ideal a b ->
  ((exists z, inside polygon (w_zmp_margin (g_params g)) z) -> exists z, get_optimal_zmp L g a b d s = Ok z /\ inside polygon (w_zmp_margin (g_params g)) z /\
     forall z', inside polygon (w_zmp_margin (g_params g)) z' ->
       squared_distance z ideal + 1 / 100000000 * squared_norm z <= squared_distance z' ideal + 1 / 100000000 * squared_norm z') /\
  ((~ exists z, inside polygon (w_zmp_margin (g_params g)) z) -> get_optimal_zmp L g a b d s = Throw EQP).
Proof.
  intros Ep Np Ne Ho Dr. unfold get_optimal_zmp. cbn [add_variable new_problem p_n p_vars set_vars app Nat.add p_cons p_reg p_sparse p_rewrite p_x p_slacks].
  set (v := MkVar 0 2 (Vec 0 (fun _ => 0)) 0). destruct (var_all v ltac:(cbn; lia)) as (e & Ee & De). rewrite Ee. cbn [obind]. cbn [v var_size k_start k_end Nat.sub Nat.add] in De.
  set (E := exp (g_omega g * d)). destruct (Req_EM_T (1 - E) 0) as [X|X].
  { exfalso. apply Ho. apply exp_inv. rewrite exp_0. fold E. lra. }
  cbn [guard obind]. set (target := ((fst b - fst a * E) / (1 - E), (snd b - snd a * E) / (1 - E))).
  assert (Ei : ideal = target).
  { apply drives_exp in Dr. fold E in Dr. destruct ideal as [u w]. cbn [fst snd] in Dr. destruct Dr as [D1 D2]. unfold target. rewrite D1, D2. f_equal; field; exact X. }
  rewrite <- Ei. clear target Ei.
  destruct (made_eq_v e _ _ _ (vec_of_point ideal) De eq_refl) as (c1 & E1 & M1). rewrite E1. cbn [obind].
  rewrite Ep. cbn [obind]. destruct (in_polygon_total e _ _ polygon (w_zmp_margin (g_params g)) De Np Ne) as (c2 & h & E2 & M2 & In2). rewrite E2. cbn [obind].
  apply (made_configure _ _ _ _ _ _ _ Soft 1) in M1. apply (made_configure _ _ _ _ _ _ _ Hard 1) in M2.
  set (pb := add_constraint (add_constraint _ _) _).
  assert (Cs : p_cons pb = [configure_prio c1 Soft 1; configure_prio c2 Hard 1]) by reflexivity.
  assert (Hl : (0 < length polygon)%nat) by (destruct polygon; [congruence|cbn; lia]).
  assert (S : sound (p_n pb) (p_cons pb)).
  { rewrite Cs. change (p_n pb) with 2%nat. change ([?a; ?b]) with ([a] ++ [b]). apply sound_app; eapply sound_one; try eassumption; try lia; intros; lra. }
  assert (Re : reachable pb [2%nat]).
  { unfold pb. do 2 apply reach_constraint. apply (reach_variable new_problem [] 2). constructor. }
  assert (Fe : filter hard_eq (p_cons pb) = []).
  { rewrite Cs. destruct M1 as (T1 & P1 & _). destruct M2 as (T2 & P2 & _). cbn [filter]. unfold hard_eq. rewrite T2, P2, P1. reflexivity. }
  assert (Hh : forall x, hard_holds (p_cons pb) x <-> inside polygon (w_zmp_margin (g_params g)) (x 0%nat, x 1%nat)).
  { intros x. rewrite Cs. change ([?a; ?b]) with ([a] ++ [b]). rewrite WpgPlan_proofs.hard_holds_app, (hard_holds_one _ _ _ _ _ _ _ M2), <- In2. split; [tauto|]. intros H. split; [|exact H].
    intros c [<-|[]] Hp. discriminate Hp. }
  destruct (solve_answers L pb [2%nat] Hqr Hqp Fqr Fqp Re S eq_refl (no_equalities_independent pb Fe) ltac:(cbn; lra)) as [Can Cannot].
  split.
  - intros (z0 & Hz0). destruct Can as (pb' & Es).
    { exists (fun i => match i with O => fst z0 | _ => snd z0 end). apply Hh. now destruct z0. }
    unfold solve_or_throw. rewrite Es. cbn [obind].
    destruct (value_read pb _ _ pb' 0 v Es eq_refl) as (w & Ew & Hw). rewrite Ew. cbn [obind]. cbn [v var_size k_end k_start Nat.sub Nat.add] in Hw.
    rewrite (Hw 0%nat), (Hw 1%nat) by lia. eexists. split; [reflexivity|]. split; [apply Hh; exact (C20_feasible pb _ _ pb' Hqr Hqp Es)|].
    assert (B : forall x, hard_holds (p_cons pb) x -> cost pb (vat (p_x pb')) <= cost pb x).
    { apply (solve_best pb _ _ pb' Hqr Hqp eq_refl); [| | |exact Es].
      - intros c Hc. now pose proof (proj1 (Forall_forall _ _) S c Hc) as (_ & _ & _ & S4).
      - intros c Hc Hp Ht. assert (I : In c (filter hard_eq (p_cons pb))) by (apply filter_In; split; [exact Hc|]; unfold hard_eq; now rewrite Hp, Ht). rewrite Fe in I. exact I.
      - intros c Hc Hp Ht. rewrite Cs in Hc. destruct Hc as [<-|[<-|[]]]; [|discriminate Hp].
        apply (made_contiguous _ _ _ _ _ _ _ 0 2 M1); [lia|intros; lia|]. intros j Hj. exists j. split; [lia|]. unfold axis. rewrite Nat.eqb_refl.
        replace (1 - vat (vec_of_point ideal) j - (0 - vat (vec_of_point ideal) j)) with 1 by ring. rewrite Rabs_R1. lra. }
    assert (K : forall x, cost pb x = / 2 * (squared_distance (x 0%nat, x 1%nat) ideal + 1 / 100000000 * squared_norm (x 0%nat, x 1%nat))).
    { intros x. unfold cost. rewrite Cs. cbn [soft_cost]. rewrite (made_penalty_eq _ _ _ _ _ x M1), (made_penalty_hard _ _ _ _ _ _ x M2). change (p_n pb) with 2%nat. change (p_reg pb) with (1 / 100000000).
      cbn [Rsum]. unfold squared_distance, squared_norm, vec_of_point, vec_of. cbn [vat nth fst snd]. field. }
    intros z' Hz'. specialize (B (fun i => match i with O => fst z' | _ => snd z' end)). rewrite !K in B. cbv beta in B.
    assert (Ez : (fst z', snd z') = z') by now destruct z'. rewrite Ez in B. assert (Hx : hard_holds (p_cons pb) (fun i => match i with O => fst z' | _ => snd z' end)) by (apply Hh; rewrite Ez; exact Hz'). specialize (B Hx). lra.
  - intros Hn. rewrite Cannot; [reflexivity|]. intros (x & Hx). apply Hn. eexists. apply Hh. exact Hx.
Qed.
End Zmp.
