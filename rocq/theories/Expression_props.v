(** Properties C05-C13 (and the constraint part of C79): expressions, variables' expressions, comparisons. *)
From Coq Require Import Reals List ZArith Bool Lia Lra String.
From Verif Require Import Base Linalg Expression_model Expression_spec Expression_proofs.
Import ListNotations.
Open Scope R_scope.

(** A concrete two-row expression over two unknowns, used by the examples: (x0 + 2 x1 + 3, x1 + 4). *)
Definition ex_e : expr :=
  Expr (Mat 2 2 (fun i j => match i, j with O, O => 1 | O, S O => 2 | S O, S O => 1 | _, _ => 0 end))
       (Vec 2 (fun i => match i with O => 3 | _ => 4 end)).
Definition ex_f (x : nat -> R) (i : nat) : R :=
  match i with O => x 0%nat + 2 * x 1%nat + 3 | _ => x 1%nat + 4 end.
(** A constant expression with two rows, and one unknown alone. *)
Definition ex_c : expr := from_vector (Vec 2 (fun i => INR i)).
Definition ex_x0 : expr := Expr (Mat 1 1 (fun _ _ => 1)) (Vec 1 (fun _ => 0)).

Example ex_e_denotes : denotes ex_e 2 2 ex_f.
Proof.
  apply denotes_intro; try reflexivity. intros x i Hi. unfold ev, ex_e, ex_f, cols; cbn.
  destruct i as [|[|i]]; [ring|ring|lia].
Qed.

Example ex_x0_denotes : denotes ex_x0 1 1 (fun x _ => x 0%nat).
Proof. apply denotes_intro; try reflexivity. intros x i Hi. unfold ev, ex_x0, cols; cbn. ring. Qed.

(** ** C05: a variable's expression reads exactly its own slice *)

Theorem C05_variable_expr_slice :
  forall v start n, (k_start v <= k_end v)%nat -> (start + n <= var_size v)%nat ->
  exists e, var_expr v (Z.of_nat start) (Z.of_nat n) = Ok e /\
    denotes e n (k_end v) (fun x i => x (k_start v + start + i)%nat).
Proof. exact var_expr_denotes. Qed.
Print Assumptions C05_variable_expr_slice.

(** Default arguments: rows = -1 takes what is left, start = -1 starts at 0. *)
Theorem C05_variable_expr_defaults :
  forall v start, (k_start v <= k_end v)%nat -> (start <= var_size v)%nat ->
  (exists e, var_expr v (Z.of_nat start) (-1) = Ok e /\
     denotes e (var_size v - start) (k_end v) (fun x i => x (k_start v + start + i)%nat)) /\
  (exists e, var_expr v (-1) (-1) = Ok e /\
     denotes e (var_size v) (k_end v) (fun x i => x (k_start v + i)%nat)) /\
  forall n, var_expr v (-1) n = var_expr v 0 n.
Proof.
  intros v start Hv H. repeat split.
  - rewrite var_expr_default_rows by assumption. apply var_expr_denotes; lia.
  - rewrite var_expr_default_start. change 0%Z with (Z.of_nat 0). rewrite var_expr_default_rows by lia.
    rewrite Nat.sub_0_r. destruct (var_expr_denotes v 0 (var_size v) Hv) as (e & He & D); [lia|].
    exists e. split; [exact He|]. eapply denotes_ext; [|exact D]. intros x i _. cbv beta. f_equal. lia.
Qed.
Print Assumptions C05_variable_expr_defaults.

(** A request past the end of the variable is not rejected: it is undefined behaviour. *)
Theorem C05_variable_expr_unchecked :
  forall v start n, (k_start v <= k_end v)%nat -> (start >= 0)%Z -> (n >= 1)%Z ->
  (start + n > Z.of_nat (var_size v))%Z -> var_expr v start n = UB.
Proof. exact var_expr_out_of_range. Qed.
Print Assumptions C05_variable_expr_unchecked.

Example C05_witness :
  let v := MkVar 2 7 (Vec 5 (fun _ => 0)) 0 in
  (k_start v <= k_end v)%nat /\ (1 + 3 <= var_size v)%nat /\
  exists e, var_expr v 1 3 = Ok e /\ denotes e 3 7 (fun x i => x (3 + i)%nat).
Proof.
  cbv zeta. set (v := MkVar _ _ _ _). assert (H : (1 + 3 <= var_size v)%nat) by (cbn; lia).
  assert (Hv : (k_start v <= k_end v)%nat) by (cbn; lia).
  repeat split; auto. exact (var_expr_denotes v 1 3 Hv H).
Qed.

(** ** C06: arithmetic commutes with evaluation *)

Theorem C06_sum_of_expressions :
  forall e o n m1 m2 f g, denotes e n m1 f -> denotes o n m2 g ->
  exists r, e_add e o = Ok r /\ denotes r n (Nat.max m1 m2) (fun x i => f x i + g x i).
Proof. exact e_add_same. Qed.
Print Assumptions C06_sum_of_expressions.

Theorem C06_difference_of_expressions :
  forall e o n m1 m2 f g, denotes e n m1 f -> denotes o n m2 g ->
  exists r, e_sub e o = Ok r /\ denotes r n (Nat.max m1 m2) (fun x i => f x i - g x i).
Proof. exact e_sub_same. Qed.
Print Assumptions C06_difference_of_expressions.

Theorem C06_scaling :
  forall e n m f c, denotes e n m f ->
  denotes (e_opp e) n m (fun x i => - f x i) /\
  denotes (e_scale e c) n m (fun x i => f x i * c) /\
  denotes (scale_e c e) n m (fun x i => c * f x i).
Proof.
  intros e n m f c D. split; [exact (e_opp_denotes _ _ _ _ D)|]. split; [exact (scale_denotes _ _ _ _ c D)|].
  eapply denotes_ext; [|exact (scale_denotes _ _ _ _ c D)]. intros; cbv beta; ring.
Qed.
Print Assumptions C06_scaling.

Theorem C06_matrix_product :
  forall M e n m f, denotes e n m f -> mcols M = n ->
  exists r, m_mul_e M e = Ok r /\ left_multiply e M = Ok r /\
    denotes r (mrows M) m (fun x i => Rsum n (fun k => mat_at M i k * f x k)).
Proof.
  intros M e n m f D H. destruct (m_mul_e_denotes M e n m f D H) as (r & Hr & Dr). exists r. auto.
Qed.
Print Assumptions C06_matrix_product.

Theorem C06_vector_terms :
  forall e n m f v, denotes e n m f -> vlen v = n ->
  (exists r, e_add_v e v = Ok r /\ denotes r n m (fun x i => f x i + vat v i)) /\
  (exists r, v_add_e v e = Ok r /\ denotes r n m (fun x i => vat v i + f x i)) /\
  (exists r, e_sub_v e v = Ok r /\ denotes r n m (fun x i => f x i - vat v i)).
Proof.
  intros e n m f v D Hv. destruct (e_add_v_denotes e n m f v D Hv) as (r & Hr & Dr).
  repeat split; [eauto| |now apply e_sub_v_denotes].
  exists r. split; [exact Hr|]. eapply denotes_ext; [|exact Dr]. intros; cbv beta; ring.
Qed.
Print Assumptions C06_vector_terms.

Theorem C06_scalar_terms :
  forall e n m f c, denotes e n m f ->
  (exists r, e_add_d e c = Ok r /\ denotes r n m (fun x i => f x i + c)) /\
  (exists r, d_add_e c e = Ok r /\ denotes r n m (fun x i => c + f x i)) /\
  (exists r, d_sub_e c e = Ok r /\ denotes r n m (fun x i => c - f x i)).
Proof.
  intros e n m f c D. destruct (e_add_d_denotes e n m f c D) as (r & Hr & Dr). repeat split.
  - eauto.
  - exists r. split; [exact Hr|]. eapply denotes_ext; [|exact Dr]. intros; cbv beta; ring.
  - destruct (e_add_d_denotes (e_opp e) n m _ c (e_opp_denotes _ _ _ _ D)) as (r' & Hr' & Dr').
    exists r'. split; [exact Hr'|]. eapply denotes_ext; [|exact Dr']. intros; cbv beta; ring.
Qed.
Print Assumptions C06_scalar_terms.

(** Non-vacuity: the sum and the difference of ex_e with an expression mentioning fewer unknowns. *)
Example C06_witness :
  exists o r, denotes o 2 0 (fun _ i => INR i) /\ e_sub ex_e o = Ok r /\
    denotes r 2 2 (fun x i => ex_f x i - INR i).
Proof.
  exists ex_c. destruct (e_sub_same ex_e ex_c 2 2 0 _ _ ex_e_denotes (from_vector_denotes _)) as (r & Hr & D).
  exists r. split; [exact (from_vector_denotes (Vec 2 (fun i => INR i)))|]. split; [exact Hr|exact D].
Qed.

(** ** C07: row mismatches are rejected, one-row constants broadcast *)

Theorem C07_sum_broadcast_left :
  forall e o n m c g, denotes e 1 0 (fun _ _ => c) -> denotes o n m g ->
  exists r, e_add e o = Ok r /\ denotes r n m (fun x i => c + g x i).
Proof.
  intros e o n m c g D1 D2. pose proof (denotes_elim _ _ _ _ D1) as (A & B & C & E).
  destruct (e_add_bcast_l e o n m g) as (r & Hr & D); [split; assumption|unfold wf; lia|exact D2|].
  exists r. split; [exact Hr|]. eapply denotes_ext; [|exact D]. intros x i _. cbv beta. rewrite E by lia. ring.
Qed.
Print Assumptions C07_sum_broadcast_left.

Theorem C07_sum_broadcast_right :
  forall e o n m c f, denotes e n m f -> denotes o 1 0 (fun _ _ => c) ->
  exists r, e_add e o = Ok r /\ denotes r n m (fun x i => f x i + c).
Proof.
  intros e o n m c f D1 D2. pose proof (denotes_elim _ _ _ _ D1) as (A1 & B1 & C1 & E1).
  pose proof (denotes_elim _ _ _ _ D2) as (A & B & C & E).
  destruct (e_add_cases e o) as [H _]; [unfold wf; lia|unfold wf; lia|].
  destruct H as (r & Hr & D); [right; right; split; assumption|].
  exists r. split; [exact Hr|]. rewrite C, Nat.max_0_r, C1 in D.
  assert (Eo : is_scalar o && is_constant o = true) by (apply scalar_constant_b; split; assumption).
  rewrite Eo in D. destruct (is_scalar e && is_constant e) eqn:Ee.
  - apply scalar_constant_b in Ee. destruct Ee as [Er Ec]. rewrite A in D. replace n with 1%nat by lia.
    eapply denotes_ext; [|exact D]. intros x i Hi. cbv beta. replace i with 0%nat by lia. rewrite E, E1 by lia. ring.
  - rewrite A1 in D. eapply denotes_ext; [|exact D]. intros x i Hi. cbv beta. rewrite E1, E by lia. ring.
Qed.
Print Assumptions C07_sum_broadcast_right.

(** e1 + e2 succeeds exactly on compatible heights; otherwise it throws runtime_error, never reading out of range. *)
Theorem C07_sum_defined_iff_compatible :
  forall e o, wf e -> wf o ->
  let compatible := rows e = rows o \/ scalar_constant e \/ scalar_constant o in
  (compatible <-> exists r, e_add e o = Ok r) /\ (~ compatible <-> e_add e o = Throw ERuntime) /\
  (compatible <-> exists r, e_sub e o = Ok r) /\ (~ compatible <-> e_sub e o = Throw ERuntime).
Proof.
  intros e o W1 W2. cbv zeta.
  assert (G : forall o, wf o ->
    ((rows e = rows o \/ scalar_constant e \/ scalar_constant o) <-> exists r, e_add e o = Ok r) /\
    (~ (rows e = rows o \/ scalar_constant e \/ scalar_constant o) <-> e_add e o = Throw ERuntime)).
  { clear o W2. intros o W2. destruct (e_add_cases e o W1 W2) as [H1 H2].
    assert (Hdec : (rows e = rows o \/ scalar_constant e \/ scalar_constant o) \/
                   ~ (rows e = rows o \/ scalar_constant e \/ scalar_constant o)).
    { destruct (Nat.eq_dec (rows e) (rows o)); [tauto|].
      destruct (is_scalar e && is_constant e) eqn:Ee; [apply scalar_constant_b in Ee; tauto|].
      destruct (is_scalar o && is_constant o) eqn:Eo; [apply scalar_constant_b in Eo; tauto|].
      right. intros [H|[H|H]]; [tauto|apply scalar_constant_b in H; congruence|apply scalar_constant_b in H; congruence]. }
    destruct Hdec as [Hd|Hd].
    - destruct (H1 Hd) as (r & Hr & _). rewrite Hr. split; split; intros; try tauto; try discriminate; eauto.
    - rewrite (H2 Hd). split; split; intros; try tauto. destruct H as [r H]; discriminate. }
  destruct (G o W2) as [G1 G2]. assert (W3 : wf (e_scale o (-1))) by exact W2.
  destruct (G _ W3) as [G3 G4]. split; [exact G1|]. split; [exact G2|]. split; [exact G3|exact G4].
Qed.
Print Assumptions C07_sum_defined_iff_compatible.

Example C07_witness : wf ex_e /\ wf (from_vector (Vec 3 (fun _ => 1))) /\
  e_add ex_e (from_vector (Vec 3 (fun _ => 1))) = Throw ERuntime /\
  exists r, e_add (from_double 5) ex_e = Ok r /\ denotes r 2 2 (fun x i => 5 + ex_f x i).
Proof.
  repeat split. apply (C07_sum_broadcast_left _ _ _ _ _ _ (from_double_denotes 5) ex_e_denotes).
Qed.

(** ** C08: v - e *)

(** The property fails: v - e evaluates to value(e) - v. *)
Theorem C08_vector_minus_expression_behaviour :
  forall e n m f v, denotes e n m f -> vlen v = n ->
  exists r, v_sub_e v e = Ok r /\ denotes r n m (fun x i => f x i - vat v i).
Proof. exact e_sub_v_denotes. Qed.
Print Assumptions C08_vector_minus_expression_behaviour.

Theorem C08_vector_minus_expression_refuted :
  ~ (forall e n m f v, denotes e n m f -> vlen v = n ->
       exists r, v_sub_e v e = Ok r /\ denotes r n m (fun x i => vat v i - f x i)).
Proof.
  intros H. destruct (H _ _ _ _ (Vec 1 (fun _ => 0)) ex_x0_denotes eq_refl) as (r & Hr & D).
  destruct (C08_vector_minus_expression_behaviour _ _ _ _ (Vec 1 (fun _ => 0)) ex_x0_denotes eq_refl) as (r' & Hr' & D').
  rewrite Hr in Hr'. injection Hr' as <-. apply denotes_elim in D, D'.
  destruct D as (_ & _ & _ & D). destruct D' as (_ & _ & _ & D').
  specialize (D (fun _ => 1) 0%nat ltac:(lia)). specialize (D' (fun _ => 1) 0%nat ltac:(lia)).
  cbn in D, D'. lra.
Qed.
Print Assumptions C08_vector_minus_expression_refuted.

(** What does hold: the result has the right sizes and the right magnitude, with the opposite sign; it is right
    exactly where value(e) = v. Missing from C08: the sign. *)
Theorem C08_vector_minus_expression_partial :
  forall e n m f v, denotes e n m f -> vlen v = n ->
  exists r, v_sub_e v e = Ok r /\ denotes (e_opp r) n m (fun x i => vat v i - f x i).
Proof.
  intros e n m f v D Hv. destruct (C08_vector_minus_expression_behaviour e n m f v D Hv) as (r & Hr & Dr).
  exists r. split; [exact Hr|]. eapply denotes_ext; [|exact (e_opp_denotes _ _ _ _ Dr)]. intros; cbv beta; ring.
Qed.
Print Assumptions C08_vector_minus_expression_partial.

(** ** C09: e - f *)

Theorem C09_expression_minus_scalar_refuted :
  exists e n m f c, denotes e n m f /\ (0 < n)%nat /\ e_sub_d e c = UB.
Proof. exists ex_e, 2%nat, 2%nat, ex_f, 1. split; [exact ex_e_denotes|]. split; [lia|reflexivity]. Qed.
Print Assumptions C09_expression_minus_scalar_refuted.

(** Exact scope: it works for one-row expressions, and is out of range for every other height. *)
Theorem C09_expression_minus_scalar_partial :
  forall e n m f c, denotes e n m f ->
  (n = 1%nat -> exists r, e_sub_d e c = Ok r /\ denotes r n m (fun x i => f x i - c)) /\
  (n <> 1%nat -> e_sub_d e c = UB).
Proof.
  intros e n m f c D. split; intros Hn.
  - destruct (e_sub_v_denotes e n m f (Vec 1 (fun _ => c)) D (eq_sym Hn)) as (r & Hr & Dr). exists r. auto.
  - apply denotes_elim in D. destruct D as (_ & B & _). unfold e_sub_d, e_sub_v. cbn [vlen].
    replace (Nat.eqb (vlen (eb e)) 1) with false; [reflexivity|]. symmetry. apply Nat.eqb_neq. lia.
Qed.
Print Assumptions C09_expression_minus_scalar_partial.

Example C09_witness : exists r, e_sub_d ex_x0 2 = Ok r /\ denotes r 1 1 (fun x _ => x 0%nat - 2).
Proof. exact (proj1 (C09_expression_minus_scalar_partial _ _ _ _ 2 ex_x0_denotes) eq_refl). Qed.

(** ** C10: product of expressions *)

Theorem C10_product :
  forall e o n1 n2 m1 m2 f g, denotes e n1 m1 f -> denotes o n2 m2 g ->
  (n1 = 1%nat /\ m2 = 0%nat ->
     exists r, e_mul e o = Ok r /\ denotes r n2 m1 (fun x i => f x 0%nat * g x i)) /\
  (n2 = 1%nat /\ m1 = 0%nat ->
     exists r, e_mul e o = Ok r /\ denotes r n1 m2 (fun x i => f x i * g x 0%nat)) /\
  (~ (n1 = 1%nat /\ m2 = 0%nat) -> ~ (n2 = 1%nat /\ m1 = 0%nat) -> e_mul e o = Throw ERuntime).
Proof.
  intros e o n1 n2 m1 m2 f g D1 D2.
  apply denotes_elim in D1, D2. destruct D1 as (A1 & B1 & C1 & E1). destruct D2 as (A2 & B2 & C2 & E2).
  destruct (e_mul_cases e o) as (H1 & H2 & H3); [unfold wf; lia|unfold wf; lia|].
  rewrite A1, C1, A2, C2 in *. repeat split; [| |exact H3].
  - intros H. destruct (H1 H) as (r & Hr & D). exists r. split; [exact Hr|]. eapply denotes_ext; [|exact D].
    intros x i Hi. cbv beta. rewrite E1, E2 by lia. reflexivity.
  - intros H. destruct (H2 H) as (r & Hr & D). exists r. split; [exact Hr|]. eapply denotes_ext; [|exact D].
    intros x i Hi. cbv beta. rewrite E1, E2 by lia. reflexivity.
Qed.
Print Assumptions C10_product.

Example C10_witness :
  (exists r, e_mul ex_x0 ex_c = Ok r /\ denotes r 2 1 (fun x i => x 0%nat * INR i)) /\
  e_mul ex_e ex_e = Throw ERuntime.
Proof.
  split; [|reflexivity].
  destruct (C10_product _ _ _ _ _ _ _ _ ex_x0_denotes (from_vector_denotes (Vec 2 (fun i => INR i)))) as (H & _).
  destruct (H (conj eq_refl eq_refl)) as (r & Hr & D). exists r. split; [exact Hr|exact D].
Qed.

(** ** C11: stacking, slicing, summing *)

Theorem C11_stack :
  forall e o n1 n2 m1 m2 f g, denotes e n1 m1 f -> denotes o n2 m2 g ->
  exists r, e_stack e o = Ok r /\
    denotes r (n1 + n2) (Nat.max m1 m2) (fun x i => if Nat.ltb i n1 then f x i else g x (i - n1)%nat).
Proof. exact e_stack_denotes. Qed.
Print Assumptions C11_stack.

Theorem C11_slice :
  forall e n m f start k, denotes e n m f ->
  ((start + k <= n)%nat ->
    exists r, slice e (Z.of_nat start) (Z.of_nat k) = Ok r /\ denotes r k m (fun x i => f x (start + i)%nat)) /\
  ((start <= n)%nat -> forall neg, (neg < 0)%Z ->
    exists r, slice e (Z.of_nat start) neg = Ok r /\ denotes r (n - start) m (fun x i => f x (start + i)%nat)) /\
  ((start + k > n)%nat -> slice e (Z.of_nat start) (Z.of_nat k) = UB).
Proof.
  intros e n m f start k D. repeat split.
  - now apply slice_denotes.
  - intros H neg Hneg. rewrite (slice_neg e n m f start neg D H Hneg). apply (slice_denotes e n); [exact D|lia].
  - intros H. eapply slice_ub; [exact D|]. lia.
Qed.
Print Assumptions C11_slice.

Theorem C11_sum_and_piecewise_add :
  forall e n m f c, denotes e n m f ->
  (exists r, sum e = Ok r /\ denotes r 1 m (fun x _ => Rsum n (fun k => f x k))) /\
  denotes (piecewise_add e c) n m (fun x i => f x i + c).
Proof. intros e n m f c D. split; [now apply sum_denotes|now apply piecewise_add_denotes]. Qed.
Print Assumptions C11_sum_and_piecewise_add.

Example C11_witness :
  exists r s, e_stack ex_e ex_x0 = Ok r /\ slice r 1 2 = Ok s /\
    denotes s 2 2 (fun x i => match i with O => x 1%nat + 4 | _ => x 0%nat end).
Proof.
  destruct (C11_stack _ _ _ _ _ _ _ _ ex_e_denotes ex_x0_denotes) as (r & Hr & D).
  destruct (C11_slice r 3 2 _ 1 2 D) as (H & _). destruct H as (s & Hs & Ds); [lia|].
  exists r, s. split; [exact Hr|]. split; [exact Hs|]. eapply denotes_ext; [|exact Ds].
  intros x i Hi. destruct i as [|[|i]]; [reflexivity|reflexivity|lia].
Qed.

(** ** C12: mean() *)

(** mean() divides the sum of the rows by the number of unknowns, not by the number of rows. *)
Theorem C12_mean_behaviour :
  forall e n m f, denotes e n m f -> (0 < m)%nat ->
  exists r, mean e = Ok r /\ denotes r 1 m (fun x _ => Rsum n (fun k => f x k) / INR m).
Proof. exact mean_denotes. Qed.
Print Assumptions C12_mean_behaviour.

Theorem C12_mean_refuted :
  exists e n m f r x, denotes e n m f /\ (0 < n)%nat /\ (0 < m)%nat /\ mean e = Ok r /\
    forall g, denotes r 1 m g -> g x 0%nat <> Rsum n (fun k => f x k) / INR n.
Proof.
  set (e := Expr (Mat 2 1 (fun _ _ => 1)) (Vec 2 (fun _ => 0))).
  assert (D : denotes e 2 1 (fun x _ => x 0%nat)).
  { apply denotes_intro; try reflexivity. intros x i Hi. unfold ev, e, cols; cbn. ring. }
  destruct (mean_denotes e 2 1 _ D ltac:(lia)) as (r & Hr & Dr).
  exists e, 2%nat, 1%nat, (fun x _ => x 0%nat), r, (fun _ => 1).
  repeat split; try lia; try apply D; try exact Hr.
  intros g Dg. apply denotes_elim in Dg, Dr. destruct Dg as (_ & _ & _ & Dg). destruct Dr as (_ & _ & _ & Dr).
  rewrite <- Dg, Dr by lia. cbn. lra.
Qed.
Print Assumptions C12_mean_refuted.

(** What does hold: the mean is right for expressions with as many rows as unknowns. Missing: all others. *)
Theorem C12_mean_partial :
  forall e n f, denotes e n n f -> (0 < n)%nat ->
  exists r, mean e = Ok r /\ denotes r 1 n (fun x _ => Rsum n (fun k => f x k) / INR n).
Proof. intros e n f D H. now apply mean_denotes. Qed.
Print Assumptions C12_mean_partial.

Example C12_witness : exists r, mean ex_e = Ok r /\ denotes r 1 2 (fun x _ => (x 0%nat + 3 * x 1%nat + 7) / 2).
Proof.
  destruct (C12_mean_partial _ _ _ ex_e_denotes ltac:(lia)) as (r & Hr & D). exists r. split; [exact Hr|].
  eapply denotes_ext; [|exact D]. intros x i _. cbn. lra.
Qed.

(** ** C13: comparisons *)

Theorem C13_compare_expressions :
  forall e o n m1 m2 f g, denotes e n m1 f -> denotes o n m2 g ->
  constraint_means (e_ge e o) n (Nat.max m1 m2) Inequality (fun x i => f x i >= g x i) /\
  constraint_means (e_le e o) n (Nat.max m1 m2) Inequality (fun x i => f x i <= g x i) /\
  constraint_means (e_eq e o) n (Nat.max m1 m2) Equality (fun x i => f x i = g x i).
Proof. exact cmp_e_e. Qed.
Print Assumptions C13_compare_expressions.

Theorem C13_compare_vectors :
  forall e v n m f, denotes e n m f -> vlen v = n ->
  constraint_means (e_ge_v e v) n m Inequality (fun x i => f x i >= vat v i) /\
  constraint_means (e_le_v e v) n m Inequality (fun x i => f x i <= vat v i) /\
  constraint_means (e_eq_v e v) n m Equality (fun x i => f x i = vat v i) /\
  constraint_means (v_ge_e v e) n m Inequality (fun x i => vat v i >= f x i) /\
  constraint_means (v_le_e v e) n m Inequality (fun x i => vat v i <= f x i) /\
  constraint_means (v_eq_e v e) n m Equality (fun x i => vat v i = f x i).
Proof. exact cmp_e_v. Qed.
Print Assumptions C13_compare_vectors.

Theorem C13_compare_scalars :
  forall e c n m f, denotes e n m f ->
  constraint_means (e_ge_d e c) n m Inequality (fun x i => f x i >= c) /\
  constraint_means (e_le_d e c) n m Inequality (fun x i => f x i <= c) /\
  constraint_means (e_eq_d e c) n m Equality (fun x i => f x i = c) /\
  constraint_means (d_ge_e c e) n m Inequality (fun x i => c >= f x i) /\
  constraint_means (d_le_e c e) n m Inequality (fun x i => c <= f x i) /\
  constraint_means (d_eq_e c e) n m Equality (fun x i => c = f x i).
Proof. exact cmp_e_d. Qed.
Print Assumptions C13_compare_scalars.

(** Comparisons of incompatible heights throw. *)
Theorem C13_compare_mismatch :
  forall e o, wf e -> wf o -> ~ (rows e = rows o \/ scalar_constant e \/ scalar_constant o) ->
  e_ge e o = Throw ERuntime /\ e_le e o = Throw ERuntime /\ e_eq e o = Throw ERuntime.
Proof. exact cmp_throws. Qed.
Print Assumptions C13_compare_mismatch.

Example C13_witness :
  constraint_means (d_le_e 7 ex_e) 2 2 Inequality (fun x i => 7 <= ex_f x i) /\
  exists c, d_le_e 7 ex_e = Ok c /\ satisfied c (Vec 2 (fun _ => 3)) /\ ~ satisfied c (Vec 2 (fun _ => 1)).
Proof.
  pose proof (C13_compare_scalars ex_e 7 2 2 ex_f ex_e_denotes) as (_ & _ & _ & _ & H & _). split; [exact H|].
  destruct H as (c & Hc & _ & _ & _ & _ & _ & _ & H). exists c. split; [exact Hc|]. split.
  - apply H; [cbn; lia|]. intros i Hi. destruct i as [|[|i]]; cbn; [lra|lra|lia].
  - intros Hs. pose proof (proj1 (H (Vec 2 (fun _ => 1)) (le_n 2)) Hs 1%nat ltac:(lia)) as Hk. cbn in Hk. lra.
Qed.

(** ** C84 *)

(** configure changes the priority and the weight and nothing else: the relation the constraint states is the same. *)
Theorem C84_configure c (type : string) (p : cprio) w :
  (forall x, satisfied (configure_string c type w) x <-> satisfied c x) /\
  (forall x, satisfied (configure_prio c p w) x <-> satisfied c x) /\
  c_weight (configure_string c type w) = w /\ c_weight (configure_prio c p w) = w /\
  c_active (configure_string c type w) = c_active c /\ c_active (configure_prio c p w) = c_active c /\
  c_expr (configure_string c type w) = c_expr c /\ c_expr (configure_prio c p w) = c_expr c /\
  c_type (configure_string c type w) = c_type c /\ c_type (configure_prio c p w) = c_type c /\
  c_prio (configure_prio c p w) = p /\
  (c_prio (configure_string c type w) = Hard <-> type = "hard"%string) /\
  (c_prio (configure_string c type w) = Soft <-> type <> "hard"%string).
Proof.
  split; [intros x; reflexivity|]. split; [intros x; reflexivity|]. do 9 (split; [reflexivity|]).
  cbn. destruct (String.eqb_spec type "hard") as [E|E]; split; split; congruence.
Qed.
Print Assumptions C84_configure.

(** An unknown name is not rejected: it makes the constraint soft. *)
Example C84_example c : c_prio (configure_string c "Hard" 2) = Soft /\ c_prio (configure_string c "hard" 2) = Hard.
Proof. split; reflexivity. Qed.
