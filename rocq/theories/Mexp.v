(** The exponential of a square matrix and the facts about it used by the proofs. No model of the code here. *)
From Coq Require Import Reals Lra Lia List ZArith.
From Coquelicot Require Import Coquelicot.
From Verif Require Import Base Linalg.
Open Scope R_scope.

(** k-th power of the n x n matrix [F]. *)
Fixpoint mpow (n : nat) (F : nat -> nat -> R) (k : nat) (i j : nat) : R :=
  match k with
  | O => if Nat.eqb i j then 1 else 0
  | S k' => Rsum n (fun l => F i l * mpow n F k' l j)
  end.

(** k-th coefficient of the power series of t |-> exp (t F), entry (i, j). *)
Definition ecoef (n : nat) (F : nat -> nat -> R) (i j k : nat) : R := mpow n F k i j / INR (fact k).

(** Entry (i, j) of exp (t F). *)
Definition mexp_at (n : nat) (F : nat -> nat -> R) (t : R) (i j : nat) : R := PSeries (ecoef n F i j) t.

Lemma Rsum_abs n f : Rabs (Rsum n f) <= Rsum n (fun i => Rabs (f i)).
Proof.
  induction n as [|n IH]; simpl; [rewrite Rabs_R0; lra|].
  eapply Rle_trans; [apply Rabs_triang|]. lra.
Qed.

Lemma Rsum_const n c : Rsum n (fun _ => c) = INR n * c.
Proof. induction n as [|n IH]; [simpl; lra|]. rewrite S_INR. simpl Rsum. rewrite IH. lra. Qed.

Lemma Rsum_single_le n f i : (forall k, (k < n)%nat -> 0 <= f k) -> (i < n)%nat -> f i <= Rsum n f.
Proof.
  induction n as [|n IH]; intros H Hi; [lia|]. simpl. destruct (Nat.eq_dec i n) as [->|].
  - assert (0 <= Rsum n f) by (apply Rsum_nonneg; intros; apply H; lia). lra.
  - assert (f i <= Rsum n f) by (apply IH; [intros; apply H; lia|lia]). specialize (H n ltac:(lia)). lra.
Qed.

(** A bound on the entries of [F]. *)
Definition mbound (n : nat) (F : nat -> nat -> R) : R := Rsum n (fun i => Rsum n (fun j => Rabs (F i j))).

Lemma mbound_pos n F : 0 <= mbound n F.
Proof. apply Rsum_nonneg. intros. apply Rsum_nonneg. intros. apply Rabs_pos. Qed.

Lemma mbound_spec n F i j : (i < n)%nat -> (j < n)%nat -> Rabs (F i j) <= mbound n F.
Proof.
  intros Hi Hj. unfold mbound. eapply Rle_trans; [|apply (Rsum_single_le n _ i)]; [|intros|exact Hi].
  - apply (Rsum_single_le n (fun j => Rabs (F i j)) j); [intros; apply Rabs_pos|exact Hj].
  - apply Rsum_nonneg. intros. apply Rabs_pos.
Qed.

Lemma mpow_bound n F k i j : (i < n)%nat -> (j < n)%nat -> Rabs (mpow n F k i j) <= (INR n * mbound n F) ^ k.
Proof.
  revert i. induction k as [|k IH]; intros i Hi Hj; simpl.
  - destruct (Nat.eqb i j); [rewrite Rabs_R1|rewrite Rabs_R0]; lra.
  - eapply Rle_trans; [apply Rsum_abs|].
    eapply Rle_trans; [apply Rsum_le with (g := fun _ => mbound n F * (INR n * mbound n F) ^ k)|].
    + intros l Hl. rewrite Rabs_mult. apply Rmult_le_compat; try apply Rabs_pos; [apply mbound_spec; auto|auto].
    + rewrite Rsum_const. lra.
Qed.

Lemma pow_fact_bound c k : 0 <= c -> c ^ k / INR (fact k) <= exp c.
Proof.
  intros Hc. pose proof (is_exp_Reals c) as H. unfold is_pseries in H.
  assert (He : is_series (fun n => c ^ n / INR (fact n)) (exp c)).
  { eapply is_series_ext; [|exact H]. intros n. cbn. rewrite pow_n_pow. unfold scal, mult; simpl; unfold mult; simpl. unfold Rdiv. ring. }
  assert (Hp : forall n, 0 <= c ^ n / INR (fact n)).
  { intros n. apply Rdiv_le_0_compat; [now apply pow_le|apply INR_fact_lt_0]. }
  assert (Hs : sum_n (fun n => c ^ n / INR (fact n)) k <= exp c).
  { apply is_series_Reals in He. rewrite sum_n_Reals. apply sum_incr; [|exact Hp]. exact He. }
  eapply Rle_trans; [|exact Hs]. rewrite sum_n_Reals. destruct k; simpl.
  - lra.
  - assert (0 <= sum_f_R0 (fun n => c ^ n / INR (fact n)) k) by (apply cond_pos_sum; exact Hp).
    cbn in *. lra.
Qed.

Lemma ecoef_radius n F i j : (i < n)%nat -> (j < n)%nat -> CV_radius (ecoef n F i j) = p_infty.
Proof.
  intros Hi Hj. rewrite <- (is_lub_Rbar_unique _ _ (CV_radius_bounded (ecoef n F i j))).
  apply is_lub_Rbar_unique. split.
  - intros x _. exact I.
  - intros b Hb. destruct b as [b| |]; [|exact I|].
    + assert (Hx : Rbar_le (Finite (Rabs b + 1)) (Finite b)).
      { apply Hb. exists (exp (INR n * mbound n F * (Rabs b + 1))). intros k.
        eapply Rle_trans; [|apply (pow_fact_bound _ k)].
        - rewrite Rabs_mult. unfold ecoef, Rdiv. rewrite Rabs_mult, (Rabs_right (/ _)).
          + rewrite <- RPow_abs, (Rabs_right (Rabs b + 1)) by (pose proof (Rabs_pos b); lra).
            rewrite Rpow_mult_distr.
            replace ((INR n * mbound n F) ^ k * (Rabs b + 1) ^ k * / INR (fact k)) with
              ((INR n * mbound n F) ^ k * / INR (fact k) * (Rabs b + 1) ^ k) by ring.
            apply Rmult_le_compat_r; [apply pow_le; pose proof (Rabs_pos b); lra|].
            apply Rmult_le_compat_r; [left; apply Rinv_0_lt_compat, INR_fact_lt_0|]. now apply mpow_bound.
          + left. apply Rinv_0_lt_compat, INR_fact_lt_0.
        - apply Rmult_le_pos; [apply Rmult_le_pos; [apply pos_INR|apply mbound_pos]|pose proof (Rabs_pos b); lra]. }
      simpl in Hx. pose proof (Rle_abs b). lra.
    + exfalso. apply (Hb 0). exists (Rabs (ecoef n F i j 0)). intros [|k].
      * simpl. rewrite Rmult_1_r. lra.
      * rewrite pow_i by lia. rewrite Rmult_0_r, Rabs_R0. apply Rabs_pos.
Qed.

Lemma mexp_at_0 n F i j : mexp_at n F 0 i j = if Nat.eqb i j then 1 else 0.
Proof. unfold mexp_at. rewrite PSeries_0. unfold ecoef. simpl. lra. Qed.

(** The series of a finite sum. *)
Lemma is_pseries_Rsum m (a : nat -> nat -> R) (l : nat -> R) (c : nat -> R) t :
  (forall p, (p < m)%nat -> is_pseries (a p) t (l p)) ->
  is_pseries (fun k => Rsum m (fun p => c p * a p k)) t (Rsum m (fun p => c p * l p)).
Proof.
  induction m as [|m IH]; intros H; simpl.
  - apply is_series_ext with (a := fun _ => 0).
    + intros k. unfold scal; simpl. unfold mult; simpl. ring.
    + assert (E : is_series (fun _ : nat => 0) 0).
      { apply is_series_Reals. intros eps He. exists 0%nat. intros k _.
        replace (sum_f_R0 (fun _ => 0) k) with 0; [rewrite R_dist_eq; exact He|].
        clear. induction k; simpl; [reflexivity|]. rewrite <- IHk. ring. }
      exact E.
  - apply (is_pseries_plus (fun k => Rsum m (fun p => c p * a p k)) (fun k => c m * a m k)).
    + apply IH. intros p Hp. apply H. lia.
    + apply (is_pseries_scal (c m) (a m) t (l m)); [apply Rmult_comm|]. apply H. lia.
Qed.

Lemma mexp_at_pseries n F t i j : (i < n)%nat -> (j < n)%nat -> is_pseries (ecoef n F i j) t (mexp_at n F t i j).
Proof.
  intros Hi Hj. apply PSeries_correct. apply CV_radius_inside. rewrite ecoef_radius by assumption. exact I.
Qed.

(** d/dt exp (t F) = F exp (t F). *)
Lemma mexp_at_derive n F t i j : (i < n)%nat -> (j < n)%nat ->
  is_derive (fun t => mexp_at n F t i j) t (Rsum n (fun l => F i l * mexp_at n F t l j)).
Proof.
  intros Hi Hj.
  assert (E : PSeries (PS_derive (ecoef n F i j)) t = Rsum n (fun l => F i l * mexp_at n F t l j)).
  { apply is_pseries_unique. eapply is_pseries_ext; [|apply (is_pseries_Rsum n (fun l => ecoef n F l j))].
    - intros k. unfold PS_derive, ecoef. cbn [mpow].
      replace (INR (S k) * (Rsum n (fun l => F i l * mpow n F k l j) / INR (fact (S k)))) with
        (Rsum n (fun l => F i l * mpow n F k l j) * / INR (fact k)).
      + rewrite <- Rsum_scal_r. apply Rsum_ext. intros l _. unfold Rdiv. ring.
      + rewrite fact_simpl, mult_INR. field. split; [apply INR_fact_neq_0|]. apply not_0_INR. lia.
    - intros l Hl. now apply mexp_at_pseries. }
  rewrite <- E. apply is_derive_PSeries. rewrite ecoef_radius by assumption. exact I.
Qed.

(** The matrix of the chain of integrators of the given order: ones just above the diagonal. *)
Lemma mpow_shift n (F : nat -> nat -> R) k i j :
  (forall i j, (i < n)%nat -> (j < n)%nat -> F i j = if Nat.eqb j (S i) then 1 else 0) ->
  (i < n)%nat -> (j < n)%nat -> mpow n F k i j = if Nat.eqb j (i + k) then 1 else 0.
Proof.
  intros HF. revert i. induction k as [|k IH]; intros i Hi Hj; simpl.
  - rewrite Nat.add_0_r, Nat.eqb_sym. reflexivity.
  - destruct (Nat.eq_dec i (n - 1)) as [E|E].
    + rewrite Rsum_zero_ext.
      * destruct (Nat.eqb_spec j (i + S k)); [lia|reflexivity].
      * intros l Hl. rewrite HF by assumption. destruct (Nat.eqb_spec l (S i)); [lia|ring].
    + rewrite (Rsum_delta n (S i)).
      * rewrite HF, Nat.eqb_refl by lia. rewrite IH by lia. rewrite Nat.add_succ_r. simpl. ring.
      * lia.
      * intros l Hl Hne. rewrite HF by assumption. destruct (Nat.eqb_spec l (S i)); [lia|ring].
Qed.

Lemma is_pseries_single (a : nat -> R) d t : (forall k, k <> d -> a k = 0) -> PSeries a t = a d * t ^ d.
Proof.
  intros H. apply is_pseries_unique. apply is_pseries_R. apply is_series_Reals.
  intros eps He. exists d. intros n Hn. replace (sum_f_R0 (fun n => a n * t ^ n) n) with (a d * t ^ d).
  - rewrite R_dist_eq. exact He.
  - induction n as [|n IH].
    + replace d with 0%nat by lia. reflexivity.
    + simpl. destruct (Nat.eq_dec d (S n)) as [->|].
      * assert (Z : sum_f_R0 (fun n => a n * t ^ n) n = 0).
        { clear IH Hn. assert (forall m, (m <= n)%nat -> sum_f_R0 (fun n => a n * t ^ n) m = 0) as G; [|now apply G].
          induction m as [|m IHm]; intros Hm; simpl.
          - rewrite H by lia. ring.
          - rewrite IHm, H by lia. ring. }
        rewrite Z. simpl. ring.
      * rewrite <- IH by lia. rewrite (H (S n)) by lia. ring.
Qed.

Lemma mexp_at_shift n (F : nat -> nat -> R) t i j :
  (forall i j, (i < n)%nat -> (j < n)%nat -> F i j = if Nat.eqb j (S i) then 1 else 0) ->
  (i < n)%nat -> (j < n)%nat ->
  mexp_at n F t i j = if Nat.leb i j then t ^ (j - i) / INR (fact (j - i)) else 0.
Proof.
  intros HF Hi Hj. unfold mexp_at. destruct (Nat.leb_spec i j) as [L|L].
  - rewrite (is_pseries_single _ (j - i)).
    + unfold ecoef. rewrite (mpow_shift n F) by assumption. replace (i + (j - i))%nat with j by lia.
      rewrite Nat.eqb_refl. unfold Rdiv. ring.
    + intros k Hk. unfold ecoef. rewrite (mpow_shift n F) by assumption.
      destruct (Nat.eqb_spec j (i + k)); [lia|]. unfold Rdiv. ring.
  - rewrite (is_pseries_single _ 0).
    + unfold ecoef. rewrite (mpow_shift n F) by assumption. destruct (Nat.eqb_spec j (i + 0)); [lia|]. unfold Rdiv. ring.
    + intros k Hk. unfold ecoef. rewrite (mpow_shift n F) by assumption.
      destruct (Nat.eqb_spec j (i + k)); [lia|]. unfold Rdiv. ring.
Qed.

(** Scaling the matrix is scaling the time. *)
Lemma mpow_scal n F t k i j : mpow n (fun i j => F i j * t) k i j = mpow n F k i j * t ^ k.
Proof.
  revert i. induction k as [|k IH]; intros i; simpl; [ring|].
  rewrite (Rsum_ext n _ (fun l => (F i l * mpow n F k l j) * (t * t ^ k))).
  - rewrite Rsum_scal_r. ring.
  - intros l _. rewrite IH. ring.
Qed.

Lemma mpow_ext n F G k i j : (forall i j, (i < n)%nat -> (j < n)%nat -> F i j = G i j) -> (i < n)%nat ->
  mpow n F k i j = mpow n G k i j.
Proof.
  intros H. revert i. induction k as [|k IH]; intros i Hi; simpl; [reflexivity|].
  apply Rsum_ext. intros l Hl. rewrite H, IH by assumption. reflexivity.
Qed.
