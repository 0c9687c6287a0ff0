(** Uniqueness of the optimum of a problem: with a positive regularisation and non-negative weights the cost is strictly convex. *)
From Coq Require Import Reals List ZArith Bool Lra Lia Permutation.
From Verif Require Import Base Linalg Expression_model Problem_model Problem_spec Problem_props.
Import ListNotations.
Open Scope R_scope.

Definition mid (x y : nat -> R) (j : nat) : R := (x j + y j) / 2.

Lemma row_mid e x y i : row e (mid x y) i = (row e x i + row e y i) / 2.
Proof.
  unfold row, mid.
  rewrite (Rsum_ext _ (fun j => mat_at (eA e) i j * ((x j + y j) / 2)) (fun j => / 2 * (mat_at (eA e) i j * x j + mat_at (eA e) i j * y j))) by (intros; field).
  rewrite Rsum_scal_l, Rsum_plus. field.
Qed.

Lemma holds_mid c x y : holds c x -> holds c y -> holds c (mid x y).
Proof.
  intros Hx Hy i Hi. specialize (Hx i Hi). specialize (Hy i Hi). rewrite row_mid. revert Hx Hy. destruct (c_type c); lra.
Qed.

Lemma sqr_mid a b : Rsqr ((a + b) / 2) <= (Rsqr a + Rsqr b) / 2.
Proof. pose proof (Rle_0_sqr (a - b)). unfold Rsqr in *. lra. Qed.

Lemma hinge_mid a b : Rsqr (Rmin 0 ((a + b) / 2)) <= (Rsqr (Rmin 0 a) + Rsqr (Rmin 0 b)) / 2.
Proof.
  pose proof (Rmin_l 0 a). pose proof (Rmin_r 0 a). pose proof (Rmin_l 0 b). pose proof (Rmin_r 0 b).
  apply Rle_trans with (Rsqr ((Rmin 0 a + Rmin 0 b) / 2)); [|apply sqr_mid].
  rewrite (Rsqr_neg (Rmin 0 ((a + b) / 2))), (Rsqr_neg ((Rmin 0 a + Rmin 0 b) / 2)).
  pose proof (Rmin_l 0 ((a + b) / 2)). apply Rsqr_incr_1; try lra.
  assert ((Rmin 0 a + Rmin 0 b) / 2 <= Rmin 0 ((a + b) / 2)); [|lra]. apply Rmin_glb; lra.
Qed.

Lemma Rsum_mid n f g h : (forall i, (i < n)%nat -> f i <= (g i + h i) / 2) -> Rsum n f <= (Rsum n g + Rsum n h) / 2.
Proof.
  intros H. apply Rle_trans with (Rsum n (fun i => (g i + h i) / 2)); [apply Rsum_le; exact H|].
  rewrite (Rsum_ext _ _ (fun i => / 2 * (g i + h i))) by (intros; field). rewrite Rsum_scal_l, Rsum_plus.
  change (fun i => g i) with g. change (fun i => h i) with h. lra.
Qed.

Lemma penalty_mid c x y : (c_prio c = Soft -> 0 <= c_weight c) ->
  soft_penalty c (mid x y) <= (soft_penalty c x + soft_penalty c y) / 2.
Proof.
  intros Hw. unfold soft_penalty. destruct (c_prio c) eqn:P; try (match type of P with _ = Hard => idtac end; lra).
  specialize (Hw eq_refl).
  destruct (c_type c);
    (match goal with |- _ * ?S <= (_ * ?A + _ * ?B) / 2 => assert (S <= (A + B) / 2) end;
     [apply Rsum_mid; intros i _; rewrite row_mid; first [apply hinge_mid | apply sqr_mid]|nra]).
Qed.

Lemma soft_cost_mid cs x y : (forall c, In c cs -> c_prio c = Soft -> 0 <= c_weight c) ->
  soft_cost cs (mid x y) <= (soft_cost cs x + soft_cost cs y) / 2.
Proof.
  induction cs as [|c r IH]; intros H; cbn [soft_cost]; [lra|].
  pose proof (penalty_mid c x y (H c (or_introl eq_refl))). assert (G : soft_cost r (mid x y) <= (soft_cost r x + soft_cost r y) / 2)
    by (apply IH; intros; apply H; auto; now right). lra.
Qed.

Lemma unique_optimum n reg cs x y :
  0 < reg -> (forall c, In c cs -> c_prio c = Soft -> 0 <= c_weight c) ->
  hard_holds cs x -> hard_holds cs y ->
  (forall z, hard_holds cs z -> soft_cost cs x + reg / 2 * Rsum n (fun j => Rsqr (x j)) <= soft_cost cs z + reg / 2 * Rsum n (fun j => Rsqr (z j))) ->
  (forall z, hard_holds cs z -> soft_cost cs y + reg / 2 * Rsum n (fun j => Rsqr (y j)) <= soft_cost cs z + reg / 2 * Rsum n (fun j => Rsqr (z j))) ->
  forall j, (j < n)%nat -> x j = y j.
Proof.
  intros Hr Hw Hx Hy Mx My.
  assert (Hm : hard_holds cs (mid x y)) by (intros c Hc Hp; apply holds_mid; auto).
  pose proof (Mx _ Hm) as Ex. pose proof (My _ Hm) as Ey. pose proof (soft_cost_mid cs x y Hw) as Es.
  assert (Q : Rsum n (fun j => Rsqr (mid x y j)) =
    (Rsum n (fun j => Rsqr (x j)) + Rsum n (fun j => Rsqr (y j))) / 2 - / 4 * Rsum n (fun j => Rsqr (x j - y j))).
  { rewrite (Rsum_ext _ _ (fun j => / 2 * (Rsqr (x j) + Rsqr (y j)) - / 4 * Rsqr (x j - y j))) by (intros; unfold mid, Rsqr; field).
    rewrite Rsum_minus, !Rsum_scal_l, Rsum_plus. field. }
  rewrite Q in Ex, Ey.
  assert (Z : Rsum n (fun j => Rsqr (x j - y j)) <= 0).
  { set (D := Rsum n (fun j => Rsqr (x j - y j))) in *. set (A := Rsum n (fun j => Rsqr (x j))) in *. set (B := Rsum n (fun j => Rsqr (y j))) in *.
    assert (reg * D <= 0) by nra. nra. }
  clear - Z. induction n; intros j Hj; [lia|]. cbn [Rsum] in Z.
  assert (P : 0 <= Rsum n (fun j => Rsqr (x j - y j))) by (apply Rsum_nonneg; intros; apply Rle_0_sqr).
  pose proof (Rle_0_sqr (x n - y n)) as P'.
  destruct (Nat.eq_dec j n) as [->|].
  - assert (E : Rsqr (x n - y n) = 0) by lra. apply Rsqr_0_uniq in E. lra.
  - apply IHn; [lra|lia].
Qed.

(** What matters of a constraint: not whether it was active in the last solve. *)
Lemma soft_cost_perm cs cs' x : Permutation cs cs' -> soft_cost cs x = soft_cost cs' x.
Proof. induction 1; cbn [soft_cost]; lra. Qed.

Lemma soft_cost_reset_active cs x : soft_cost (map reset_active cs) x = soft_cost cs x.
Proof. induction cs as [|c r IH]; cbn [map soft_cost]; [reflexivity|]. rewrite IH. reflexivity. Qed.

Lemma hard_holds_perm cs cs' x : Permutation cs cs' -> hard_holds cs x -> hard_holds cs' x.
Proof. intros P H c Hc. apply H. eapply Permutation_in; [apply Permutation_sym; exact P|exact Hc]. Qed.

Lemma hard_holds_reset_active cs x : hard_holds (map reset_active cs) x <-> hard_holds cs x.
Proof.
  split; intros H.
  - intros c Hc Hp. apply (H (reset_active c)); [now apply in_map|exact Hp].
  - intros c Hc Hp. apply in_map_iff in Hc. destruct Hc as (c' & <- & Hc). apply (H c' Hc Hp).
Qed.
