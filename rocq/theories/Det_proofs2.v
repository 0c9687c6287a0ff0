(** The derivative of a determinant (Jacobi's formula). *)
From Coq Require Import Reals Lra Lia List ZArith.
From Verif Require Import Base Linalg Det Det_proofs.
Open Scope R_scope.

Definition entries_deriv (n m : nat) (N : R -> nat -> nat -> R) (t : R) (D : nat -> nat -> R) : Prop :=
  forall i j, (i < n)%nat -> (j < m)%nat -> derivable_pt_lim (fun u => N u i j) t (D i j).

Lemma deriv_ext f g t l : (forall u, f u = g u) -> derivable_pt_lim f t l -> derivable_pt_lim g t l.
Proof. intros H D eps He. destruct (D eps He) as [d Hd]. exists d. intros h. rewrite <- !H. apply Hd. Qed.

Lemma deriv_eq f t l l' : l = l' -> derivable_pt_lim f t l -> derivable_pt_lim f t l'.
Proof. now intros ->. Qed.

Lemma deriv_Rsum n f t l : (forall i, (i < n)%nat -> derivable_pt_lim (fun u => f u i) t (l i)) -> derivable_pt_lim (fun u => Rsum n (f u)) t (Rsum n l).
Proof.
  induction n as [|n IH]; intros H; simpl; [apply derivable_pt_lim_const|].
  apply (derivable_pt_lim_plus (fun u => Rsum n (f u)) (fun u => f u n)); [apply IH; intros; apply H; lia|apply H; lia].
Qed.

Lemma deriv_mul f g t a b : derivable_pt_lim f t a -> derivable_pt_lim g t b -> derivable_pt_lim (fun u => f u * g u) t (a * g t + f t * b).
Proof. intros A B. exact (derivable_pt_lim_mult f g t a b A B). Qed.

Lemma deriv_scal c g t b : derivable_pt_lim g t b -> derivable_pt_lim (fun u => c * g u) t (c * b).
Proof. intros B. exact (derivable_pt_lim_scal g c t b B). Qed.

Fixpoint ddet (n : nat) (M D : nat -> nat -> R) : R :=
  match n with
  | O => 0
  | S n' => Rsum (S n') (fun j => (-1) ^ j * (D O j * det n' (fun i k => M (S i) (if Nat.ltb k j then k else S k))
      + M O j * ddet n' (fun i k => M (S i) (if Nat.ltb k j then k else S k)) (fun i k => D (S i) (if Nat.ltb k j then k else S k))))
  end.

Lemma det_deriv n : forall N t D, entries_deriv n n N t D -> derivable_pt_lim (fun u => det n (N u)) t (ddet n (N t) D).
Proof.
  induction n as [|n IH]; intros N t D H; [apply derivable_pt_lim_const|].
  cbn [det ddet]. apply (deriv_Rsum (S n)). intros j Hj.
  apply deriv_ext with (f := fun u => (-1) ^ j * (N u O j * det n (fun i k => N u (S i) (if Nat.ltb k j then k else S k)))); [intros; ring|].
  apply deriv_scal. apply deriv_mul; [apply H; lia|].
  apply (IH (fun u i k => N u (S i) (if Nat.ltb k j then k else S k)) t (fun i k => D (S i) (if Nat.ltb k j then k else S k))).
  intros i k Hi Hk. apply H; [lia|]. destruct (Nat.ltb_spec k j); lia.
Qed.

Lemma det_zero_col n M : (0 < n)%nat -> (forall i, (i < n)%nat -> M i O = 0) -> det n M = 0.
Proof.
  intros Hn H. rewrite <- det_t. destruct n as [|n]; [lia|]. cbn [det]. apply Rsum_zero_ext. intros j Hj. rewrite H by exact Hj. ring.
Qed.

Definition ident (i j : nat) : R := if Nat.eqb i j then 1 else 0.

Lemma ddet_id n : forall D, ddet n ident D = Rsum n (fun i => D i i).
Proof.
  induction n as [|n IH]; intros D; [reflexivity|]. cbn [ddet].
  assert (E : forall j, (j < S n)%nat -> (-1) ^ j * (D O j * det n (fun i k => ident (S i) (if Nat.ltb k j then k else S k))
      + ident O j * ddet n (fun i k => ident (S i) (if Nat.ltb k j then k else S k)) (fun i k => D (S i) (if Nat.ltb k j then k else S k)))
      = if Nat.eqb j 0 then D O O + Rsum n (fun i => D (S i) (S i)) else 0).
  { intros j Hj. destruct j as [|j].
    - cbn [Nat.eqb pow]. rewrite (det_ext n _ ident) by (intros i k _ _; reflexivity). unfold ident at 1. rewrite det_id.
      change (fun i k => ident (S i) (if Nat.ltb k 0 then k else S k)) with ident. rewrite IH. unfold ident. cbn. ring.
    - cbn [Nat.eqb]. unfold ident at 2. cbn [Nat.eqb]. rewrite det_zero_col; [ring|lia|]. intros i Hi. reflexivity. }
  rewrite (Rsum_ext (S n) _ _ E). rewrite (Rsum_delta (S n) 0); [|lia|]. 2: { intros i _ Hi. destruct i; [lia|reflexivity]. }
  cbn [Nat.eqb]. rewrite (Rsum_split 1 n). cbn. ring.
Qed.

Lemma det_jacobi n N t D B : entries_deriv n n N t D ->
  (forall i j, (i < n)%nat -> (j < n)%nat -> Rsum n (fun k => N t i k * B k j) = ident i j) ->
  derivable_pt_lim (fun u => det n (N u)) t (det n (N t) * Rsum n (fun i => Rsum n (fun k => B i k * D k i))).
Proof.
  intros H I.
  assert (E : det n (N t) * det n B = 1).
  { rewrite <- det_mul. rewrite (det_ext n _ ident) by exact I. apply det_id. }
  apply deriv_ext with (f := fun u => det n (N t) * det n (fun i j => Rsum n (fun k => B i k * N u k j))).
  { intros u. rewrite det_mul. rewrite <- Rmult_assoc, E. ring. }
  apply deriv_scal. assert (I' := inverse_comm n (N t) B I).
  eapply deriv_eq; [|apply (det_deriv n (fun u i j => Rsum n (fun k => B i k * N u k j)) t (fun i j => Rsum n (fun k => B i k * D k j)))].
  - etransitivity; [|apply (ddet_id n (fun i j => Rsum n (fun k => B i k * D k j)))]. clear - I'. set (M := fun i j => Rsum n (fun k => B i k * N t k j)) in *.
    assert (X : forall m M M' D, (forall i j, (i < m)%nat -> (j < m)%nat -> M i j = M' i j) -> ddet m M D = ddet m M' D).
    { clear. induction m as [|m IH]; intros M M' D H; [reflexivity|]. cbn [ddet]. apply Rsum_ext. intros j Hj. rewrite (H O j) by lia.
      rewrite (det_ext m _ (fun i k => M' (S i) (if Nat.ltb k j then k else S k))), (IH _ (fun i k => M' (S i) (if Nat.ltb k j then k else S k)));
        [reflexivity| |]; intros i k Hi Hk; apply H; try lia; destruct (Nat.ltb_spec k j); lia. }
    apply X. exact I'.
  - intros i j Hi Hj. apply (deriv_Rsum n (fun u k => B i k * N u k j)). intros k Hk. apply deriv_scal. now apply H.
Qed.
