(** The determinant is multiplicative, and its derivative. The real numbers are given the ring structure of mathcomp to use its determinants. *)
From Coq Require Import Reals Lra Lia List ZArith ClassicalEpsilon.
From mathcomp Require Import ssreflect ssrfun ssrbool eqtype ssrnat seq choice fintype bigop ssralg matrix.
From Verif Require Import Base Linalg Det.

Definition eqr (x y : R) : bool := if Req_EM_T x y then true else false.
Lemma eqrP : Equality.axiom eqr.
Proof. move=> x y. rewrite /eqr. case: Req_EM_T => H; by [left | right]. Qed.
Canonical R_eqMixin := EqMixin eqrP.
Canonical R_eqType := EqType R R_eqMixin.

Definition R_find (P : pred R) (n : nat) : option R :=
  match excluded_middle_informative (exists x, P x) with
  | left H => Some (proj1_sig (constructive_indefinite_description _ H))
  | right _ => None
  end.
Lemma R_find_correct (P : pred R) n x : R_find P n = Some x -> P x.
Proof. rewrite /R_find. case: excluded_middle_informative => [H|//] [<-]. exact (proj2_sig (constructive_indefinite_description _ H)). Qed.
Lemma R_find_complete (P : pred R) : (exists x, P x) -> exists n, R_find P n.
Proof. move=> H. exists O. rewrite /R_find. by case: excluded_middle_informative. Qed.
Lemma R_find_ext (P Q : pred R) : P =1 Q -> R_find P =1 R_find Q.
Proof.
  move=> E n. have -> : P = Q by apply: FunctionalExtensionality.functional_extensionality. by [].
Qed.
Definition R_choiceMixin : choiceMixin R := Choice.Mixin R_find_correct R_find_complete R_find_ext.
Canonical R_choiceType := ChoiceType R R_choiceMixin.

Lemma R_addA : associative Rplus. Proof. move=> x y z. ring. Qed.
Lemma R_addC : commutative Rplus. Proof. move=> x y. ring. Qed.
Lemma R_add0 : left_id R0 Rplus. Proof. move=> x. ring. Qed.
Lemma R_addN : left_inverse R0 Ropp Rplus. Proof. move=> x. ring. Qed.
Definition R_zmodMixin := ZmodMixin R_addA R_addC R_add0 R_addN.
Canonical R_zmodType := ZmodType R R_zmodMixin.

Lemma R_mulA : associative Rmult. Proof. move=> x y z. ring. Qed.
Lemma R_mulC : commutative Rmult. Proof. move=> x y. ring. Qed.
Lemma R_mul1 : left_id R1 Rmult. Proof. move=> x. ring. Qed.
Lemma R_mulD : left_distributive Rmult Rplus. Proof. move=> x y z. ring. Qed.
Lemma R_one_neq0 : R1 != R0 :> R. Proof. apply/eqP. exact: R1_neq_R0. Qed.
Definition R_ringMixin := ComRingMixin R_mulA R_mulC R_mul1 R_mulD R_one_neq0.
Canonical R_ringType := RingType R R_ringMixin.
Canonical R_comRingType := ComRingType R R_mulC.

(** The first rows and columns, as a matrix of mathcomp. *)
Definition mx (n : nat) (f : nat -> nat -> R) : 'M[R]_n := (\matrix_(i < n, j < n) f i j)%R.

Lemma sum_Rsum n (f : nat -> R) : (\sum_(i < n) f i)%R = Rsum n f.
Proof.
  elim: n => [|n IH]; first by rewrite big_ord0.
  by rewrite big_ord_recr /= IH.
Qed.

Lemma sign_pow k : ((-1) ^+ k)%R = pow (-1)%R k :> R.
Proof.
  elim: k => [|k IH]; first by rewrite GRing.expr0.
  rewrite GRing.exprS IH /=. change (Rmult (Ropp R1) (pow (-1) k) = Rmult (-1) (pow (-1) k)). ring.
Qed.

Lemma det_mx n : forall f, det n f = (\det (mx n f))%R.
Proof.
  elim: n => [|n IH] f; first by rewrite det_mx00.
  rewrite (expand_det_row _ ord0). 
  change (det (S n) f) with (Rsum (S n) (fun j => Rmult (Rmult (pow (-1) j) (f O j)) (det n (fun i k => f (S i) (if Nat.ltb k j then k else S k))))).
  rewrite -sum_Rsum. apply: eq_bigr => j _. rewrite /cofactor mxE IH sign_pow /=.
  have -> : row' ord0 (col' j (mx n.+1 f)) = mx n (fun i k => f (S i) (if Nat.ltb k j then k else S k)).
  { apply/matrixP => i k. rewrite !mxE /=. rewrite /bump /= add1n. congr f.
    case: Nat.ltb_spec => H; [have -> : (j <= k)%N = false by apply/negbTE; rewrite -ltnNge; apply/ltP | have -> : (j <= k)%N by apply/leP]; by []. }
  rewrite add0n. move: (determinant _) => D. 
  change (Rmult (Rmult (pow (-1) j) (f O j)) D = Rmult (f O j) (Rmult (pow (-1) j) D)). ring.
Qed.

Lemma mx_mul n f g : (mx n f *m mx n g)%R = mx n (fun i j => Rsum n (fun k => Rmult (f i k) (g k j))).
Proof. apply/matrixP => i j. rewrite !mxE -sum_Rsum. apply: eq_bigr => k _. by rewrite !mxE. Qed.

Lemma mx_ext n f g : (forall i j, (i < n)%coq_nat -> (j < n)%coq_nat -> f i j = g i j) -> mx n f = mx n g.
Proof. move=> H. apply/matrixP => i j. rewrite !mxE. apply: H; by apply/ltP. Qed.

Lemma mx_1 n : (1%:M)%R = mx n (fun i j => if Nat.eqb i j then R1 else R0).
Proof.
  apply/matrixP => i j. rewrite !mxE. case: Nat.eqb_spec => H.
  - have -> : i == j by apply/eqP/val_inj. by [].
  - have -> : (i == j) = false by apply/eqP => E; apply: H; rewrite E. by [].
Qed.

Lemma mx_at n f i j : (i < n)%coq_nat -> (j < n)%coq_nat -> forall g, mx n f = mx n g -> f i j = g i j.
Proof.
  move=> /ltP Hi /ltP Hj g /matrixP E. by have := E (Ordinal Hi) (Ordinal Hj); rewrite !mxE.
Qed.

(** The facts used elsewhere, without mathcomp. *)
Lemma det_ext n f g : (forall i j, (i < n)%coq_nat -> (j < n)%coq_nat -> f i j = g i j) -> det n f = det n g.
Proof. move=> H. by rewrite !det_mx (mx_ext n f g H). Qed.

Lemma det_mul n f g : det n (fun i j => Rsum n (fun k => Rmult (f i k) (g k j))) = Rmult (det n f) (det n g).
Proof. by rewrite !det_mx -mx_mul det_mulmx. Qed.

Lemma det_id n : det n (fun i j => if Nat.eqb i j then R1 else R0) = R1.
Proof. by rewrite det_mx -mx_1 det1. Qed.

Lemma det_t n f : det n (fun i j => f j i) = det n f.
Proof. rewrite !det_mx -(det_tr (mx n f)). congr determinant. apply/matrixP => i j. by rewrite !mxE. Qed.

Lemma inverse_comm n f g :
  (forall i j, (i < n)%coq_nat -> (j < n)%coq_nat -> Rsum n (fun k => Rmult (f i k) (g k j)) = if Nat.eqb i j then R1 else R0) ->
  forall i j, (i < n)%coq_nat -> (j < n)%coq_nat -> Rsum n (fun k => Rmult (g i k) (f k j)) = if Nat.eqb i j then R1 else R0.
Proof.
  move=> H i j Hi Hj.
  have E : (mx n f *m mx n g)%R = (1%:M)%R by rewrite mx_mul mx_1; apply: mx_ext.
  move/mulmx1C: E. rewrite mx_mul mx_1 => E. exact: (mx_at n _ i j Hi Hj _ E).
Qed.

Lemma Rmult_swap a b c : Rmult a (Rmult b c) = Rmult b (Rmult a c).
Proof. ring. Qed.

Lemma det_inverse n f : det n f <> R0 ->
  exists g, forall i j, (i < n)%coq_nat -> (j < n)%coq_nat -> Rsum n (fun k => Rmult (f i k) (g k j)) = if Nat.eqb i j then R1 else R0.
Proof.
  rewrite det_mx => H. set d := determinant _ in H.
  exists (fun i j => match n as m return 'M[R]_m -> R with O => fun _ => R0 | S m => fun A => Rmult (Rinv d) (A (inord i) (inord j)) end (\adj (mx n f))%R).
  move=> i j Hi Hj. have := mul_mx_adj (mx n f). rewrite -/d.
  case: n f d H Hi Hj => [|m] f d H Hi Hj E; first by lia.
  move/ltP: (Hi) => Hi'. move/ltP: (Hj) => Hj'.
  move/matrixP: E => /(_ (Ordinal Hi') (Ordinal Hj')). rewrite mxE [RHS]mxE => E.
  have {}E : Rsum m.+1 (fun k => Rmult (f i k) ((\adj (mx m.+1 f))%R (inord k) (inord j))) = if Nat.eqb i j then d else R0.
  { rewrite -sum_Rsum. etransitivity; [etransitivity; [|exact E]|].
    - apply: eq_bigr => k _. rewrite inord_val.
      have -> : @inord m j = Ordinal Hj' by apply: val_inj; rewrite /= inordK. by rewrite !mxE.
    - case: Nat.eqb_spec => Q.
      + have -> : Ordinal Hi' == Ordinal Hj' by apply/eqP/val_inj. by rewrite GRing.mulr1n.
      + have -> : (Ordinal Hi' == Ordinal Hj') = false by apply/eqP => -[]. by []. }
  rewrite (Rsum_ext _ _ (fun k => Rmult (Rinv d) (Rmult (f i k) ((\adj (mx m.+1 f))%R (inord k) (inord j))))); last by (move=> k _; exact: Rmult_swap).
  rewrite Rsum_scal_l E. case: Nat.eqb; [exact: Rinv_l | exact: Rmult_0_r].
Qed.
