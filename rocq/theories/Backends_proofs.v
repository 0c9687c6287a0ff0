(** The contracts of the two external algorithms can be met: there is a QP back-end and a QR decomposition that are correct and never fail. *)
From Coq Require Import Reals List ZArith Bool Lra Lia ClassicalEpsilon.
From Verif Require Import Base Linalg Expression_model Problem_model Problem_spec.
Import ListNotations.
Open Scope R_scope.

(** ** Quadratic programs *)

Section QP.
Variable n : nat.
Variable P : nat -> nat -> R.

(** The symmetric bilinear form of the cost. *)
Definition form (x y : nat -> R) : R := / 2 * Rsum n (fun i => Rsum n (fun j => x i * (P i j + P j i) * y j)).
Definition dot (a x : nat -> R) : R := Rsum n (fun i => a i * x i).
Definition axpy (t : R) (d x : nat -> R) (i : nat) : R := x i + t * d i.

Lemma form_sym x y : form x y = form y x.
Proof.
  unfold form. f_equal. rewrite Rsum_swap. apply Rsum_ext. intros i _. apply Rsum_ext. intros j _. ring.
Qed.

Lemma form_axpy_l t d x y : form (axpy t d x) y = form x y + t * form d y.
Proof.
  unfold form, axpy.
  rewrite (Rsum_ext n _ (fun i => Rsum n (fun j => x i * (P i j + P j i) * y j) + t * Rsum n (fun j => d i * (P i j + P j i) * y j))).
  - rewrite Rsum_plus, Rsum_scal_l. ring.
  - intros i _. rewrite <- Rsum_scal_l, <- Rsum_plus. apply Rsum_ext. intros j _. ring.
Qed.

Lemma form_axpy_r t d x y : form y (axpy t d x) = form y x + t * form y d.
Proof. rewrite form_sym, form_axpy_l, (form_sym x), (form_sym d). reflexivity. Qed.

Lemma dot_axpy t d x a : dot a (axpy t d x) = dot a x + t * dot a d.
Proof.
  unfold dot, axpy. rewrite <- Rsum_scal_l, <- Rsum_plus. apply Rsum_ext. intros; ring.
Qed.

Lemma form_ext x x' y y' : (forall i, (i < n)%nat -> x i = x' i) -> (forall i, (i < n)%nat -> y i = y' i) -> form x y = form x' y'.
Proof.
  intros H K. unfold form. f_equal. apply Rsum_ext. intros i Hi. apply Rsum_ext. intros j Hj. now rewrite H, K.
Qed.

Lemma dot_ext a x x' : (forall i, (i < n)%nat -> x i = x' i) -> dot a x = dot a x'.
Proof. intros H. apply Rsum_ext. intros i Hi. now rewrite H. Qed.

Hypothesis convex : forall z, (exists i, (i < n)%nat /\ z i <> 0) -> 0 < form z z.

Lemma form_zero z : form z z = 0 -> forall i, (i < n)%nat -> z i = 0.
Proof.
  intros H i Hi. destruct (Req_EM_T (z i) 0) as [E|E]; [exact E|]. specialize (convex z (ex_intro _ i (conj Hi E))). lra.
Qed.

Lemma form_nonneg z : 0 <= form z z.
Proof.
  destruct (classic (exists i, (i < n)%nat /\ z i <> 0)) as [H|H]; [specialize (convex z H); lra|].
  right. symmetry. rewrite (form_ext z (fun _ => 0) z (fun _ => 0)).
  - unfold form. rewrite Rsum_zero_ext; [ring|]. intros i _. apply Rsum_zero_ext. intros j _. ring.
  - intros i Hi. destruct (Req_EM_T (z i) 0); [assumption|]. exfalso. apply H. eauto.
  - intros i Hi. destruct (Req_EM_T (z i) 0); [assumption|]. exfalso. apply H. eauto.
Qed.

(** *** Without constraints, on the vectors that vanish from [k] on *)

Definition below (k : nat) (w : nat -> R) : Prop := forall i, (k <= i)%nat -> w i = 0.
Definition unit (k : nat) (i : nat) : R := if Nat.eqb i k then 1 else 0.

Lemma dot_form y w : dot (fun i => form y (unit i)) w = form y w.
Proof.
  unfold dot, form. rewrite (Rsum_swap n n (fun i j => y i * (P i j + P j i) * w j)), <- Rsum_scal_l.
  apply Rsum_ext. intros j Hj. rewrite Rmult_assoc. f_equal. rewrite <- Rsum_scal_r. apply Rsum_ext. intros i _.
  rewrite (Rsum_delta n j) by (auto; intros k Hk N; unfold unit; rewrite (proj2 (Nat.eqb_neq k j) N); ring).
  unfold unit. rewrite Nat.eqb_refl. ring.
Qed.

Lemma free_optimum k : (k <= n)%nat -> forall q, exists z, below k z /\ forall w, below k w -> form z w + dot q w = 0.
Proof.
  induction k as [|k IH]; intros Hk q.
  - exists (fun _ => 0). split; [intros i _; reflexivity|]. intros w Hw.
    rewrite (form_ext _ (fun _ => 0) _ (fun _ => 0)) by (intros; auto; apply Hw; lia). rewrite (dot_ext _ _ (fun _ => 0)) by (intros; apply Hw; lia).
    unfold form, dot. rewrite !Rsum_zero_ext; [ring| |]; intros; [ring|apply Rsum_zero_ext; intros; ring].
  - destruct (IH ltac:(lia) q) as (z & Hz & Oz).
    destruct (IH ltac:(lia) (fun i => form (unit k) (unit i))) as (u & Hu & Ou).
    set (d := axpy 1 (unit k) u).
    assert (Od : forall w, below k w -> form d w = 0).
    { intros w Hw. unfold d. rewrite form_axpy_l. specialize (Ou w Hw). rewrite dot_form in Ou. lra. }
    assert (Dk : d k = 1). { unfold d, axpy, unit. rewrite Nat.eqb_refl, (Hu k) by lia. ring. }
    assert (Dpos : 0 < form d d). { apply convex. exists k. split; [lia|]. rewrite Dk. lra. }
    assert (Dd : form d (unit k) = form d d).
    { unfold d at 3. rewrite form_axpy_r. rewrite (Od u Hu). ring. }
    set (t := - (form z (unit k) + dot q (unit k)) / form d d).
    exists (axpy t d z). split.
    + intros i Hi. unfold axpy, d, axpy, unit. rewrite (Hz i), (Hu i) by lia. replace (Nat.eqb i k) with false by (symmetry; apply Nat.eqb_neq; lia). ring.
    + intros w Hw. set (w0 := fun i => if Nat.ltb i k then w i else 0).
      assert (B0 : below k w0). { intros i Hi. unfold w0. now rewrite (proj2 (Nat.ltb_ge i k)). }
      assert (Ew : forall i, w i = axpy (w k) (unit k) w0 i).
      { intros i. unfold axpy, unit, w0. destruct (Nat.ltb_spec i k).
        - replace (Nat.eqb i k) with false by (symmetry; apply Nat.eqb_neq; lia). ring.
        - destruct (Nat.eqb_spec i k) as [->|]; [ring|]. rewrite (Hw i) by lia. ring. }
      rewrite (form_ext (axpy t d z) (axpy t d z) w (axpy (w k) (unit k) w0)) by auto. rewrite (dot_ext q w (axpy (w k) (unit k) w0)) by auto.
      rewrite form_axpy_r, dot_axpy, !form_axpy_l, (Od w0 B0), Dd.
      pose proof (Oz w0 B0) as O. unfold t. 
      transitivity ((form z w0 + dot q w0) + w k * ((form z (unit k) + dot q (unit k)) - (form z (unit k) + dot q (unit k)))); [field; lra|]. rewrite O. ring.
Qed.

(** *** With equalities. [l]: the rows of the equalities. *)
Definition kernel (l : list (nat -> R)) (w : nat -> R) : Prop := forall a, In a l -> dot a w = 0.

Lemma kernel_optimum l : forall q, exists z, kernel l z /\ forall w, kernel l w -> form z w + dot q w = 0.
Proof.
  induction l as [|a l IH]; intros q.
  - destruct (free_optimum n (le_n n) q) as (z & _ & Oz). exists z. split; [intros a []|]. intros w _.
    rewrite <- (Oz (fun i => if Nat.ltb i n then w i else 0)).
    + f_equal; [apply form_ext; intros i Hi; auto|apply dot_ext; intros i Hi]; now rewrite (proj2 (Nat.ltb_lt i n)).
    + intros i Hi. now rewrite (proj2 (Nat.ltb_ge i n)).
  - destruct (IH q) as (z & Hz & Oz). destruct (IH (fun i => - a i)) as (d & Hd & Od).
    assert (Ea : forall w, kernel l w -> dot a w = form d w).
    { intros w Hw. specialize (Od w Hw). replace (dot (fun i => - a i) w) with (- dot a w) in Od; [lra|].
      unfold dot. rewrite <- Rsum_opp. apply Rsum_ext. intros; ring. }
    destruct (Req_EM_T (form d d) 0) as [Z|Z].
    + exists z. split.
      * intros a' [<-|H]; [|now apply Hz]. rewrite Ea by exact Hz.
        rewrite (form_ext d (fun _ => 0) z z) by (auto; apply form_zero; exact Z).
        unfold form. rewrite Rsum_zero_ext; [ring|]. intros. apply Rsum_zero_ext. intros. ring.
      * intros w Hw. apply Oz. intros a' H. apply Hw. now right.
    + exists (axpy (- dot a z / form d d) d z). split.
      * intros a' [<-|H]; rewrite dot_axpy.
        -- rewrite (Ea d Hd). field. exact Z.
        -- rewrite (Hz a' H), (Hd a' H). ring.
      * intros w Hw. assert (Hw' : kernel l w) by (intros a' H; apply Hw; now right).
        rewrite form_axpy_l, <- (Ea w Hw'), (Hw a (or_introl eq_refl)). specialize (Oz w Hw'). lra.
Qed.

(** The cost, the rows of the constraints (a row and its constant), and the points that meet them. *)
Variable q : nat -> R.
Definition value (z : nat -> R) : R := / 2 * form z z + dot q z.
Definition feasible (eqs ineqs : list ((nat -> R) * R)) (z : nat -> R) : Prop :=
  (forall a c, In (a, c) eqs -> dot a z + c = 0) /\ (forall a c, In (a, c) ineqs -> 0 <= dot a z + c).
Definition optimal (eqs ineqs : list ((nat -> R) * R)) (z : nat -> R) : Prop :=
  feasible eqs ineqs z /\ forall y, feasible eqs ineqs y -> value z <= value y.

Lemma value_axpy t d x : value (axpy t d x) = value x + t * (form x d + dot q d) + t * t * (/ 2 * form d d).
Proof. unfold value. rewrite form_axpy_r, !form_axpy_l, dot_axpy, (form_sym d x). field. Qed.

Lemma equality_optimum eqs : (exists z, feasible eqs [] z) -> exists z, optimal eqs [] z.
Proof.
  intros (y & Hy & _).
  destruct (kernel_optimum (map fst eqs) (fun i => q i + form y (unit i))) as (z & Hz & Oz).
  exists (axpy 1 z y). split.
  - split; [|intros a c []]. intros a c H. rewrite dot_axpy. rewrite (Hz a) by (apply in_map_iff; exists (a, c); auto). pose proof (Hy a c H). lra.
  - intros x (Hx & _). set (w := axpy (-1) (axpy 1 z y) x).
    assert (Kw : kernel (map fst eqs) w).
    { intros a Ha. apply in_map_iff in Ha. destruct Ha as ((a', c) & E & Ha). cbn in E. subst a'. unfold w. rewrite !dot_axpy.
      rewrite (Hz a) by (apply in_map_iff; exists (a, c); auto). pose proof (Hx a c Ha). pose proof (Hy a c Ha). lra. }
    assert (Ew : value x = value (axpy 1 w (axpy 1 z y))).
    { unfold value. f_equal; [f_equal; apply form_ext|apply dot_ext]; intros i _; unfold w, axpy; ring. }
    rewrite Ew, (value_axpy 1 w). pose proof (form_nonneg w).
    assert (G : form (axpy 1 z y) w + dot q w = 0).
    { specialize (Oz w Kw). rewrite form_axpy_l.
      replace (dot (fun i => q i + form y (unit i)) w) with (dot q w + form y w) in Oz; [lra|].
      rewrite <- (dot_form y w). unfold dot. rewrite <- Rsum_plus. apply Rsum_ext. intros; ring. }
    rewrite G. lra.
Qed.

Lemma program_optimum ineqs : forall eqs, (exists z, feasible eqs ineqs z) -> exists z, optimal eqs ineqs z.
Proof.
  induction ineqs as [|(a, c) l IH]; intros eqs (y & Hy & Gy); [apply equality_optimum; exists y; split; [exact Hy|intros a c []]|].
  destruct (IH eqs) as (z0 & (H0 & G0) & O0); [exists y; split; [exact Hy|intros; apply Gy; now right]|].
  destruct (Rle_dec 0 (dot a z0 + c)) as [Hc|Hc].
  - exists z0. split.
    + split; [exact H0|]. intros a' c' [E|H]; [injection E as <- <-; exact Hc|now apply G0].
    + intros x (Hx & Gx). apply O0. split; [exact Hx|intros; apply Gx; now right].
  - assert (Cross : forall x, feasible eqs ((a, c) :: l) x -> exists w, feasible ((a, c) :: eqs) l w /\ value w <= value x).
    { intros x (Hx & Gx). pose proof (Gx a c (or_introl eq_refl)) as Gax.
      set (t := - (dot a z0 + c) / (dot a x + c - (dot a z0 + c))).
      assert (Ht : 0 <= t <= 1).
      { unfold t. split; [apply Rmult_le_pos; [lra|left; apply Rinv_0_lt_compat; lra]|].
        apply Rmult_le_reg_r with (dot a x + c - (dot a z0 + c)); [lra|]. unfold Rdiv. rewrite Rmult_assoc, Rinv_l by lra. lra. }
      set (w := axpy t (axpy (-1) z0 x) z0).
      assert (Dw : forall a' c', dot a' w + c' = (1 - t) * (dot a' z0 + c') + t * (dot a' x + c')) by (intros; unfold w; rewrite !dot_axpy; ring).
      exists w. split; [split|].
      - intros a' c' [E|H].
        + injection E as <- <-. rewrite Dw. unfold t. field. lra.
        + rewrite Dw, (H0 a' c' H), (Hx a' c' H). ring.
      - intros a' c' H. rewrite Dw. pose proof (G0 a' c' H). pose proof (Gx a' c' (or_intror H)).
        apply Rplus_le_le_0_compat; apply Rmult_le_pos; lra.
      - assert (O : value z0 <= value x) by (apply O0; split; [exact Hx|intros; apply Gx; now right]).
        unfold w. rewrite value_axpy.
        assert (Ex : value x = value (axpy 1 (axpy (-1) z0 x) z0)).
        { unfold value. f_equal; [f_equal; apply form_ext|apply dot_ext]; intros i _; unfold axpy; ring. }
        rewrite Ex in O |- *. rewrite value_axpy in O |- *. pose proof (form_nonneg (axpy (-1) z0 x)).
        set (F := / 2 * form (axpy (-1) z0 x) (axpy (-1) z0 x)) in *. set (L := form z0 (axpy (-1) z0 x) + dot q (axpy (-1) z0 x)) in *.
        assert (0 <= F) by (unfold F; lra). assert (t * t <= t) by nra. assert (0 <= L + F) by lra.
        apply Rle_trans with (value z0 + t * (L + F)); [|nra]. nra. }
    destruct (IH ((a, c) :: eqs)) as (z & (Hz & Gz) & Oz).
    { destruct (Cross y (conj Hy Gy)) as (w & Hw & _). exists w. exact Hw. }
    exists z. split.
    + split; [intros; apply Hz; now right|]. intros a' c' [E|H]; [injection E as <- <-; rewrite (Hz a c) by (now left); lra|now apply Gz].
    + intros x Hx. destruct (Cross x Hx) as (w & Hw & Hv). apply Rle_trans with (value w); [apply Oz; exact Hw|exact Hv].
Qed.

End QP.

(** ** Orthonormal families *)

Section QR.
Variable n : nat.
Notation ip := (dot n).

Lemma dot_sym a b : ip a b = ip b a.
Proof. apply Rsum_ext. intros; ring. Qed.

Lemma dot_sum k f v : ip (fun i => Rsum k (fun a => f a i)) v = Rsum k (fun a => ip (f a) v).
Proof.
  unfold dot. rewrite (Rsum_ext n _ (fun i => Rsum k (fun a => f a i * v i))) by (intros; now rewrite Rsum_scal_r).
  rewrite Rsum_swap. reflexivity.
Qed.

Lemma dot_scal c a v : ip (fun i => c * a i) v = c * ip a v.
Proof. unfold dot. rewrite <- Rsum_scal_l. apply Rsum_ext. intros; ring. Qed.

Lemma dot_minus a b v : ip (fun i => a i - b i) v = ip a v - ip b v.
Proof. unfold dot. rewrite <- Rsum_minus. apply Rsum_ext. intros; ring. Qed.

Lemma dot_ext2 a a' b b' : (forall i, (i < n)%nat -> a i = a' i) -> (forall i, (i < n)%nat -> b i = b' i) -> ip a b = ip (a') (b').
Proof. intros H K. apply Rsum_ext. intros i Hi. now rewrite H, K. Qed.

Definition orthonormal (k : nat) (e : nat -> nat -> R) : Prop :=
  forall a b, (a < k)%nat -> (b < k)%nat -> ip (e a) (e b) = if Nat.eqb a b then 1 else 0.

(** What is left of [v] without its components along the family. *)
Definition residual (k : nat) (e : nat -> nat -> R) (v : nat -> R) (i : nat) : R := v i - Rsum k (fun a => ip v (e a) * e a i).

Lemma residual_dot k e v w : ip (residual k e v) w = ip v w - Rsum k (fun a => ip v (e a) * ip (e a) w).
Proof.
  unfold residual. rewrite dot_minus. f_equal. rewrite (dot_sum k (fun a i => ip v (e a) * e a i)). apply Rsum_ext. intros a _. apply dot_scal.
Qed.

Lemma residual_orthogonal k e v b : orthonormal k e -> (b < k)%nat -> ip (residual k e v) (e b) = 0.
Proof.
  intros H Hb. rewrite residual_dot, (Rsum_delta k b).
  - rewrite (H b b Hb Hb), Nat.eqb_refl. ring.
  - exact Hb.
  - intros a Ha N. rewrite (H a b Ha Hb), (proj2 (Nat.eqb_neq a b) N). ring.
Qed.

Lemma residual_norm k e v : orthonormal k e ->
  ip (residual k e v) (residual k e v) = ip v v - Rsum k (fun a => ip v (e a) * ip v (e a)).
Proof.
  intros H. rewrite residual_dot. rewrite (Rsum_zero_ext k (fun a => ip v (e a) * ip (e a) (residual k e v))).
  - rewrite dot_sym, residual_dot. rewrite Rminus_0_r. f_equal. apply Rsum_ext. intros a _. now rewrite (dot_sym (e a)).
  - intros a Ha. rewrite (dot_sym (e a)), (residual_orthogonal k e v a H Ha). ring.
Qed.

Lemma dot_nonneg v : 0 <= ip v v.
Proof. apply Rsum_nonneg. intros. apply Rle_0_sqr. Qed.

Lemma dot_zero v : ip v v = 0 -> forall i, (i < n)%nat -> v i = 0.
Proof.
  unfold dot. clear. induction n as [|k IH]; intros H i Hi; [lia|]. cbn [Rsum] in H.
  assert (P : 0 <= Rsum k (fun i => v i * v i)) by (apply Rsum_nonneg; intros; apply Rle_0_sqr).
  pose proof (Rle_0_sqr (v k)) as P'. unfold Rsqr in P'.
  destruct (Nat.eq_dec i k) as [->|]; [nra|]. apply IH; [lra|lia].
Qed.

Lemma extend_family k e v : orthonormal k e -> ip (residual k e v) (residual k e v) <> 0 ->
  exists u c, c <> 0 /\ (forall i, u i = c * residual k e v i) /\ ip u u = 1 /\ (forall b, (b < k)%nat -> ip u (e b) = 0) /\ ip v u <> 0.
Proof.
  intros H N. pose proof (dot_nonneg (residual k e v)) as P. set (s := ip (residual k e v) (residual k e v)) in *.
  assert (Hs : sqrt s <> 0) by (intros E; apply sqrt_eq_0 in E; [contradiction|exact P]).
  assert (Hq : sqrt s * sqrt s = s) by (apply sqrt_sqrt; exact P).
  exists (fun i => / sqrt s * residual k e v i), (/ sqrt s). split; [now apply Rinv_neq_0_compat|]. split; [reflexivity|].
  assert (Ovr : ip v (residual k e v) = s).
  { unfold s. rewrite (residual_norm k e v H), dot_sym, residual_dot. f_equal. apply Rsum_ext. intros a _. now rewrite (dot_sym (e a)). }
  repeat split.
  - rewrite dot_scal, dot_sym, dot_scal. fold s. transitivity (/ sqrt s * / sqrt s * (sqrt s * sqrt s)); [rewrite Hq; ring|field; exact Hs].
  - intros b Hb. rewrite dot_scal, (residual_orthogonal k e v b H Hb). ring.
  - rewrite dot_sym, dot_scal, dot_sym, Ovr. intros E. apply Rmult_integral in E. destruct E as [E|E]; [|contradiction].
    revert E. now apply Rinv_neq_0_compat.
Qed.

Definition put (k : nat) (u : nat -> R) (e : nat -> nat -> R) (a : nat) : nat -> R := if Nat.eqb a k then u else e a.

Lemma put_old k u e a : (a < k)%nat -> put k u e a = e a.
Proof. intros H. unfold put. now rewrite (proj2 (Nat.eqb_neq a k)) by lia. Qed.
Lemma put_new k u e : put k u e k = u.
Proof. unfold put. now rewrite Nat.eqb_refl. Qed.

Lemma put_orthonormal k u e : orthonormal k e -> ip u u = 1 -> (forall b, (b < k)%nat -> ip u (e b) = 0) -> orthonormal (S k) (put k u e).
Proof.
  intros H Hu Ho a b Ha Hb.
  destruct (Nat.eq_dec a k) as [->|Na], (Nat.eq_dec b k) as [->|Nb].
  - rewrite put_new, Nat.eqb_refl. exact Hu.
  - rewrite put_new, put_old by lia. rewrite Ho by lia. now rewrite (proj2 (Nat.eqb_neq k b)) by lia.
  - rewrite put_new, put_old by lia. rewrite dot_sym, Ho by lia. now rewrite (proj2 (Nat.eqb_neq a k)) by lia.
  - rewrite !put_old by lia. apply H; lia.
Qed.

(** *** The columns of a matrix *)
Variable c : nat -> nat -> R.
Definition spanned (m : nat) (v : nat -> R) : Prop := exists mu, forall i, (i < n)%nat -> v i = Rsum m (fun j => mu j * c j i).

Lemma spanned_S m v : spanned m v -> spanned (S m) v.
Proof.
  intros (mu & H). exists (fun j => if Nat.ltb j m then mu j else 0). intros i Hi. cbn [Rsum]. rewrite Nat.ltb_irrefl.
  rewrite (H i Hi), (Rsum_ext m _ (fun j => (if Nat.ltb j m then mu j else 0) * c j i)); [ring|].
  intros j Hj. now rewrite (proj2 (Nat.ltb_lt j m) Hj).
Qed.

Lemma spanned_sum m k f g : (forall a, (a < k)%nat -> spanned m (g a)) -> spanned m (fun i => Rsum k (fun a => f a * g a i)).
Proof.
  induction k as [|k IH]; intros H.
  - exists (fun _ => 0). intros i _. cbn [Rsum]. symmetry. apply Rsum_zero_ext. intros; ring.
  - destruct IH as (mu & E); [intros; apply H; lia|]. destruct (H k) as (nu & E'); [lia|].
    exists (fun j => mu j + f k * nu j). intros i Hi. cbn [Rsum]. rewrite (E i Hi), (E' i Hi), <- Rsum_scal_l, <- Rsum_plus.
    apply Rsum_ext. intros; ring.
Qed.

Lemma spanned_column m : spanned (S m) (c m).
Proof.
  exists (fun j => if Nat.eqb j m then 1 else 0). intros i _. rewrite (Rsum_delta (S m) m); [rewrite Nat.eqb_refl; ring|lia|].
  intros j _ N. rewrite (proj2 (Nat.eqb_neq j m) N). ring.
Qed.

Lemma gram_schmidt m :
  (forall mu, (forall i, (i < n)%nat -> Rsum m (fun j => mu j * c j i) = 0) -> forall j, (j < m)%nat -> mu j = 0) ->
  exists e, orthonormal m e /\ (forall a, (a < m)%nat -> spanned m (e a)) /\
    forall j, (j < m)%nat -> ip (c j) (e j) <> 0 /\ forall i, (i < n)%nat -> c j i = Rsum (S j) (fun a => ip (c j) (e a) * e a i).
Proof.
  induction m as [|m IH]; intros Hind.
  - exists (fun _ _ => 0). split; [intros a b Ha; lia|split; [intros a Ha; lia|intros j Hj; lia]].
  - destruct IH as (e & He & Hs & Hc).
    { intros mu H j Hj. specialize (Hind (fun j => if Nat.ltb j m then mu j else 0)).
      assert (E : forall i, (i < n)%nat -> Rsum (S m) (fun j => (if Nat.ltb j m then mu j else 0) * c j i) = 0).
      { intros i Hi. cbn [Rsum]. rewrite Nat.ltb_irrefl. rewrite <- (H i Hi) at 2.
        rewrite (Rsum_ext m _ (fun j => mu j * c j i)); [ring|]. intros j' Hj'. now rewrite (proj2 (Nat.ltb_lt j' m) Hj'). }
      specialize (Hind E j). cbv beta in Hind. rewrite (proj2 (Nat.ltb_lt j m) Hj) in Hind. apply Hind. lia. }
    assert (N : ip (residual m e (c m)) (residual m e (c m)) <> 0).
    { intros Z. pose proof (dot_zero _ Z) as Z'. 
      destruct (spanned_sum m m (fun a => ip (c m) (e a)) e Hs) as (mu & Emu).
      specialize (Hind (fun j => if Nat.eqb j m then 1 else - mu j)).
      assert (E : forall i, (i < n)%nat -> Rsum (S m) (fun j => (if Nat.eqb j m then 1 else - mu j) * c j i) = 0).
      { intros i Hi. cbn [Rsum]. rewrite Nat.eqb_refl. specialize (Z' i Hi). unfold residual in Z'. rewrite (Emu i Hi) in Z'.
        rewrite (Rsum_ext m _ (fun j => - (mu j * c j i))).
        - rewrite Rsum_opp. lra.
        - intros j Hj. rewrite (proj2 (Nat.eqb_neq j m)) by lia. ring. }
      specialize (Hind E m (Nat.lt_succ_diag_r m)). cbn beta in Hind. rewrite Nat.eqb_refl in Hind. lra. }
    destruct (extend_family m e (c m) He N) as (u & k & Hk & Hu & Uu & Ou & Uc).
    exists (put m u e). split; [now apply put_orthonormal|]. split.
    + intros a Ha. destruct (Nat.eq_dec a m) as [->|].
      * rewrite put_new. destruct (spanned_sum m m (fun a => ip (c m) (e a)) e Hs) as (mu & Emu).
        destruct (spanned_S m _ (ex_intro _ mu Emu)) as (nu & Enu). destruct (spanned_column m) as (la & Ela).
        exists (fun j => k * (la j - nu j)). intros i Hi. rewrite (Hu i). unfold residual. rewrite (Enu i Hi), (Ela i Hi), <- Rsum_minus, <- Rsum_scal_l.
        apply Rsum_ext. intros; ring.
      * rewrite put_old by lia. apply spanned_S, Hs. lia.
    + intros j Hj. destruct (Nat.eq_dec j m) as [->|].
      * rewrite put_new. split; [exact Uc|]. intros i Hi. cbn [Rsum]. rewrite put_new.
        rewrite (Rsum_ext m _ (fun a => ip (c m) (e a) * e a i)) by (intros a Ha; now rewrite put_old by lia).
        assert (E : ip (c m) u * u i = residual m e (c m) i).
        { rewrite (Hu i). set (s := ip (residual m e (c m)) (residual m e (c m))) in *.
          assert (Kc : ip (c m) u = k * s).
          { rewrite dot_sym, (dot_ext2 u (fun i => k * residual m e (c m) i) (c m) (c m)) by auto. rewrite dot_scal. f_equal.
            unfold s. rewrite (residual_norm m e (c m) He), residual_dot. f_equal. apply Rsum_ext. intros a _. now rewrite (dot_sym (e a)). }
          assert (K2 : k * k * s = 1).
          { rewrite <- Uu. rewrite (dot_ext2 u (fun i => k * residual m e (c m) i) u (fun i => k * residual m e (c m) i)) by auto.
            rewrite dot_scal, dot_sym, dot_scal. unfold s. ring. }
          rewrite Kc. replace (k * s * (k * residual m e (c m) i)) with (k * k * s * residual m e (c m) i) by ring. rewrite K2. ring. }
        rewrite E. unfold residual. ring.
      * rewrite put_old by lia. destruct (Hc j) as [H1 H2]; [lia|]. split; [exact H1|]. intros i Hi. rewrite (H2 i Hi).
        apply Rsum_ext. intros a Ha. now rewrite put_old by lia.
Qed.

(** *** Completion to a basis *)
Definition axis (i : nat) (j : nat) : R := if Nat.eqb j i then 1 else 0.

Lemma dot_axis v i : (i < n)%nat -> ip (axis i) v = v i.
Proof.
  intros H. unfold dot. rewrite (Rsum_delta n i); [unfold axis; rewrite Nat.eqb_refl; ring|exact H|].
  intros j _ N. unfold axis. rewrite (proj2 (Nat.eqb_neq j i) N). ring.
Qed.

Lemma axis_residual k e i : orthonormal k e -> (i < n)%nat ->
  ip (residual k e (axis i)) (residual k e (axis i)) = 1 - Rsum k (fun a => e a i * e a i).
Proof.
  intros H Hi. rewrite (residual_norm k e _ H), dot_axis by exact Hi. unfold axis at 1. rewrite Nat.eqb_refl. f_equal.
  apply Rsum_ext. intros a _. now rewrite dot_axis.
Qed.

Lemma residual_total k e : orthonormal k e ->
  Rsum n (fun i => ip (residual k e (axis i)) (residual k e (axis i))) = INR n - INR k.
Proof.
  intros H. rewrite (Rsum_ext n _ (fun i => 1 - Rsum k (fun a => e a i * e a i))) by (intros; now apply axis_residual).
  rewrite Rsum_minus. f_equal.
  - clear. induction n as [|p IH]; [reflexivity|]. cbn [Rsum]. rewrite IH, S_INR. ring.
  - rewrite Rsum_swap. rewrite (Rsum_ext k _ (fun _ => 1)).
    + clear. induction k as [|p IH]; [reflexivity|]. cbn [Rsum]. rewrite IH, S_INR. ring.
    + intros a Ha. pose proof (H a a Ha Ha) as E. rewrite Nat.eqb_refl in E. exact E.
Qed.

Lemma family_small k e : orthonormal k e -> (k <= n)%nat.
Proof.
  intros H. apply INR_le. pose proof (residual_total k e H) as E.
  assert (0 <= Rsum n (fun i => ip (residual k e (axis i)) (residual k e (axis i)))) by (apply Rsum_nonneg; intros; apply dot_nonneg). lra.
Qed.

Lemma complete_family d : forall k e, (k + d = n)%nat -> orthonormal k e ->
  exists e', orthonormal n e' /\ forall a, (a < k)%nat -> e' a = e a.
Proof.
  induction d as [|d IH]; intros k e Hk H.
  - exists e. replace n with k by lia. auto.
  - assert (Hex : exists i, (i < n)%nat /\ ip (residual k e (axis i)) (residual k e (axis i)) <> 0).
    { apply NNPP. intros F. pose proof (residual_total k e H) as E. rewrite Rsum_zero_ext in E.
      - assert (INR k < INR n) by (apply lt_INR; lia). lra.
      - intros i Hi. destruct (Req_EM_T (ip (residual k e (axis i)) (residual k e (axis i))) 0); [assumption|]. exfalso. eauto. }
    destruct Hex as (i & Hi & N). destruct (extend_family k e _ H N) as (u & cc & _ & _ & Uu & Ou & _).
    destruct (IH (S k) (put k u e) ltac:(lia) (put_orthonormal k u e H Uu Ou)) as (e' & He' & Hold).
    exists e'. split; [exact He'|]. intros a Ha. rewrite Hold by lia. now apply put_old.
Qed.

Lemma Rsum_zero_all p f : Rsum p f = 0 -> (forall i, (i < p)%nat -> 0 <= f i) -> forall i, (i < p)%nat -> f i = 0.
Proof.
  induction p as [|p IH]; intros E P i Hi; [lia|].
  cbn [Rsum] in E. assert (0 <= Rsum p f) by (apply Rsum_nonneg; intros; apply P; lia). pose proof (P p ltac:(lia)).
  destruct (Nat.eq_dec i p) as [->|]; [lra|]. apply IH; [lra|intros; apply P; lia|lia].
Qed.

Lemma basis_rows e : orthonormal n e -> forall i j, (i < n)%nat -> (j < n)%nat ->
  Rsum n (fun a => e a i * e a j) = if Nat.eqb i j then 1 else 0.
Proof.
  intros H i j Hi Hj. pose proof (residual_total n e H) as E.
  assert (Z : ip (residual n e (axis i)) (residual n e (axis i)) = 0).
  { refine (Rsum_zero_all n (fun i => ip (residual n e (axis i)) (residual n e (axis i))) _ _ i Hi); [rewrite E; ring|intros; apply dot_nonneg]. }
  pose proof (dot_zero _ Z j Hj) as R. unfold residual in R. rewrite (Rsum_ext n _ (fun a => e a i * e a j)) in R by (intros; now rewrite dot_axis).
  unfold axis in R. rewrite (Nat.eqb_sym j i) in R. lra.
Qed.

End QR.

(** ** The back-ends *)

Definition rows_of (M : mat) (c : vec) : list ((nat -> R) * R) := map (fun k => (mat_at M k, vat c k)) (seq 0 (mrows M)).

Lemma rows_of_iff M c (H : (nat -> R) -> R -> Prop) :
  (forall a k, In (a, k) (rows_of M c) -> H a k) <-> forall k, (k < mrows M)%nat -> H (mat_at M k) (vat c k).
Proof.
  unfold rows_of. split; intros G.
  - intros k Hk. apply G. apply in_map_iff. exists k. split; [reflexivity|]. apply in_seq. lia.
  - intros a k Hin. apply in_map_iff in Hin. destruct Hin as (i & E & Hi). injection E as <- <-. apply G. apply in_seq in Hi. lia.
Qed.

Lemma form_quadratic n P z : form n P z z = Rsum n (fun i => Rsum n (fun j => z i * P i j * z j)).
Proof.
  unfold form.
  rewrite (Rsum_ext n (fun i => Rsum n (fun j => z i * (P i j + P j i) * z j))
             (fun i => Rsum n (fun j => z i * P i j * z j) + Rsum n (fun j => z j * P j i * z i))).
  - rewrite Rsum_plus, (Rsum_swap n n (fun i j => z j * P j i * z i)). field.
  - intros i _. rewrite <- Rsum_plus. apply Rsum_ext. intros; ring.
Qed.

Lemma optimum_exists Q : strictly_convex Q -> (exists z, qp_feasible Q z) ->
  (mrows (qp_A Q) = 0%nat \/ mcols (qp_A Q) = vlen (qp_q Q)) -> (mrows (qp_G Q) = 0%nat \/ mcols (qp_G Q) = vlen (qp_q Q)) ->
  exists z, qp_feasible Q z /\ forall y, qp_feasible Q y -> qp_cost Q z <= qp_cost Q y.
Proof.
  intros Hc Hf HA HG. set (n := vlen (qp_q Q)) in *.
  assert (F : forall z, qp_feasible Q z <-> feasible n (rows_of (qp_A Q) (qp_b Q)) (rows_of (qp_G Q) (qp_h Q)) z).
  { intros z. unfold qp_feasible, feasible. rewrite (rows_of_iff (qp_A Q) (qp_b Q) (fun a c => dot n a z + c = 0)).
    rewrite (rows_of_iff (qp_G Q) (qp_h Q) (fun a c => 0 <= dot n a z + c)).
    assert (EA : forall k, (k < mrows (qp_A Q))%nat -> Rsum (mcols (qp_A Q)) (fun j => mat_at (qp_A Q) k j * z j) = dot n (mat_at (qp_A Q) k) z).
    { intros k Hk. unfold dot. destruct HA as [HA|HA]; [lia|]. now rewrite HA. }
    assert (EG : forall k, (k < mrows (qp_G Q))%nat -> Rsum (mcols (qp_G Q)) (fun j => mat_at (qp_G Q) k j * z j) = dot n (mat_at (qp_G Q) k) z).
    { intros k Hk. unfold dot. destruct HG as [HG|HG]; [lia|]. now rewrite HG. }
    split; intros [H1 H2]; (split; intros k Hk; [specialize (H1 k Hk); rewrite EA in * by exact Hk; exact H1|specialize (H2 k Hk); rewrite EG in * by exact Hk; exact H2]). }
  assert (V : forall z, qp_cost Q z = value n (mat_at (qp_P Q)) (vat (qp_q Q)) z).
  { intros z. unfold qp_cost, value. fold n. now rewrite form_quadratic. }
  destruct (program_optimum n (mat_at (qp_P Q))) with (q := vat (qp_q Q)) (ineqs := rows_of (qp_G Q) (qp_h Q)) (eqs := rows_of (qp_A Q) (qp_b Q)) as (z & Hz & Oz).
  - intros z Hz. rewrite form_quadratic. apply Hc. exact Hz.
  - destruct Hf as (z & Hz). exists z. now apply F.
  - exists z. split; [now apply F|]. intros y Hy. rewrite !V. apply Oz. now apply F.
Qed.

Definition optimal_point (Q : qp_problem) (z : nat -> R) : Prop := qp_feasible Q z /\ forall y, qp_feasible Q y -> qp_cost Q z <= qp_cost Q y.

(** The back-end that returns an optimum whenever there is one. *)
Definition perfect_qp (Q : qp_problem) : qp_result :=
  match excluded_middle_informative (exists z, optimal_point Q z) with
  | left H => QPResult false (proj1_sig (constructive_indefinite_description _ H)) (fun _ => false) []
  | right _ => QPResult true (fun _ => 0) (fun _ => false) []
  end.

Definition full_rank (M : mat) (d : qr_result) : Prop :=
  qr_rank d = mcols M /\
    (forall i j, (i < mrows M)%nat -> (j < mrows M)%nat ->
       Rsum (mrows M) (fun k => qr_Q d k i * qr_Q d k j) = if Nat.eqb i j then 1 else 0) /\
    (forall i j, (i < mrows M)%nat -> (j < mrows M)%nat ->
       Rsum (mrows M) (fun k => qr_Q d i k * qr_Q d j k) = if Nat.eqb i j then 1 else 0) /\
    (forall j, (j < mcols M)%nat -> (qr_perm d j < mcols M)%nat) /\
    (forall j, (j < mcols M)%nat -> exists j', (j' < mcols M)%nat /\ qr_perm d j' = j) /\
    (forall i j, (i < mrows M)%nat -> (j < mcols M)%nat ->
       mat_at M i (qr_perm d j) = Rsum (mrows M) (fun k => qr_Q d i k * qr_R d k j)) /\
    (forall k j, (j < k)%nat -> qr_R d k j = 0) /\
    (mcols M <= mrows M)%nat /\
    (forall j, (j < mcols M)%nat -> qr_R d j j <> 0).

Lemma decomposition_exists M : independent_columns M -> exists d, full_rank M d.
Proof.
  intros H. set (n := mrows M). set (m := mcols M). set (c := fun j i => mat_at M i j).
  destruct (gram_schmidt n c m) as (e & He & _ & Hc); [exact H|].
  pose proof (family_small n m e He) as Hm.
  destruct (complete_family n (n - m) m e ltac:(lia) He) as (f & Hf & Hfe).
  exists (QRResult m (fun i k => f k i) (fun k j => if Nat.leb k j then dot n (c j) (f k) else 0) (fun j => j)).
  unfold full_rank. fold n m. cbn [qr_rank qr_Q qr_R qr_perm].
  split; [reflexivity|]. split; [intros i j Hi Hj; apply (Hf i j Hi Hj)|].
  split; [intros i j Hi Hj; now apply basis_rows|]. split; [auto|]. split; [intros j Hj; eauto|].
  split; [|split; [intros k j Hk; now rewrite (proj2 (Nat.leb_gt k j))|split; [exact Hm|]]].
  - intros i j Hi Hj. destruct (Hc j Hj) as [_ E]. change (mat_at M i j) with (c j i). rewrite (E i Hi).
    rewrite (Rsum_extend (S j) n (fun k => f k i * _)).
    + apply Rsum_ext. intros k Hk. rewrite (proj2 (Nat.leb_le k j)) by lia. rewrite Hfe by lia. unfold dot. ring.
    + lia.
    + intros k Hk. rewrite (proj2 (Nat.leb_gt k j)) by lia. ring.
  - intros j Hj. rewrite Nat.leb_refl, Hfe by exact Hj. exact (proj1 (Hc j Hj)).
Qed.

(** The decomposition that recognises every matrix with independent columns. *)
Definition perfect_qr (M : mat) : qr_result :=
  match excluded_middle_informative (exists d, full_rank M d) with
  | left H => proj1_sig (constructive_indefinite_description _ H)
  | right _ => QRResult (S (mcols M)) (fun _ _ => 0) (fun _ _ => 0) (fun j => j)
  end.

Lemma perfect_qp_correct : qp_correct perfect_qp.
Proof.
  intros Q. unfold perfect_qp. destruct (excluded_middle_informative _) as [H|H]; [|discriminate]. intros _. cbn [q_x].
  destruct (constructive_indefinite_description _ H) as (z & Hz). exact Hz.
Qed.

Lemma perfect_qp_never_fails : ~ qp_fails perfect_qp.
Proof.
  intros (Q & Hc & Hf & HA & HG & Hbad). revert Hbad. unfold perfect_qp. destruct (excluded_middle_informative _) as [H|H].
  - cbn. intros [E|(j & _ & E)]; discriminate.
  - intros _. apply H. exact (optimum_exists Q Hc Hf HA HG).
Qed.

Lemma perfect_qr_correct : qr_correct perfect_qr.
Proof.
  intros M. cbv zeta. unfold perfect_qr. destruct (excluded_middle_informative _) as [H|H]; [|cbn [qr_rank]; lia].
  destruct (constructive_indefinite_description _ H) as (d & Hd). cbn [proj1_sig]. intros _. exact (proj2 Hd).
Qed.

Lemma perfect_qr_never_fails : ~ qr_fails perfect_qr.
Proof.
  intros (M & Hi & Hr). revert Hr. unfold perfect_qr. destruct (excluded_middle_informative _) as [H|H].
  - destruct (constructive_indefinite_description _ H) as (d & Hd). cbn [proj1_sig]. intros E. apply E. exact (proj1 Hd).
  - intros _. apply H. now apply decomposition_exists.
Qed.
