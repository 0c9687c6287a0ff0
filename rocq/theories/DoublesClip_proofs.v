(** Clipping with doubles. *)
From Coq Require Import Reals ZArith List Bool Lia Lra Psatz.
From Flocq Require Import Core.
From Verif Require Import Base Geom3 Footsteps_model Footsteps_spec Doubles_model Doubles_spec Doubles_proofs DoublesReplan_proofs DoublesClip_model DoublesClip_spec.
Open Scope R_scope.

Lemma double_abs x : Rabs (double x) = double (Rabs x).
Proof.
  destruct (Rle_dec 0 x) as [H|H].
  - rewrite !Rabs_right; auto; [apply Rle_ge, H|apply Rle_ge, double_pos, H].
  - apply Rnot_le_lt in H. rewrite (Rabs_left1 x) by lra. rewrite double_opp. rewrite Rabs_left1; [reflexivity|]. apply double_below; [apply is_double_0|lra].
Qed.

(** The square root of the square of a double, computed with doubles, is not less than it. *)
Lemma sqrt_square x : is_double x -> big 201 x -> x <= d_sqrt (double (x * x)).
Proof.
  intros D [->|B]; [apply double_pos, sqrt_pos|].
  assert (P : 0 < x) by (assert (0 < / 2 ^ 201) by (apply Rinv_0_lt_compat, pow_lt; lra); lra).
  pose proof (bpow_mag_le radix2 x ltac:(lra)) as M1. pose proof (bpow_mag_gt radix2 x) as M2. rewrite Rabs_right in M1, M2 by lra. set (e := (mag radix2 x : Z)) in *.
  assert (E : (-300 <= e)%Z).
  { apply Z.lt_le_incl. apply (lt_bpow radix2). apply Rlt_trans with x; [|exact M2]. refine (Rlt_le_trans _ _ _ _ B). change (-300)%Z with (- Z.of_nat 300)%Z. rewrite bpow_inv.
    apply Rinv_lt_contravar; [apply Rmult_lt_0_compat; apply pow_lt; lra|apply Rlt_pow; [lra|lia]]. }
  set (m := Ztrunc (scaled_mantissa radix2 fexp64 x)).
  assert (X : x = IZR m * bpow radix2 (e - 53)).
  { apply is_double_format in D. pose proof (scaled_mantissa_generic radix2 fexp64 x D) as S. fold m in S. rewrite <- S. unfold scaled_mantissa, cexp. fold e. unfold FLT_exp. rewrite Z.max_l by lia.
    rewrite Rmult_assoc, <- bpow_plus. replace (- (e - 53) + (e - 53))%Z with 0%Z by lia. cbn [bpow]. ring. }
  set (b := bpow radix2 (e - 53)) in *. assert (b0 : 0 < b) by apply bpow_gt_0.
  assert (L1 : bpow radix2 (e - 1) = 2 ^ 52 * b). { unfold b. replace (e - 1)%Z with (52 + (e - 53))%Z by lia. rewrite bpow_plus. f_equal. rewrite bpow_power. change 52%Z with (Z.of_nat 52). now rewrite <- pow_powerRZ. }
  assert (L2 : bpow radix2 e = 2 ^ 53 * b). { unfold b. replace e with (53 + (e - 53))%Z at 1 by lia. rewrite bpow_plus. f_equal. rewrite bpow_power. change 53%Z with (Z.of_nat 53). now rewrite <- pow_powerRZ. }
  rewrite X, L1 in M1. rewrite X, L2 in M2. apply Rmult_le_reg_r in M1; [|exact b0]. apply Rmult_lt_reg_r in M2; [|exact b0].
  assert (I1 : (4503599627370496 <= m)%Z) by (apply le_IZR; lra). assert (I2 : (m <= 9007199254740991)%Z) by (assert (m < 9007199254740992)%Z by (apply lt_IZR; lra); lia).
  assert (SQ : 0 < x * x) by (apply Rmult_lt_0_compat; exact P).
  destruct (Z.eq_dec m 4503599627370496) as [->|NE].
  - (* a power of 2 *) assert (DS : is_double (x * x)).
    { exists 1%Z, (104 + (e - 53) + (e - 53))%Z. split; [|split; lia]. rewrite <- bpow_power, !bpow_plus. fold b. rewrite X. change (bpow radix2 104) with (IZR (2 ^ 104)). 
      change (2 ^ 104)%Z with 20282409603651670423947251286016%Z. lra. }
    rewrite (double_id _ DS). unfold d_sqrt. rewrite R_sqrt.sqrt_square by lra. rewrite (double_id x D). lra.
  - unfold d_sqrt. set (v := sqrt (double (x * x))). destruct (Rle_lt_dec x v) as [G|G]; [apply double_above; assumption|].
    assert (W : within 1 (x * x) (double (x * x))).
    { apply (double_within _ (201 + 201)); [lia|]. apply (big_mul 201 201); now right. }
    destruct W as (W & _). fold unit_error in W. rewrite pow_1 in W.
    assert (V : (IZR m - / 2) * b < v).
    { unfold v. rewrite <- (R_sqrt.sqrt_square ((IZR m - / 2) * b)) by (apply Rmult_le_pos; lra). apply sqrt_lt_1_alt. split; [apply Rmult_le_pos; apply Rmult_le_pos; lra|].
      refine (Rlt_le_trans _ _ _ _ W). rewrite X. replace ((IZR m - / 2) * b * ((IZR m - / 2) * b)) with ((IZR m * IZR m - IZR m + / 4) * (b * b)) by field.
      replace ((1 - unit_error) * (IZR m * b * (IZR m * b))) with ((1 - unit_error) * (IZR m * IZR m) * (b * b)) by ring.
      apply Rmult_lt_compat_r; [apply Rmult_lt_0_compat; exact b0|].
      assert (M : unit_error * IZR m <= 1 - unit_error). { apply IZR_le in I2. apply Rle_trans with (unit_error * 9007199254740991); [apply Rmult_le_compat_l; [pose proof unit_bounds; lra|exact I2]|]. unfold unit_error. lra. }
      apply IZR_le in I1. assert (unit_error * IZR m * IZR m <= (1 - unit_error) * IZR m) by (apply Rmult_le_compat_r; lra).
      assert (/ 4 < unit_error * IZR m). { apply Rlt_le_trans with (unit_error * 4503599627370496); [unfold unit_error; lra|apply Rmult_le_compat_l; [pose proof unit_bounds; lra|exact I1]]. } lra. }
    assert (EQ : double v = IZR m * bpow radix2 (e - 53)).
    { apply double_near.
      - rewrite L1, L2. split; [|apply Rlt_trans with x; [exact G|rewrite X; apply Rmult_lt_compat_r; [exact b0|lra]]].
        apply Rlt_le. refine (Rle_lt_trans _ _ _ _ V). apply Rmult_le_compat_r; [lra|]. assert (4503599627370497 <= IZR m) by (apply IZR_le; lia). lra.
      - lia.
      - assert (BB : b * bpow radix2 (53 - e) = 1). { unfold b. rewrite <- bpow_plus. replace (e - 53 + (53 - e))%Z with 0%Z by lia. reflexivity. }
        assert (i0 : 0 < bpow radix2 (53 - e)) by apply bpow_gt_0.
        assert (A1 : (IZR m - / 2) * b * bpow radix2 (53 - e) < v * bpow radix2 (53 - e)) by (apply Rmult_lt_compat_r; assumption).
        assert (A2 : v * bpow radix2 (53 - e) < IZR m * b * bpow radix2 (53 - e)) by (apply Rmult_lt_compat_r; [assumption|rewrite <- X; exact G]).
        rewrite Rmult_assoc, BB in A1, A2. apply Rabs_def1; lra. }
    rewrite EQ, X. apply Rle_refl.
Qed.

Lemma within_sqrt k x y : 0 <= x -> within k x y -> within k (sqrt x) (sqrt y).
Proof.
  intros X W. pose proof (within_pos _ _ _ X W) as Y. destruct W as (A & B). fold unit_error in *. pose proof unit_bounds as U. unfold within. fold unit_error.
  assert (L1 : (1 - unit_error) ^ k <= 1) by (apply Rle_trans with (1 ^ k); [apply pow_incr; lra|rewrite pow1; lra]). pose proof (pow_lo k) as L0.
  assert (H1 : 1 <= (1 + unit_error) ^ k) by (apply pow_R1_Rle; lra). pose proof (sqrt_pos x) as S.
  split.
  - rewrite <- (Rsqr_sqrt x X) in A at 1. apply Rsqr_incr_0_var; [|apply sqrt_pos]. rewrite (Rsqr_sqrt y Y). refine (Rle_trans _ _ _ _ A). unfold Rsqr.
    replace ((1 - unit_error) ^ k * sqrt x * ((1 - unit_error) ^ k * sqrt x)) with ((1 - unit_error) ^ k * ((1 - unit_error) ^ k * (sqrt x * sqrt x))) by ring.
    apply Rmult_le_compat_l; [lra|]. assert (0 <= sqrt x * sqrt x) by (apply Rmult_le_pos; exact S). nra.
  - rewrite <- (Rsqr_sqrt x X) in B at 1. apply Rsqr_incr_0_var; [|apply Rmult_le_pos; [lra|exact S]]. rewrite (Rsqr_sqrt y Y). refine (Rle_trans _ _ _ B _). unfold Rsqr.
    replace ((1 + unit_error) ^ k * sqrt x * ((1 + unit_error) ^ k * sqrt x)) with ((1 + unit_error) ^ k * ((1 + unit_error) ^ k * (sqrt x * sqrt x))) by ring.
    apply Rmult_le_compat_l; [lra|]. assert (0 <= sqrt x * sqrt x) by (apply Rmult_le_pos; exact S). nra.
Qed.

(** ** The norms, on nonnegative doubles *)

Definition norm_exact (c : clipping) (x y z : R) : R :=
  match c with Ellipsoid => sqrt (x * x + (y * y + z * z)) | Box => x + y + z | Conic => sqrt (x * x + y * y) + z end.
Definition norm_double (c : clipping) (x y z : R) : R :=
  match c with
  | Ellipsoid => d_sqrt (d_add (d_mul x x) (d_add (d_mul y y) (d_mul z z)))
  | Box => d_add (d_add x y) z
  | Conic => d_add (d_sqrt (d_add (d_mul x x) (d_mul y y))) z
  end.
Lemma square_abs x : d_mul x x = d_mul (Rabs x) (Rabs x).
Proof. unfold d_mul. f_equal. pose proof (Rsqr_abs x) as H. exact H. Qed.
Lemma norm_is c s : d_clip_norm c s = norm_double c (Rabs (vx s)) (Rabs (vy s)) (Rabs (vz s)).
Proof. destruct c; cbn; [now rewrite (square_abs (vx s)), (square_abs (vy s)), (square_abs (vz s))|reflexivity|now rewrite (square_abs (vx s)), (square_abs (vy s))]. Qed.

(** A computed component: a nonnegative double, 0 or not too small. *)
Definition comp (x : R) : Prop := is_double x /\ big 201 x.
Lemma comp_pos x : comp x -> 0 <= x.
Proof. intros (_ & B). exact (big_pos _ _ B). Qed.
Lemma square_within x : comp x -> within 1 (x * x) (d_mul x x) /\ is_double (d_mul x x) /\ 0 <= x * x.
Proof.
  intros C. pose proof C as (_ & B). split; [apply (double_within _ (201 + 201)); [lia|now apply (big_mul 201 201)]|]. split; [apply double_is|]. pose proof (comp_pos x C). nra.
Qed.
Lemma add_k k x x' y y' : is_double x' -> is_double y' -> 0 <= x -> 0 <= y -> within k x x' -> within k y y' -> within (k + 1) (x + y) (d_add x' y').
Proof.
  intros DX DY X Y A B. pose proof (within_pos _ _ _ X A). pose proof (within_pos _ _ _ Y B). apply (within_trans _ _ _ (x' + y')); [now apply within_add|]. apply add_within; auto. lra.
Qed.
Lemma sqrt_k k h h' : (k <= 50)%nat -> big 402 h -> 0 <= h -> within k h h' -> within (k + 1) (sqrt h) (d_sqrt h').
Proof.
  intros K B P W. pose proof (within_sqrt k h h' P W) as S. apply (within_trans _ _ _ (sqrt h')); [exact S|]. apply (double_within _ (201 + 1)); [lia|].
  apply (big_within k 201 (sqrt h)); [lia| |exact S]. destruct B as [->|B]; [left; apply sqrt_0|right].
  rewrite <- (R_sqrt.sqrt_square (/ 2 ^ 201)) by (apply Rlt_le, Rinv_0_lt_compat, pow_lt; lra). apply sqrt_le_1_alt. refine (Rle_trans _ _ _ _ B). right.
  rewrite <- Rinv_mult, <- pow_add. reflexivity.
Qed.
Lemma big_add n x y : big n x -> big n y -> big n (x + y).
Proof. intros X Y. pose proof (big_pos _ _ X). pose proof (big_pos _ _ Y). destruct X as [->|X]; [rewrite Rplus_0_l; exact Y|right; lra]. Qed.
Lemma root_above x h : comp x -> d_mul x x <= h -> x <= d_sqrt h.
Proof. intros (D & B) H. apply Rle_trans with (d_sqrt (d_mul x x)); [now apply sqrt_square|]. apply double_le, sqrt_le_1_alt, H. Qed.

Lemma norm_close c x y z : comp x -> comp y -> comp z -> within 4 (norm_exact c x y z) (norm_double c x y z) /\ 0 <= norm_exact c x y z.
Proof.
  intros X Y Z. pose proof (comp_pos x X) as X0. pose proof (comp_pos y Y) as Y0. pose proof (comp_pos z Z) as Z0.
  pose proof (square_within x X) as (WX & DX & PX). pose proof (square_within y Y) as (WY & DY & PY). pose proof (square_within z Z) as (WZ & DZ & PZ).
  assert (BX : big 402 (x * x)) by (apply (big_mul 201 201); apply X). assert (BY : big 402 (y * y)) by (apply (big_mul 201 201); apply Y). assert (BZ : big 402 (z * z)) by (apply (big_mul 201 201); apply Z).
  destruct c; cbn [norm_exact norm_double].
  - split; [|apply sqrt_pos]. apply (sqrt_k 3); [lia|now apply big_add; [|apply big_add]|lra|]. apply (add_k 2); [exact DX|apply double_is|lra|lra|now apply (within_weak 1); [lia| |]|]. now apply (add_k 1).
  - split; [|lra]. apply (within_weak (0 + 1 + 1)); [lia|lra|]. apply (add_k 1); [apply double_is|apply Z|lra|lra| |apply (within_weak 0); [lia|lra|apply within_0]].
    apply (add_k 0); [apply X|apply Y|lra|lra|apply within_0|apply within_0].
  - pose proof (sqrt_pos (x * x + y * y)) as S. split; [|lra]. apply (add_k 3); [apply double_is|apply Z|exact S|exact Z0| |apply (within_weak 0); [lia|lra|apply within_0]].
    apply (sqrt_k 2); [lia|now apply big_add|lra|]. now apply (add_k 1).
Qed.
Lemma norm_above c x y z : comp x -> comp y -> comp z -> x <= norm_double c x y z /\ y <= norm_double c x y z /\ z <= norm_double c x y z.
Proof.
  intros X Y Z. pose proof (comp_pos x X) as X0. pose proof (comp_pos y Y) as Y0. pose proof (comp_pos z Z) as Z0.
  assert (PX : 0 <= d_mul x x) by (apply double_pos; nra). assert (PY : 0 <= d_mul y y) by (apply double_pos; nra). assert (PZ : 0 <= d_mul z z) by (apply double_pos; nra).
  assert (A1 : forall a b, is_double a -> 0 <= b -> a <= d_add a b) by (intros a b Da B; apply double_above; [exact Da|lra]).
  assert (A2 : forall a b, is_double b -> 0 <= a -> b <= d_add a b) by (intros a b Db B; apply double_above; [exact Db|lra]).
  destruct c; cbn [norm_double].
  - assert (P2 : 0 <= d_add (d_mul y y) (d_mul z z)) by (apply double_pos; lra). split; [|split]; (apply root_above; [assumption|]).
    + apply A1; [apply double_is|exact P2].
    + apply Rle_trans with (d_add (d_mul y y) (d_mul z z)); [apply A1; [apply double_is|exact PZ]|apply A2; [apply double_is|exact PX]].
    + apply Rle_trans with (d_add (d_mul y y) (d_mul z z)); [apply A2; [apply double_is|exact PY]|apply A2; [apply double_is|exact PX]].
  - assert (S : 0 <= d_add x y) by (apply double_pos; lra). split; [|split].
    + apply Rle_trans with (d_add x y); [apply A1; [apply X|exact Y0]|apply A1; [apply double_is|exact Z0]].
    + apply Rle_trans with (d_add x y); [apply A2; [apply Y|exact X0]|apply A1; [apply double_is|exact Z0]].
    + apply A2; [apply Z|exact S].
  - assert (S : 0 <= d_sqrt (d_add (d_mul x x) (d_mul y y))) by (apply double_pos, sqrt_pos). split; [|split].
    + apply Rle_trans with (d_sqrt (d_add (d_mul x x) (d_mul y y))); [apply root_above; [exact X|apply A1; [apply double_is|exact PY]]|apply A1; [apply double_is|exact Z0]].
    + apply Rle_trans with (d_sqrt (d_add (d_mul x x) (d_mul y y))); [apply root_above; [exact Y|apply A2; [apply double_is|exact PX]]|apply A1; [apply double_is|exact Z0]].
    + apply A2; [apply Z|exact S].
Qed.

(** The exact norms grow with the components and scale. *)
Lemma norm_mono c x y z x' y' z' : 0 <= x <= x' -> 0 <= y <= y' -> 0 <= z <= z' -> norm_exact c x y z <= norm_exact c x' y' z'.
Proof.
  intros X Y Z. assert (x * x <= x' * x') by nra. assert (y * y <= y' * y') by nra. assert (z * z <= z' * z') by nra.
  destruct c; cbn; [apply sqrt_le_1_alt; lra|lra|]. assert (sqrt (x * x + y * y) <= sqrt (x' * x' + y' * y')) by (apply sqrt_le_1_alt; lra). lra.
Qed.
Lemma norm_scale c k x y z : 0 <= k -> norm_exact c (k * x) (k * y) (k * z) = k * norm_exact c x y z.
Proof.
  intros K. assert (S : forall a, sqrt (k * k * a) = k * sqrt a). { intros a. rewrite sqrt_mult_alt by nra. now rewrite R_sqrt.sqrt_square. }
  destruct c; cbn; [rewrite <- S; f_equal; ring|ring|]. rewrite Rmult_plus_distr_l, <- S. f_equal. f_equal. ring.
Qed.
Lemma norm_sum c x y z : 0 <= x -> 0 <= y -> 0 <= z -> norm_exact c x y z <= x + y + z.
Proof.
  intros X Y Z. destruct c; cbn [norm_exact]; [|lra|].
  - rewrite <- (R_sqrt.sqrt_square (x + y + z)) by lra. apply sqrt_le_1_alt. nra.
  - assert (sqrt (x * x + y * y) <= x + y); [|lra]. rewrite <- (R_sqrt.sqrt_square (x + y)) by lra. apply sqrt_le_1_alt. nra.
Qed.

(** ** One component *)

Definition size (n : nat) (x : R) : Prop := 0 < x <= 2 ^ n.
Lemma big_div n m x y : big n x -> size m y -> big (n + m) (x / y).
Proof.
  intros B (Y & Y2). assert (P : 0 < 2 ^ m) by (apply pow_lt; lra). unfold Rdiv. apply big_mul; [exact B|]. right. now apply Rinv_le_contravar.
Qed.
Lemma inverse_within k x x' : 0 < x -> within k x x' -> within (2 * k) (/ x) (/ x').
Proof.
  intros X (A & B). unfold within in *. fold unit_error in *. pose proof (pow_lo k) as L. pose proof (pow_hi k) as H. pose proof unit_bounds as U.
  assert (X' : 0 < x') by (refine (Rlt_le_trans _ _ _ _ A); now apply Rmult_lt_0_compat).
  assert (Q : (1 - unit_error) ^ (2 * k) * (1 + unit_error) ^ k <= 1).
  { rewrite pow_mult, <- Rpow_mult_distr. apply Rle_trans with (1 ^ k); [|rewrite pow1; lra]. apply pow_incr. cbn [pow]. split; [apply Rmult_le_pos; nra|nra]. }
  assert (Q2 : 1 <= (1 + unit_error) ^ (2 * k) * (1 - unit_error) ^ k).
  { rewrite pow_mult, <- Rpow_mult_distr. apply pow_R1_Rle. cbn [pow]. nra. }
  pose proof (pow_lo (2 * k)) as L2. pose proof (pow_hi (2 * k)) as H2. set (l2 := (1 - unit_error) ^ (2 * k)) in *. set (h2 := (1 + unit_error) ^ (2 * k)) in *. set (l := (1 - unit_error) ^ k) in *. set (h := (1 + unit_error) ^ k) in *.
  assert (C : forall a, a / x * (x * x') = a * x') by (intros; field; lra). assert (C2 : / x' * (x * x') = x) by (field; lra). assert (XX : 0 < x * x') by now apply Rmult_lt_0_compat. split.
  - apply (Rmult_le_reg_r (x * x')); [exact XX|]. change (l2 * / x) with (l2 / x). rewrite C, C2. apply Rle_trans with (l2 * (h * x)); [apply Rmult_le_compat_l; lra|]. rewrite <- Rmult_assoc. rewrite <- (Rmult_1_l x) at 2. apply Rmult_le_compat_r; lra.
  - apply (Rmult_le_reg_r (x * x')); [exact XX|]. change (h2 * / x) with (h2 / x). rewrite C, C2. apply Rle_trans with (h2 * (l * x)); [|apply Rmult_le_compat_l; lra]. rewrite <- Rmult_assoc. rewrite <- (Rmult_1_l x) at 1. apply Rmult_le_compat_r; lra.
Qed.
Lemma max_within k x x' : 0 <= x -> within k x x' -> within k (Rmax 1 x) (Rmax 1 x').
Proof.
  intros X (A & B). unfold within in *. fold unit_error in *. pose proof (pow_lo k) as L. pose proof (pow_hi k) as H. pose proof unit_bounds as U.
  assert (L1 : (1 - unit_error) ^ k <= 1) by (apply Rle_trans with (1 ^ k); [apply pow_incr; lra|rewrite pow1; lra]). assert (H1 : 1 <= (1 + unit_error) ^ k) by (apply pow_R1_Rle; lra).
  pose proof (Rmax_l 1 x'). pose proof (Rmax_r 1 x'). pose proof (Rmax_l 1 x). pose proof (Rmax_r 1 x). split.
  - destruct (Rle_dec x 1); [rewrite (Rmax_left 1 x) by lra; lra|rewrite (Rmax_right 1 x) by lra; lra].
  - apply Rmax_lub; [nra|]. refine (Rle_trans _ _ _ B _). apply Rmult_le_compat_l; lra.
Qed.

Lemma within_double k n x y : (n <= 1021)%nat -> (k <= 100)%nat -> big n x -> within k x y -> within (k + 1) x (double y).
Proof. intros Hn Hk B W. replace (k + 1)%nat with (S k) by lia. now apply (step_within k n x y). Qed.

Section Component.
  (** [X] is the absolute value of the component, [f] its limit, [m] the larger of 1 and the norm, [mh] the computed one. *)
  Variables X f m mh : R.
  Hypotheses (BX : big 100 X) (SX : X <= 2 ^ 100) (Df : is_double f) (Bf : big 100 f) (Sf : size 100 f).
  Let a := d_div X f.
  Lemma component_comp : comp a /\ within 1 (X / f) a /\ a <= 2 ^ 201.
  Proof using BX SX Df Bf Sf.
    assert (B : big 200 (X / f)) by now apply (big_div 100 100). assert (W : within 1 (X / f) a) by (apply (double_within _ 200); [lia|exact B]).
    split; [split; [apply double_is|apply (big_within 1 200 (X / f)); [lia|exact B|exact W]]|]. split; [exact W|].
    pose proof (big_pos _ _ BX) as X0. assert (f <> 0) by (unfold size in Sf; lra). assert (X / f <= 2 ^ 200).
    { destruct Bf as [->|F]; [unfold size in Sf; lra|]. replace (2 ^ 200) with (2 ^ 100 * 2 ^ 100) by (rewrite <- pow_add; reflexivity). unfold Rdiv. apply Rmult_le_compat; [exact X0|apply Rlt_le, Rinv_0_lt_compat, Sf|exact SX|].
      rewrite <- (Rinv_inv (2 ^ 100)). apply Rinv_le_contravar; [apply Rinv_0_lt_compat, pow_lt; lra|exact F]. }
    destruct W as (_ & W). fold unit_error in W. rewrite pow_1 in W. pose proof unit_bounds. replace (2 ^ 201) with (2 * 2 ^ 200) by (change 201%nat with (1 + 200)%nat; rewrite pow_add; lra). apply (big_pos 200) in B. nra.
  Qed.
  Hypotheses (Smh : 1 <= mh <= 2 ^ 204).
  Let a' := d_div a mh.
  Let r := d_mul a' f.
  Lemma quotient_big : big 405 (a / mh).
  Proof using BX SX Df Bf Sf Smh. destruct component_comp as ((_ & C) & _). apply (big_div 201 204); [exact C|split; lra]. Qed.
  Lemma scaled_facts : within 1 (a / mh) a' /\ big 406 a' /\ is_double a'.
  Proof using BX SX Df Bf Sf Smh.
    pose proof quotient_big as Q. assert (W : within 1 (a / mh) a') by (apply (double_within _ 405); [lia|exact Q]). split; [exact W|]. split; [apply (big_within 1 405 (a / mh)); [lia|exact Q|exact W]|apply double_is].
  Qed.
  Lemma result_within : within 1 (a' * f) r.
  Proof using BX SX Df Bf Sf Smh. apply (double_within _ (406 + 100)); [lia|]. apply big_mul; [apply scaled_facts|exact Bf]. Qed.
  Lemma result_pos : 0 <= r.
  Proof using BX SX Df Bf Sf Smh. apply (within_pos 1 (a' * f)); [|apply result_within]. apply Rmult_le_pos; [apply (big_pos 406), scaled_facts|unfold size in Sf; lra]. Qed.
  Lemma result_limit : a <= mh -> r <= f.
  Proof using BX SX Df Bf Sf Smh.
    intros A. assert (a' <= 1). { apply double_below; [apply is_double_1|]. apply (Rmult_le_reg_r mh); [lra|]. unfold Rdiv. rewrite Rmult_assoc, Rinv_l by lra. lra. }
    apply double_below; [exact Df|]. unfold size in Sf. nra.
  Qed.
  Lemma result_up : r / f <= (1 + unit_error) ^ 2 / mh * a.
  Proof using BX SX Df Bf Sf Smh.
    destruct scaled_facts as ((_ & W) & _). destruct result_within as (_ & W2). fold unit_error in W, W2. rewrite pow_1 in W, W2. pose proof unit_bounds. unfold size in Sf.
    apply (Rmult_le_reg_r f); [lra|]. replace (r / f * f) with r by (field; lra). refine (Rle_trans _ _ _ W2 _).
    replace ((1 + unit_error) ^ 2 / mh * a * f) with ((1 + unit_error) * ((1 + unit_error) * (a / mh) * f)) by (field; lra). apply Rmult_le_compat_l; [lra|]. apply Rmult_le_compat_r; [lra|exact W].
  Qed.
  Lemma result_close : 0 < m -> within 5 m mh -> within 13 (X / f / m * f) r.
  Proof using BX SX Df Bf Sf Smh.
    intros M W. destruct component_comp as (C & W1 & _). pose proof (inverse_within 5 m mh M W) as Wi. pose proof (big_pos _ _ BX) as X0. unfold size in Sf.
    assert (P : 0 <= X / f) by (unfold Rdiv; apply Rmult_le_pos; [exact X0|apply Rlt_le, Rinv_0_lt_compat; lra]).
    assert (Pm : 0 <= / m) by (apply Rlt_le, Rinv_0_lt_compat, M).
    assert (W2 : within (1 + 2 * 5) (X / f * / m) (a * / mh)) by (apply within_mul; assumption).
    assert (W3 : within (1 + 2 * 5 + 1) (X / f * / m) a') by (apply (within_trans _ _ _ (a * / mh)); [exact W2|apply scaled_facts]).
    assert (W4 : within (1 + 2 * 5 + 1 + 0) (X / f * / m * f) (a' * f)) by (apply within_mul; [now apply Rmult_le_pos|lra|exact W3|apply within_0]).
    apply (within_trans (1 + 2 * 5 + 1 + 0) 1 _ (a' * f)); [exact W4|apply result_within].
  Qed.
End Component.

(** ** The three components *)

Lemma abs_div x f : 0 < f -> Rabs (d_div x f) = d_div (Rabs x) f.
Proof. intros F. unfold d_div. rewrite double_abs. f_equal. unfold Rdiv. rewrite Rabs_mult, (Rabs_right (/ f)); [reflexivity|]. apply Rle_ge, Rlt_le, Rinv_0_lt_compat, F. Qed.
Lemma abs_mul x f : 0 < f -> Rabs (d_mul x f) = d_mul (Rabs x) f.
Proof. intros F. unfold d_mul. rewrite double_abs. f_equal. rewrite Rabs_mult, (Rabs_right f); [reflexivity|lra]. Qed.
Lemma div_max x n : is_double x -> (if Rlt_dec 1 n then d_div x n else x) = d_div x (Rmax 1 n).
Proof.
  intros D. destruct (Rlt_dec 1 n) as [H|H]; [rewrite Rmax_right by lra; reflexivity|]. rewrite Rmax_left by lra. unfold d_div, Rdiv. rewrite Rinv_1, Rmult_1_r. symmetry. now apply double_id.
Qed.
Lemma double_sign x y : 0 <= x * y -> 0 <= x * double y.
Proof.
  intros H. destruct (Rtotal_order x 0) as [X|[->|X]]; [|lra|].
  - assert (y <= 0) by nra. assert (double y <= 0) by (apply double_below; [apply is_double_0|assumption]). nra.
  - assert (0 <= y) by nra. assert (0 <= double y) by now apply double_pos. nra.
Qed.
Lemma div_sign x y f : 0 < f -> 0 <= x * y -> 0 <= x * d_div y f.
Proof. intros F H. apply double_sign. unfold Rdiv. rewrite <- Rmult_assoc. apply Rmult_le_pos; [exact H|apply Rlt_le, Rinv_0_lt_compat, F]. Qed.
Lemma mul_sign x y f : 0 < f -> 0 <= x * y -> 0 <= x * d_mul y f.
Proof. intros F H. apply double_sign. rewrite <- Rmult_assoc. apply Rmult_le_pos; [exact H|lra]. Qed.

Definition d_part (x f mh : R) : R := d_mul (d_div (d_div x f) mh) f.
Lemma part_abs x f mh : 0 < f -> 0 < mh -> Rabs (d_part x f mh) = d_part (Rabs x) f mh.
Proof. intros F M. unfold d_part. rewrite abs_mul, !abs_div by assumption. reflexivity. Qed.
Lemma part_sign x f mh : 0 < f -> 0 < mh -> 0 <= x * d_part x f mh.
Proof. intros F M. apply mul_sign; [exact F|]. apply div_sign; [exact M|]. apply div_sign; [exact F|]. nra. Qed.

Definition d_factor (c : clipping) (p : params) (s : vec3) : R :=
  Rmax 1 (norm_double c (d_div (Rabs (vx s)) (max_dx p (vx s))) (d_div (Rabs (vy s)) (p_max_dy p)) (d_div (Rabs (vz s)) (p_max_dtheta p))).
Definition e_factor (c : clipping) (p : params) (s : vec3) : R :=
  Rmax 1 (norm_exact c (Rabs (vx s) / max_dx p (vx s)) (Rabs (vy s) / p_max_dy p) (Rabs (vz s) / p_max_dtheta p)).

Lemma max_dx_pos p x : positive_limits p -> 0 < max_dx p x.
Proof. intros (A & B & _). unfold max_dx. destruct Rle_dec; lra. Qed.
Lemma d_clip_is c p s : positive_limits p ->
  d_clip c p s = V3 (d_part (vx s) (max_dx p (vx s)) (d_factor c p s)) (d_part (vy s) (p_max_dy p) (d_factor c p s)) (d_part (vz s) (p_max_dtheta p) (d_factor c p s)).
Proof.
  intros P. pose proof (max_dx_pos p (vx s) P) as F. destruct P as (_ & _ & F2 & F3). unfold d_clip. fold (max_dx p (vx s)). cbn [vx vy vz]. rewrite norm_is. cbn [vx vy vz]. rewrite !abs_div by assumption. unfold d_factor, d_part.
  set (n := norm_double _ _ _ _). rewrite <- !div_max by apply double_is. destruct (Rlt_dec 1 n); cbn [vx vy vz]; reflexivity.
Qed.
Lemma norm_exact_is c s : clip_norm c s = norm_exact c (Rabs (vx s)) (Rabs (vy s)) (Rabs (vz s)).
Proof.
  assert (A : forall x, Rabs x * Rabs x = x * x) by (intros x; symmetry; apply (Rsqr_abs x)). destruct c; cbn [clip_norm norm_exact]; rewrite ?A; [|reflexivity|reflexivity].
  unfold v3_norm, v3_dot. now rewrite Rplus_assoc.
Qed.
Lemma abs_quotient x f : 0 < f -> Rabs (x / f) = Rabs x / f.
Proof. intros F. unfold Rdiv. rewrite Rabs_mult, (Rabs_right (/ f)); [reflexivity|]. apply Rle_ge, Rlt_le, Rinv_0_lt_compat, F. Qed.
Lemma clip_is c p s : positive_limits p ->
  clip c p s = Some (V3 (vx s / max_dx p (vx s) / e_factor c p s * max_dx p (vx s)) (vy s / p_max_dy p / e_factor c p s * p_max_dy p) (vz s / p_max_dtheta p / e_factor c p s * p_max_dtheta p)).
Proof.
  intros P. pose proof (max_dx_pos p (vx s) P) as F. destruct P as (_ & _ & F2 & F3). unfold clip. fold (max_dx p (vx s)). cbn [vx vy vz].
  destruct (Req_EM_T (max_dx p (vx s)) 0); [lra|]. destruct (Req_EM_T (p_max_dy p) 0); [lra|]. destruct (Req_EM_T (p_max_dtheta p) 0); [lra|].
  rewrite norm_exact_is. cbn [vx vy vz]. rewrite !abs_quotient by assumption. unfold e_factor. set (N := norm_exact _ _ _ _). f_equal.
  destruct (Rlt_dec 1 N) as [H|H]; cbn [vx vy vz v3_scale]; [rewrite Rmax_right by lra|rewrite Rmax_left by lra]; apply V3_ext; cbn [vx vy vz]; field; lra.
Qed.
Lemma allowed_norm c p s : positive_limits p -> (allowed c p s <-> norm_exact c (Rabs (vx s) / max_dx p (vx s)) (Rabs (vy s) / p_max_dy p) (Rabs (vz s) / p_max_dtheta p) <= 1).
Proof.
  intros P. pose proof (max_dx_pos p (vx s) P) as F. destruct P as (_ & _ & F2 & F3). unfold allowed. rewrite <- !abs_quotient by assumption. set (x := _ / _). set (y := _ / _). set (z := _ / _).
  assert (A : forall x, Rabs x * Rabs x = x * x) by (intros t; symmetry; apply (Rsqr_abs t)). destruct c; cbn [norm_exact]; rewrite ?A; [|tauto|tauto].
  rewrite <- Rplus_assoc. assert (0 <= x * x + y * y + z * z) by nra. split; intros H1.
  - rewrite <- sqrt_1. now apply sqrt_le_1_alt.
  - rewrite <- (sqrt_sqrt (x * x + y * y + z * z)) by assumption. pose proof (sqrt_pos (x * x + y * y + z * z)). nra.
Qed.

(** ** The hypotheses *)

Lemma moderate_abs x : moderate x -> big 100 (Rabs x) /\ Rabs x <= 2 ^ 100.
Proof. intros (_ & [->|B] & C); split; auto; [left; apply Rabs_R0|now right]. Qed.
Lemma moderate_limit x : 0 < x -> moderate x -> is_double x /\ big 100 x /\ size 100 x.
Proof. intros X (D & B & C). rewrite (Rabs_right x) in * by lra. split; [exact D|]. split; [exact B|split; lra]. Qed.

Section Clip.
  Variables (c : clipping) (p : params) (s : vec3).
  Hypotheses (L : moderate_limits p) (M : moderate_step s).
  Let fx := max_dx p (vx s).
  Let fy := p_max_dy p.
  Let fz := p_max_dtheta p.
  Lemma limits : positive_limits p.
  Proof using L. exact (proj1 L). Qed.
  Lemma fx_facts : is_double fx /\ big 100 fx /\ size 100 fx.
  Proof using L. destruct L as (P & A & B & _). destruct P as (PA & PB & _). unfold fx, max_dx. destruct Rle_dec; now apply moderate_limit. Qed.
  Lemma fy_facts : is_double fy /\ big 100 fy /\ size 100 fy.
  Proof using L. destruct L as (P & _ & _ & A & _). destruct P as (_ & _ & P & _). now apply moderate_limit. Qed.
  Lemma fz_facts : is_double fz /\ big 100 fz /\ size 100 fz.
  Proof using L. destruct L as (P & _ & _ & _ & A). destruct P as (_ & _ & _ & P). now apply moderate_limit. Qed.
  Let x := d_div (Rabs (vx s)) fx.
  Let y := d_div (Rabs (vy s)) fy.
  Let z := d_div (Rabs (vz s)) fz.
  Lemma x_facts : comp x /\ within 1 (Rabs (vx s) / fx) x /\ x <= 2 ^ 201.
  Proof using L M. destruct fx_facts as (D & B & S). destruct M as (A & _). apply moderate_abs in A as (A1 & A2). now apply component_comp. Qed.
  Lemma y_facts : comp y /\ within 1 (Rabs (vy s) / fy) y /\ y <= 2 ^ 201.
  Proof using L M. destruct fy_facts as (D & B & S). destruct M as (_ & A & _). apply moderate_abs in A as (A1 & A2). now apply component_comp. Qed.
  Lemma z_facts : comp z /\ within 1 (Rabs (vz s) / fz) z /\ z <= 2 ^ 201.
  Proof using L M. destruct fz_facts as (D & B & S). destruct M as (_ & _ & A). apply moderate_abs in A as (A1 & A2). now apply component_comp. Qed.
  Let n := norm_double c x y z.
  Let mh := d_factor c p s.
  Lemma mh_is : mh = Rmax 1 n.
  Proof using. reflexivity. Qed.
  Lemma norm_facts : within 4 (norm_exact c x y z) n /\ 0 <= norm_exact c x y z /\ x <= n /\ y <= n /\ z <= n.
  Proof using L M.
    pose proof x_facts as (X & _). pose proof y_facts as (Y & _). pose proof z_facts as (Z & _). destruct (norm_close c x y z X Y Z) as (A & B). split; [exact A|]. split; [exact B|]. now apply norm_above.
  Qed.
  Lemma mh_facts : 1 <= mh <= 2 ^ 204 /\ x <= mh /\ y <= mh /\ z <= mh.
  Proof using L M.
    pose proof x_facts as (X & _ & X2). pose proof y_facts as (Y & _ & Y2). pose proof z_facts as (Z & _ & Z2). pose proof norm_facts as ((_ & W) & P & A). pose proof (Rmax_l 1 n) as M1. pose proof (Rmax_r 1 n) as M2. rewrite mh_is.
    split; [|repeat split; lra]. split; [exact M1|]. pose proof (norm_sum c x y z (comp_pos _ X) (comp_pos _ Y) (comp_pos _ Z)) as U. assert (E : 2 ^ 204 = 8 * 2 ^ 201) by (change 204%nat with (3 + 201)%nat; rewrite pow_add; lra).
    assert (B : 1 <= 2 ^ 201) by (apply pow_R1_Rle; lra). apply Rmax_lub; [lra|]. refine (Rle_trans _ _ _ W _). fold unit_error. assert ((1 + unit_error) ^ 4 <= 2) by (pose proof unit_bounds; cbn [pow]; nra). rewrite E.
    apply Rle_trans with (2 * (3 * 2 ^ 201)); [apply Rmult_le_compat; try lra; apply Rlt_le, pow_hi|lra].
  Qed.
  Lemma factor_within : within 5 (e_factor c p s) mh.
  Proof using L M.
    pose proof x_facts as (X & WX & _). pose proof y_facts as (Y & WY & _). pose proof z_facts as (Z & WZ & _). pose proof norm_facts as (W & P & _).
    pose proof fx_facts as (_ & _ & Fx & _). pose proof fy_facts as (_ & _ & Fy & _). pose proof fz_facts as (_ & _ & Fz & _).
    assert (Q : forall a f, 0 < f -> 0 <= Rabs a / f) by (intros a f F; unfold Rdiv; apply Rmult_le_pos; [apply Rabs_pos|apply Rlt_le, Rinv_0_lt_compat, F]).
    assert (N0 : 0 <= norm_exact c (Rabs (vx s) / fx) (Rabs (vy s) / fy) (Rabs (vz s) / fz)).
    { pose proof (Q (vz s) fz Fz). pose proof (Q (vx s) fx Fx). pose proof (Q (vy s) fy Fy). destruct c; cbn [norm_exact]; [apply sqrt_pos|lra|]. pose proof (sqrt_pos (Rabs (vx s) / fx * (Rabs (vx s) / fx) + Rabs (vy s) / fy * (Rabs (vy s) / fy))). lra. }
    apply max_within; [exact N0|]. apply (within_trans 1 4 _ (norm_exact c x y z)); [|exact W].
    unfold within in *. fold unit_error in *. rewrite pow_1 in *. pose proof unit_bounds. split; rewrite <- norm_scale by lra; apply norm_mono; split; try (apply Rmult_le_pos; [lra|now apply Q]); try (apply comp_pos; assumption); tauto.
  Qed.
  Lemma sum_bound : (1 + unit_error) ^ 2 * norm_exact c x y z <= (1 + 8 * unit_error) * mh.
  Proof using L M.
    pose proof norm_facts as ((W & _) & P & _). fold unit_error in W. rewrite mh_is. pose proof (Rmax_r 1 n) as B. pose proof unit_bounds as U. set (N := norm_exact c x y z) in *.
    assert ((1 + unit_error) ^ 2 <= (1 + 8 * unit_error) * (1 - unit_error) ^ 4) by (cbn [pow]; nra).
    apply Rle_trans with ((1 + 8 * unit_error) * (1 - unit_error) ^ 4 * N); [apply Rmult_le_compat_r; assumption|]. rewrite Rmult_assoc. apply Rmult_le_compat_l; lra.
  Qed.

  Let r := d_clip c p s.
  Lemma abs_x : Rabs (vx r) = d_part (Rabs (vx s)) fx mh.
  Proof using L M. unfold r. rewrite d_clip_is by exact limits. cbn [vx]. pose proof fx_facts as (_ & _ & F & _). pose proof mh_facts as ((A & _) & _). apply part_abs; [exact F|]. fold mh. lra. Qed.
  Lemma abs_y : Rabs (vy r) = d_part (Rabs (vy s)) fy mh.
  Proof using L M. unfold r. rewrite d_clip_is by exact limits. cbn [vy]. pose proof fy_facts as (_ & _ & F & _). pose proof mh_facts as ((A & _) & _). apply part_abs; [exact F|]. fold mh. lra. Qed.
  Lemma abs_z : Rabs (vz r) = d_part (Rabs (vz s)) fz mh.
  Proof using L M. unfold r. rewrite d_clip_is by exact limits. cbn [vz]. pose proof fz_facts as (_ & _ & F & _). pose proof mh_facts as ((A & _) & _). apply part_abs; [exact F|]. fold mh. lra. Qed.
  Lemma clip_signs : 0 <= vx s * vx r /\ 0 <= vy s * vy r /\ 0 <= vz s * vz r.
  Proof using L M.
    unfold r. rewrite d_clip_is by exact limits. cbn [vx vy vz]. pose proof fx_facts as (_ & _ & Fx & _). pose proof fy_facts as (_ & _ & Fy & _). pose proof fz_facts as (_ & _ & Fz & _). pose proof mh_facts as ((A & _) & _). fold mh.
    repeat split; apply part_sign; auto; lra.
  Qed.
  Lemma clip_limits : Rabs (vx r) <= fx /\ Rabs (vy r) <= fy /\ Rabs (vz r) <= fz.
  Proof using L M.
    rewrite abs_x, abs_y, abs_z. pose proof mh_facts as (A & Ax & Ay & Az). destruct M as (Mx & My & Mz). apply moderate_abs in Mx as (Bx & Cx), My as (By & Cy), Mz as (Bz & Cz).
    pose proof fx_facts as (Dx & Fx & Sx). pose proof fy_facts as (Dy & Fy & Sy). pose proof fz_facts as (Dz & Fz & Sz). repeat split; apply result_limit; assumption.
  Qed.
  Lemma clip_enlarged : norm_exact c (Rabs (vx r) / fx) (Rabs (vy r) / fy) (Rabs (vz r) / fz) <= 1 + 8 * unit_error.
  Proof using L M.
    pose proof mh_facts as (A & _). destruct M as (Mx & My & Mz). apply moderate_abs in Mx as (Bx & Cx), My as (By & Cy), Mz as (Bz & Cz).
    pose proof fx_facts as (Dx & Fx & Sx). pose proof fy_facts as (Dy & Fy & Sy). pose proof fz_facts as (Dz & Fz & Sz).
    assert (Q : forall a f, size 100 f -> 0 <= Rabs a / f) by (intros a f (F & _); unfold Rdiv; apply Rmult_le_pos; [apply Rabs_pos|apply Rlt_le, Rinv_0_lt_compat, F]).
    apply Rle_trans with (norm_exact c ((1 + unit_error) ^ 2 / mh * x) ((1 + unit_error) ^ 2 / mh * y) ((1 + unit_error) ^ 2 / mh * z)).
    - apply norm_mono; (split; [now apply Q|]); [rewrite abs_x|rewrite abs_y|rewrite abs_z]; apply result_up; assumption.
    - pose proof (pow_hi 2). rewrite norm_scale by (unfold Rdiv; apply Rmult_le_pos; [lra|apply Rlt_le, Rinv_0_lt_compat; lra]).
      apply (Rmult_le_reg_r mh); [lra|]. replace ((1 + unit_error) ^ 2 / mh * norm_exact c x y z * mh) with ((1 + unit_error) ^ 2 * norm_exact c x y z) by (field; lra). apply sum_bound.
  Qed.
  Lemma clip_close e : clip c p s = Some e -> within 13 (Rabs (vx e)) (Rabs (vx r)) /\ within 13 (Rabs (vy e)) (Rabs (vy r)) /\ within 13 (Rabs (vz e)) (Rabs (vz r)).
  Proof using L M.
    rewrite clip_is by exact limits. intros [= <-]. cbn [vx vy vz]. fold fx fy fz. rewrite abs_x, abs_y, abs_z. pose proof mh_facts as (A & _). pose proof factor_within as W.
    destruct M as (Mx & My & Mz). apply moderate_abs in Mx as (Bx & Cx), My as (By & Cy), Mz as (Bz & Cz).
    pose proof fx_facts as (Dx & Fx & Sx). pose proof fy_facts as (Dy & Fy & Sy). pose proof fz_facts as (Dz & Fz & Sz).
    assert (E : 0 < e_factor c p s) by (pose proof (Rmax_l 1 (norm_exact c (Rabs (vx s) / max_dx p (vx s)) (Rabs (vy s) / p_max_dy p) (Rabs (vz s) / p_max_dtheta p))); unfold e_factor; lra).
    assert (Q : forall a f, size 100 f -> Rabs (a / f / e_factor c p s * f) = Rabs a / f / e_factor c p s * f).
    { intros a f (F & _). rewrite Rabs_mult, !abs_quotient by assumption. now rewrite (Rabs_right f) by lra. }
    rewrite !Q by assumption. repeat split; apply result_close; assumption.
  Qed.
End Clip.
