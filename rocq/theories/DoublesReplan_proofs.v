(** Replanning with doubles. *)
From Coq Require Import Reals ZArith List Bool Lia Lra Psatz.
From Flocq Require Import Core.
From Verif Require Import Base Footsteps_model Wpg_model Doubles_model Doubles_spec Doubles_proofs DoublesReplan_model DoublesReplan_spec.
Import ListNotations.
Open Scope R_scope.

Lemma double_opp x : double (- x) = - double x.
Proof. apply round_NE_opp. Qed.
Lemma below_double r x : is_double r -> r < double x -> r < x.
Proof. intros D H. destruct (Rlt_le_dec r x) as [|L]; [assumption|]. apply double_le in L. rewrite (double_id r D) in L. lra. Qed.
Lemma double_below x y : is_double y -> x <= y -> double x <= y.
Proof. intros D H. apply double_le in H. now rewrite (double_id y D) in H. Qed.
Lemma double_above x y : is_double y -> y <= x -> y <= double x.
Proof. intros D H. apply double_le in H. now rewrite (double_id y D) in H. Qed.

(** Halfway between two doubles: the even one. *)
Lemma double_tie x e n : bpow radix2 (e - 1) <= x < bpow radix2 e -> (-1021 <= e)%Z -> x * bpow radix2 (53 - e) = IZR n - / 2 -> Z.even n = true ->
  double x = IZR n * bpow radix2 (e - 53).
Proof.
  intros H E N V. unfold double, Generic_fmt.round, F2R, scaled_mantissa, cexp. cbn [Fnum Fexp]. rewrite (mag_unique_pos radix2 x e H).
  unfold FLT_exp. rewrite Z.max_l by lia. replace (- (e - 53))%Z with (53 - e)%Z by lia. f_equal. f_equal. rewrite N.
  assert (F : Zfloor (IZR n - / 2) = (n - 1)%Z) by (apply Zfloor_imp; rewrite plus_IZR, minus_IZR; lra).
  unfold Znearest. rewrite F, minus_IZR. rewrite Rcompare_Eq by lra.
  assert (Z.even (n - 1) = false) as ->. { rewrite Z.sub_1_r, Z.even_pred, <- Z.negb_even, V. reflexivity. }
  cbn [negb]. apply Zceil_imp. rewrite minus_IZR. lra.
Qed.

(** What the durations of a support have whatever its elapsed ratio. *)
Definition timed (p : params) (s : support) : Prop :=
  is_double (d_default_duration p s) /\ big 132 (d_default_duration p s) /\ is_double (u_time_ratio s) /\ big 100 (u_time_ratio s) /\
  is_double (u_elapsed_ratio s) /\ 0 <= u_elapsed_ratio s.
Lemma walk_timed p s : walk_timings p s -> timed p s.
Proof.
  intros W. destruct (default_within p s W) as (B & K & D). destruct W as (_ & _ & _ & E & E01 & A).
  repeat split; auto; try apply A; [|apply E01]. replace 132%nat with (131 + 1)%nat by lia. eapply big_within; [|exact B|exact K]. lia.
Qed.

Lemma quotient_bound : (1 + unit_error) ^ 4 <= (1 - unit_error) * (1 + 6 * unit_error).
Proof. pose proof unit_bounds. nra. Qed.
Lemma bound_8 : (1 + unit_error) * (1 + 6 * unit_error) <= 1 + 8 * unit_error.
Proof. pose proof unit_bounds. nra. Qed.
Lemma eight_units : 8 * unit_error = / 2 ^ 50.
Proof. unfold unit_error. field. Qed.

Lemma step_bound p s start t : timed p s -> is_double start -> is_double t -> u_t_start s <= start -> start <= t < d_part_end p s start ->
  u_elapsed_ratio s <= 1 /\ timed p (d_replanned p s t start) /\ u_elapsed_ratio s <= d_elapsed_ratio p s t start <= 1 + / 2 ^ 50 /\
  (u_elapsed_ratio s = 0 -> d_elapsed_ratio p s t start <= 1).
Proof.
  intros (Dd & Bd & Dr & Br & De & E0) Ds Dt TS (L & H).
  set (e := u_elapsed_ratio s) in *. set (d := d_default_duration p s) in *. set (tr := u_time_ratio s) in *.
  assert (HR : t - start < d_remaining_duration p s) by (apply below_double in H; [lra|exact Dt]).
  pose proof (big_pos _ _ Bd) as Pd. pose proof (big_pos _ _ Br) as Pr.
  assert (E1 : e <= 1).
  { destruct (Rle_lt_dec e 1) as [|G]; [assumption|exfalso]. assert (d_remaining_duration p s <= 0); [|lra].
    assert (Z : forall x, x <= 0 -> double x <= 0) by (intros x X; now apply double_below; [apply is_double_0|]).
    unfold d_remaining_duration. fold e d tr. apply Z. apply Rle_trans with (0 * tr); [apply Rmult_le_compat_r; [exact Pr|]|lra]. apply Z.
    apply Rle_trans with (0 * d); [apply Rmult_le_compat_r; [exact Pd|]|lra]. apply Z. lra. }
  split; [exact E1|].
  set (b := double (t - start)). set (rem := d_remaining_duration p s) in *. set (D := double (d * tr)).
  assert (EQ : d_elapsed_ratio p s t start = double (e + double (b / D))).
  { unfold d_elapsed_ratio. rewrite Rmax_left by exact TS. reflexivity. }
  assert (Drem : is_double rem) by apply double_is.
  assert (b0 : 0 <= b) by (apply double_pos; lra). assert (b1 : b <= rem) by (apply double_below; [exact Drem|lra]).
  (* what remains *)
  pose proof (left_over e De (conj E0 E1)) as BL.
  assert (WL : within 1 (1 - e) (d_sub 1 e)) by (apply (double_within _ 54); [lia|exact BL]).
  pose proof (within_mul 1 0 _ _ _ _ (big_pos _ _ BL) Pd WL (within_0 d)) as W1. pose proof (big_mul _ _ _ _ BL Bd) as B1.
  destruct (step_within (1 + 0) (54 + 132) _ _ (d_mul (d_sub 1 e) d) ltac:(lia) ltac:(lia) eq_refl B1 W1) as (W2 & D2 & _).
  pose proof (big_mul _ _ _ _ B1 Br) as B2.
  pose proof (within_mul _ 0 _ _ _ _ (big_pos _ _ B1) Pr W2 (within_0 tr)) as W3.
  destruct (step_within (S (1 + 0) + 0) (54 + 132 + 100) _ _ rem ltac:(lia) ltac:(lia) eq_refl B2 W3) as (W4 & _ & B4). change (S (S (1 + 0) + 0)) with 3%nat in W4.
  (* the whole duration *)
  pose proof (big_mul _ _ _ _ Bd Br) as BX. assert (WD : within 1 (d * tr) D) by (apply (double_within _ (132 + 100)); [lia|exact BX]).
  pose proof unit_bounds as U.
  assert (X0 : 0 < d * tr).
  { pose proof (big_pos _ _ BX) as X. destruct X as [X|X]; [exact X|exfalso]. destruct W4 as (_ & W4). replace ((1 - e) * d * tr) with ((1 - e) * (d * tr)) in W4 by ring.
    rewrite <- X, !Rmult_0_r in W4. lra. }
  assert (D0 : (1 - unit_error) * (d * tr) <= D /\ 0 < D).
  { destruct WD as (A & _). fold unit_error in A. rewrite pow_1 in A. split; [exact A|]. assert (0 < (1 - unit_error) * (d * tr)) by (apply Rmult_lt_0_compat; lra). lra. }
  destruct D0 as (DL & D0).
  assert (F1 : e = 0 -> double (e + double (b / D)) <= 1).
  { intros Z. assert (R1 : rem = D).
    { unfold rem, d_remaining_duration, d_mul, d_sub. fold e d tr. rewrite Z. replace (1 - 0) with 1 by ring. rewrite (double_id 1 is_double_1), Rmult_1_l, (double_id d Dd). reflexivity. }
    rewrite R1 in b1. assert (b / D <= 1). { apply Rmult_le_reg_r with D; [exact D0|]. unfold Rdiv. rewrite Rmult_assoc, Rinv_l by lra. lra. }
    rewrite Z, Rplus_0_l. rewrite (double_id (double _) (double_is _)). now apply double_below; [apply is_double_1|]. }
  assert (q0 : 0 <= double (b / D)). { apply double_pos. apply Rmult_le_pos; [exact b0|]. apply Rlt_le, Rinv_0_lt_compat, D0. }
  assert (GE : e <= double (e + double (b / D))) by (apply double_above; [exact De|lra]).
  (* the quotient *)
  assert (Q : rem / D <= (1 - e) * ((1 + unit_error) ^ 3 * / (1 - unit_error))).
  { destruct W4 as (_ & W4). fold unit_error in W4. apply Rmult_le_reg_r with D; [exact D0|]. unfold Rdiv. rewrite Rmult_assoc, Rinv_l, Rmult_1_r by lra.
    apply Rle_trans with ((1 + unit_error) ^ 3 * ((1 - e) * d * tr)); [exact W4|].
    replace ((1 + unit_error) ^ 3 * ((1 - e) * d * tr)) with ((1 - e) * ((1 + unit_error) ^ 3 * / (1 - unit_error)) * ((1 - unit_error) * (d * tr))) by (field; lra).
    apply Rmult_le_compat_l; [|exact DL]. apply Rmult_le_pos; [lra|]. apply Rmult_le_pos; [apply Rlt_le, pow_hi|apply Rlt_le, Rinv_0_lt_compat; lra]. }
  assert (Q1 : double (b / D) <= (1 - e) * (1 + 6 * unit_error)).
  { apply Rle_trans with (double (rem / D)).
    { apply double_le. unfold Rdiv. apply Rmult_le_compat_r; [apply Rlt_le, Rinv_0_lt_compat, D0|exact b1]. }
    assert (BQ : big 59 (rem / D)).
    { destruct BL as [Z|BL].
      - left. destruct W4 as (W4 & W4'). rewrite Z, !Rmult_0_l, Rmult_0_r in *. assert (rem = 0) as -> by lra. unfold Rdiv. ring.
      - right. destruct W4 as (W4 & _). fold unit_error in W4. apply Rmult_le_reg_r with D; [exact D0|]. unfold Rdiv at 1. rewrite (Rmult_assoc rem), Rinv_l, Rmult_1_r by lra.
        destruct WD as (_ & DH). fold unit_error in DH. rewrite pow_1 in DH.
        apply Rle_trans with (/ 2 ^ 59 * (2 * (d * tr))); [apply Rmult_le_compat_l; [apply Rlt_le, Rinv_0_lt_compat, pow_lt; lra|nra]|].
        refine (Rle_trans _ _ _ _ W4). assert (H3 : / 2 <= (1 - unit_error) ^ 3) by nra. rewrite (Rmult_assoc (1 - e)).
        apply Rle_trans with (/ 2 * (/ 2 ^ 54 * (d * tr))); [replace (/ 2 ^ 59 * (2 * (d * tr))) with (/ 2 ^ 58 * (d * tr)) by field; nra|].
        apply Rmult_le_compat; [lra| |exact H3|apply Rmult_le_compat_r; lra]. apply Rmult_le_pos; [|lra]. apply Rlt_le, Rinv_0_lt_compat, pow_lt. lra. }
    pose proof (double_within _ 59 ltac:(lia) BQ) as (_ & WQ). fold unit_error in WQ. rewrite pow_1 in WQ. refine (Rle_trans _ _ _ WQ _).
    apply Rle_trans with ((1 + unit_error) * ((1 - e) * ((1 + unit_error) ^ 3 * / (1 - unit_error)))); [apply Rmult_le_compat_l; [lra|exact Q]|].
    replace ((1 + unit_error) * ((1 - e) * ((1 + unit_error) ^ 3 * / (1 - unit_error)))) with ((1 - e) * ((1 + unit_error) ^ 4 * / (1 - unit_error))) by (field; lra).
    apply Rmult_le_compat_l; [lra|]. apply Rmult_le_reg_r with (1 - unit_error); [lra|]. rewrite Rmult_assoc, Rinv_l, Rmult_1_r by lra.
    rewrite (Rmult_comm (1 + 6 * unit_error)). exact quotient_bound. }
  assert (LE : double (e + double (b / D)) <= 1 + / 2 ^ 50).
  { pose proof (add_within e _ De (double_is (b / D)) ltac:(lra)) as (_ & A). fold unit_error in A. rewrite pow_1 in A. refine (Rle_trans _ _ _ A _).
    rewrite <- eight_units. refine (Rle_trans _ _ _ _ bound_8). apply Rmult_le_compat_l; [lra|].
    assert (e <= e * (1 + 6 * unit_error)) by nra. lra. }
  rewrite EQ. split; [|split; [split; [exact GE|exact LE]|exact F1]].
  unfold timed. change (d_default_duration p (d_replanned p s t start)) with d. change (u_time_ratio (d_replanned p s t start)) with tr.
  change (u_elapsed_ratio (d_replanned p s t start)) with (d_elapsed_ratio p s t start). rewrite EQ. repeat split; auto; [apply double_is|lra].
Qed.

Lemma replans_bound p times : forall s start, timed p s -> is_double start -> u_t_start s <= start -> u_elapsed_ratio s <= 1 + / 2 ^ 50 -> in_turn p s start times ->
  timed p (d_replans p s start times) /\ u_elapsed_ratio s <= u_elapsed_ratio (d_replans p s start times) <= 1 + / 2 ^ 50.
Proof.
  induction times as [|t rest IH]; intros s start Ts D TS E H; [cbn; split; [exact Ts|lra]|]. cbn [in_turn d_replans] in *. destruct H as (Dt & H & R0).
  destruct (step_bound p s start t Ts D Dt TS H) as (_ & T' & (A & B) & _).
  destruct (IH (d_replanned p s t start) t T' Dt ltac:(change (u_t_start s <= t); lra) B R0) as (C & F).
  change (u_elapsed_ratio (d_replanned p s t start)) with (d_elapsed_ratio p s t start) in F. split; [exact C|lra].
Qed.

Lemma remaining_above p s : timed p s -> u_elapsed_ratio s <= 1 + / 2 ^ 50 -> - (d_default_duration p s * u_time_ratio s / 2 ^ 49) <= d_remaining_duration p s.
Proof.
  intros (Dd & Bd & Dr & Br & De & E0) E. unfold d_remaining_duration, d_sub, d_mul. set (e := u_elapsed_ratio s) in *. set (d := d_default_duration p s) in *. set (tr := u_time_ratio s) in *.
  pose proof (big_pos _ _ Bd) as Pd. pose proof (big_pos _ _ Br) as Pr.
  set (x := / 2 ^ 50) in *. assert (Bx : big 50 x) by (right; apply Rle_refl). pose proof (big_pos _ _ Bx) as Px.
  assert (Dx : is_double x).
  { exists 1%Z, (-50)%Z. split; [|split; lia]. unfold x. change (-50)%Z with (- Z.of_nat 50)%Z. rewrite <- bpow_power, bpow_inv. ring. }
  assert (L1 : - x <= double (1 - e)) by (apply double_above; [now apply is_double_opp|lra]).
  assert (L2 : - double (x * d) <= double (double (1 - e) * d)).
  { rewrite <- double_opp. apply double_le. replace (- (x * d)) with (- x * d) by ring. now apply Rmult_le_compat_r. }
  assert (L3 : - double (double (x * d) * tr) <= double (double (double (1 - e) * d) * tr)).
  { rewrite <- double_opp. apply double_le. replace (- (double (x * d) * tr)) with (- double (x * d) * tr) by ring. now apply Rmult_le_compat_r. }
  refine (Rle_trans _ _ _ _ L3). apply Ropp_le_contravar.
  pose proof (big_mul _ _ _ _ Bx Bd) as B1.
  destruct (step_within 0 (50 + 132) _ _ (double (x * d)) ltac:(lia) ltac:(lia) eq_refl B1 (within_0 _)) as (W1 & _ & _).
  pose proof (within_mul _ 0 _ _ _ _ (big_pos _ _ B1) Pr W1 (within_0 tr)) as W2. pose proof (big_mul _ _ _ _ B1 Br) as B2.
  destruct (step_within (1 + 0) (50 + 132 + 100) _ _ (double (double (x * d) * tr)) ltac:(lia) ltac:(lia) eq_refl B2 W2) as ((_ & W3) & _ & _).
  fold unit_error in W3. change (S (1 + 0)) with 2%nat in W3. refine (Rle_trans _ _ _ W3 _). pose proof unit_bounds as U.
  apply Rle_trans with (2 * (x * d * tr)); [apply Rmult_le_compat_r; [apply (big_pos _ _ B2)|nra]|]. right. unfold x. field.
Qed.
