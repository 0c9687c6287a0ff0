(** The knots of a swing trajectory with doubles. *)
From Coq Require Import Reals ZArith List Bool Lia Lra Psatz.
From Flocq Require Import Core Relative.
From Verif Require Import Base Geom3 Spline_model Swing_model Swing_proofs Doubles_model Doubles_spec Doubles_proofs DoublesReplan_proofs DoublesSwing_model DoublesSwing_spec.
Import ListNotations.
Open Scope R_scope.

(** The error of a rounding beside a number that is not too small. *)
Lemma double_error x : Rabs (double x - x) <= unit_error * Rabs x + / 2 ^ 1075.
Proof.
  destruct (error_N_FLT radix2 (-1074) 53 ltac:(lia) (fun n => negb (Z.even n)) x) as (eps & eta & E1 & E2 & _ & E).
  assert (E' : double x = x * (1 + eps) + eta) by exact E. rewrite E'. replace (x * (1 + eps) + eta - x) with (eps * x + eta) by ring.
  refine (Rle_trans _ _ _ (Rabs_triang _ _) _). rewrite Rabs_mult. apply Rplus_le_compat.
  - apply Rmult_le_compat_r; [apply Rabs_pos|]. rewrite <- unit_bpow. exact E1.
  - refine (Rle_trans _ _ _ E2 _). change (-1074)%Z with (- Z.of_nat 1074)%Z. rewrite bpow_inv. replace 1075%nat with (1 + 1074)%nat by lia. rewrite pow_add, pow_1, Rinv_mult. apply Rle_refl.
Qed.
Lemma sum_error x y : is_double x -> is_double y -> 0 <= x + y -> Rabs (double (x + y) - (x + y)) <= unit_error * (x + y).
Proof. intros Dx Dy P. destruct (add_within x y Dx Dy P) as (A & B). fold unit_error in A, B. rewrite pow_1 in A, B. apply Rabs_le. lra. Qed.

Section Errors.
  Variable B : R.
  Hypothesis HB : / 2 ^ 100 <= B.
  Let w := unit_error * B.
  Lemma w_small : 0 < w /\ w <= B / 1000000 /\ / 2 ^ 1075 <= w / 1000000.
  Proof using HB.
    pose proof unit_bounds as U. assert (P : 0 < / 2 ^ 100) by (apply Rinv_0_lt_compat, pow_lt; lra). unfold w. split; [apply Rmult_lt_0_compat; lra|]. split; [nra|].
    apply Rle_trans with (/ 2 ^ 173).
    - apply Rinv_le_contravar; [apply pow_lt; lra|apply Rle_pow; [lra|lia]].
    - change 173%nat with (20 + (53 + 100))%nat. rewrite !pow_add, !Rinv_mult. unfold Rdiv. fold unit_error. assert (C : / 2 ^ 20 <= / 1000000) by (apply Rinv_le_contravar; lra).
      rewrite Rmult_comm. apply Rmult_le_compat; [apply Rmult_le_pos; lra|apply Rlt_le, Rinv_0_lt_compat; lra|apply Rmult_le_compat_l; lra|exact C].
  Qed.
  Lemma error x c : Rabs x <= c * B -> Rabs (double x - x) <= (c + / 1000) * w.
  Proof using HB.
    intros H. refine (Rle_trans _ _ _ (double_error x) _). destruct w_small as (W0 & _ & W). pose proof unit_bounds as U.
    assert (unit_error * Rabs x <= c * w). { unfold w. replace (c * (unit_error * B)) with (unit_error * (c * B)) by ring. apply Rmult_le_compat_l; lra. } lra.
  Qed.
  Lemma near y x c e : Rabs (y - x) <= e * w -> Rabs x <= c * B -> 0 <= e <= 100 -> Rabs (double y - x) <= (e + c + / 100) * w /\ Rabs y <= (c + / 1000) * B.
  Proof using HB.
    intros H X E. destruct w_small as (W0 & W1 & _). assert (Y : Rabs y <= (c + / 1000) * B).
    { replace y with (y - x + x) by ring. refine (Rle_trans _ _ _ (Rabs_triang _ _) _). assert (e * w <= 100 * w) by (apply Rmult_le_compat_r; lra). lra. }
    split; [|exact Y]. pose proof (error y _ Y). replace (double y - x) with (double y - y + (y - x)) by ring. refine (Rle_trans _ _ _ (Rabs_triang _ _) _). lra.
  Qed.
End Errors.

Section Swing.
  Variables ts D r e : R.
  Hypothesis (HS : sound_swing ts D r e).
  Let B := Rabs ts + D.
  Let w := unit_error * B.
  Lemma B_big : / 2 ^ 100 <= B.
  Proof using HS. destruct HS as (_ & _ & _ & _ & H & _). unfold B. pose proof (Rabs_pos ts). lra. Qed.
  Lemma D_pos : 0 < D <= B.
  Proof using HS. destruct HS as (_ & _ & _ & _ & H & _). unfold B. pose proof (Rabs_pos ts). assert (0 < / 2 ^ 100) by (apply Rinv_0_lt_compat, pow_lt; lra). lra. Qed.
  Lemma ts_le : - (B - D) <= ts <= B - D.
  Proof using. unfold B. replace (Rabs ts + D - D) with (Rabs ts) by ring. apply Rabs_le_inv, Rle_refl. Qed.
  Lemma W_facts : 0 < w /\ w <= B / 1000000.
  Proof using HS. destruct (w_small B B_big) as (A & C & _). now split. Qed.
  Lemma w_48 : B / 2 ^ 48 = 32 * w.
  Proof using. unfold w, unit_error. field. Qed.

  Let te := d_add ts (d_mul (d_sub 1 e) D).
  Lemma te_near : Rabs (te - (ts + (1 - e) * D)) <= 4 * w.
  Proof using HS.
    destruct HS as (_ & _ & _ & De & _ & E & _). pose proof D_pos as P. pose proof ts_le as T. pose proof W_facts as (W0 & W1). pose proof unit_bounds as U.
    assert (S1 : Rabs (d_sub 1 e - (1 - e)) <= unit_error * (1 - e)) by (apply (sum_error 1 (- e)); [apply is_double_1|now apply is_double_opp|lra]).
    assert (S2 : Rabs (d_sub 1 e * D - (1 - e) * D) <= 1 * w).
    { replace (d_sub 1 e * D - (1 - e) * D) with ((d_sub 1 e - (1 - e)) * D) by ring. rewrite Rabs_mult, (Rabs_right D) by lra. unfold w. rewrite Rmult_1_l.
      apply Rmult_le_compat; [apply Rabs_pos|lra| |lra]. refine (Rle_trans _ _ _ S1 _). nra. }
    destruct (near B B_big _ _ 1 1 S2) as (S3 & _); [rewrite Rabs_right; nra|lra|]. fold (d_mul (d_sub 1 e) D) in S3. fold w in S3.
    assert (S4 : Rabs (ts + d_mul (d_sub 1 e) D - (ts + (1 - e) * D)) <= (1 + 1 + / 100) * w) by (replace (ts + d_mul (d_sub 1 e) D - (ts + (1 - e) * D)) with (d_mul (d_sub 1 e) D - (1 - e) * D) by ring; exact S3).
    destruct (near B B_big _ _ 1 _ S4) as (S5 & _); [apply Rabs_le; nra|lra|]. fold w in S5. unfold te, d_add. lra.
  Qed.
  Let h := d_div D 2.
  Lemma h_near : Rabs (h - D / 2) <= / 100 * w + / 2 * w.
  Proof using HS.
    pose proof D_pos as P. assert (S1 : Rabs (D / 2 - D / 2) <= 0 * w) by (replace (D / 2 - D / 2) with 0 by ring; rewrite Rabs_R0; lra).
    destruct (near B B_big _ _ (/ 2) 0 S1) as (S2 & _); [rewrite Rabs_right; lra|lra|]. fold w in S2. unfold h, d_div. lra.
  Qed.
  Let m := d_add (d_sub ts (d_mul e D)) h.
  Lemma m_near : Rabs (m - (ts - e * D + D / 2)) <= 4 * w.
  Proof using HS.
    pose proof D_pos as P. pose proof ts_le as T. destruct HS as (_ & _ & _ & De & _ & E & _). pose proof W_facts as (W0 & W1).
    assert (S1 : Rabs (e * D - e * D) <= 0 * w) by (replace (e * D - e * D) with 0 by ring; rewrite Rabs_R0; lra).
    destruct (near B B_big _ _ 1 0 S1) as (S2 & _); [rewrite Rabs_right; nra|lra|]. fold w in S2. fold (d_mul e D) in S2.
    assert (S3 : Rabs (ts - d_mul e D - (ts - e * D)) <= (0 + 1 + / 100) * w).
    { replace (ts - d_mul e D - (ts - e * D)) with (- (d_mul e D - e * D)) by ring. rewrite Rabs_Ropp. exact S2. }
    destruct (near B B_big _ _ 1 _ S3) as (S4 & _); [apply Rabs_le; nra|lra|]. fold w in S4. fold (d_sub ts (d_mul e D)) in S4. pose proof h_near as S5.
    assert (S6 : Rabs (d_sub ts (d_mul e D) + h - (ts - e * D + D / 2)) <= (27 / 10) * w).
    { replace (d_sub ts (d_mul e D) + h - (ts - e * D + D / 2)) with (d_sub ts (d_mul e D) - (ts - e * D) + (h - D / 2)) by ring. refine (Rle_trans _ _ _ (Rabs_triang _ _) _). lra. }
    destruct (near B B_big _ _ 1 _ S6) as (S7 & _); [apply Rabs_le; nra|lra|]. fold w in S7. unfold m, d_add. lra.
  Qed.
  Let p := d_mul h r.
  Lemma p_near : 0 < r -> Rabs (p - D * r / 2) <= 2 * w.
  Proof using HS.
    intros R0. pose proof D_pos as P. pose proof W_facts as (W0 & W1). pose proof h_near as S1. assert (R1 : r <= 1). { destruct HS as (_ & _ & _ & _ & _ & _ & _ & H & _). fold B in H. rewrite w_48 in H. nra. }
    assert (S2 : Rabs (h * r - D * r / 2) <= 52 / 100 * w).
    { replace (h * r - D * r / 2) with ((h - D / 2) * r) by field. rewrite Rabs_mult, (Rabs_right r) by lra. pose proof (Rabs_pos (h - D / 2)). nra. }
    destruct (near B B_big _ _ 1 _ S2) as (S3 & _); [rewrite Rabs_right; nra|lra|]. fold w in S3. unfold p, d_mul. lra.
  Qed.
  Lemma top_near : 0 < r -> Rabs (d_add m p - (ts - e * D + D / 2 + D * r / 2)) <= 9 * w /\ Rabs (d_sub m p - (ts - e * D + D / 2 - D * r / 2)) <= 9 * w.
  Proof using HS.
    intros R0. pose proof (p_near R0) as S1. pose proof m_near as S2. pose proof D_pos as P. pose proof ts_le as T. pose proof W_facts as (W0 & W1). destruct HS as (_ & _ & _ & _ & _ & E & _ & H & _). fold B in H. rewrite w_48 in H. assert (R1 : r <= 1) by nra.
    split.
    - assert (S3 : Rabs (m + p - (ts - e * D + D / 2 + D * r / 2)) <= 6 * w) by (replace (m + p - (ts - e * D + D / 2 + D * r / 2)) with (m - (ts - e * D + D / 2) + (p - D * r / 2)) by ring; refine (Rle_trans _ _ _ (Rabs_triang _ _) _); lra).
      destruct (near B B_big _ _ 2 _ S3) as (S4 & _); [apply Rabs_le; nra|lra|]. fold w in S4. unfold d_add. lra.
    - assert (S3 : Rabs (m - p - (ts - e * D + D / 2 - D * r / 2)) <= 6 * w) by (replace (m - p - (ts - e * D + D / 2 - D * r / 2)) with (m - (ts - e * D + D / 2) + - (p - D * r / 2)) by ring; refine (Rle_trans _ _ _ (Rabs_triang _ _) _); rewrite Rabs_Ropp; lra).
      destruct (near B B_big _ _ 2 _ S3) as (S4 & _); [apply Rabs_le; nra|lra|]. fold w in S4. unfold d_sub. lra.
  Qed.

  Let apex := filter (fun t => if Rlt_dec ts t then true else false) (d_apex_times (d_sub ts (d_mul e D)) h r).
  Lemma te_after : ts < te.
  Proof using HS. pose proof te_near as S. pose proof W_facts as (W0 & _). destruct HS as (_ & _ & _ & _ & _ & _ & H & _). fold B in H. rewrite w_48 in H. apply Rabs_le_inv in S. lra. Qed.
  Lemma apex_increasing : forall height z, increasing ts (map (fun t => (t, height, 0)) apex ++ [(te, z, 0)]).
  Proof using HS.
    intros height z. pose proof te_near as S. pose proof W_facts as (W0 & _). pose proof te_after as TA. pose proof m_near as Sm. pose proof D_pos as P. pose proof HS as (_ & _ & _ & _ & _ & E & H & H1 & H2). fold B in H, H1, H2. rewrite w_48 in H, H1, H2.
    apply Rabs_le_inv in S, Sm. unfold apex, d_apex_times. fold m p. destruct (Rlt_dec 0 r) as [R0|R0].
    - destruct (top_near R0) as (T2 & T1). apply Rabs_le_inv in T1, T2. specialize (H2 R0). cbn [filter]. destruct (Rlt_dec ts (d_sub m p)), (Rlt_dec ts (d_add m p)); cbn [map app increasing fst snd]; repeat split; lra.
    - cbn [filter]. assert (D >= 32 * w) by nra. destruct (Rlt_dec ts m); cbn [map app increasing fst snd]; repeat split; nra.
  Qed.
  Lemma apex_near t : In t apex -> ts < t /\ exists a, plateau ts D r e a /\ Rabs (t - a) <= 9 * w.
  Proof using HS.
    intros H. unfold apex in H. apply filter_In in H as (H & G). split; [destruct (Rlt_dec ts t); [assumption|discriminate]|]. unfold d_apex_times in H. fold m p in H. unfold plateau. pose proof W_facts as (W0 & _). destruct (Rlt_dec 0 r) as [R0|R0].
    - destruct (top_near R0) as (T2 & T1). destruct H as [ <- | [ <- | [] ] ]; eexists; (split; [left; split; [exact R0|]|]); [left; reflexivity|exact T1|right; reflexivity|exact T2].
    - destruct H as [ <- | [] ]. eexists. split; [right; split; [lra|reflexivity]|]. pose proof m_near. lra.
  Qed.
  Lemma apex_all a : plateau ts D r e a -> ts + 9 * w < a -> exists t, In t apex /\ Rabs (t - a) <= 9 * w.
  Proof using HS.
    intros H L. pose proof W_facts as (W0 & _). assert (C : exists t, In t (d_apex_times (d_sub ts (d_mul e D)) h r) /\ Rabs (t - a) <= 9 * w).
    { unfold d_apex_times. fold m p. destruct H as [(R0 & H)|(R0 & ->)].
      - destruct (top_near R0) as (T2 & T1). destruct (Rlt_dec 0 r); [|lra]. destruct H as [ -> | -> ]; [exists (d_sub m p); split; [now left|exact T1]|exists (d_add m p); split; [right; now left|exact T2]].
      - destruct (Rlt_dec 0 r); [lra|]. exists m. split; [now left|]. pose proof m_near. lra. }
    destruct C as (t & I & N). exists t. split; [|exact N]. apply filter_In. split; [exact I|]. apply Rabs_le_inv in N. destruct (Rlt_dec ts t); [reflexivity|lra].
  Qed.
End Swing.
