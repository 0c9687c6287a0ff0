(** Proofs about the displacement of one step with doubles. *)
From Coq Require Import Reals ZArith List Bool Lia Lra.
From Flocq Require Import Core.
From Verif Require Import Base Doubles_model Doubles_spec Doubles_proofs DoublesLimits_proofs DoublesReach_model DoublesReach_spec.
Open Scope R_scope.

Lemma double_min x y : Rmin (double x) (double y) = double (Rmin x y).
Proof.
  unfold Rmin at 2. destruct (Rle_dec x y) as [H|H]; [apply Rmin_left, double_le, H|apply Rmin_right, double_le; lra].
Qed.
Lemma double_1 : double 1 = 1.
Proof. apply double_id, is_double_1. Qed.

(** The exact factor of a coordinate. *)
Definition factor (l e : R) : R := if Rle_dec (Rabs e) l then 1 else l / Rabs e.

Lemma factor_range l e : 0 < l -> 0 < factor l e <= 1 /\ factor l e * Rabs e <= l /\ forall r, 0 <= r <= 1 -> r * Rabs e <= l -> r <= factor l e.
Proof.
  intros L. unfold factor. destruct (Rle_dec (Rabs e) l) as [H|H]; [repeat split; intros; lra|]. assert (P : 0 < Rabs e) by lra. assert (E : l / Rabs e * Rabs e = l) by (field; lra).
  assert (Q : 0 < l / Rabs e) by now apply Rdiv_lt_0_compat. repeat split; [exact Q| |lra|].
  - apply Rmult_le_reg_r with (Rabs e); [exact P|]. lra.
  - intros r _ Hr. apply Rmult_le_reg_r with (Rabs e); [exact P|]. lra.
Qed.

Lemma window_spec l e x : 0 < l -> x <= 1 -> d_window l e (double x) = (double (Rmin x (factor l e)), if Rle_dec (Rabs e) l then false else true).
Proof.
  intros L X. unfold d_window, factor. destruct (Rlt_dec e (- l)) as [A|A].
  - destruct (Rlt_dec l e); [lra|]. rewrite (Rabs_left e) by lra. destruct (Rle_dec (- e) l); [lra|]. unfold d_div. rewrite double_min. do 3 f_equal. field. lra.
  - destruct (Rlt_dec l e) as [B|B].
    + rewrite (Rabs_right e) by lra. destruct (Rle_dec e l); [lra|]. unfold d_div. now rewrite double_min.
    + destruct (Rle_dec (Rabs e) l) as [_|C]; [now rewrite Rmin_left|]. exfalso. apply C. apply Rabs_le. lra.
Qed.

Lemma displacement_spec l w ex ey : 0 < l -> 0 < w -> let r := Rmin (factor l ex) (factor w ey) in
  d_displacement l w ex ey = ((d_mul ex (double r), d_mul ey (double r)), if Rle_dec (Rabs ex) l then if Rle_dec (Rabs ey) w then true else false else false).
Proof.
  intros L W. cbv zeta. unfold d_displacement. rewrite <- double_1 at 1. rewrite (window_spec l ex 1 L (Rle_refl 1)). destruct (factor_range l ex L) as (F & _).
  rewrite (Rmin_right 1) by lra. rewrite (window_spec w ey _ W (proj2 F)). f_equal. destruct (Rle_dec (Rabs ex) l), (Rle_dec (Rabs ey) w); reflexivity.
Qed.

Lemma largest_min l w ex ey : 0 < l -> 0 < w -> largest_factor l w ex ey (Rmin (factor l ex) (factor w ey)).
Proof.
  intros L W. destruct (factor_range l ex L) as ((A1 & A2) & A3 & A4). destruct (factor_range w ey W) as ((B1 & B2) & B3 & B4). unfold largest_factor. cbv zeta.
  pose proof (Rmin_l (factor l ex) (factor w ey)) as M1. pose proof (Rmin_r (factor l ex) (factor w ey)) as M2. assert (M0 : 0 < Rmin (factor l ex) (factor w ey)) by now apply Rmin_glb_lt.
  split.
  - split; [lra|]. rewrite !Rabs_mult, (Rabs_right (Rmin _ _)) by lra. pose proof (Rabs_pos ex). pose proof (Rabs_pos ey). split; nra.
  - intros r' (R0 & H1 & H2). rewrite Rabs_mult, (Rabs_right r') in H1, H2 by lra. apply Rmin_glb; auto.
Qed.

Lemma factor_big l e : sound_length l -> sound_error e -> / 2 ^ 200 <= factor l e.
Proof.
  intros (_ & L) (_ & E). unfold factor. destruct (Rle_dec (Rabs e) l) as [H|H]; [lra|]. assert (P0 : 0 < / 2 ^ 100) by (apply Rinv_0_lt_compat, pow_lt; lra).
  destruct E as [->|E]; [rewrite Rabs_R0 in H; lra|]. assert (0 < Rabs e) by lra. assert (Q : / 2 ^ 100 <= / Rabs e) by (apply Rinv_le_contravar; lra).
  change 200%nat with (100 + 100)%nat. rewrite pow_add, Rinv_mult. unfold Rdiv. apply Rmult_le_compat; lra.
Qed.

Lemma scaled_mul r e : is_double e -> (e = 0 \/ / 2 ^ 100 <= Rabs e) -> / 2 ^ 200 <= r -> scaled r e (d_mul e (double r)).
Proof.
  intros D E Hr. assert (P0 : 0 < / 2 ^ 100) by (apply Rinv_0_lt_compat, pow_lt; lra). assert (P1 : 0 < / 2 ^ 200) by (apply Rinv_0_lt_compat, pow_lt; lra).
  assert (W : within 1 r (double r)) by (apply (double_within _ 200); [lia|now right]). assert (B : big 200 r) by now right.
  assert (Q : 0 <= double r) by (apply double_pos; lra). unfold scaled, d_mul.
  assert (A : Rabs (double (e * double r)) = double (Rabs e * double r)).
  { unfold Rabs at 2. destruct (Rcase_abs e) as [H|H].
    - replace (- e * double r) with (- (e * double r)) by ring. rewrite double_opp. apply Rabs_left1. rewrite <- double_0. apply double_le. nra.
    - apply Rabs_right. apply Rle_ge, double_pos. nra. }
  split.
  - destruct (Rle_dec 0 e) as [H|H].
    + apply Rmult_le_pos; [apply double_pos; nra|exact H].
    + assert (double (e * double r) <= 0) by (rewrite <- double_0; apply double_le; nra). nra.
  - rewrite A, Rabs_mult, (Rabs_right r), (Rmult_comm r) by lra. assert (BE : big 100 (Rabs e)) by (destruct E as [->|E]; [left; apply Rabs_R0|now right]).
    pose proof (within_mul 0 1 _ _ _ _ (Rabs_pos e) (big_pos _ _ B) (within_0 _) W) as W2.
    destruct (step_within (0 + 1) (100 + 200) _ _ (double (Rabs e * double r)) ltac:(lia) ltac:(lia) eq_refl (big_mul _ _ _ _ BE B) W2) as (W3 & _ & _). exact W3.
Qed.
