(** Proofs about repeated calls of integrate with doubles. *)
From Coq Require Import Reals ZArith List Bool Lia Lra.
From Flocq Require Import Core Relative.
From Verif Require Import Base Doubles_model Doubles_spec Doubles_proofs DoublesSwing_proofs DoublesLimits_proofs DoublesIntegrate_model DoublesIntegrate_spec.
Open Scope R_scope.

#[local] Instance prec53 : Prec_gt_0 53 := eq_refl.

(** Repeated additions of the same double. *)
Fixpoint adds (n : nat) (x d : R) : R := match n with O => x | S k => d_add (adds k x d) d end.

Lemma adds_double n x d : is_double x -> is_double (adds n x d).
Proof. destruct n; [auto|intros _; apply double_is]. Qed.

Lemma add_error x y : is_double x -> is_double y -> Rabs (d_add x y - (x + y)) <= unit_error * Rabs (x + y).
Proof.
  intros X Y. pose proof (sub_error x (- y) X (is_double_opp _ Y)) as H. replace (x - - y) with (x + y) in H by ring. unfold d_sub in H. replace (x - - y) with (x + y) in H by ring. exact H.
Qed.

Lemma pow_grow k : 1 <= (1 + unit_error) ^ k.
Proof. apply pow_R1_Rle. pose proof unit_bounds. lra. Qed.

Lemma adds_drift n x d : is_double x -> is_double d -> drifts n n x d (adds n x d).
Proof.
  intros X D. unfold drifts. fold unit_error. induction n as [|n IH]; [cbn [adds pow INR]; replace (x - (x + 0 * d)) with 0 by ring; rewrite Rabs_R0; lra|].
  pose proof (add_error (adds n x d) d (adds_double n x d X) D) as E. cbn [adds]. rewrite S_INR. set (a := adds n x d) in *. set (y := d_add a d) in *.
  pose proof unit_bounds as (u0 & _). pose proof (pow_grow n) as G. set (g := (1 + unit_error) ^ n) in *. change ((1 + unit_error) ^ S n) with ((1 + unit_error) * g).
  pose proof (pos_INR n) as N0. pose proof (Rabs_pos x). pose proof (Rabs_pos d). set (c := INR n) in *. set (s := Rabs x + c * Rabs d) in *.
  assert (T : Rabs (a + d) <= s + Rabs d + Rabs (a - (x + c * d))).
  { replace (a + d) with ((x + c * d + d) + (a - (x + c * d))) by ring. refine (Rle_trans _ _ _ (Rabs_triang _ _) _). apply Rplus_le_compat_r.
    refine (Rle_trans _ _ _ (Rabs_triang _ _) _). apply Rplus_le_compat_r. refine (Rle_trans _ _ _ (Rabs_triang _ _) _). unfold s. rewrite Rabs_mult, (Rabs_right c) by lra. lra. }
  set (e := Rabs (a - (x + c * d))) in *.
  assert (F : Rabs (y - (x + (c + 1) * d)) <= unit_error * (s + Rabs d + e) + e).
  { replace (y - (x + (c + 1) * d)) with ((y - (a + d)) + (a - (x + c * d))) by ring. refine (Rle_trans _ _ _ (Rabs_triang _ _) _). fold e. apply Rplus_le_compat_r. refine (Rle_trans _ _ _ E _). apply Rmult_le_compat_l; lra. }
  refine (Rle_trans _ _ _ F _). replace (Rabs x + (c + 1) * Rabs d) with (s + Rabs d) by (unfold s; ring).
  apply Rle_trans with (unit_error * (s + Rabs d) + (1 + unit_error) * ((g - 1) * s)).
  - assert ((1 + unit_error) * e <= (1 + unit_error) * ((g - 1) * s)) by (apply Rmult_le_compat_l; lra). lra.
  - assert (0 <= (1 + unit_error) * (g - 1) * Rabs d) by (apply Rmult_le_pos; [apply Rmult_le_pos; lra|lra]). lra.
Qed.

Lemma sized_mul x y : sized x -> sized y -> Rabs (d_mul x y - x * y) <= unit_error * Rabs (x * y).
Proof.
  intros (_ & X) (_ & Y). destruct X as [->|X]; [unfold d_mul; rewrite Rmult_0_l, double_0, Rminus_0_r, Rabs_R0; lra|]. destruct Y as [->|Y]; [unfold d_mul; rewrite Rmult_0_r, double_0, Rminus_0_r, Rabs_R0; lra|].
  unfold d_mul. rewrite <- unit_bpow. apply (relative_error_N_FLT radix2 (-1074) 53 eq_refl). rewrite Rabs_mult.
  assert (P : 0 < / 2 ^ 100) by (apply Rinv_0_lt_compat, pow_lt; lra).
  apply Rle_trans with (/ 2 ^ 100 * / 2 ^ 100); [|apply Rmult_le_compat; lra]. change (-1074 + 53 - 1)%Z with (- Z.of_nat 1022)%Z. rewrite bpow_inv, <- Rinv_mult, <- pow_add.
  apply Rinv_le_contravar; [apply pow_lt; lra|apply Rle_pow; [lra|lia]].
Qed.

(** The displacement of each call being itself rounded. *)
Lemma adds_drift_mul n x v w : is_double x -> sized v -> sized w -> drifts (S n) n x (v * w) (adds n x (d_mul v w)).
Proof.
  intros X V W. pose proof (adds_drift n x (d_mul v w) X (double_is _)) as H. pose proof (sized_mul v w V W) as M. unfold drifts in *. fold unit_error in *.
  set (d := d_mul v w) in *. set (p := v * w) in *. set (y := adds n x d) in *. pose proof unit_bounds as (u0 & _). pose proof (pow_grow n) as G. set (g := (1 + unit_error) ^ n) in *.
  change ((1 + unit_error) ^ S n) with ((1 + unit_error) * g). pose proof (pos_INR n) as N0. set (c := INR n) in *. pose proof (Rabs_pos x). pose proof (Rabs_pos p). pose proof (Rabs_pos d).
  assert (A : Rabs d <= (1 + unit_error) * Rabs p). { replace d with ((d - p) + p) by ring. refine (Rle_trans _ _ _ (Rabs_triang _ _) _). lra. }
  assert (B : Rabs (y - (x + c * p)) <= Rabs (y - (x + c * d)) + c * (unit_error * Rabs p)).
  { replace (y - (x + c * p)) with ((y - (x + c * d)) + c * (d - p)) by ring. refine (Rle_trans _ _ _ (Rabs_triang _ _) _). apply Rplus_le_compat_l. rewrite Rabs_mult, (Rabs_right c) by lra. apply Rmult_le_compat_l; lra. }
  refine (Rle_trans _ _ _ B _). refine (Rle_trans _ _ _ (Rplus_le_compat_r _ _ _ H) _).
  apply Rle_trans with ((g - 1) * (Rabs x + c * ((1 + unit_error) * Rabs p)) + c * (unit_error * Rabs p)).
  - apply Rplus_le_compat_r, Rmult_le_compat_l; [lra|]. apply Rplus_le_compat_l, Rmult_le_compat_l; lra.
  - assert (0 <= unit_error * g * Rabs x) by (apply Rmult_le_pos; [apply Rmult_le_pos; lra|lra]). lra.
Qed.

(** ** The states *)
Lemma after_steady n dt q v : let s := after n dt (DJState q (Some v) None) in dqd s = Some v /\ dqdd s = None /\ dq s = adds n q (d_mul v dt).
Proof. induction n as [|n (I1 & I2 & I3)]; [auto|]. cbn [after]. unfold d_integrate. rewrite I1, I2, I3. auto. Qed.
Lemma after_speed n dt q v a : let s := after n dt (DJState q (Some v) (Some a)) in dqd s = Some (adds n v (d_mul dt a)) /\ dqdd s = Some a.
Proof. induction n as [|n (I1 & I2)]; [auto|]. cbn [after]. unfold d_integrate. rewrite I1, I2. auto. Qed.

(** ** Small displacements are lost *)
Lemma far_doubles x y : is_double x -> is_double y -> 0 < x -> Rabs (y - x) <= x / 2 ^ 54 -> y = x.
Proof.
  intros X Y P H. apply Rabs_le_inv in H. apply is_double_format in X, Y. destruct (Rtotal_order y x) as [L|[E|L]]; [exfalso|exact E|exfalso].
  - assert (Q : 0 < y) by lra. pose proof (succ_le_lt radix2 fexp64 y x Y X L) as S1. rewrite succ_eq_pos in S1 by lra.
    pose proof (ulp_FLT_gt radix2 (-1074) 53 y) as U. change (- (53))%Z with (- Z.of_nat 53)%Z in U. rewrite bpow_inv, Rabs_right in U by lra. lra.
  - pose proof (succ_le_lt radix2 fexp64 x y X Y L) as S1. rewrite succ_eq_pos in S1 by lra.
    pose proof (ulp_FLT_gt radix2 (-1074) 53 x) as U. change (- (53))%Z with (- Z.of_nat 53)%Z in U. rewrite bpow_inv, Rabs_right in U by lra. lra.
Qed.
Lemma lost x d : is_double x -> Rabs d <= Rabs x / 2 ^ 55 -> d_add x d = x.
Proof.
  intros X H. assert (G : forall x d, is_double x -> 0 < x -> Rabs d <= x / 2 ^ 55 -> d_add x d = x).
  { clear. intros x d X P H. pose proof (double_nearest (x + d) x X) as E. apply far_doubles; [exact X|apply double_is|exact P|]. unfold d_add. replace (x - (x + d)) with (- d) in E by ring. rewrite Rabs_Ropp in E.
    replace (double (x + d) - x) with ((double (x + d) - (x + d)) + d) by ring. refine (Rle_trans _ _ _ (Rabs_triang _ _) _). lra. }
  destruct (Rtotal_order x 0) as [L|[->|L]].
  - specialize (G (- x) (- d) (is_double_opp _ X) ltac:(lra)). rewrite Rabs_Ropp in G. rewrite (Rabs_left x L) in H. specialize (G H). unfold d_add in *. replace (- x + - d) with (- (x + d)) in G by ring. rewrite double_opp in G. lra.
  - rewrite Rabs_R0 in H. pose proof (Rabs_pos d). assert (d = 0) as -> by (destruct (Req_dec d 0) as [|N0]; [assumption|]; apply Rabs_no_R0 in N0; lra). unfold d_add. rewrite Rplus_0_r. apply double_0.
  - apply G; [exact X|exact L|]. now rewrite (Rabs_right x) in H by lra.
Qed.
Lemma adds_lost n x d : is_double x -> Rabs d <= Rabs x / 2 ^ 55 -> adds n x d = x.
Proof. intros X H. induction n as [|n IH]; [reflexivity|]. cbn [adds]. rewrite IH. now apply lost. Qed.
