(** Sampling with doubles. *)
From Coq Require Import Reals ZArith List Bool Lia Lra Psatz.
From Flocq Require Import Core.
From Verif Require Import Base Doubles_model Doubles_spec Doubles_proofs DoublesReplan_proofs DoublesSample_model DoublesSample_spec.
From Verif Require Integrator_model.
Import ListNotations.
Open Scope R_scope.

Lemma step_eq n dt ts t : (0 < n)%Z -> d_step n dt ts t = Z.min (n - 1) (Z.max 0 (Zfloor (d_div (d_sub t ts) dt))).
Proof. intros H. unfold d_step. cbv zeta. destruct (Z.ltb_spec (Zfloor (d_div (d_sub t ts) dt)) 0) as [L|L]; [destruct (Z.geb_spec 0 n)|destruct (Z.geb_spec (Zfloor (d_div (d_sub t ts) dt)) n)]; lia. Qed.
Lemma step_range n dt ts t : (0 < n)%Z -> (0 <= d_step n dt ts t < n)%Z.
Proof. intros H. rewrite step_eq by exact H. lia. Qed.

Lemma trunc_floor x : 0 <= x -> Integrator_model.Ztrunc x = Zfloor x.
Proof.
  intros H. unfold Integrator_model.Ztrunc. destruct (Rle_dec 0 x); [|lra]. symmetry. apply Zfloor_imp. destruct (base_Int_part x). rewrite plus_IZR. lra.
Qed.
Lemma trunc_neg x : x <= 0 -> (Integrator_model.Ztrunc x <= 0)%Z.
Proof.
  intros H. unfold Integrator_model.Ztrunc. destruct (Rle_dec 0 x) as [G|G].
  - assert (x = 0) by lra. subst. destruct (base_Int_part 0) as (A & _). assert (IZR (Int_part 0) <= IZR 0) by lra. now apply le_IZR.
  - destruct (base_Int_part (- x)) as (_ & A). assert (B : IZR (- 1) < IZR (Int_part (- x))) by (cbn; lra). apply lt_IZR in B. lia.
Qed.

Lemma expr_step_eq n dt ts t : (0 < n)%Z -> d_expr_step n dt ts t = d_step n dt ts t.
Proof.
  intros N. rewrite (step_eq n dt ts t N). unfold d_expr_step. destruct (Rle_dec 0 (d_div (d_sub t ts) dt)) as [P|P].
  - rewrite trunc_floor by exact P. assert (0 <= Zfloor (d_div (d_sub t ts) dt))%Z by (apply Zfloor_lub; exact P). lia.
  - pose proof (trunc_neg _ ltac:(apply Rlt_le, Rnot_le_lt, P)). assert (Zfloor (d_div (d_sub t ts) dt) <= 0)%Z; [|lia].
    apply Rnot_le_lt in P. pose proof (Zfloor_lb (d_div (d_sub t ts) dt)) as L. apply le_IZR. lra.
Qed.

Lemma sub_within x y : is_double x -> is_double y -> 0 <= x - y -> within 1 (x - y) (d_sub x y).
Proof. intros X Y H. apply (add_within x (- y) X (is_double_opp y Y)). exact H. Qed.
Lemma within_1_inv x y : within 1 x y -> (1 - unit_error) * x <= y <= (1 + unit_error) * x.
Proof. intros (A & B). fold unit_error in *. rewrite pow_1 in *. auto. Qed.

(** The step chosen from the elapsed time [x], a double. *)
Section Step.
Variables (n : Z) (dt x : R).
Hypothesis (Hn : (0 < n < 2 ^ 31)%Z) (Hd : amount dt) (Hd0 : 0 < dt) (Hx : is_double x) (Hx0 : 0 <= x).
Let q := double (x / dt).
Let k := Z.min (n - 1) (Z.max 0 (Zfloor q)).

Lemma quotient_pos : 0 <= x / dt.
Proof. apply Rmult_le_pos; [exact Hx0|]. apply Rlt_le, Rinv_0_lt_compat, Hd0. Qed.
Lemma quotient_within : 1 <= x / dt -> (1 - unit_error) * (x / dt) <= q <= (1 + unit_error) * (x / dt).
Proof. intros H. apply within_1_inv. apply (double_within _ 0); [lia|]. right. cbn [pow]. rewrite Rinv_1. exact H. Qed.
Lemma quotient_below z : x / dt < IZR z -> (Z.abs z < 2 ^ 53)%Z -> q <= IZR z.
Proof. intros H Z. apply double_below; [now apply is_double_int|lra]. Qed.
Lemma quotient_above z : IZR z <= x / dt -> (Z.abs z < 2 ^ 53)%Z -> IZR z <= q.
Proof. intros H Z. apply double_above; [now apply is_double_int|lra]. Qed.
Lemma times_dt a : a * dt = x -> a = x / dt.
Proof. intros <-. field. lra. Qed.
Lemma x_eq : x = x / dt * dt.
Proof. field. lra. Qed.

(** Not too late... *)
Lemma k_low : IZR k * dt <= (1 + unit_error) * x.
Proof using Hn Hd Hd0 Hx Hx0.
  pose proof unit_bounds as U. assert (q0 : 0 <= q) by (apply double_pos, quotient_pos). assert (F0 : (0 <= Zfloor q)%Z) by (now apply Zfloor_lub).
  destruct (Z.eq_dec k 0) as [->|NZ]; [rewrite Rmult_0_l; apply Rmult_le_pos; lra|].
  assert (K : (k <= Zfloor q)%Z) by (unfold k; lia). assert (K1 : (1 <= Zfloor q)%Z) by (unfold k in NZ; lia).
  pose proof (Zfloor_lb q) as L. apply IZR_le in K, K1.
  destruct (Rle_dec 1 (x / dt)) as [G|G].
  - destruct (quotient_within G) as (_ & A). rewrite x_eq at 1. rewrite <- Rmult_assoc. apply Rmult_le_compat_r; lra.
  - (* q = 1 *) apply Rnot_le_lt in G. assert (q1 : q <= IZR 1) by (apply quotient_below; [exact G|lia]).
    assert (W : within 1 (x / dt) q). { apply (double_within _ 1); [lia|]. right. cbn [pow]. rewrite Rmult_1_r.
      destruct (Rle_dec (/ 2) (x / dt)) as [B|B]; [exact B|exfalso]. apply Rnot_le_lt in B.
      assert (q <= / 2). { apply double_below; [|lra]. exists 1%Z, (- Z.of_nat 1)%Z. rewrite <- bpow_power, bpow_inv. split; [field|split; lia]. } lra. }
    apply within_1_inv in W. rewrite x_eq at 1. rewrite <- Rmult_assoc. apply Rmult_le_compat_r; lra.
Qed.
(** ... and not too early. *)
Lemma k_high : (k < n - 1)%Z \/ x <= (1 + unit_error) * (IZR n * dt) -> x - (IZR k + 1) * dt <= unit_error * x.
Proof using Hn Hd Hd0 Hx Hx0.
  pose proof unit_bounds as U. intros HN. assert (q0 : 0 <= q) by (apply double_pos, quotient_pos). assert (F0 : (0 <= Zfloor q)%Z) by (now apply Zfloor_lub).
  assert (P : 0 <= unit_error * x) by (apply Rmult_le_pos; lra).
  destruct (Z_le_gt_dec (Zfloor q) (n - 1)) as [L|L].
  - assert (K : k = Zfloor q) by (unfold k; lia). pose proof (Zfloor_ub q) as B. rewrite <- K in B.
    destruct (Rle_dec 1 (x / dt)) as [G|G].
    + destruct (quotient_within G) as (A & _). assert ((1 - unit_error) * (x / dt) * dt <= (IZR k + 1) * dt) by (apply Rmult_le_compat_r; lra).
      rewrite Rmult_assoc, <- x_eq in H. lra.
    + apply Rnot_le_lt in G. assert (x / dt * dt <= 1 * dt) by (apply Rmult_le_compat_r; lra). rewrite <- x_eq in H.
      assert (0 <= IZR k) by (apply IZR_le; unfold k; lia). assert (0 <= IZR k * dt) by (apply Rmult_le_pos; lra). lra.
  - assert (K : k = (n - 1)%Z) by (unfold k; lia). destruct HN as [HN|HN]; [lia|]. rewrite K, minus_IZR. replace (IZR n - 1 + 1) with (IZR n) by ring.
    assert (0 <= IZR n * dt) by (apply Rmult_le_pos; [apply IZR_le; lia|lra]). destruct (Rle_dec x (IZR n * dt)) as [C|C]; [lra|]. apply Rnot_le_lt in C.
    assert (unit_error * (IZR n * dt) <= unit_error * x) by (apply Rmult_le_compat_l; lra). lra.
Qed.

(** The time that is left. *)
Let kd := double (IZR k * dt).
Let y := double (x - kd).
Lemma kd_close : Rabs (kd - IZR k * dt) <= unit_error * (IZR k * dt) /\ 0 <= kd /\ is_double kd.
Proof.
  assert (K0 : (0 <= k)%Z) by (unfold k; lia).
  assert (B : big 100 (IZR k * dt)). { change 100%nat with (0 + 100)%nat. apply big_mul; [|apply Hd]. apply big_steps. unfold k. lia. }
  pose proof (double_within _ 100 ltac:(lia) B) as W. apply within_1_inv in W. fold kd in W. pose proof (big_pos _ _ B). pose proof unit_bounds.
  split; [apply Rabs_le; lra|]. split; [apply double_pos; lra|apply double_is].
Qed.

Lemma offset_close : x <= (1 + unit_error) * (IZR n * dt) -> Rabs (IZR k * dt + Rmax 0 (Rmin dt y) - x) <= 4 * unit_error * x.
Proof using Hn Hd Hd0 Hx Hx0.
  intros HN. pose proof unit_bounds as U. pose proof k_low as KL. pose proof (k_high (or_intror HN)) as KH. destruct kd_close as (KD & KD0 & DK).
  assert (P : 0 <= unit_error * x) by (apply Rmult_le_pos; lra).
  assert (UK : unit_error * (IZR k * dt) <= unit_error * x + unit_error * x / 1000).
  { apply Rle_trans with (unit_error * ((1 + unit_error) * x)); [apply Rmult_le_compat_l; lra|]. assert (unit_error * (unit_error * x) <= / 1000 * (unit_error * x)) by (apply Rmult_le_compat_r; lra). lra. }
  apply Rabs_le_inv in KD. assert (Dd : is_double dt) by apply Hd.
  destruct (Rle_dec (x - kd) 0) as [L|L].
  - assert (Y : y <= 0) by (apply double_below; [apply is_double_0|exact L]). rewrite Rmax_left by (apply Rle_trans with y; [apply Rmin_r|exact Y]). apply Rabs_le. lra.
  - apply Rnot_le_lt in L. pose proof (sub_within x kd Hx DK ltac:(lra)) as W. apply within_1_inv in W. change (d_sub x kd) with y in W.
    assert (UY : unit_error * (x - kd) <= unit_error * x) by (apply Rmult_le_compat_l; lra).
    assert (Y0 : 0 <= y) by (apply double_pos; lra). destruct (Rle_dec dt y) as [G|G].
    + rewrite Rmin_left by exact G. rewrite Rmax_right by lra. apply Rabs_le. lra.
    + apply Rnot_le_lt in G. rewrite Rmin_right by lra. rewrite Rmax_right by exact Y0. apply Rabs_le. lra.
Qed.
Lemma free_offset_close : x <= (1 + unit_error) * (IZR n * dt) -> Rabs (IZR k * dt + y - x) <= 4 * unit_error * x.
Proof using Hn Hd Hd0 Hx Hx0.
  intros HN. pose proof unit_bounds as U. pose proof k_low as KL. destruct kd_close as (KD & KD0 & DK).
  assert (P : 0 <= unit_error * x) by (apply Rmult_le_pos; lra).
  assert (UK : unit_error * (IZR k * dt) <= unit_error * x + unit_error * x / 1000).
  { apply Rle_trans with (unit_error * ((1 + unit_error) * x)); [apply Rmult_le_compat_l; lra|]. assert (unit_error * (unit_error * x) <= / 1000 * (unit_error * x)) by (apply Rmult_le_compat_r; lra). lra. }
  apply Rabs_le_inv in KD.
  destruct (Rle_dec 0 (x - kd)) as [L|L].
  - pose proof (sub_within x kd Hx DK L) as W. apply within_1_inv in W. change (d_sub x kd) with y in W.
    assert (UY : unit_error * (x - kd) <= unit_error * x) by (apply Rmult_le_compat_l; lra). apply Rabs_le. lra.
  - apply Rnot_le_lt in L. pose proof (sub_within kd x DK Hx ltac:(lra)) as W. apply within_1_inv in W.
    assert (E : d_sub kd x = - y) by (unfold d_sub, y; rewrite <- double_opp; f_equal; ring). rewrite E in W.
    assert (UY : unit_error * (kd - x) <= / 1000 * (unit_error * x)).
    { assert (kd - x <= / 1000 * x) by (assert (unit_error * x <= / 1000000 * x) by (apply Rmult_le_compat_r; lra); lra).
      replace (/ 1000 * (unit_error * x)) with (unit_error * (/ 1000 * x)) by ring. apply Rmult_le_compat_l; lra. }
    apply Rabs_le. lra.
Qed.
End Step.

Lemma times_close a b c : 0 <= c -> within 1 c b -> Rabs (a - b) <= 4 * unit_error * b -> Rabs (a - c) <= c / 2 ^ 50.
Proof.
  intros C W A. apply within_1_inv in W. pose proof unit_bounds as U. assert (E : c / 2 ^ 50 = 8 * unit_error * c) by (rewrite eight_units; field). rewrite E.
  apply Rabs_le_inv in A. assert (0 <= unit_error * c) by (apply Rmult_le_pos; lra).
  assert (unit_error * b <= 2 * (unit_error * c)).
  { replace (2 * (unit_error * c)) with (unit_error * (2 * c)) by ring. apply Rmult_le_compat_l; [lra|]. assert (unit_error * c <= 1 * c) by (apply Rmult_le_compat_r; lra). lra. }
  assert (unit_error * b <= unit_error * c + / 4 * (unit_error * c)).
  { apply Rle_trans with (unit_error * ((1 + unit_error) * c)); [apply Rmult_le_compat_l; lra|]. assert (unit_error * (unit_error * c) <= / 4 * (unit_error * c)) by (apply Rmult_le_compat_r; lra). lra. }
  apply Rabs_le. lra.
Qed.

Lemma chosen n dt ts t : sampling n dt ts t -> ts <= t -> let x := d_sub t ts in
  0 <= x /\ is_double x /\ within 1 (t - ts) x /\ d_step n dt ts t = Z.min (n - 1) (Z.max 0 (Zfloor (double (x / dt)))).
Proof.
  intros (Hn & _ & _ & Ds & Dt & _) L x. split; [apply double_pos; lra|]. split; [apply double_is|]. split; [apply sub_within; auto; lra|]. apply step_eq. lia.
Qed.

Lemma step_exact n dt ts t z : sampling n dt ts t -> (0 <= z)%Z -> IZR z * (1 + / 2 ^ 50) <= (t - ts) / dt <= (IZR z + 1) * (1 - / 2 ^ 50) -> d_step n dt ts t = Z.min z (n - 1).
Proof.
  intros S Z0 (A & B). rewrite <- eight_units in *. pose proof S as (Hn & Hd & Hd0 & Ds & Dt & _). pose proof unit_bounds as U.
  assert (P : 0 <= IZR z) by (now apply IZR_le). assert (T0 : 0 <= (t - ts) / dt) by (refine (Rle_trans _ _ _ _ A); apply Rmult_le_pos; lra).
  set (r := (t - ts) / dt) in *. assert (E : t - ts = r * dt) by (unfold r; field; lra).
  assert (L : ts <= t) by (assert (0 <= r * dt) by (apply Rmult_le_pos; lra); lra).
  destruct (chosen n dt ts t S L) as (X0 & DX & W & K). set (x := d_sub t ts) in *. apply within_1_inv in W. rewrite E in W.
  pose proof (k_low n dt x Hn Hd Hd0 DX X0) as KL. pose proof (k_high n dt x Hn Hd Hd0 DX X0) as KH. rewrite <- K in KL, KH. set (k := d_step n dt ts t) in *.
  assert (K1 : (k <= z)%Z).
  { assert (G : IZR k * dt < IZR (z + 1) * dt).
    { apply Rle_lt_trans with ((1 + unit_error) * x); [exact KL|]. apply Rle_lt_trans with ((1 + unit_error) * ((1 + unit_error) * (r * dt))); [apply Rmult_le_compat_l; lra|].
      replace ((1 + unit_error) * ((1 + unit_error) * (r * dt))) with ((1 + unit_error) * (1 + unit_error) * r * dt) by ring. apply Rmult_lt_compat_r; [exact Hd0|].
      rewrite plus_IZR. apply Rle_lt_trans with ((1 + unit_error) * (1 + unit_error) * ((IZR z + 1) * (1 - 8 * unit_error))); [apply Rmult_le_compat_l; [nra|lra]|].
      assert (Q : (1 + unit_error) * (1 + unit_error) * (1 - 8 * unit_error) < 1) by nra. nra. }
    apply Rmult_lt_reg_r in G; [|exact Hd0]. apply lt_IZR in G. lia. }
  assert (KN : (k < n)%Z) by (apply step_range; lia). destruct (Z_lt_ge_dec k (n - 1)) as [KS|KS]; [|lia].
  assert (K2 : (z <= k)%Z); [|lia]. destruct (Z.eq_dec z 0) as [->|ZN]; [apply step_range; lia|]. assert (P1 : 1 <= IZR z) by (apply (IZR_le 1); lia).
  specialize (KH (or_introl KS)). assert (G : IZR z * dt < IZR (k + 1) * dt).
  { rewrite plus_IZR. apply Rlt_le_trans with ((1 - unit_error) * x); [|lra]. apply Rlt_le_trans with ((1 - unit_error) * ((1 - unit_error) * (r * dt))); [|apply Rmult_le_compat_l; lra].
    replace ((1 - unit_error) * ((1 - unit_error) * (r * dt))) with ((1 - unit_error) * (1 - unit_error) * r * dt) by ring. apply Rmult_lt_compat_r; [exact Hd0|].
    apply Rlt_le_trans with ((1 - unit_error) * (1 - unit_error) * (IZR z * (1 + 8 * unit_error))); [|apply Rmult_le_compat_l; [nra|lra]].
    assert (Q : 1 < (1 - unit_error) * (1 - unit_error) * (1 + 8 * unit_error)) by nra. nra. }
  apply Rmult_lt_reg_r in G; [|exact Hd0]. apply lt_IZR in G. lia.
Qed.

Lemma step_near n dt ts t z : sampling n dt ts t -> (0 <= z)%Z -> IZR z <= (t - ts) / dt < IZR z + 1 -> (Z.abs (d_step n dt ts t - Z.min z (n - 1)) <= 1)%Z.
Proof.
  intros S Z0 (A & B). pose proof S as (Hn & Hd & Hd0 & Ds & Dt & T). pose proof unit_bounds as U.
  assert (P : 0 <= IZR z) by (now apply IZR_le). set (r := (t - ts) / dt) in *. assert (E : t - ts = r * dt) by (unfold r; field; lra).
  assert (L : ts <= t) by (assert (0 <= r * dt) by (apply Rmult_le_pos; lra); lra).
  assert (RM : unit_error * r <= / 2 ^ 23).
  { rewrite Rabs_right, E in T by lra. apply Rmult_le_reg_r in T; [|exact Hd0]. apply Rle_trans with (unit_error * 2 ^ 30); [apply Rmult_le_compat_l; lra|]. unfold unit_error. right. field. }
  assert (RP : 0 <= unit_error * r) by (apply Rmult_le_pos; lra).
  assert (RQ : unit_error * (unit_error * r) <= 1 * / 2 ^ 23) by (apply Rmult_le_compat; lra). assert (RQ0 : 0 <= unit_error * (unit_error * r)) by (apply Rmult_le_pos; lra).
  destruct (chosen n dt ts t S L) as (X0 & DX & W & K). set (x := d_sub t ts) in *. apply within_1_inv in W. rewrite E in W.
  pose proof (k_low n dt x Hn Hd Hd0 DX X0) as KL. pose proof (k_high n dt x Hn Hd Hd0 DX X0) as KH. rewrite <- K in KL, KH. set (k := d_step n dt ts t) in *.
  assert (K1 : (k <= z + 1)%Z).
  { assert (G : IZR k * dt < IZR (z + 2) * dt).
    { apply Rle_lt_trans with ((1 + unit_error) * x); [exact KL|]. apply Rle_lt_trans with ((1 + unit_error) * ((1 + unit_error) * (r * dt))); [apply Rmult_le_compat_l; lra|].
      replace ((1 + unit_error) * ((1 + unit_error) * (r * dt))) with ((r + 2 * (unit_error * r) + unit_error * (unit_error * r)) * dt) by ring. apply Rmult_lt_compat_r; [exact Hd0|].
      rewrite plus_IZR. lra. }
    apply Rmult_lt_reg_r in G; [|exact Hd0]. apply lt_IZR in G. lia. }
  assert (KN : (0 <= k < n)%Z) by (apply step_range; lia). destruct (Z_lt_ge_dec k (n - 1)) as [KS|KS]; [|lia].
  assert (K2 : (z <= k + 1)%Z); [|lia].
  specialize (KH (or_introl KS)). assert (G : IZR z * dt < IZR (k + 2) * dt).
  { rewrite plus_IZR. apply Rlt_le_trans with ((1 - unit_error) * x + dt); [|lra].
    assert (r * dt - 2 * (unit_error * r) * dt + unit_error * (unit_error * r) * dt <= (1 - unit_error) * x).
    { apply Rle_trans with ((1 - unit_error) * ((1 - unit_error) * (r * dt))); [right; ring|apply Rmult_le_compat_l; lra]. }
    assert ((IZR z - r + 2 * (unit_error * r) - unit_error * (unit_error * r)) * dt < 1 * dt) by (apply Rmult_lt_compat_r; lra). lra. }
  apply Rmult_lt_reg_r in G; [|exact Hd0]. apply lt_IZR in G. lia.
Qed.
