(** Theorems about the sampling of an integrator with doubles: C189. *)
From Coq Require Import Reals ZArith List Bool Lia Lra.
From Flocq Require Import Core.
From Verif Require Import Base Doubles_model Doubles_spec Doubles_proofs DoublesReplan_proofs DoublesSample_model DoublesSample_spec DoublesSample_proofs.
Import ListNotations.
Open Scope R_scope.

(** The step is one of the integrator and the rest at most a timestep, whatever the time. Before the start the first state is given; from the start to the end
    the state given is that of a time at most 2^-50 of the elapsed time away from the one asked, and so is the expression. *)
Theorem C189_state n dt ts t : sampling n dt ts t ->
  (0 <= d_step n dt ts t < n)%Z /\ 0 <= d_offset n dt ts t <= dt /\ d_expr_step n dt ts t = d_step n dt ts t /\
  (t <= ts -> d_step n dt ts t = 0%Z /\ d_offset n dt ts t = 0) /\
  (ts <= t <= ts + IZR n * dt ->
    Rabs (IZR (d_step n dt ts t) * dt + d_offset n dt ts t - (t - ts)) <= (t - ts) / 2 ^ 50 /\
    Rabs (IZR (d_expr_step n dt ts t) * dt + d_expr_offset n dt ts t - (t - ts)) <= (t - ts) / 2 ^ 50).
Proof.
  intros S. pose proof S as (Hn & Hd & Hd0 & Ds & Dt & _). pose proof unit_bounds as U. split; [apply step_range; lia|].
  split; [unfold d_offset; split; [apply Rmax_l|apply Rmax_lub; [lra|apply Rmin_l]]|]. pose proof (expr_step_eq n dt ts t ltac:(lia)) as ES. split; [exact ES|]. split.
  - intros L. assert (X : d_sub t ts <= 0) by (apply double_below; [apply is_double_0|lra]).
    assert (Q : d_div (d_sub t ts) dt <= 0).
    { apply double_below; [apply is_double_0|]. apply Rle_trans with (0 * / dt); [apply Rmult_le_compat_r; [apply Rlt_le, Rinv_0_lt_compat, Hd0|exact X]|lra]. }
    assert (K : d_step n dt ts t = 0%Z).
    { rewrite step_eq by lia. assert (Zfloor (d_div (d_sub t ts) dt) <= 0)%Z; [|lia]. pose proof (Zfloor_lb (d_div (d_sub t ts) dt)). apply le_IZR. lra. }
    split; [exact K|]. unfold d_offset. rewrite K. rewrite Rmax_left; [reflexivity|]. refine (Rle_trans _ _ _ (Rmin_r _ _) _). apply double_below; [apply is_double_0|].
    assert (0 <= d_mul 0 dt) by (apply double_pos; lra). lra.
  - intros (L & B). destruct (chosen n dt ts t S L) as (X0 & DX & W & K). pose proof (within_1_inv _ _ W) as W'. set (x := d_sub t ts) in *.
    assert (XN : x <= (1 + unit_error) * (IZR n * dt)).
    { apply Rle_trans with ((1 + unit_error) * (t - ts)); [apply W'|apply Rmult_le_compat_l; lra]. }
    split; apply (times_close _ x); try exact W; try lra.
    + unfold d_offset. fold x. rewrite K. exact (offset_close n dt x Hn Hd Hd0 DX X0 XN).
    + unfold d_expr_offset. fold x. rewrite ES, K. exact (free_offset_close n dt x Hn Hd Hd0 DX X0 XN).
Qed.
Print Assumptions C189_state.

(** The highest derivative is the input of the timestep the time is in, or of one of those around; it is that of the timestep itself if the time is at least
    2^-50 of the elapsed time away from its ends. *)
Theorem C189_highest_partial inputs dt ts t z : sampling (Z.of_nat (length inputs)) dt ts t -> (0 <= z)%Z -> IZR z <= (t - ts) / dt < IZR z + 1 ->
  let m := Z.min z (Z.of_nat (length inputs) - 1) in
  (exists k u, (Z.abs (k - m) <= 1)%Z /\ d_highest inputs dt ts t = Some u /\ nth_error inputs (Z.to_nat k) = Some u) /\
  (IZR z * (1 + / 2 ^ 50) <= (t - ts) / dt <= (IZR z + 1) * (1 - / 2 ^ 50) -> d_highest inputs dt ts t = nth_error inputs (Z.to_nat m)).
Proof.
  intros S Z0 Hz m. pose proof S as (Hn & _). split.
  - pose proof (step_range (Z.of_nat (length inputs)) dt ts t ltac:(lia)) as (K0 & K1).
    destruct (nth_error inputs (Z.to_nat (d_step (Z.of_nat (length inputs)) dt ts t))) as [u|] eqn:E; [|apply nth_error_None in E; lia].
    exists (d_step (Z.of_nat (length inputs)) dt ts t), u. split; [now apply step_near|]. split; [exact E|exact E].
  - intros H. unfold d_highest. now rewrite (step_exact _ _ _ _ z S Z0 H).
Qed.
Print Assumptions C189_highest_partial.

(** ** The timesteps of 5 ms *)

Definition d5ms : R := 5764607523034235 / 2 ^ 60.
Lemma d5ms_nearest : double (5 / 1000) = d5ms.
Proof.
  rewrite (double_near _ (-7) 5764607523034235).
  - change (bpow radix2 (-7 - 53)) with (/ IZR 1152921504606846976). unfold d5ms. lra.
  - change (bpow radix2 (-7 - 1)) with (/ IZR 256). change (bpow radix2 (-7)) with (/ IZR 128). lra.
  - lia.
  - change (bpow radix2 (53 - -7)) with (IZR 1152921504606846976). apply Rabs_def1; lra.
Qed.
Definition d145ms : R := 5224175567749775 / 2 ^ 55.
Lemma d145ms_value : d_mul 29 d5ms = d145ms.
Proof.
  unfold d_mul. rewrite (double_near _ (-2) 5224175567749775).
  - change (bpow radix2 (-2 - 53)) with (/ IZR 36028797018963968). unfold d145ms. lra.
  - change (bpow radix2 (-2 - 1)) with (/ IZR 8). change (bpow radix2 (-2)) with (/ IZR 4). unfold d5ms. lra.
  - lia.
  - change (bpow radix2 (53 - -2)) with (IZR 36028797018963968). unfold d5ms. apply Rabs_def1; lra.
Qed.
Lemma steps_value : d_div d145ms d5ms = 8162774324609023 / 2 ^ 48.
Proof.
  unfold d_div. assert (E : d145ms / d5ms = 167173618167992800 / 5764607523034235) by (unfold d145ms, d5ms; field). rewrite E. rewrite (double_near _ 5 8162774324609023).
  - change (bpow radix2 (5 - 53)) with (/ IZR 281474976710656). lra.
  - change (bpow radix2 (5 - 1)) with 16. change (bpow radix2 5) with 32. lra.
  - lia.
  - change (bpow radix2 (53 - 5)) with (IZR 281474976710656). apply Rabs_def1; lra.
Qed.
Lemma d145ms_double : is_double d145ms.
Proof. rewrite <- d145ms_value. apply double_is. Qed.
Lemma d5ms_double : is_double d5ms.
Proof. rewrite <- d5ms_nearest. apply double_is. Qed.
Lemma ex_sampling : sampling 30 d5ms 0 d145ms.
Proof.
  split; [lia|]. split; [split; [apply d5ms_double|right]|].
  - apply Rle_trans with (/ 2 ^ 10); [apply Rinv_le_contravar; [lra|apply Rle_pow; [lra|lia]]|unfold d5ms; lra].
  - split; [unfold d5ms; lra|]. split; [apply is_double_0|]. split; [apply d145ms_double|]. rewrite Rabs_right; unfold d145ms, d5ms; lra.
Qed.

(** With timesteps of 5 ms, the highest derivative at 29 * dt is the input 28: the time of a timestep does not select its input. *)
Theorem C189_highest_behaviour inputs : length inputs = 30%nat -> let dt := double (5 / 1000) in
  d_highest inputs dt 0 (d_mul 29 dt) = nth_error inputs 28.
Proof.
  intros L dt. unfold dt. rewrite d5ms_nearest, d145ms_value. unfold d_highest. rewrite L, step_eq by lia. unfold d_sub. replace (d145ms - 0) with d145ms by ring.
  rewrite (double_id _ d145ms_double), steps_value. assert (Zfloor (8162774324609023 / 2 ^ 48) = 28%Z) as -> by (apply Zfloor_imp; rewrite plus_IZR; lra).
  reflexivity.
Qed.
Print Assumptions C189_highest_behaviour.

Theorem C189_highest_refuted : ~ (forall inputs dt k, amount dt -> 0 < dt -> (k < length inputs)%nat ->
  d_highest inputs dt 0 (d_mul (INR k) dt) = nth_error inputs k).
Proof.
  intros H. destruct ex_sampling as (_ & A & P & _).
  specialize (H (map INR (seq 0 30)) d5ms 29%nat A P ltac:(rewrite map_length, seq_length; lia)).
  pose proof (C189_highest_behaviour (map INR (seq 0 30)) ltac:(now rewrite map_length, seq_length)) as B. cbv zeta in B. rewrite d5ms_nearest in B.
  replace (INR 29) with 29 in H by (rewrite INR_IZR_INZ; reflexivity). rewrite B in H.
  rewrite (map_nth_error INR 28 (seq 0 30) (d := 28%nat) eq_refl), (map_nth_error INR 29 (seq 0 30) (d := 29%nat) eq_refl) in H. injection H as H. apply (INR_eq 28 29) in H. discriminate.
Qed.
Print Assumptions C189_highest_refuted.

(** [C189_state] and [C189_highest_partial] apply to this sampling. *)
Example C189_example : Rabs (IZR (d_step 30 d5ms 0 d145ms) * d5ms + d_offset 30 d5ms 0 d145ms - d145ms) <= d145ms / 2 ^ 50.
Proof.
  destruct (C189_state 30 d5ms 0 d145ms ex_sampling) as (_ & _ & _ & _ & H). replace (d145ms - 0) with d145ms in H by ring. apply H. unfold d145ms, d5ms. lra.
Qed.
