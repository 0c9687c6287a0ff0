(** The elapsed ratio of a replanned support with doubles: C188, how accurate it is. *)
From Coq Require Import Reals ZArith List Bool Lia Lra.
From Verif Require Import Base Footsteps_model Wpg_model Doubles_model Doubles_spec Doubles_proofs Doubles_props DoublesReplan_model DoublesReplan_spec DoublesReplan_proofs DoublesReplan_proofs2.
Import ListNotations.
Open Scope R_scope.

(** After replans at these times, the elapsed ratio is the time from the start of the support to the last of them over its duration, up to 8 roundings and one
    for each replan. *)
Theorem C188_accuracy p s t prior times : planned_at p s t -> prior <= t -> in_turn p s t times -> spaced_times t times ->
  let duration := exact_remaining p s (d_default_timesteps p s) in 0 < duration <= 2 ^ 100 ->
  within (8 + length times) ((last times t - t) / duration) (u_elapsed_ratio (d_replans p s prior times)).
Proof.
  intros (W & E0 & TS & D) L H SP duration HX.
  assert (SAME : d_replans p s prior times = d_replans p s t times).
  { destruct times as [|r rest]; [reflexivity|]. cbn [d_replans]. assert (d_replanned p s r prior = d_replanned p s r t) as ->; [|reflexivity].
    unfold d_replanned, d_elapsed_ratio. now rewrite TS, (Rmax_right prior t L), (Rmax_left t t (Rle_refl t)). }
  rewrite SAME. rewrite <- (Rplus_0_l ((last times t - t) / duration)).
  apply replans_accurate; auto; [exact (walk_timed p s W)|lra| |lra|].
  - destruct (default_within p s W) as (BD & WD & _). pose proof W as (_ & _ & _ & _ & _ & AR). pose proof (amount_big _ AR) as BR.
    unfold duration, exact_remaining. rewrite E0, Rminus_0_r, Rmult_1_l.
    pose proof (within_mul 2 0 _ _ _ _ (big_pos _ _ BD) (big_pos _ _ BR) WD (within_0 _)) as W1.
    exact (DoublesClip_proofs.within_double (2 + 0) (131 + 100) _ _ ltac:(lia) ltac:(lia) (big_mul _ _ _ _ BD BR) W1).
  - rewrite E0. unfold within. lra.
Qed.
Print Assumptions C188_accuracy.

(** A support of 1 s planned at 0, replanned at 1/4 and 1/2. *)
Example C188_accuracy_example : exists s times, planned_at (ex_timing 1 1) s 0 /\ in_turn (ex_timing 1 1) s 0 times /\ spaced_times 0 times /\ length times = 2%nat /\
  exact_remaining (ex_timing 1 1) s (d_default_timesteps (ex_timing 1 1) s) = 1 /\ u_elapsed_ratio (d_replans (ex_timing 1 1) s (-1) times) = / 2.
Proof.
  set (s := Support [] 0 0 1 (0, 0) false false [] false). exists s, [/ 4; / 2].
  assert (D4 : is_double (/ 4)) by (exists 1%Z, (-2)%Z; split; [|split; lia]; change (-2)%Z with (- Z.of_nat 2)%Z; rewrite <- bpow_power, bpow_inv; lra).
  assert (D2 : is_double (/ 2)) by (exists 1%Z, (-1)%Z; split; [|split; lia]; change (-1)%Z with (- Z.of_nat 1)%Z; rewrite <- bpow_power, bpow_inv; lra).
  assert (D34 : is_double (3 / 4)) by (exists 3%Z, (-2)%Z; split; [|split; lia]; change (-2)%Z with (- Z.of_nat 2)%Z; rewrite <- bpow_power, bpow_inv; lra).
  assert (Q : forall x y, is_double y -> x = y -> double x = y) by (intros x y Dy ->; now apply double_id).
  pose proof is_double_1 as D1. pose proof is_double_0 as D0.
  assert (DD : d_default_duration (ex_timing 1 1) s = 1) by reflexivity.
  assert (R0 : d_remaining_duration (ex_timing 1 1) s = 1).
  { unfold d_remaining_duration. rewrite DD. cbn [s u_elapsed_ratio u_time_ratio]. unfold d_sub, d_mul. rewrite (Q (1 - 0) 1 D1) by lra. rewrite (Q (1 * 1) 1 D1) by lra. apply Q; [exact D1|lra]. }
  assert (E1 : forall prior, prior <= 0 -> u_elapsed_ratio (d_replanned (ex_timing 1 1) s (/ 4) prior) = / 4).
  { intros prior HP. unfold d_replanned, d_elapsed_ratio. cbn [u_elapsed_ratio]. rewrite DD. cbn [s u_elapsed_ratio u_time_ratio u_t_start]. rewrite Rmax_right by exact HP. unfold d_sub, d_mul, d_div, d_add.
    rewrite (Q (/ 4 - 0) (/ 4) D4) by lra. rewrite (Q (1 * 1) 1 D1) by lra. rewrite (Q (/ 4 / 1) (/ 4) D4) by lra. apply Q; [exact D4|lra]. }
  assert (R1 : d_remaining_duration (ex_timing 1 1) (d_replanned (ex_timing 1 1) s (/ 4) 0) = 3 / 4).
  { unfold d_remaining_duration. rewrite (E1 0) by lra. change (d_default_duration (ex_timing 1 1) (d_replanned (ex_timing 1 1) s (/ 4) 0)) with 1. change (u_time_ratio (d_replanned (ex_timing 1 1) s (/ 4) 0)) with 1.
    unfold d_sub, d_mul. rewrite (Q (1 - / 4) (3 / 4) D34) by lra. rewrite (Q (3 / 4 * 1) (3 / 4) D34) by lra. apply Q; [exact D34|lra]. }
  assert (P100 : forall x, / 2 <= x -> / 2 ^ 100 <= x / 2).
  { intros x X. apply Rle_trans with (/ 2 ^ 2); [apply Rinv_le_contravar; [lra|apply Rle_pow; [lra|lia]]|lra]. }
  split; [|split; [|split; [|split; [|split]]]].
  - split; [|split; [reflexivity|split; [reflexivity|exact D0]]]. pose proof amount_1 as A. unfold walk_timings. split; [exact A|]. split; [cbn; lia|]. split; [cbn; lia|]. split; [exact D0|]. split; [cbn; lra|exact A].
  - cbn [in_turn]. unfold d_part_end. rewrite R0, R1. unfold d_add. split; [exact D4|]. split; [rewrite (Q (0 + 1) 1 D1) by lra; lra|]. split; [exact D2|]. split; [rewrite (Q (/ 4 + 3 / 4) 1 D1) by lra; lra|exact Logic.I].
  - cbn [spaced_times]. pose proof (P100 (/ 2) ltac:(lra)). split; [right; lra|]. split; [right; lra|exact Logic.I].
  - reflexivity.
  - unfold exact_remaining. cbn. lra.
  - cbn [d_replans]. unfold d_replanned at 1. cbn [u_elapsed_ratio]. unfold d_elapsed_ratio at 1. rewrite E1 by lra.
    change (d_default_duration (ex_timing 1 1) (d_replanned (ex_timing 1 1) s (/ 4) (-1))) with 1. change (u_time_ratio (d_replanned (ex_timing 1 1) s (/ 4) (-1))) with 1. change (u_t_start (d_replanned (ex_timing 1 1) s (/ 4) (-1))) with 0.
    rewrite Rmax_left by lra. unfold d_sub, d_mul, d_div, d_add. rewrite (Q (/ 2 - / 4) (/ 4) D4) by lra. rewrite (Q (1 * 1) 1 D1) by lra. rewrite (Q (/ 4 / 1) (/ 4) D4) by lra. apply Q; [exact D2|lra].
Qed.
