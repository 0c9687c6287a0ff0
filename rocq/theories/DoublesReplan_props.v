(** Theorems about replanning with doubles: C188. *)
From Coq Require Import Reals ZArith List Bool Lia Lra.
From Flocq Require Import Core.
From Verif Require Import Base Footsteps_model Wpg_model Doubles_model Doubles_spec Doubles_proofs Doubles_props DoublesReplan_model DoublesReplan_spec DoublesReplan_proofs.
Import ListNotations.
Open Scope R_scope.

(** However often a support is replanned, the part of it that is elapsed is nonnegative, and over 1 by at most 2^-50; what remains of its duration is over
    -2^-49 of the whole. After one replan the elapsed part is at most 1, and what remains is nonnegative. The rest of the support is kept. *)
Theorem C188_partial p s t last times : planned_at p s t -> last <= t -> in_turn p s t times ->
  let s' := d_replans p s last times in
  0 <= u_elapsed_ratio s' <= 1 + / 2 ^ 50 /\ - (d_default_duration p s * u_time_ratio s / 2 ^ 49) <= d_remaining_duration p s' /\
  ((length times <= 1)%nat -> u_elapsed_ratio s' <= 1 /\ 0 <= d_remaining_duration p s') /\
  u_footsteps s' = u_footsteps s /\ u_t_start s' = t /\ u_time_ratio s' = u_time_ratio s /\ u_start s' = u_start s /\ u_end s' = u_end s.
Proof.
  intros (W & E0 & TS & D) L H.
  assert (SAME : d_replans p s last times = d_replans p s t times).
  { destruct times as [|r rest]; [reflexivity|]. cbn [d_replans]. assert (d_replanned p s r last = d_replanned p s r t) as ->; [|reflexivity].
    unfold d_replanned, d_elapsed_ratio. now rewrite TS, (Rmax_right last t L), (Rmax_left t t (Rle_refl t)). }
  cbv zeta. rewrite SAME. pose proof (walk_timed p s W) as Ts.
  assert (P50 : 0 < / 2 ^ 50) by (apply Rinv_0_lt_compat, pow_lt; lra).
  destruct (replans_bound p times s t Ts D ltac:(lra) ltac:(lra) H) as (T' & A & B). rewrite E0 in A.
  assert (K : forall l x y, let z := d_replans p x y l in d_default_duration p z = d_default_duration p x /\ u_footsteps z = u_footsteps x /\ u_t_start z = u_t_start x /\
     u_time_ratio z = u_time_ratio x /\ u_start z = u_start x /\ u_end z = u_end x).
  { induction l as [|r l IH]; intros x y; [cbn; auto 10|]. cbn [d_replans]. cbv zeta. destruct (IH (d_replanned p x r y) r) as (k1 & k2 & k3 & k4 & k5 & k6). cbv zeta in *.
    rewrite k1, k2, k3, k4, k5, k6. auto 10. }
  destruct (K times s t) as (K1 & K2 & K3 & K4 & K5 & K6). split; [split; [exact A|exact B]|]. split; [rewrite <- K1, <- K4; now apply remaining_above|].
  split; [|rewrite K2, K3, K4, K5, K6; auto 10].
  intros N. assert (E1 : u_elapsed_ratio (d_replans p s t times) <= 1).
  { destruct times as [|r [|? ?]]; [cbn; lra| |cbn in N; lia]. cbn [in_turn d_replans] in *. destruct H as (Dr & H & _).
    destruct (step_bound p s t r Ts D Dr ltac:(lra) H) as (_ & _ & _ & F). exact (F E0). }
  split; [exact E1|]. destruct T' as (_ & B1 & _ & B2 & _ & _). unfold d_remaining_duration, d_mul, d_sub.
  apply double_pos, Rmult_le_pos; [|apply (big_pos _ _ B2)]. apply double_pos, Rmult_le_pos; [|apply (big_pos _ _ B1)]. apply double_pos. lra.
Qed.
Print Assumptions C188_partial.

(** ** The steps of 0.3 s planned at 0 and replanned at 0.03 and 0.3 *)

Definition d03 : R := 5404319552844595 / 2 ^ 54.
Definition d003 : R := 1080863910568919 / 2 ^ 55.
Definition ex_short : params := Params d03 10 0 0 1 1 1 1 1 1 1 1.
Definition ex_planned : support := Support [] 0 0 1 (0, 0) false false [] false.

(** These are the doubles nearest to 0.3 and 0.03. *)
Lemma d03_nearest : double (3 / 10) = d03.
Proof.
  rewrite (double_near _ (-1) 5404319552844595).
  - change (bpow radix2 (-1 - 53)) with (/ IZR (2 ^ 54)). unfold d03. change (2 ^ 54)%Z with 18014398509481984%Z. lra.
  - change (bpow radix2 (-1 - 1)) with (/ IZR 4). change (bpow radix2 (-1)) with (/ IZR 2). lra.
  - lia.
  - change (bpow radix2 (53 - -1)) with (IZR 18014398509481984). apply Rabs_def1; lra.
Qed.
Lemma d003_nearest : double (3 / 100) = d003.
Proof.
  rewrite (double_near _ (-5) 8646911284551352).
  - change (bpow radix2 (-5 - 53)) with (/ IZR (2 ^ 58)). unfold d003. change (2 ^ 58)%Z with 288230376151711744%Z. lra.
  - change (bpow radix2 (-5 - 1)) with (/ IZR 64). change (bpow radix2 (-5)) with (/ IZR 32). lra.
  - lia.
  - change (bpow radix2 (53 - -5)) with (IZR 288230376151711744). apply Rabs_def1; lra.
Qed.
Lemma d03_double : is_double d03.
Proof. rewrite <- d03_nearest. apply double_is. Qed.
Lemma d003_double : is_double d003.
Proof. rewrite <- d003_nearest. apply double_is. Qed.

Definition q1 : R := 3602879701896397 / 2 ^ 55.
Lemma q1_value : double (d003 / d03) = q1.
Proof.
  assert (E : d003 / d03 = 1080863910568919 / 10808639105689190) by (unfold d003, d03; field). rewrite E. rewrite (double_near _ (-3) 7205759403792794).
  - change (bpow radix2 (-3 - 53)) with (/ IZR 72057594037927936). unfold q1. lra.
  - change (bpow radix2 (-3 - 1)) with (/ IZR 16). change (bpow radix2 (-3)) with (/ IZR 8). lra.
  - lia.
  - change (bpow radix2 (53 - -3)) with (IZR 72057594037927936). apply Rabs_def1; lra.
Qed.
Lemma q1_double : is_double q1.
Proof. rewrite <- q1_value. apply double_is. Qed.
Definition l1 : R := 8106479329266893 / 2 ^ 53.
Lemma l1_value : double (1 - q1) = l1.
Proof.
  rewrite (double_near _ 0 8106479329266893).
  - change (bpow radix2 (0 - 53)) with (/ IZR 9007199254740992). unfold l1. lra.
  - change (bpow radix2 (0 - 1)) with (/ IZR 2). change (bpow radix2 0) with 1. unfold q1. lra.
  - lia.
  - change (bpow radix2 (53 - 0)) with (IZR 9007199254740992). unfold q1. apply Rabs_def1; lra.
Qed.
Definition a1 : R := 607985949695017 / 2 ^ 51.
Lemma a1_value : double (l1 * d03) = a1.
Proof.
  rewrite (double_near _ (-1) 4863887597560136).
  - change (bpow radix2 (-1 - 53)) with (/ IZR 18014398509481984). unfold a1. lra.
  - change (bpow radix2 (-1 - 1)) with (/ IZR 4). change (bpow radix2 (-1)) with (/ IZR 2). unfold l1, d03. lra.
  - lia.
  - change (bpow radix2 (53 - -1)) with (IZR 18014398509481984). unfold l1, d03. apply Rabs_def1; lra.
Qed.
Lemma a1_double : is_double a1.
Proof. rewrite <- a1_value. apply double_is. Qed.
Lemma end1_value : double (d003 + a1) = 1351079888211149 / 2 ^ 52.
Proof.
  rewrite (double_tie _ (-1) 5404319552844596).
  - change (bpow radix2 (-1 - 53)) with (/ IZR 18014398509481984). lra.
  - change (bpow radix2 (-1 - 1)) with (/ IZR 4). change (bpow radix2 (-1)) with (/ IZR 2). unfold a1, d003. lra.
  - lia.
  - change (bpow radix2 (53 - -1)) with (IZR 18014398509481984). unfold a1, d003. lra.
  - reflexivity.
Qed.
Lemma b2_value : double (d03 - d003) = a1.
Proof.
  rewrite (double_tie _ (-1) 4863887597560136).
  - change (bpow radix2 (-1 - 53)) with (/ IZR 18014398509481984). unfold a1. lra.
  - change (bpow radix2 (-1 - 1)) with (/ IZR 4). change (bpow radix2 (-1)) with (/ IZR 2). unfold d03, d003. lra.
  - lia.
  - change (bpow radix2 (53 - -1)) with (IZR 18014398509481984). unfold d03, d003. lra.
  - reflexivity.
Qed.
Definition q2 : R := 4053239664633447 / 2 ^ 52.
Lemma q2_value : double (a1 / d03) = q2.
Proof.
  assert (E : a1 / d03 = 4863887597560136 / 5404319552844595) by (unfold a1, d03; field). rewrite E. rewrite (double_near _ 0 8106479329266894).
  - change (bpow radix2 (0 - 53)) with (/ IZR 9007199254740992). unfold q2. lra.
  - change (bpow radix2 (0 - 1)) with (/ IZR 2). change (bpow radix2 0) with 1. lra.
  - lia.
  - change (bpow radix2 (53 - 0)) with (IZR 9007199254740992). apply Rabs_def1; lra.
Qed.
Definition e2 : R := 1 + / 2 ^ 52.
Lemma e2_value : double (q1 + q2) = e2.
Proof.
  rewrite (double_near _ 1 4503599627370497).
  - change (bpow radix2 (1 - 53)) with (/ IZR 4503599627370496). unfold e2. lra.
  - change (bpow radix2 (1 - 1)) with 1. change (bpow radix2 1) with 2. unfold q1, q2. lra.
  - lia.
  - change (bpow radix2 (53 - 1)) with (IZR 4503599627370496). unfold q1, q2. apply Rabs_def1; lra.
Qed.
Lemma l2_value : double (1 - e2) = - / 2 ^ 52.
Proof.
  replace (1 - e2) with (- / 2 ^ 52) by (unfold e2; ring). apply double_id, is_double_opp. exists 1%Z, (-52)%Z. split; [|split; lia].
  change (-52)%Z with (- Z.of_nat 52)%Z. rewrite <- bpow_power, bpow_inv. ring.
Qed.
Lemma rem2_double : is_double (- / 2 ^ 52 * d03).
Proof.
  exists (-5404319552844595)%Z, (-106)%Z. split; [|split; lia]. change (-106)%Z with (- Z.of_nat 106)%Z. rewrite <- bpow_power, bpow_inv. unfold d03. field.
Qed.
Lemma end2_value : double (d03 + - / 2 ^ 52 * d03) = 2702159776422297 / 2 ^ 53.
Proof.
  rewrite (double_near _ (-1) 5404319552844594).
  - change (bpow radix2 (-1 - 53)) with (/ IZR 18014398509481984). lra.
  - change (bpow radix2 (-1 - 1)) with (/ IZR 4). change (bpow radix2 (-1)) with (/ IZR 2). unfold d03. lra.
  - lia.
  - change (bpow radix2 (53 - -1)) with (IZR 18014398509481984). unfold d03. apply Rabs_def1; lra.
Qed.

Lemma short_remaining e : d_remaining_duration ex_short (Support [] 0 e 1 (0, 0) false false [] false) = double (double (1 - e) * d03).
Proof.
  unfold d_remaining_duration, d_mul, d_sub. cbn [u_elapsed_ratio u_time_ratio]. change (d_default_duration ex_short _) with d03. rewrite Rmult_1_r. apply double_id, double_is.
Qed.
Lemma short_elapsed e r last : 0 <= last -> d_elapsed_ratio ex_short (Support [] 0 e 1 (0, 0) false false [] false) r last = double (e + double (double (r - last) / d03)).
Proof.
  intros H. unfold d_elapsed_ratio, d_add, d_div, d_mul, d_sub. cbn [u_elapsed_ratio u_time_ratio u_t_start]. change (d_default_duration ex_short _) with d03.
  now rewrite Rmult_1_r, (double_id d03 d03_double), Rmax_left by exact H.
Qed.

Lemma ex_planned_at : planned_at ex_short ex_planned 0.
Proof.
  pose proof amount_1 as A. split; [|split; [reflexivity|split; [reflexivity|apply is_double_0]]].
  split; [split; [apply d03_double|right]|].
  - cbn [ex_short p_single_support_duration]. unfold d03. apply Rle_trans with (/ 4); [|lra]. apply Rinv_le_contravar; [lra|]. replace 4 with (2 ^ 2) by ring. apply Rle_pow; [lra|lia].
  - change (d_default_timesteps ex_short ex_planned) with 10%Z. cbn [ex_short ex_planned p_single_support_timesteps u_elapsed_ratio u_time_ratio].
    split; [lia|]. split; [lia|]. split; [apply is_double_0|]. split; [lra|exact A].
Qed.
Lemma ex_first : d_replanned ex_short ex_planned d003 0 = Support [] 0 q1 1 (0, 0) false false [] false.
Proof.
  unfold d_replanned, ex_planned at 1 2 4 5 6 7 8. cbn [u_footsteps u_t_start u_time_ratio u_target_world_dcm u_start u_end u_polygon u_computed]. unfold ex_planned. f_equal.
  rewrite short_elapsed by lra. replace (d003 - 0) with d003 by ring. rewrite (double_id d003 d003_double), q1_value, Rplus_0_l. apply double_id, q1_double.
Qed.
Lemma ex_second : d_replanned ex_short (Support [] 0 q1 1 (0, 0) false false [] false) d03 d003 = Support [] 0 e2 1 (0, 0) false false [] false.
Proof.
  unfold d_replanned. cbn [u_footsteps u_t_start u_time_ratio u_target_world_dcm u_start u_end u_polygon u_computed]. f_equal.
  rewrite short_elapsed by (unfold d003; lra). now rewrite b2_value, q2_value, e2_value.
Qed.
Lemma ex_in_turn : in_turn ex_short ex_planned 0 [d003; d03].
Proof.
  cbn [in_turn]. rewrite ex_first. unfold d_part_end, d_add. unfold ex_planned at 1. rewrite !short_remaining, l1_value, a1_value, end1_value.
  replace (1 - 0) with 1 by ring. rewrite (double_id 1 is_double_1), Rmult_1_l, (double_id d03 d03_double), Rplus_0_l, (double_id d03 d03_double).
  split; [apply d003_double|]. split; [unfold d003, d03; lra|]. split; [apply d03_double|]. split; [unfold d003, d03; lra|exact Logic.I].
Qed.

(** After a second replan, more than the whole support may be elapsed: the part planned from there ends before it starts. *)
Theorem C188_refuted : ~ (forall p s t times r, planned_at p s t -> in_turn p s t (times ++ [r]) ->
  u_elapsed_ratio (d_replans p s t (times ++ [r])) <= 1 /\ r <= d_part_end p (d_replans p s t (times ++ [r])) r).
Proof.
  intros H. destruct (H ex_short ex_planned 0 [d003] d03 ex_planned_at ex_in_turn) as (A & _). cbn [app d_replans] in A. rewrite ex_first, ex_second in A. cbn [u_elapsed_ratio] in A.
  unfold e2 in A. assert (0 < / 2 ^ 52) by (apply Rinv_0_lt_compat; lra). lra.
Qed.
Print Assumptions C188_refuted.

(** A step of 0.3 s, planned at 0, replanned at 0.03 then at 0.3: 1 + 2^-52 of it is elapsed, what remains of it is negative, and the part ends before its start. *)
Theorem C188_behaviour : planned_at ex_short ex_planned 0 /\ in_turn ex_short ex_planned 0 [double (3 / 100); double (3 / 10)] /\
  let s := d_replans ex_short ex_planned 0 [double (3 / 100); double (3 / 10)] in
  u_elapsed_ratio s = 1 + / 2 ^ 52 /\ d_remaining_duration ex_short s < 0 /\
  exists part rest t_end, d_parts ex_short [s] (double (3 / 10)) = (part :: rest, t_end) /\ pt_start part = double (3 / 10) /\ pt_end part < pt_start part.
Proof.
  rewrite d03_nearest, d003_nearest. split; [exact ex_planned_at|]. split; [exact ex_in_turn|]. cbv zeta. cbn [d_replans]. rewrite ex_first, ex_second. split; [reflexivity|].
  cbn [d_parts]. rewrite short_remaining, l2_value, (double_id _ rem2_double).
  split; [unfold d03; assert (0 < / 2 ^ 52) by (apply Rinv_0_lt_compat; lra); lra|].
  do 3 eexists. split; [reflexivity|]. cbn [pt_start pt_end]. split; [reflexivity|]. unfold d_add. rewrite end2_value. unfold d03. lra.
Qed.
Print Assumptions C188_behaviour.

(** [C188_partial] applies to this walk. *)
Example C188_example : let s := d_replans ex_short ex_planned (-1) [d003; d03] in 0 <= u_elapsed_ratio s <= 1 + / 2 ^ 50 /\ u_t_start s = 0.
Proof. cbv zeta. destruct (C188_partial ex_short ex_planned 0 (-1) [d003; d03] ex_planned_at ltac:(lra) ex_in_turn) as (A & _ & _ & _ & B & _). auto. Qed.
