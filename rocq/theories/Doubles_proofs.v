(** Doubles. *)
From Coq Require Import Reals ZArith List Bool Lia Lra Psatz.
From Flocq Require Import Core Relative Plus_error.
From Verif Require Import Base Footsteps_model Wpg_model Wpg_spec Doubles_model Doubles_spec.
From Verif Require Footsteps_proofs.
Import ListNotations.
Open Scope R_scope.

Notation fexp64 := (FLT_exp (-1074) 53).
#[local] Instance prec53 : Prec_gt_0 53 := eq_refl.

Lemma bpow_power e : bpow radix2 e = powerRZ 2 e.
Proof. apply bpow_powerRZ. Qed.

Lemma bpow_inv n : bpow radix2 (- Z.of_nat n) = / 2 ^ n.
Proof. rewrite bpow_opp. f_equal. rewrite bpow_power. now rewrite <- pow_powerRZ. Qed.

Lemma is_double_format x : is_double x <-> generic_format radix2 fexp64 x.
Proof.
  split.
  - intros (m & e & -> & Hm & He). apply generic_format_FLT. exists (Float radix2 m e); cbn [Fnum Fexp]; auto. unfold F2R. cbn [Fnum Fexp]. now rewrite bpow_power.
  - intros H. apply FLT_format_generic in H; [|exact prec53]. destruct H as [f Hf Hm He]. exists (Fnum f), (Fexp f). split; [|split; assumption].
    rewrite Hf. unfold F2R. now rewrite bpow_power.
Qed.
Lemma double_is x : is_double (double x).
Proof. apply is_double_format. apply generic_format_round; auto with typeclass_instances. Qed.
Lemma double_id x : is_double x -> double x = x.
Proof. intros H. apply round_generic; auto with typeclass_instances. now apply is_double_format. Qed.
Lemma double_le x y : x <= y -> double x <= double y.
Proof. apply round_le; auto with typeclass_instances. Qed.
Lemma double_0 : double 0 = 0.
Proof. apply round_0; auto with typeclass_instances. Qed.
Lemma is_double_0 : is_double 0.
Proof. rewrite <- double_0. apply double_is. Qed.
Lemma is_double_1 : is_double 1.
Proof. exists 1%Z, 0%Z. cbn. split; [lra|]. split; lia. Qed.
Lemma is_double_opp x : is_double x -> is_double (- x).
Proof. intros (m & e & -> & Hm & He). exists (- m)%Z, e. rewrite opp_IZR. split; [ring|]. split; [now rewrite Z.abs_opp|exact He]. Qed.
Lemma is_double_int z : (Z.abs z < 2 ^ 53)%Z -> is_double (IZR z).
Proof. intros H. exists z, 0%Z. cbn [powerRZ]. split; [ring|]. split; [exact H|lia]. Qed.
Lemma double_pos x : 0 <= x -> 0 <= double x.
Proof. intros H. rewrite <- double_0. now apply double_le. Qed.

(** ** Relative errors *)

Definition unit_error : R := / 2 ^ 53.
Lemma unit_bounds : 0 < unit_error < / 1000000.
Proof. unfold unit_error. split; [apply Rinv_0_lt_compat; lra|]. apply Rinv_lt_contravar; lra. Qed.
Lemma unit_bpow : / 2 * bpow radix2 (-53 + 1) = unit_error.
Proof. unfold unit_error. change (-53 + 1)%Z with (- Z.of_nat 52)%Z. rewrite bpow_inv. field. Qed.

Lemma within_1 x y : 0 <= x -> Rabs (y - x) <= unit_error * Rabs x -> within 1 x y.
Proof. intros Hx H. unfold within. fold unit_error. rewrite !pow_1. rewrite (Rabs_right x) in H by lra. apply Rabs_le_inv in H. lra. Qed.
Lemma within_0 x : within 0 x x.
Proof. unfold within. cbn [pow]. lra. Qed.

Lemma double_within x n : (n <= 1022)%nat -> x = 0 \/ / 2 ^ n <= x -> within 1 x (double x).
Proof.
  intros Hn [->|H]; [rewrite double_0; unfold within; lra|].
  assert (P : 0 < / 2 ^ n) by (apply Rinv_0_lt_compat, pow_lt; lra).
  apply within_1; [lra|]. rewrite <- unit_bpow. apply relative_error_N_FLT; [reflexivity|]. rewrite Rabs_right by lra.
  refine (Rle_trans _ _ _ _ H). change (-1074 + 53 - 1)%Z with (- Z.of_nat 1022)%Z. rewrite bpow_inv.
  apply Rinv_le_contravar; [apply pow_lt; lra|]. apply Rle_pow; [lra|exact Hn].
Qed.
Lemma add_within x y : is_double x -> is_double y -> 0 <= x + y -> within 1 (x + y) (double (x + y)).
Proof.
  intros Hx Hy P. apply is_double_format in Hx, Hy. destruct (FLT_plus_error_N_ex radix2 (-1074) 53 (fun n => negb (Z.even n)) x y Hx Hy) as (eps & He & E).
  assert (E' : double (x + y) = (x + y) * (1 + eps)) by exact E. rewrite E'. apply within_1; [exact P|]. replace ((x + y) * (1 + eps) - (x + y)) with (eps * (x + y)) by ring. rewrite Rabs_mult.
  apply Rmult_le_compat_r; [apply Rabs_pos|]. refine (Rle_trans _ _ _ He _). assert (U : u_ro radix2 53 = unit_error) by exact unit_bpow. rewrite U. pose proof unit_bounds.
  apply Rmult_le_reg_r with (1 + unit_error); [lra|]. unfold Rdiv. rewrite Rmult_assoc, Rinv_l by lra. nra.
Qed.

Lemma pow_lo k : 0 < (1 - unit_error) ^ k.
Proof. pose proof unit_bounds. apply pow_lt. lra. Qed.
Lemma pow_hi k : 0 < (1 + unit_error) ^ k.
Proof. pose proof unit_bounds. apply pow_lt. lra. Qed.
Lemma within_trans k m x y z : within k x y -> within m y z -> within (k + m) x z.
Proof.
  unfold within. fold unit_error. intros (A & B) (C & D). pose proof (pow_lo m). pose proof (pow_hi m). rewrite !pow_add. split.
  - apply Rle_trans with ((1 - unit_error) ^ m * y); [|exact C]. replace ((1 - unit_error) ^ k * (1 - unit_error) ^ m * x) with ((1 - unit_error) ^ m * ((1 - unit_error) ^ k * x)) by ring.
    apply Rmult_le_compat_l; lra.
  - apply Rle_trans with ((1 + unit_error) ^ m * y); [exact D|]. replace ((1 + unit_error) ^ k * (1 + unit_error) ^ m * x) with ((1 + unit_error) ^ m * ((1 + unit_error) ^ k * x)) by ring.
    apply Rmult_le_compat_l; lra.
Qed.
Lemma within_pos k x y : 0 <= x -> within k x y -> 0 <= y.
Proof. intros H (A & _). fold unit_error in A. pose proof (pow_lo k). nra. Qed.
Lemma within_mul k m x x' y y' : 0 <= x -> 0 <= y -> within k x x' -> within m y y' -> within (k + m) (x * y) (x' * y').
Proof.
  intros Hx Hy X Y. pose proof (within_pos _ _ _ Hx X). pose proof (within_pos _ _ _ Hy Y). destruct X as (A & B), Y as (C & D). unfold within. fold unit_error in *.
  pose proof (pow_lo k). pose proof (pow_hi k). pose proof (pow_lo m). pose proof (pow_hi m). rewrite !pow_add. split.
  - replace ((1 - unit_error) ^ k * (1 - unit_error) ^ m * (x * y)) with (((1 - unit_error) ^ k * x) * ((1 - unit_error) ^ m * y)) by ring. apply Rmult_le_compat; nra.
  - replace ((1 + unit_error) ^ k * (1 + unit_error) ^ m * (x * y)) with (((1 + unit_error) ^ k * x) * ((1 + unit_error) ^ m * y)) by ring. apply Rmult_le_compat; nra.
Qed.
Lemma within_weak k m x y : (k <= m)%nat -> 0 <= x -> within k x y -> within m x y.
Proof.
  intros H Hx (A & B). unfold within. fold unit_error in *. pose proof unit_bounds. split.
  - refine (Rle_trans _ _ _ _ A). apply Rmult_le_compat_r; [exact Hx|]. replace m with (k + (m - k))%nat by lia. rewrite pow_add.
    pose proof (pow_lo k). assert ((1 - unit_error) ^ (m - k) <= 1) by (apply Rle_trans with (1 ^ (m - k)); [apply pow_incr; lra|rewrite pow1; lra]). apply Rle_trans with ((1 - unit_error) ^ k * 1); [apply Rmult_le_compat_l|]; lra.
  - refine (Rle_trans _ _ _ B _). apply Rmult_le_compat_r; [exact Hx|]. apply Rle_pow; [lra|exact H].
Qed.

(** Numbers that are 0 or not too small. *)
Definition big (n : nat) (x : R) : Prop := x = 0 \/ / 2 ^ n <= x.
Lemma big_pos n x : big n x -> 0 <= x.
Proof. intros [->|H]; [lra|]. assert (0 < / 2 ^ n) by (apply Rinv_0_lt_compat, pow_lt; lra). lra. Qed.
Lemma big_mul n m x y : big n x -> big m y -> big (n + m) (x * y).
Proof.
  intros [->|Hx]; [left; ring|]. intros [->|Hy]; [left; ring|]. right. rewrite pow_add, Rinv_mult.
  assert (0 < / 2 ^ n) by (apply Rinv_0_lt_compat, pow_lt; lra). assert (0 < / 2 ^ m) by (apply Rinv_0_lt_compat, pow_lt; lra). apply Rmult_le_compat; lra.
Qed.
Lemma big_within k n x y : (k <= 100)%nat -> big n x -> within k x y -> big (n + 1) y.
Proof.
  intros Hk [->|Hx] W.
  - left. destruct W as (A & B). rewrite Rmult_0_r in *. lra.
  - right. assert (P : 0 < / 2 ^ n) by (apply Rinv_0_lt_compat, pow_lt; lra). apply (within_weak k 100) in W; [|exact Hk|lra]. destruct W as (A & _). fold unit_error in A.
    assert (H : / 2 <= (1 - unit_error) ^ 100).
    { pose proof unit_bounds as U. clear -U.
      assert (B : forall j, 1 - INR j * unit_error <= (1 - unit_error) ^ j).
      { induction j as [|j IH]; [cbn; lra|]. rewrite S_INR. cbn [pow]. pose proof (pos_INR j). assert (0 <= INR j * unit_error * unit_error) by (apply Rmult_le_pos; [apply Rmult_le_pos; lra|lra]). nra. }
      refine (Rle_trans _ _ _ _ (B 100%nat)). rewrite (INR_IZR_INZ 100). change (Z.of_nat 100) with 100%Z. lra. }
    rewrite pow_add, Rinv_mult, pow_1. nra.
Qed.

(** ** Durations *)

Lemma step_within k n x y y' : (n <= 1021)%nat -> (k <= 100)%nat -> y' = double y -> big n x -> within k x y -> within (S k) x y' /\ is_double y' /\ big (n + 1 + 1) y'.
Proof.
  intros Hn Hk -> Hx W. pose proof (big_within k n x y Hk Hx W) as B. pose proof (double_within y (n + 1) ltac:(lia) B) as D.
  split; [|split; [apply double_is|apply (big_within 1 _ y); auto; lia]]. replace (S k) with (k + 1)%nat by lia. now apply (within_trans _ _ _ y).
Qed.

Lemma big_steps z : (0 <= z < 2 ^ 31)%Z -> big 0 (IZR z).
Proof. intros H. destruct (Z.eq_dec z 0) as [->|]; [now left|right]. cbn [pow]. rewrite Rinv_1. apply (IZR_le 1). lia. Qed.

(** 1 - e is 0 or at least 2^-1074; as e is a double from 0 to 1, it is 0 or at least 2^-54. *)
Lemma left_over e : is_double e -> 0 <= e <= 1 -> big 54 (1 - e).
Proof.
  intros He (E0 & E1). destruct (Req_dec e 1) as [->|NE]; [left; ring|right].
  assert (L : e <= pred radix2 fexp64 1). { apply pred_ge_gt; auto with typeclass_instances; [now apply is_double_format|apply is_double_format, is_double_1|lra]. }
  assert (P : pred radix2 fexp64 1 = 1 - bpow radix2 (-53)).
  { change 1 with (bpow radix2 0) at 1. rewrite pred_bpow; auto with typeclass_instances. }
  rewrite P in L. change (-53)%Z with (- Z.of_nat 53)%Z in L. rewrite bpow_inv in L.
  assert (/ 2 ^ 54 <= / 2 ^ 53) by (apply Rinv_le_contravar; [apply pow_lt; lra|apply Rle_pow; [lra|lia]]). lra.
Qed.

Lemma amount_big x : amount x -> big 100 x.
Proof. now intros (_ & H). Qed.

Lemma quotient_big x z : big 100 x -> (0 < z < 2 ^ 31)%Z -> big 131 (x / IZR z).
Proof.
  intros B H. assert (P : 0 < IZR z) by (apply IZR_lt; lia). change 131%nat with (100 + 31)%nat. apply big_mul; [exact B|]. right.
  apply Rinv_le_contravar; [exact P|]. assert (IZR z <= 2147483648) by (apply IZR_le; lia). lra.
Qed.

Lemma default_within p s : walk_timings p s ->
  let D := if is_both s then IZR (d_default_timesteps p s) * (p_single_support_duration p / IZR (p_single_support_timesteps p)) else p_single_support_duration p in
  big 131 D /\ within 2 D (d_default_duration p s) /\ is_double (d_default_duration p s).
Proof.
  intros (A & N & M & _). cbv zeta. unfold d_default_duration. destruct (is_both s).
  - pose proof (quotient_big _ _ (amount_big _ A) N) as Q.
    destruct (step_within 0 131 _ _ (d_dt p) ltac:(lia) ltac:(lia) eq_refl Q (within_0 _)) as (W1 & D1 & B1).
    assert (BM : big 131 (IZR (d_default_timesteps p s) * (p_single_support_duration p / IZR (p_single_support_timesteps p)))).
    { change 131%nat with (0 + 131)%nat. apply big_mul; [now apply big_steps|exact Q]. }
    pose proof (within_mul 0 1 _ _ _ _ (big_pos _ _ (big_steps _ M)) (big_pos _ _ Q) (within_0 _) W1) as W2.
    destruct (step_within (0 + 1) 131 _ _ (d_mul (IZR (d_default_timesteps p s)) (d_dt p)) ltac:(lia) ltac:(lia) eq_refl BM W2) as (W3 & D3 & _). auto.
  - split; [|split].
    + destruct (amount_big _ A) as [->|B]; [now left|right]. refine (Rle_trans _ _ _ _ B). apply Rinv_le_contravar; [apply pow_lt; lra|apply Rle_pow; [lra|lia]].
    + apply (within_weak 0); [lia|apply (big_pos 100), amount_big, A|apply within_0].
    + apply A.
Qed.

Lemma remaining_within p s : walk_timings p s ->
  0 <= exact_remaining p s (d_default_timesteps p s) /\ within 5 (exact_remaining p s (d_default_timesteps p s)) (d_remaining_duration p s) /\ is_double (d_remaining_duration p s).
Proof.
  intros T. destruct (default_within p s T) as (BD & WD & DD). destruct T as (A & N & M & E & E01 & AR). unfold exact_remaining, d_remaining_duration.
  set (D := if is_both s then _ else _) in *.
  pose proof (left_over _ E E01) as BL.
  assert (WL : within 1 (1 - u_elapsed_ratio s) (d_sub 1 (u_elapsed_ratio s))) by (apply (double_within _ 54); [lia|exact BL]).
  pose proof (within_mul 1 2 _ _ _ _ (big_pos _ _ BL) (big_pos _ _ BD) WL WD) as W1. pose proof (big_mul _ _ _ _ BL BD) as B1.
  destruct (step_within (1 + 2) (54 + 131) _ _ (d_mul (d_sub 1 (u_elapsed_ratio s)) (d_default_duration p s)) ltac:(lia) ltac:(lia) eq_refl B1 W1) as (W2 & D2 & _).
  pose proof (amount_big _ AR) as BR. pose proof (big_mul _ _ _ _ B1 BR) as B2.
  pose proof (within_mul _ 0 _ _ _ _ (big_pos _ _ B1) (big_pos _ _ BR) W2 (within_0 _)) as W3.
  destruct (step_within (S (1 + 2) + 0) (54 + 131 + 100) _ _ (d_mul (d_mul (d_sub 1 (u_elapsed_ratio s)) (d_default_duration p s)) (u_time_ratio s)) ltac:(lia) ltac:(lia) eq_refl B2 W3) as (W4 & D4 & _).
  split; [exact (big_pos _ _ B2)|]. split; [exact W4|exact D4].
Qed.

Lemma add_up t d : is_double t -> 0 <= d -> t <= d_add t d.
Proof. intros T H. rewrite <- (double_id t T) at 1. apply double_le. lra. Qed.

Lemma parts_tile p supports : Forall (walk_timings p) supports -> forall t, is_double t ->
  let (parts, t_end) := d_parts p supports t in
  contiguous t parts t_end /\ Forall (fun q => pt_start q <= pt_end q) parts /\ Forall (fun q => is_double (pt_start q) /\ is_double (pt_end q)) parts /\
  is_double t_end /\ map pt_support parts = supports.
Proof.
  induction 1 as [|s r Hs _ IH]; intros t Ht; cbn [d_parts]; [repeat split; auto|].
  destruct (remaining_within p s Hs) as (P & W & _). pose proof (within_pos _ _ _ P W) as Q.
  pose proof (IH (d_add t (d_remaining_duration p s)) (double_is _)) as K. destruct (d_parts p r _) as (parts & t_end). destruct K as (A & B & C & D & F).
  split; [cbn; auto|]. split; [constructor; [now apply add_up|exact B]|]. split; [constructor; [split; [exact Ht|apply double_is]|exact C]|]. split; [exact D|]. cbn. now f_equal.
Qed.

Lemma within_add k x x' y y' : within k x x' -> within k y y' -> within k (x + y) (x' + y').
Proof. intros (A & B) (C & D). unfold within. rewrite !Rmult_plus_distr_l. split; apply Rplus_le_compat; assumption. Qed.

Lemma end_within p supports : Forall (walk_timings p) supports -> forall k x t, (5 <= k)%nat -> 0 <= x -> within k x t -> is_double t ->
  within (k + length supports) (exact_end p supports x) (snd (d_parts p supports t)).
Proof.
  induction 1 as [|s r Hs _ IH]; intros k x t K X W T; cbn [d_parts exact_end length]; [now rewrite Nat.add_0_r|].
  destruct (remaining_within p s Hs) as (P & V & D). pose proof (within_pos _ _ _ P V) as Q. pose proof (within_pos _ _ _ X W) as T0.
  pose proof (within_add _ _ _ _ _ W (within_weak _ _ _ _ K P V)) as A.
  pose proof (within_trans _ _ _ _ _ A (add_within t _ T D ltac:(lra))) as B.
  specialize (IH (k + 1)%nat (x + exact_remaining p s (d_default_timesteps p s)) (d_add t (d_remaining_duration p s)) ltac:(lia) ltac:(lra) B (double_is _)).
  destruct (d_parts p r _) as (parts & t_end). cbn [snd] in *. now replace (k + S (length r))%nat with (k + 1 + length r)%nat by lia.
Qed.

Lemma add_strict t d : is_double t -> is_double d -> 0 <= t -> 0 < d -> t / 2 ^ 52 <= d -> t < d_add t d.
Proof.
  intros T D T0 D0 H. pose proof (add_within t d T D ltac:(lra)) as (A & _). fold unit_error in A. rewrite pow_1 in A. change (double (t + d)) with (d_add t d) in A.
  assert (E : t / 2 ^ 52 = 2 * unit_error * t) by (unfold unit_error; field). rewrite E in H. pose proof unit_bounds.
  assert (t < (1 - unit_error) * (t + d)); [|lra]. assert (0 <= unit_error * t) by (apply Rmult_le_pos; lra).
  assert (unit_error * d < d / 1000000) by (unfold Rdiv; rewrite (Rmult_comm d); apply Rmult_lt_compat_r; lra). nra.
Qed.

Lemma end_after p supports : Forall (walk_timings p) supports -> forall t, is_double t -> t <= snd (d_parts p supports t).
Proof.
  induction 1 as [|s r Hs _ IH]; intros t T; cbn [d_parts]; [cbn; lra|].
  destruct (remaining_within p s Hs) as (P & V & D). pose proof (within_pos _ _ _ P V) as Q. pose proof (add_up t _ T Q) as A.
  specialize (IH (d_add t (d_remaining_duration p s)) (double_is _)). destruct (d_parts p r _) as (parts & t_end). cbn [snd] in *. lra.
Qed.
Lemma parts_after p supports : Forall (walk_timings p) supports -> forall t u, is_double t -> u < t -> Forall (fun q => u < pt_start q) (fst (d_parts p supports t)).
Proof.
  induction 1 as [|s r Hs _ IH]; intros t u T U; cbn [d_parts]; [constructor|].
  destruct (remaining_within p s Hs) as (P & V & D). pose proof (within_pos _ _ _ P V) as Q. pose proof (add_up t _ T Q) as A.
  specialize (IH (d_add t (d_remaining_duration p s)) u (double_is _) ltac:(lra)). destruct (d_parts p r _) as (parts & t_end). cbn [fst] in *. now constructor.
Qed.

Lemma half_pow : / 2 <= (1 - unit_error) ^ 5.
Proof.
  pose proof unit_bounds as U.
  assert (B : forall j, 1 - INR j * unit_error <= (1 - unit_error) ^ j).
  { induction j as [|j IH]; [cbn; lra|]. rewrite S_INR. cbn [pow]. pose proof (pos_INR j). assert (0 <= INR j * unit_error * unit_error) by (apply Rmult_le_pos; [apply Rmult_le_pos; lra|lra]). nra. }
  refine (Rle_trans _ _ _ _ (B 5%nat)). rewrite (INR_IZR_INZ 5). change (Z.of_nat 5) with 5%Z. lra.
Qed.

(** Supports that last: the parts start at different times. *)
Lemma parts_increase p supports : Forall (walk_timings p) supports -> forall t T, is_double t -> 0 <= t -> snd (d_parts p supports t) <= T ->
  Forall (fun s => 0 < exact_remaining p s (d_default_timesteps p s) /\ T / 2 ^ 51 <= exact_remaining p s (d_default_timesteps p s)) supports ->
  forall i k a b, (i < k)%nat -> nth_error (fst (d_parts p supports t)) i = Some a -> nth_error (fst (d_parts p supports t)) k = Some b -> pt_start a < pt_start b.
Proof.
  induction 1 as [|s r Hs Hr IH]; intros t T Ht T0 HT L i k a b IK A B; [destruct i; discriminate|].
  inversion L as [|? ? (L0 & L1) L']; subst.
  destruct (remaining_within p s Hs) as (P & V & D). pose proof (within_pos _ _ _ P V) as Q. cbn [d_parts] in *.
  set (t' := d_add t (d_remaining_duration p s)) in *.
  assert (D' : is_double t') by apply double_is.
  pose proof (end_after p r Hr t' D') as E. pose proof (parts_after p r Hr t') as F. specialize (IH t' T D').
  assert (U : t <= t') by (now apply add_up).
  destruct (d_parts p r t') as (parts & t_end). cbn [fst snd] in *.
  assert (S1 : t < t').
  { apply add_strict; auto; [destruct V as (V & _); fold unit_error in V; pose proof half_pow; nra|].
    destruct V as (V & _). fold unit_error in V. pose proof half_pow as HP.
    assert (/ 2 * exact_remaining p s (d_default_timesteps p s) <= d_remaining_duration p s) by nra.
    assert (t / 2 ^ 52 = / 2 * (t / 2 ^ 51)) as -> by field. apply Rle_trans with (/ 2 * (T / 2 ^ 51)); [|lra].
    apply Rmult_le_compat_l; [lra|]. unfold Rdiv. apply Rmult_le_compat_r; [apply Rlt_le, Rinv_0_lt_compat, pow_lt; lra|lra]. }
  destruct k as [|k]; [lia|]. cbn [nth_error] in B. destruct i as [|i].
  - injection A as <-. cbn [pt_start]. specialize (F t D' S1). rewrite Forall_forall in F. apply F. eapply nth_error_In; eauto.
  - cbn [nth_error] in A. apply (IH ltac:(lra) HT L' i k); auto. lia.
Qed.

(** ** Timesteps *)

Lemma near_floor x y z : 0 <= y -> Rabs (y - x) < 1 -> IZR z <= x < IZR z + 1 -> (Z.abs (trunc y - z) <= 1)%Z.
Proof.
  intros Y H (A & B). unfold trunc. destruct (Rle_dec 0 y) as [_|n]; [|lra]. apply Rabs_def2 in H. destruct (archimed y) as (U & V).
  assert (C : IZR (up y) < IZR (z + 3)) by (rewrite plus_IZR; lra). apply lt_IZR in C.
  assert (D : IZR (z - 1) < IZR (up y)) by (rewrite minus_IZR; lra). apply lt_IZR in D. lia.
Qed.
Lemma near_round x y z : Rabs (y - x) < / 2 -> Rabs (IZR z - x) <= / 2 -> (Z.abs (Footsteps_model.round y - z) <= 1)%Z.
Proof.
  intros H B. pose proof (Footsteps_proofs.round_half y) as C. apply Rabs_def2 in H. apply Rabs_le_inv in B, C.
  assert (L : IZR (Footsteps_model.round y) < IZR (z + 2)) by (rewrite plus_IZR; lra). apply lt_IZR in L.
  assert (M : IZR (z - 2) < IZR (Footsteps_model.round y)) by (rewrite minus_IZR; lra). apply lt_IZR in M. lia.
Qed.
Lemma within_close k x y : (k <= 2)%nat -> 0 <= x <= 2 ^ 31 -> within k x y -> Rabs (y - x) < / 2.
Proof.
  intros K X W. apply (within_weak k 2) in W; [|exact K|lra]. destruct W as (A & B). fold unit_error in *. pose proof unit_bounds as U.
  assert (M : unit_error * x <= / 2 ^ 22). { apply Rle_trans with (unit_error * 2 ^ 31); [apply Rmult_le_compat_l; lra|]. unfold unit_error. right. field. }
  assert (P : 0 <= unit_error * x) by (apply Rmult_le_pos; lra). assert (Q : unit_error * (unit_error * x) <= 1 * / 2 ^ 22) by (apply Rmult_le_compat; lra).
  assert (Q' : 0 <= unit_error * (unit_error * x)) by (apply Rmult_le_pos; lra).
  replace ((1 - unit_error) ^ 2 * x) with (x - 2 * (unit_error * x) + unit_error * (unit_error * x)) in A by ring.
  replace ((1 + unit_error) ^ 2 * x) with (x + 2 * (unit_error * x) + unit_error * (unit_error * x)) in B by ring. apply Rabs_def1; lra.
Qed.

Lemma remaining_timesteps_close p s z : walk_timings p s ->
  IZR z <= (1 - u_elapsed_ratio s) * IZR (d_default_timesteps p s) < IZR z + 1 -> (Z.abs (Z.of_nat (d_remaining_timesteps p s) - Z.max 1 z) <= 1)%Z.
Proof.
  intros (_ & _ & M & E & E01 & _) Hz. pose proof (left_over _ E E01) as BL. pose proof (big_steps _ M) as BM.
  assert (WL : within 1 (1 - u_elapsed_ratio s) (d_sub 1 (u_elapsed_ratio s))) by (apply (double_within _ 54); [lia|exact BL]).
  pose proof (within_mul 1 0 _ _ _ _ (big_pos _ _ BL) (big_pos _ _ BM) WL (within_0 _)) as W1. pose proof (big_mul _ _ _ _ BL BM) as B1.
  destruct (step_within (1 + 0) (54 + 0) _ _ (d_mul (d_sub 1 (u_elapsed_ratio s)) (IZR (d_default_timesteps p s))) ltac:(lia) ltac:(lia) eq_refl B1 W1) as (W2 & _ & _).
  assert (U : IZR (d_default_timesteps p s) <= 2147483648) by (apply IZR_le; lia). pose proof (big_pos _ _ BM) as P.
  assert (V : (1 - u_elapsed_ratio s) * IZR (d_default_timesteps p s) <= 2 ^ 31).
  { apply Rle_trans with (1 * IZR (d_default_timesteps p s)); [apply Rmult_le_compat_r; lra|]. apply Rle_trans with 2147483648; lra. }
  pose proof (within_close _ _ _ (le_n 2) ltac:(split; [apply (big_pos _ _ B1)|exact V]) W2) as C. pose proof (within_pos _ _ _ (big_pos _ _ B1) W2) as Y.
  pose proof (near_floor _ _ z Y (Rlt_trans _ _ 1 C ltac:(lra)) Hz) as F. unfold d_remaining_timesteps. lia.
Qed.

Lemma ratio_timesteps_close r n z : amount r -> (0 < n < 2 ^ 31)%Z -> r * IZR n <= 2 ^ 31 -> Rabs (IZR z - r * IZR n) <= / 2 ->
  (Z.abs (Footsteps_model.round (d_mul r (IZR n)) - z) <= 1)%Z.
Proof.
  intros A N H Hz. assert (BM : big 0 (IZR n)) by (apply big_steps; lia). pose proof (big_mul _ _ _ _ (amount_big _ A) BM) as B.
  refine (near_round _ _ z _ Hz). apply (within_close 1); [lia|split; [apply (big_pos _ _ B)|exact H]|]. apply (double_within _ (100 + 0)); [lia|exact B].
Qed.

(** ** Values *)

Lemma double_near x e n : bpow radix2 (e - 1) <= x < bpow radix2 e -> (-1021 <= e)%Z -> Rabs (x * bpow radix2 (53 - e) - IZR n) < / 2 ->
  double x = IZR n * bpow radix2 (e - 53).
Proof.
  intros H E N. unfold double, Generic_fmt.round, F2R, scaled_mantissa, cexp. cbn [Fnum Fexp]. rewrite (mag_unique_pos radix2 x e H).
  unfold FLT_exp. rewrite Z.max_l by lia. replace (- (e - 53))%Z with (53 - e)%Z by lia. f_equal. f_equal. apply Znearest_imp. exact N.
Qed.
