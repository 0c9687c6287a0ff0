(** Theorems about the timings of a walk computed with doubles: C187. *)
From Coq Require Import Reals ZArith List Bool Lia Lra.
From Verif Require Import Base Geom3 Tools_model Geometry_model Footsteps_model Spline_model Swing_model Lipm_model Wpg_model Wpg_spec Wpg_props
  Doubles_model Doubles_spec Doubles_proofs.
From Flocq Require Import Core.
Import ListNotations.
Open Scope R_scope.

(** Whatever the rounding, the parts have the given supports and follow each other: each starts at the very double at which the previous one ends.
    So every query from the start to the end of the plan is answered from a part that contains its time. *)
Theorem C187_tiling p supports t j : supports <> [] -> is_double t -> Forall (walk_timings p) supports -> j_parts j = fst (d_parts p supports t) ->
  timeline t (j_parts j) (snd (d_parts p supports t)) /\ map pt_support (j_parts j) = supports /\
  is_double (snd (d_parts p supports t)) /\ Forall (fun q => is_double (pt_start q) /\ is_double (pt_end q)) (j_parts j) /\
  forall u, t <= u <= snd (d_parts p supports t) -> exists q, In q (j_parts j) /\ pt_start q <= u <= pt_end q /\
    get_part_t_start j u = Ok (pt_start q) /\ get_part_t_end j u = Ok (pt_end q) /\ get_support j u = Ok (transform_support (j_T j) (pt_support q)).
Proof.
  intros N T W E. pose proof (parts_tile p supports W t T) as K. destruct (d_parts p supports t) as (parts & t_end). cbn [fst snd] in *. destruct K as (A & B & C & D & F).
  assert (TL : timeline t (j_parts j) t_end).
  { rewrite E. split; [intros ->; cbn in F; congruence|]. split; assumption. }
  split; [exact TL|]. split; [now rewrite E|]. split; [exact D|]. split; [now rewrite E|]. intros u Hu.
  destruct (C54_terminates j u) as (i & q & Hq & S1 & S2 & S3 & _); [apply TL|].
  destruct (Wpg_proofs.find_part_right j t t_end u TL) as (i' & q' & Fq & _ & R'). destruct (Wpg_proofs.right_part_times _ _ _ _ _ _ TL R') as (T1 & _ & _).
  exists q'. split; [eapply nth_error_In; apply R'|]. split; [exact (T1 Hu)|]. unfold get_part_t_start, get_part_t_end, get_support. rewrite Fq. auto.
Qed.
Print Assumptions C187_tiling.

(** The end of the plan is the sum of what remains of the supports, up to 5 roundings and one for each support. *)
Theorem C187_drift p supports t : 0 <= t -> is_double t -> Forall (walk_timings p) supports ->
  within (5 + length supports) (exact_end p supports t) (snd (d_parts p supports t)).
Proof. intros T D W. apply end_within; auto. apply (within_weak 0); [lia|exact T|apply within_0]. Qed.
Print Assumptions C187_drift.

(** If each support lasts at least 2^-51 of the end time, the parts start one after the other, and only the LIPM of the first one starts from the given
    position of the CoM. *)
Theorem C187_distinct p supports t : 0 <= t -> is_double t -> Forall (walk_timings p) supports ->
  Forall (fun s => let d := exact_remaining p s (d_default_timesteps p s) in 0 < d /\ snd (d_parts p supports t) / 2 ^ 51 <= d) supports ->
  (forall i k a b, (i < k)%nat -> nth_error (fst (d_parts p supports t)) i = Some a -> nth_error (fst (d_parts p supports t)) k = Some b -> pt_start a < pt_start b) /\
  (forall i a, nth_error (fst (d_parts p supports t)) i = Some a -> (d_starts_afresh t a = true <-> i = 0%nat)).
Proof.
  intros T D W L. assert (I1 : forall i k a b, (i < k)%nat -> nth_error (fst (d_parts p supports t)) i = Some a -> nth_error (fst (d_parts p supports t)) k = Some b -> pt_start a < pt_start b).
  { intros i k a b. apply (parts_increase p supports W t (snd (d_parts p supports t)) D T); [apply Rle_refl|exact L]. }
  split; [exact I1|]. intros i a A. unfold d_starts_afresh.
  assert (Z0 : forall z, nth_error (fst (d_parts p supports t)) 0 = Some z -> pt_start z = t).
  { intros z. destruct supports as [|s r]; [discriminate|]. cbn [d_parts]. destruct (d_parts p r _). intros [= <-]. reflexivity. }
  destruct i as [|i]; [rewrite (Z0 a A); destruct (Req_EM_T t t); [tauto|congruence]|].
  destruct (nth_error (fst (d_parts p supports t)) 0) as [z|] eqn:E.
  - pose proof (I1 0%nat (S i) z a ltac:(lia) E A) as X. rewrite (Z0 z eq_refl) in X. destruct (Req_EM_T (pt_start a) t) as [Y|]; [rewrite Y in X; lra|]. split; [discriminate|lia].
  - destruct (fst (d_parts p supports t)); [discriminate|discriminate].
Qed.
Print Assumptions C187_distinct.

(** A part has at least one timestep. Their number is at most one away from the one the formula gives without rounding, and so is that of a double support, which
    has its own ratio at the start and at the end of the walk. *)
Theorem C187_timesteps p s : walk_timings p s ->
  (0 < d_remaining_timesteps p s)%nat /\
  (forall z, IZR z <= (1 - u_elapsed_ratio s) * IZR (d_default_timesteps p s) < IZR z + 1 -> (Z.abs (Z.of_nat (d_remaining_timesteps p s) - Z.max 1 z) <= 1)%Z) /\
  (is_both s = false -> d_default_timesteps p s = p_single_support_timesteps p) /\
  (is_both s = true -> forall ratio z, (u_start s = true \/ u_end s = true -> ratio = p_startend_double_support_ratio p) ->
    (u_start s = false /\ u_end s = false -> ratio = p_double_support_ratio p) -> amount ratio ->
    let x := ratio * IZR (p_single_support_timesteps p) in x <= 2 ^ 31 -> Rabs (IZR z - x) <= / 2 -> (Z.abs (d_default_timesteps p s - z) <= 1)%Z).
Proof.
  intros W. split; [unfold d_remaining_timesteps; lia|]. split; [intros z; now apply remaining_timesteps_close|]. destruct W as (_ & N & _). unfold d_default_timesteps.
  split; [intros ->; reflexivity|]. intros -> ratio z H1 H2 A X Z. destruct (u_start s), (u_end s); cbn [orb].
  1-3: rewrite (H1 ltac:(auto)) in *; now apply ratio_timesteps_close. rewrite (H2 ltac:(auto)) in *; now apply ratio_timesteps_close.
Qed.
Print Assumptions C187_timesteps.

(** ** Examples *)

Definition ex_timing (duration : R) (timesteps : Z) : params := Params duration timesteps 0 0 1 1 1 1 1 1 1 1.
Definition ex_step (elapsed : R) : support := Support [] (-1) elapsed 1 (0, 0) false false [] false.

Lemma amount_1 : amount 1.
Proof. split; [apply is_double_1|]. right. rewrite <- Rinv_1. apply Rinv_le_contravar; [lra|]. apply pow_R1_Rle. lra. Qed.
Lemma ex_walk n e : (0 < n < 2 ^ 31)%Z -> is_double e -> 0 <= e <= 1 -> walk_timings (ex_timing 1 n) (ex_step e).
Proof. intros N E E01. pose proof amount_1 as A. unfold walk_timings. cbn. repeat (split; [solve [auto|lia]|]). exact A. Qed.
Lemma ex_lasts n : d_remaining_duration (ex_timing 1 n) (ex_step 0) = 1.
Proof.
  unfold d_remaining_duration, d_sub, d_mul. change (d_default_duration (ex_timing 1 n) (ex_step 0)) with 1. cbn [ex_step u_elapsed_ratio u_time_ratio]. replace (1 - 0) with 1 by ring.
  rewrite (double_id 1 is_double_1), Rmult_1_r, Rmult_1_r, !(double_id 1 is_double_1). reflexivity.
Qed.
(** Two steps of a second, from 0: they end at 2, and the plan of a walk meets the hypotheses of the theorems. *)
Example C187_example :
  Forall (walk_timings (ex_timing 1 10)) [ex_step 0; ex_step 0] /\ snd (d_parts (ex_timing 1 10) [ex_step 0; ex_step 0] 0) = 2 /\
  exact_end (ex_timing 1 10) [ex_step 0; ex_step 0] 0 = 2 /\
  Forall (fun s => let d := exact_remaining (ex_timing 1 10) s (d_default_timesteps (ex_timing 1 10) s) in
     0 < d /\ snd (d_parts (ex_timing 1 10) [ex_step 0; ex_step 0] 0) / 2 ^ 51 <= d) [ex_step 0; ex_step 0].
Proof.
  assert (E : snd (d_parts (ex_timing 1 10) [ex_step 0; ex_step 0] 0) = 2).
  { cbn [d_parts snd]. rewrite !ex_lasts. unfold d_add. replace (0 + 1) with 1 by ring. rewrite (double_id 1 is_double_1). replace (1 + 1) with 2 by ring. apply double_id, (is_double_int 2). lia. }
  rewrite E. assert (W : walk_timings (ex_timing 1 10) (ex_step 0)) by (apply ex_walk; [lia|apply is_double_0|lra]).
  assert (X : exact_remaining (ex_timing 1 10) (ex_step 0) (d_default_timesteps (ex_timing 1 10) (ex_step 0)) = 1) by (unfold exact_remaining; cbn; ring).
  split; [auto|]. split; [reflexivity|]. split; [cbn [exact_end]; rewrite X; ring|].
  assert (2 / 2 ^ 51 <= 1) by lra. repeat constructor; cbv zeta; rewrite X; lra.
Qed.

(** The bound of [C187_distinct] is needed: a step of a second added to 2^60 seconds is lost, and the second LIPM starts from the given position too. *)
Theorem C187_lost_behaviour : is_double (2 ^ 60) /\ Forall (walk_timings (ex_timing 1 10)) [ex_step 0; ex_step 0] /\
  map (d_starts_afresh (2 ^ 60)) (fst (d_parts (ex_timing 1 10) [ex_step 0; ex_step 0] (2 ^ 60))) = [true; true].
Proof.
  assert (W : walk_timings (ex_timing 1 10) (ex_step 0)) by (apply ex_walk; [lia|apply is_double_0|lra]).
  split; [exists 4503599627370496%Z, 8%Z; split; [change (powerRZ 2 8) with (2 ^ 8); lra|split; lia]|]. split; [auto|].
  cbn [d_parts fst map]. unfold d_starts_afresh. cbn [pt_start]. rewrite ex_lasts.
  assert (E : d_add (2 ^ 60) 1 = 2 ^ 60).
  { unfold d_add. rewrite (double_near _ 61 (2 ^ 52)).
    - change (bpow radix2 (61 - 53)) with (IZR 256). change (2 ^ 52)%Z with 4503599627370496%Z. lra.
    - change (bpow radix2 (61 - 1)) with (IZR 1152921504606846976). change (bpow radix2 61) with (IZR 2305843009213693952). lra.
    - lia.
    - change (bpow radix2 (53 - 61)) with (/ IZR 256). change (2 ^ 52)%Z with 4503599627370496%Z. apply Rabs_def1; lra. }
  rewrite E. destruct (Req_EM_T (2 ^ 60) (2 ^ 60)) as [_|n]; [reflexivity|now elim n].
Qed.
Print Assumptions C187_lost_behaviour.

(** The number of timesteps can differ: with 5 timesteps a step and (2^54 + 1) / (5 * 2^53) of it elapsed, 2.99... timesteps remain, and the code counts 3. *)
Theorem C187_timesteps_differ_behaviour : let e := IZR 3602879701896397 / 2 ^ 53 in
  walk_timings (ex_timing 1 5) (ex_step e) /\ IZR 2 <= (1 - e) * IZR (d_default_timesteps (ex_timing 1 5) (ex_step e)) < IZR 2 + 1 /\
  d_remaining_timesteps (ex_timing 1 5) (ex_step e) = 3%nat.
Proof.
  cbv zeta. set (e := IZR 3602879701896397 / 2 ^ 53).
  assert (De : is_double e).
  { exists 3602879701896397%Z, (-53)%Z. split; [|split; lia]. change (-53)%Z with (- Z.of_nat 53)%Z. rewrite <- bpow_power, bpow_inv. reflexivity. }
  assert (D1 : is_double (1 - e)).
  { exists 5404319552844595%Z, (-53)%Z. split; [|split; lia]. change (-53)%Z with (- Z.of_nat 53)%Z. rewrite <- bpow_power, bpow_inv. unfold e. field. }
  assert (E01 : 0 <= e <= 1) by (unfold e; lra).
  split; [apply ex_walk; [lia|exact De|exact E01]|]. change (d_default_timesteps (ex_timing 1 5) (ex_step e)) with 5%Z.
  assert (X : (1 - e) * 5 = 3 - / 2 ^ 53) by (unfold e; field).
  split; [rewrite X; lra|].
  unfold d_remaining_timesteps, d_sub, d_mul. change (d_default_timesteps (ex_timing 1 5) (ex_step e)) with 5%Z. cbn [ex_step u_elapsed_ratio]. rewrite (double_id _ D1), X.
  assert (E : double (3 - / 2 ^ 53) = 3).
  { rewrite (double_near _ 2 6755399441055744).
    - change (bpow radix2 (2 - 53)) with (/ IZR 2251799813685248). lra.
    - change (bpow radix2 (2 - 1)) with (IZR 2). change (bpow radix2 2) with (IZR 4). lra.
    - lia.
    - change (bpow radix2 (53 - 2)) with (IZR 2251799813685248). apply Rabs_def1; lra. }
  rewrite E. assert (U : up 3 = 4%Z) by (symmetry; apply tech_up; lra). unfold trunc. destruct (Rle_dec 0 3); [|lra]. rewrite U. reflexivity.
Qed.
Print Assumptions C187_timesteps_differ_behaviour.
