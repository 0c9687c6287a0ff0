(** Theorems about the planning of the feet with doubles: C192. *)
From Coq Require Import Reals ZArith List Bool Lia Lra.
From Flocq Require Import Core.
From Verif Require Import Base Geom3 Tools_model Spline_model Swing_model Swing_proofs Geometry_model Footsteps_model Footsteps_proofs Wpg_model Wpg_spec Wpg_proofs Wpg_proofs2 Wpg_proofs3 Wpg_proofs4 Wpg_proofs5
  WpgPlan_spec WpgPlan_proofs WpgPlan_proofs4 WpgPlan_props Doubles_model Doubles_spec Doubles_proofs Doubles_props DoublesClip_props DoublesSwing_model DoublesSwing_spec DoublesSwing_proofs DoublesSwing_props
  DoublesFeet_model DoublesFeet_spec DoublesFeet_proofs.
Import ListNotations.
Open Scope R_scope.

(** ** What the parts to plan are *)
Lemma times_nth (l m : list part) : map (fun q => (pt_start q, pt_end q, pt_support q)) l = map (fun q => (pt_start q, pt_end q, pt_support q)) m -> forall i q, nth_error l i = Some q ->
  exists q', nth_error m i = Some q' /\ pt_start q = pt_start q' /\ pt_end q = pt_end q' /\ pt_support q = pt_support q'.
Proof.
  revert m. induction l as [|a l IH]; intros [|b m] E i q H; try discriminate; [destruct i; discriminate H|]. cbn in E. injection E as E1 E2 E3 E4. destruct i as [|i]; cbn in *.
  - injection H as <-. exists b. auto.
  - now apply IH.
Qed.
Lemma times_contiguous (l m : list part) : map (fun q => (pt_start q, pt_end q, pt_support q)) l = map (fun q => (pt_start q, pt_end q, pt_support q)) m -> forall a b, contiguous a m b -> contiguous a l b.
Proof.
  revert m. induction l as [|p l IH]; intros [|q m] E a b C; try discriminate; [exact C|]. cbn in E. injection E as E1 E2 _ E4. cbn in *. destruct C as (<- & C). split; [exact E1|]. rewrite E2. now apply (IH m).
Qed.

Lemma d_parts_nth p : forall supports t i q, nth_error (fst (d_parts p supports t)) i = Some q ->
  nth_error supports i = Some (pt_support q) /\ pt_end q = d_add (pt_start q) (d_remaining_duration p (pt_support q)).
Proof.
  induction supports as [|s r IH]; intros t i q H; cbn [d_parts] in H; [destruct i; discriminate H|].
  specialize (IH (d_add t (d_remaining_duration p s))). destruct (d_parts p r _) as (parts & te). cbn [fst] in *. destruct i as [|i]; cbn in *; [injection H as <-; auto|]. now apply IH.
Qed.

Lemma plan_nth j p supports t i q : to_plan j p supports t -> nth_error (j_parts j) i = Some q ->
  nth_error supports i = Some (pt_support q) /\ pt_end q = d_add (pt_start q) (d_remaining_duration p (pt_support q)).
Proof.
  intros (_ & E & _) H. destruct (times_nth _ _ E i q H) as (q' & H' & E1 & E2 & E3). apply d_parts_nth in H'. now rewrite E1, E2, E3.
Qed.

Lemma plan_first j p supports t q : to_plan j p supports t -> nth_error (j_parts j) 0 = Some q -> pt_start q = t.
Proof.
  intros (_ & E & _) H. destruct (times_nth _ _ E 0 q H) as (q' & H' & -> & _). destruct supports as [|s r]; cbn [d_parts] in H'; [discriminate H'|].
  destruct (d_parts p r _) as (parts & te). cbn in H'. now injection H' as <-.
Qed.

Lemma plan_contiguous j p supports t : to_plan j p supports t -> is_double t -> Forall (walk_timings p) supports -> contiguous (j_start j) (j_parts j) (snd (d_parts p supports t)).
Proof.
  intros (-> & E & _) D W. pose proof (parts_tile p supports W t D) as K. destruct (d_parts p supports t) as (parts & te). cbn [fst snd] in *. exact (times_contiguous _ _ E _ _ (proj1 K)).
Qed.

Lemma plan_feet_ok j p supports t : to_plan j p supports t -> (forall s, In s supports -> feet_ok s) -> forall q, In q (j_parts j) -> feet_ok (pt_support q).
Proof. intros P F q Hq. apply In_nth_error in Hq as (i & Hq). apply F. eapply nth_error_In. apply (plan_nth _ _ _ _ _ _ P Hq). Qed.

Lemma plan_nth_l j p supports t i s : to_plan j p supports t -> Forall (walk_timings p) supports -> is_double t -> nth_error supports i = Some s -> exists q, nth_error (j_parts j) i = Some q /\ pt_support q = s.
Proof.
  intros P W D H. destruct (nth_error (j_parts j) i) as [q|] eqn:Hq.
  - exists q. split; [reflexivity|]. apply (plan_nth _ _ _ _ _ _ P) in Hq as (A & _). congruence.
  - exfalso. apply nth_error_None in Hq. destruct P as (_ & E & _). apply (f_equal (@length _)) in E. rewrite !map_length in E.
    pose proof (parts_tile p supports W t D) as K. destruct (d_parts p supports t) as (parts & te). destruct K as (_ & _ & _ & _ & K). apply (f_equal (@length _)) in K. rewrite map_length in K. cbn [fst] in E.
    assert (i < length supports)%nat by (apply nth_error_Some; congruence). lia.
Qed.

(** ** What remains of a begun swing, and of its part *)
Lemma swing_within p s : walk_timings p s -> let d := d_mul (d_sub 1 (u_elapsed_ratio s)) (d_virt_duration p s) in
  within 5 (exact_remaining p s (d_default_timesteps p s)) d /\ is_double d.
Proof.
  intros T. destruct (default_within p s T) as (BD & WD & DD). destruct T as (A & N & M & E & E01 & AR). unfold exact_remaining, d_virt_duration. cbv zeta.
  set (D := if is_both s then _ else _) in *. pose proof (left_over _ E E01) as BL. pose proof (amount_big _ AR) as BR.
  assert (WL : within 1 (1 - u_elapsed_ratio s) (d_sub 1 (u_elapsed_ratio s))) by (apply (double_within _ 54); [lia|exact BL]).
  pose proof (within_mul 2 0 _ _ _ _ (big_pos _ _ BD) (big_pos _ _ BR) WD (within_0 _)) as W1. pose proof (big_mul _ _ _ _ BD BR) as B1.
  destruct (step_within (2 + 0) (131 + 100) _ _ (d_mul (d_default_duration p s) (u_time_ratio s)) ltac:(lia) ltac:(lia) eq_refl B1 W1) as (W2 & _ & _).
  pose proof (within_mul 1 _ _ _ _ _ (big_pos _ _ BL) (big_pos _ _ B1) WL W2) as W3. pose proof (big_mul _ _ _ _ BL B1) as B2.
  destruct (step_within (1 + S (2 + 0)) (54 + (131 + 100)) _ _ _ ltac:(lia) ltac:(lia) eq_refl B2 W3) as (W4 & D4 & _).
  rewrite Rmult_assoc. split; [exact W4|exact D4].
Qed.
Lemma sum_within t x d : is_double t -> is_double d -> 0 <= t -> 0 <= x -> within 5 x d -> within 6 (t + x) (d_add t d).
Proof.
  intros T D T0 X W. change 6%nat with (5 + 1)%nat. apply (within_trans 5 1 _ (t + d)).
  - apply within_add; [|exact W]. apply (within_weak 0); [lia|exact T0|apply within_0].
  - apply add_within; [exact T|exact D|]. pose proof (within_pos _ _ _ X W). lra.
Qed.
Lemma within_close x a b : 0 <= x -> within 6 x a -> within 6 x b -> Rabs (a - b) <= b / 2 ^ 49.
Proof. unfold within. intros X (A & B) (C & D). apply Rabs_le. split; lra. Qed.
Lemma lands_close p s t : walk_timings p s -> is_double t -> 0 <= t ->
  let e := d_add t (d_remaining_duration p s) in Rabs (d_add t (d_mul (d_sub 1 (u_elapsed_ratio s)) (d_virt_duration p s)) - e) <= e / 2 ^ 49.
Proof.
  intros W D T0. cbv zeta. destruct (remaining_within p s W) as (P & V & Dr). destruct (swing_within p s W) as (V' & Ds).
  apply (within_close (t + exact_remaining p s (d_default_timesteps p s))); [lra| |]; now apply sum_within.
Qed.

(** ** C192 *)

(** If the swings are not negligible beside the times (see C191), the feet of a new walk can be planned exactly when every part takes time: otherwise the
    splines of the yaws are given the same time twice. *)
Theorem C192_planned_partial p j supports t : to_plan j (w_base p) supports t -> is_double t -> Forall (walk_timings (w_base p)) supports -> walk_of_feet supports ->
  (forall q f, In q (j_parts j) -> u_footsteps (pt_support q) = [f] -> sound_swing (pt_start q) (d_virt_duration (w_base p) (pt_support q)) (w_rise_ratio p) 0) ->
  ((exists k, d_plan_feet_trajectories p j None = Ok k) <-> Forall takes_time (j_parts j)).
Proof.
  intros P D W (F & H) Sw. pose proof (plan_contiguous _ _ _ _ P D W) as C. pose proof (plan_feet_ok _ _ _ _ P F) as Fo. split.
  - intros (k & E). destruct (feet_inv p j None k _ E Fo C) as (K & G). pose proof K as (_ & _ & _ & _ & _ & _ & _ & K').
    apply Forall_forall. intros q Hq. apply In_nth_error in Hq as (i & Hq). destruct (Forall2_nth_l _ _ _ _ _ K' Hq) as (q' & Hq' & S1 & S2 & _).
    destruct (G i q' Hq') as (T & _). unfold takes_time. now rewrite <- S1, <- S2.
  - intros T. destruct supports as [|s r]; [destruct H|]. destruct H as (H2 & St). pose proof P as (_ & _ & E1 & E2 & E3).
    apply (d_feet_total p j true _ ) with (3 := C); auto.
    + destruct (plan_nth_l _ _ _ _ 0 s P W D eq_refl) as (q & Hq & _). destruct (j_parts j); [discriminate Hq|discriminate].
    + intros i q Hq. destruct (plan_nth _ _ _ _ _ _ P Hq) as (Hs & _). pose proof (nth_error_In _ _ Hq) as Iq. split; [now apply Fo|]. split; [rewrite Forall_forall in T; now apply T|].
      intros f Ef. split; [now apply (Sw q f)|]. destruct (feet_lands r s i _ f St Hs Ef) as [(sn & Hn & Sn) B].
      destruct i as [|i]. { cbn in Hs. injection Hs as Es. rewrite Es, Ef in H2. discriminate H2. }
      destruct (B i eq_refl) as (sp & Hp & Sp). destruct (plan_nth_l _ _ _ _ _ _ P W D Hn) as (qn & Hqn & <-). destruct (plan_nth_l _ _ _ _ _ _ P W D Hp) as (qp & Hqp & <-).
      exists i, qn, qp. auto.
Qed.
Print Assumptions C192_planned_partial.

(** Every part takes time if each support lasts at least 2^-51 of the end time. *)
Theorem C192_takes_time p j supports t : to_plan j p supports t -> 0 <= t -> is_double t -> Forall (walk_timings p) supports ->
  Forall (fun s => let d := exact_remaining p s (d_default_timesteps p s) in 0 < d /\ snd (d_parts p supports t) / 2 ^ 51 <= d) supports ->
  Forall takes_time (j_parts j).
Proof.
  intros P T0 D W L. apply Forall_forall. intros q Hq. apply In_nth_error in Hq as (i & Hq). destruct (plan_nth _ _ _ _ _ _ P Hq) as (Hs & Eq).
  destruct P as (_ & E & _). destruct (times_nth _ _ E i q Hq) as (q' & H' & Q1 & Q2 & Q3). pose proof (parts_tile p supports W t D) as K.
  pose proof (nth_error_In _ _ H') as I'. pose proof (nth_error_In _ _ Hs) as Is. rewrite Forall_forall in W, L. specialize (W _ Is). destruct (L _ Is) as (L0 & L1).
  assert (X : is_double (pt_start q) /\ 0 <= pt_start q <= snd (d_parts p supports t)).
  { destruct (d_parts p supports t) as (parts & te). cbn [fst snd] in *. destruct K as (C & U & Dd & _ & _). rewrite Forall_forall in Dd. destruct (Dd _ I') as (D1 & D2). rewrite Q1. split; [exact D1|].
    clear -C U H' T0. revert t i T0 C H'. induction parts as [|a l IH]; intros t i T0 C H; [destruct i; discriminate H|]. inversion U as [|? ? Ua Ul]; subst. destruct C as (C1 & C2).
    assert (G : forall l a b, contiguous a l b -> Forall (fun q => pt_start q <= pt_end q) l -> a <= b).
    { clear. induction l as [|x l IH]; intros a b C U; [cbn in C; lra|]. inversion U as [|? ? U1 U2]; subst. destruct C as (C1 & C2). specialize (IH _ _ C2 U2). lra. }
    destruct i as [|i]; cbn in H; [injection H as <-; specialize (G _ _ _ C2 Ul); lra|]. apply (IH Ul (pt_end a) i); auto. lra. }
  destruct X as (Dq & B0 & B1). destruct (remaining_within p _ W) as (Pq & V & Dr). unfold takes_time. rewrite Eq. destruct V as (V & _). fold unit_error in V. pose proof half_pow as HP.
  assert (H2 : / 2 * exact_remaining p (pt_support q) (d_default_timesteps p (pt_support q)) <= d_remaining_duration p (pt_support q)) by nra.
  apply add_strict; auto; [lra|]. assert (pt_start q / 2 ^ 52 = / 2 * (pt_start q / 2 ^ 51)) as -> by field.
  apply Rle_trans with (/ 2 * (snd (d_parts p supports t) / 2 ^ 51)); [|lra]. apply Rmult_le_compat_l; [lra|]. unfold Rdiv. apply Rmult_le_compat_r; [apply Rlt_le, Rinv_0_lt_compat, pow_lt; lra|lra].
Qed.
Print Assumptions C192_takes_time.

(** In any planned walk, first or replanned, every part takes time and the foot in the air leaves at the start of its part. It is at rest at the target, which is its place
    in the next support, at the very double at which the part ends, if the support is not begun; for the first part, also if its time ratio is 1. The swing of
    a begun first part ends with it up to 2^-49, in relative value. *)
Theorem C192_lands_partial p j supports t old k : to_plan j (w_base p) supports t -> is_double t -> Forall (walk_timings (w_base p)) supports -> (forall s, In s supports -> feet_ok s) ->
  d_plan_feet_trajectories p j old = Ok k ->
  let times q := (pt_start q, pt_end q, pt_support q) in
  map times (j_parts k) = map times (j_parts j) /\ Forall takes_time (j_parts k) /\
  forall i q f, nth_error (j_parts k) i = Some q -> u_footsteps (pt_support q) = [f] ->
    exists next T b, nth_error (j_parts k) (S i) = Some next /\ footstep_frame (pt_support next) (other_side (f_side f)) = Ok T /\ goes (pt_swing q) (pt_start q) b (fr_t T) /\
      (u_elapsed_ratio (pt_support q) = 0 \/ (i = 0%nat /\ u_time_ratio (pt_support q) = 1) -> b = pt_end q) /\
      (0 <= t -> i = 0%nat -> Rabs (b - pt_end q) <= pt_end q / 2 ^ 49).
Proof.
  intros P D W F E times. pose proof (plan_contiguous _ _ _ _ P D W) as C. pose proof (plan_feet_ok _ _ _ _ P F) as Fo. destruct (feet_inv p j old k _ E Fo C) as (K & G).
  destruct K as (_ & _ & _ & _ & _ & _ & _ & K). split.
  { clear -K. induction K as [|x y l m (S1 & S2 & S3 & _) _ IH]; [reflexivity|]. cbn [map]. rewrite IH. unfold times. now rewrite S1, S2, S3. }
  split; [apply Forall_forall; intros q Hq; apply In_nth_error in Hq as (i & Hq); apply (G i q Hq)|].
  intros i q f Hq Ef. destruct (G i q Hq) as (_ & Sw). destruct (Sw f Ef) as (nx & T & Hn & HT & Go). rewrite Nat.add_1_r in Hn.
  exists nx, T. eexists. split; [exact Hn|]. split; [exact HT|]. split; [exact Go|]. destruct (Forall2_nth _ _ _ _ _ K Hq) as (q0 & Hq0 & S1 & S2 & S3 & _).
  destruct (plan_nth _ _ _ _ _ _ P Hq0) as (Hs & Eq). rewrite S2, Eq, <- S1, <- S3.
  assert (Wq : walk_timings (w_base p) (pt_support q)) by (rewrite Forall_forall in W; apply W; rewrite S3; eapply nth_error_In; eauto).
  split.
  2:{ intros T0 ->. cbv beta iota. apply lands_close; [exact Wq| |].
      - rewrite S1. rewrite (plan_first _ _ _ _ _ P Hq0). exact D.
      - rewrite S1. rewrite (plan_first _ _ _ _ _ P Hq0). exact T0. }
  intros H. f_equal. destruct i as [|i]; [apply lands_in_time; [exact Wq|tauto]|]. destruct H as [H|(H & _)]; [|discriminate]. pose proof (lands_in_time _ _ Wq (or_introl H)) as X. now rewrite H in X.
Qed.
Print Assumptions C192_lands_partial.

(** Otherwise the trajectory of the foot may end after the part: here for a step of 0.7 s, slowed down by 1.2 and replanned after an eighth of it. *)
Definition ex_slow : params := Params (6305039478318694 / 2 ^ 53) 10 0 0 1 1 1 1 1 1 1 1.
Definition ex_begun : support := Support [] 0 (/ 8) (5404319552844595 / 2 ^ 52) (0, 0) false false [] false.

Lemma amount_val n k : (Z.abs n < 2 ^ 53)%Z -> (k <= 60)%nat -> / 2 ^ 60 <= IZR n / 2 ^ k -> amount (IZR n / 2 ^ k).
Proof.
  intros N K H. split.
  - exists n, (- Z.of_nat k)%Z. split; [|split; [exact N|lia]]. rewrite <- bpow_power, bpow_inv. reflexivity.
  - right. apply Rle_trans with (2 := H). apply Rinv_le_contravar; [apply pow_lt; lra|apply Rle_pow; [lra|lia]].
Qed.
Lemma is_eighth : is_double (/ 8).
Proof. exists 1%Z, (-3)%Z. split; [|split; lia]. change (-3)%Z with (- Z.of_nat 3)%Z. rewrite <- bpow_power, bpow_inv. lra. Qed.
Lemma is_quarter : is_double (/ 4).
Proof. exists 1%Z, (-2)%Z. split; [|split; lia]. change (-2)%Z with (- Z.of_nat 2)%Z. rewrite <- bpow_power, bpow_inv. lra. Qed.

Theorem C192_late_behaviour start target v h : double (7 / 10) = p_single_support_duration ex_slow /\ double (12 / 10) = u_time_ratio ex_begun /\ walk_timings ex_slow ex_begun /\
  exists w b, d_make_cswing 0 (d_virt_duration ex_slow ex_begun) h (/ 4) start target (u_elapsed_ratio ex_begun) v = Ok w /\ goes w 0 b target /\ snd (d_parts ex_slow [ex_begun] 0) < b.
Proof.
  split; [cbn [ex_slow p_single_support_duration]; at_double 53%nat 6305039478318694%Z; reflexivity|]. split; [cbn [ex_begun u_time_ratio]; at_double 52%nat 5404319552844595%Z; reflexivity|]. split.
  { unfold walk_timings. cbn [ex_slow ex_begun p_single_support_duration p_single_support_timesteps u_elapsed_ratio u_time_ratio]. split; [apply (amount_val 6305039478318694 53); [lia|lia|lra]|]. split; [lia|].
    split; [cbn; lia|]. split; [exact is_eighth|]. split; [lra|]. apply (amount_val 5404319552844595 52); [lia|lia|lra]. }
  assert (V : d_virt_duration ex_slow ex_begun = 7566047373982433 / 2 ^ 53).
  { unfold d_virt_duration, d_default_duration, is_both. cbn [ex_slow ex_begun u_footsteps length Nat.eqb p_single_support_duration u_time_ratio]. unfold d_mul. at_double 53%nat 7566047373982433%Z. reflexivity. }
  assert (Q : d_sub 1 (/ 8) = 7 / 8).
  { unfold d_sub. rewrite (double_at _ 53%nat 7881299347898368%Z); [|lia|lra|apply Rabs_def1; lra]. lra. }
  assert (Rm : d_remaining_duration ex_slow ex_begun = 6620291452234628 / 2 ^ 53).
  { unfold d_remaining_duration, d_default_duration, is_both. cbn [ex_slow ex_begun u_footsteps length Nat.eqb p_single_support_duration u_time_ratio u_elapsed_ratio]. rewrite Q. unfold d_mul at 2.
    at_double 53%nat 5516909543528857%Z. unfold d_mul. at_double 53%nat 6620291452234628%Z. reflexivity. }
  assert (Sw : sound_swing 0 (d_virt_duration ex_slow ex_begun) (/ 4) (u_elapsed_ratio ex_begun)).
  { rewrite V. cbn [ex_begun u_elapsed_ratio]. split; [apply is_double_0|]. destruct (amount_val 7566047373982433 53 ltac:(lia) ltac:(lia) ltac:(lra)) as (A & [B|B]); [lra|]. split; [exact A|]. split; [exact is_quarter|]. split; [exact is_eighth|].
    split; [exact B|]. rewrite Rabs_R0. cbv zeta. repeat split; lra. }
  destruct (C191_partial 0 _ h (/ 4) start target _ v Sw) as (w & _ & _ & Ew & _). exists w. eexists. split; [exact Ew|]. split; [exact (swing_goes _ _ _ _ _ _ _ _ _ Ew)|].
  cbn [d_parts fst snd]. rewrite Rm, V. cbn [ex_begun u_elapsed_ratio]. rewrite Q.
  assert (d_mul (7 / 8) (7566047373982433 / 2 ^ 53) = 6620291452234629 / 2 ^ 53) as -> by (unfold d_mul; at_double 53%nat 6620291452234629%Z; reflexivity).
  unfold d_add. rewrite !Rplus_0_l.
  assert (double (6620291452234628 / 2 ^ 53) = 6620291452234628 / 2 ^ 53) as -> by (at_double 53%nat 6620291452234628%Z; reflexivity).
  assert (double (6620291452234629 / 2 ^ 53) = 6620291452234629 / 2 ^ 53) as -> by (at_double 53%nat 6620291452234629%Z; reflexivity).
  lra.
Qed.
Print Assumptions C192_late_behaviour.

(** ** A walk of one step, with supports of 1 s *)
Definition ex_pace : params := Params 1 1 1 1 1 1 1 1 1 1 1 1.
Definition ex_foot (sd : side) : footstep := create_footstep ex_pace sd frame_id.
Definition ex_walk : list support := [new_support [ex_foot Left; ex_foot Right]; new_support [ex_foot Left]; new_support [ex_foot Right; ex_foot Left]].
Definition ex_wparams : wparams := WParams ex_pace 1 0 (1 / 10) (/ 4) 0 1 0 0 [] [].
Definition ex_to_plan (t : R) : wtraj :=
  WTraj t (snd (d_parts ex_pace ex_walk t)) (fst (d_parts ex_pace ex_walk t)) 1 0 0 true (new_spline true) (new_spline true) (new_spline true) frame_id.

Lemma ex_to_plan_ok t : to_plan (ex_to_plan t) ex_pace ex_walk t.
Proof. repeat split. Qed.
Lemma ex_walk_feet : walk_of_feet ex_walk.
Proof.
  split.
  - intros s [ <- | [ <- | [ <- | [] ] ] ]; [right; exists (ex_foot Left), (ex_foot Right); now split|left; now exists (ex_foot Left)|right; exists (ex_foot Right), (ex_foot Left); now split].
  - cbn [ex_walk steps_follow]. split; [reflexivity|]. repeat split; intros f E; cbn in E; try discriminate E; injection E as <-; exists (ex_foot Right); split; cbn; auto.
Qed.
Lemma double_1 : double 1 = 1.
Proof. apply double_id, is_double_1. Qed.
Lemma ex_steps s : In s ex_walk -> d_default_timesteps ex_pace s = 1%Z.
Proof.
  intros H. assert (X : Footsteps_model.round (d_mul 1 (IZR 1)) = 1%Z).
  { unfold d_mul. rewrite Rmult_1_l, double_1. unfold Footsteps_model.round. destruct (Rle_dec 0 1); [|lra]. assert (up (1 + / 2) = 2%Z) as ->; [|reflexivity]. symmetry. apply tech_up; lra. }
  destruct H as [ <- | [ <- | [ <- | [] ] ] ]; unfold d_default_timesteps; cbn; [exact X|reflexivity|exact X].
Qed.
Lemma ex_timings : Forall (walk_timings ex_pace) ex_walk.
Proof.
  apply Forall_forall. intros s H. pose proof (ex_steps s H) as E. pose proof amount_1 as A. unfold walk_timings. rewrite E. cbn [ex_pace p_single_support_duration p_single_support_timesteps].
  split; [exact A|]. split; [lia|]. split; [lia|]. destruct H as [ <- | [ <- | [ <- | [] ] ] ]; cbn [new_support u_elapsed_ratio u_time_ratio]; (split; [apply is_double_0|]; split; [lra|exact A]).
Qed.
Lemma ex_virt s : In s ex_walk -> d_default_duration ex_pace s = 1 /\ d_virt_duration ex_pace s = 1 /\ d_remaining_duration ex_pace s = 1 /\ exact_remaining ex_pace s (d_default_timesteps ex_pace s) = 1.
Proof.
  intros H. pose proof (ex_steps s H) as E. assert (X : d_default_duration ex_pace s = 1).
  { unfold d_default_duration. rewrite E. destruct (is_both s); [|reflexivity]. unfold d_dt, d_mul, d_div. cbn [ex_pace p_single_support_duration p_single_support_timesteps]. replace (1 / 1) with 1 by lra. now rewrite Rmult_1_l, !double_1. }
  unfold d_virt_duration, d_remaining_duration. rewrite X. unfold exact_remaining. rewrite E.
  assert (u_elapsed_ratio s = 0 /\ u_time_ratio s = 1) as (-> & ->) by (destruct H as [ <- | [ <- | [ <- | [] ] ] ]; now split).
  unfold d_mul, d_sub. rewrite !Rminus_0_r, !Rmult_1_r, !double_1. repeat split; auto. cbn [ex_pace p_single_support_duration p_single_support_timesteps]. destruct (is_both s); lra.
Qed.
Lemma ex_parts : fst (d_parts ex_pace ex_walk 0) = (let none := CSwing (new_spline false) (new_spline false) (new_spline false) in
  [Part 0 1 (new_support [ex_foot Left; ex_foot Right]) None none; Part 1 2 (new_support [ex_foot Left]) None none; Part 2 3 (new_support [ex_foot Right; ex_foot Left]) None none]) /\
  snd (d_parts ex_pace ex_walk 0) = 3.
Proof.
  assert (H : forall s, In s ex_walk -> d_remaining_duration ex_pace s = 1) by (intros s Hs; apply (ex_virt s Hs)). cbn [ex_walk d_parts].
  rewrite !H by (cbn; auto). unfold d_add.
  assert (double (0 + 1) = 1) as -> by (rewrite Rplus_0_l; apply double_1). assert (double (1 + 1) = 2) as -> by (replace (1 + 1) with (IZR 2) by lra; apply double_id, is_double_int; lia).
  assert (double (2 + 1) = 3) as -> by (replace (2 + 1) with (IZR 3) by lra; apply double_id, is_double_int; lia). split; reflexivity.
Qed.

Example C192_example : let j := ex_to_plan 0 in
  to_plan j ex_pace ex_walk 0 /\ Forall (walk_timings ex_pace) ex_walk /\ walk_of_feet ex_walk /\
  (forall q f, In q (j_parts j) -> u_footsteps (pt_support q) = [f] -> sound_swing (pt_start q) (d_virt_duration ex_pace (pt_support q)) (w_rise_ratio ex_wparams) 0) /\
  Forall (fun s => let d := exact_remaining ex_pace s (d_default_timesteps ex_pace s) in 0 < d /\ snd (d_parts ex_pace ex_walk 0) / 2 ^ 51 <= d) ex_walk /\
  exists k, d_plan_feet_trajectories ex_wparams j None = Ok k.
Proof.
  cbv zeta. split; [apply ex_to_plan_ok|]. split; [exact ex_timings|]. split; [exact ex_walk_feet|]. destruct ex_parts as (E & E3).
  assert (Sw : forall q f, In q (j_parts (ex_to_plan 0)) -> u_footsteps (pt_support q) = [f] -> sound_swing (pt_start q) (d_virt_duration ex_pace (pt_support q)) (w_rise_ratio ex_wparams) 0).
  { intros q f Hq Hf. cbn [ex_to_plan j_parts] in Hq. rewrite E in Hq. cbv zeta in Hq. destruct Hq as [ <- | [ <- | [ <- | [] ] ] ]; try discriminate Hf. cbn [pt_start pt_support].
    destruct (ex_virt (new_support [ex_foot Left]) ltac:(cbn; auto)) as (_ & -> & _). cbn [ex_wparams w_rise_ratio]. split; [apply is_double_1|]. split; [apply is_double_1|]. split; [exact is_quarter|]. split; [apply is_double_0|].
    destruct amount_1 as (_ & [A|A]); [lra|]. split; [exact A|]. rewrite (Rabs_right 1) by lra. cbv zeta. repeat split; lra. }
  assert (L : Forall (fun s => let d := exact_remaining ex_pace s (d_default_timesteps ex_pace s) in 0 < d /\ snd (d_parts ex_pace ex_walk 0) / 2 ^ 51 <= d) ex_walk).
  { apply Forall_forall. intros s Hs. destruct (ex_virt s Hs) as (_ & _ & _ & ->). rewrite E3. cbv zeta. lra. }
  split; [exact Sw|]. split; [exact L|].
  apply (C192_planned_partial ex_wparams (ex_to_plan 0) ex_walk 0 (ex_to_plan_ok 0) is_double_0 ex_timings ex_walk_feet Sw).
  exact (C192_takes_time ex_pace (ex_to_plan 0) ex_walk 0 (ex_to_plan_ok 0) (Rle_refl 0) is_double_0 ex_timings L).
Qed.

Lemma lost_second : d_add (2 ^ 60) 1 = 2 ^ 60.
Proof.
  unfold d_add. rewrite (double_near _ 61 (2 ^ 52)).
  - change (bpow radix2 (61 - 53)) with (IZR 256). change (2 ^ 52)%Z with 4503599627370496%Z. lra.
  - change (bpow radix2 (61 - 1)) with (IZR 1152921504606846976). change (bpow radix2 61) with (IZR 2305843009213693952). lra.
  - lia.
  - change (bpow radix2 (53 - 61)) with (/ IZR 256). change (2 ^ 52)%Z with 4503599627370496%Z. apply Rabs_def1; lra.
Qed.

(** The same walk cannot be planned at the time 2^60, at which its supports are lost in the rounding. *)
Theorem C192_refuted : ~ (forall p j supports t, to_plan j (w_base p) supports t -> is_double t -> Forall (walk_timings (w_base p)) supports -> walk_of_feet supports -> w_rise_ratio p < 1 ->
  Forall (fun s => 0 < exact_remaining (w_base p) s (d_default_timesteps (w_base p) s)) supports -> exists k, d_plan_feet_trajectories p j None = Ok k).
Proof.
  intros H. assert (B : is_double (2 ^ 60)). { exists 1%Z, 60%Z. split; [|split; lia]. rewrite <- bpow_power. cbn. lra. }
  pose proof lost_second as LS. revert B LS. generalize (2 ^ 60). intros late B LS.
  destruct (H ex_wparams (ex_to_plan late) ex_walk late (ex_to_plan_ok _) B ex_timings ex_walk_feet) as (k & E).
  - cbn [ex_wparams w_rise_ratio]. lra.
  - apply Forall_forall. intros s Hs. cbn [w_base ex_wparams]. destruct (ex_virt s Hs) as (_ & _ & _ & ->). lra.
  - destruct (C192_lands_partial ex_wparams (ex_to_plan late) ex_walk late None k (ex_to_plan_ok _) B ex_timings (proj1 ex_walk_feet) E) as (M & T & _).
    destruct (ex_virt (new_support [ex_foot Left; ex_foot Right]) ltac:(cbn; auto)) as (_ & _ & Rm & _).
    cbn [ex_to_plan j_parts ex_walk d_parts] in M. rewrite Rm in M. cbn [fst map] in M.
    destruct (j_parts k) as [|q l]; [discriminate M|]. cbn [map] in M. injection M as M1 M2 _. cbn [pt_start pt_end] in M1, M2. pose proof (Forall_inv T) as Tq. cbv beta in Tq. unfold takes_time in Tq. rewrite M1, M2 in Tq.
    rewrite LS in Tq. lra.
Qed.
Print Assumptions C192_refuted.
