(** Theorems about the limits of a joint in the solves of KinematicsSolver with doubles: C193. *)
From Coq Require Import Reals ZArith List Bool Lia Lra.
From Flocq Require Import Core Sterbenz.
From Verif Require Import Base Doubles_model Doubles_spec Doubles_proofs DoublesClip_props DoublesSwing_proofs DoublesLimits_model DoublesLimits_spec DoublesLimits_proofs.
Import ListNotations.
Open Scope R_scope.

#[local] Instance prec53 : Prec_gt_0 53 := eq_refl.

(** However many solves are applied, the joint stays within its limits up to 2^-51 of its range and three times the tolerance of the back-end: the errors do not add up. *)
Theorem C193_history_partial velocity_limits dt j tolerance q0 q : sound_joint j -> is_double q0 -> 0 <= tolerance -> dj_lower j <= q0 <= dj_upper j ->
  moves true velocity_limits dt j tolerance q0 q -> between j ((dj_upper j - dj_lower j) / 2 ^ 51 + 3 * tolerance) q.
Proof. intros S D T B. apply moves_between; [exact S|exact D|exact T|unfold between; lra]. Qed.
Print Assumptions C193_history_partial.

(** A solve without tolerance keeps exactly to a limit that is not far from the position, relatively: between half of it and twice. *)
Theorem C193_near_partial velocity_limits dt j q rows delta : sound_joint j -> is_double q -> d_limits true velocity_limits dt j q = Ok rows -> satisfies 0 rows delta ->
  let near l := (q / 2 <= l <= 2 * q) \/ (2 * q <= l <= q / 2) in
  (near (dj_upper j) -> d_apply q delta <= dj_upper j) /\ (near (dj_lower j) -> dj_lower j <= d_apply q delta).
Proof.
  intros (L & U & _) Q E S near. apply (satisfies_iff _ _ _ _ _ _ _ _ Q U L E) in S as (S & _). specialize (S eq_refl).
  assert (N : forall l, is_double l -> near l -> is_double (l - q)).
  { intros l Dl [H|H]; apply is_double_format.
    - apply sterbenz; auto with typeclass_instances; now apply is_double_format.
    - replace (l - q) with (- (- l - - q)) by ring. apply generic_format_opp. apply sterbenz; auto with typeclass_instances; [apply is_double_format, is_double_opp, Dl|apply is_double_format, is_double_opp, Q|lra]. }
  split; intros H.
  - apply at_limit; [exact Q|exact U|now apply N|lra].
  - pose proof (at_limit (- q) (- dj_lower j) (- delta) (is_double_opp _ Q) (is_double_opp _ L)) as X.
    replace (- dj_lower j - - q) with (- (dj_lower j - q)) in X by ring. specialize (X (is_double_opp _ (N _ L H))).
    assert (S1 : d_sub (- dj_lower j) (- q) = d_sub q (dj_lower j)) by (unfold d_sub; f_equal; ring). rewrite S1 in X. specialize (X ltac:(lra)).
    assert (S2 : d_apply (- q) (- delta) = - d_apply q delta) by (unfold d_apply, d_add; rewrite <- double_opp; f_equal; ring). rewrite S2 in X. lra.
Qed.
Print Assumptions C193_near_partial.

(** Wherever these solves bring the joint, its limits can be satisfied in the next one, without tolerance, if in one solve the joint may move by more than the rounding. *)
Theorem C193_satisfiable velocity_limits dt j tolerance q0 q rows : sound_joint j -> is_double q0 -> 0 <= tolerance -> dj_lower j <= q0 <= dj_upper j ->
  moves true velocity_limits dt j tolerance q0 q -> d_limits true velocity_limits dt j q = Ok rows ->
  (velocity_limits = true -> (dj_upper j - dj_lower j) / 2 ^ 50 + 6 * tolerance <= d_mul dt (dj_velocity j)) ->
  exists delta, is_double delta /\ satisfies 0 rows delta.
Proof.
  intros J D T B M E V. pose proof J as (L & U & O). pose proof (moves_double _ _ _ _ _ _ _ D M) as Q. destruct (C193_history_partial _ _ _ _ _ _ J D T B M) as (B1 & B2).
  set (m := (dj_upper j - dj_lower j) / 2 ^ 51 + 3 * tolerance) in *. assert (m0 : 0 <= m) by (unfold m; lra).
  assert (V' : velocity_limits = true -> 2 * m <= d_mul dt (dj_velocity j)) by (intros H; specialize (V H); unfold m; lra). clear V.
  pose proof (sub_error _ _ U Q) as EU. pose proof (sub_error _ _ Q L) as EL. apply Rabs_le_inv in EU. apply Rabs_le_inv in EL. unfold unit_error in *.
  destruct (Rlt_dec (dj_upper j) q) as [H|H]; [|destruct (Rlt_dec q (dj_lower j)) as [H'|H']].
  - exists (d_sub (dj_upper j) q). split; [apply double_is|]. apply (satisfies_iff _ _ _ _ _ _ _ _ Q U L E). rewrite (Rabs_left (dj_upper j - q)) in EU by lra. split; intros W.
    + split; [|lra]. assert (X : d_sub (dj_lower j) q <= d_sub (dj_upper j) q) by (apply double_le; lra).
      assert (Y : d_sub (dj_lower j) q = - d_sub q (dj_lower j)) by (unfold d_sub; rewrite <- double_opp; f_equal; ring). lra.
    + specialize (V' W). lra.
  - exists (- d_sub q (dj_lower j)). split; [apply is_double_opp, double_is|]. apply (satisfies_iff _ _ _ _ _ _ _ _ Q U L E). rewrite (Rabs_left (q - dj_lower j)) in EL by lra. split; intros W.
    + split; [lra|]. assert (X : d_sub (dj_lower j) q <= d_sub (dj_upper j) q) by (apply double_le; lra).
      assert (Y : d_sub (dj_lower j) q = - d_sub q (dj_lower j)) by (unfold d_sub; rewrite <- double_opp; f_equal; ring). lra.
    + specialize (V' W). lra.
  - exists 0. split; [apply is_double_0|]. apply (satisfies_iff _ _ _ _ _ _ _ _ Q U L E).
    assert (0 <= d_sub (dj_upper j) q) by (apply double_pos; lra). assert (0 <= d_sub q (dj_lower j)) by (apply double_pos; lra). split; intros W; [lra|]. specialize (V' W). lra.
Qed.
Print Assumptions C193_satisfiable.

(** With velocity limits, the speed written in the state exceeds the limit by at most this: the rounding of the position, divided by dt, counts. *)
Theorem C193_speed_partial joint_limits dt j tolerance q rows delta : sound_joint j -> is_double q -> amount dt -> amount (dj_velocity j) -> 0 <= tolerance -> is_double delta ->
  d_limits joint_limits true dt j q = Ok rows -> satisfies tolerance rows delta ->
  Rabs (d_speed q (d_apply q delta) dt) <= (1 + / 2 ^ 50) * (dj_velocity j + (tolerance + Rabs q / 2 ^ 53) / dt) + / 2 ^ 1075.
Proof.
  intros (L & U & _) Q At Av T Dd E S. pose proof (limits_rows _ _ _ _ _ _ Q U L E) as (Nz & _). specialize (Nz eq_refl).
  apply (satisfies_iff _ _ _ _ _ _ _ _ Q U L E) in S as (_ & S). specialize (S eq_refl).
  assert (P : 0 < dt). { destruct At as (_ & [A|A]); [lra|]. assert (0 < / 2 ^ 100) by (apply Rinv_0_lt_compat, pow_lt; lra). lra. }
  assert (v0 : 0 <= dj_velocity j) by exact (big_pos _ _ (amount_big _ Av)). set (v := dj_velocity j) in *.
  assert (W : within 1 (dt * v) (d_mul dt v)) by (apply (double_within _ 200); [lia|]; exact (big_mul 100 100 _ _ (amount_big _ At) (amount_big _ Av))).
  destruct W as (_ & W). rewrite pow_1 in W. assert (p0 : 0 <= dt * v) by nra.
  assert (Ad : Rabs delta <= (1 + / 2 ^ 53) * (dt * v) + tolerance) by (apply Rabs_le; lra).
  pose proof (sub_error q (- delta) Q (is_double_opp _ Dd)) as E1. replace (q - - delta) with (q + delta) in E1 by ring.
  assert (Ea : d_sub q (- delta) = d_apply q delta) by (unfold d_sub, d_apply, d_add; f_equal; ring). rewrite Ea in E1. set (q' := d_apply q delta) in *.
  pose proof (Rabs_triang q delta) as Tr. pose proof (Rabs_pos q). pose proof (Rabs_pos delta).
  assert (A1 : Rabs (q' - q) <= Rabs delta + unit_error * (Rabs q + Rabs delta)).
  { replace (q' - q) with (q' - (q + delta) + delta) by ring. refine (Rle_trans _ _ _ (Rabs_triang _ _) _). assert (unit_error * Rabs (q + delta) <= unit_error * (Rabs q + Rabs delta)) by (apply Rmult_le_compat_l; [pose proof unit_bounds; lra|exact Tr]). lra. }
  pose proof (sub_error q' q (double_is _) Q) as E2. set (d := d_sub q' q) in *.
  assert (A2 : Rabs d <= (1 + unit_error) * Rabs (q' - q)). { replace d with (d - (q' - q) + (q' - q)) by ring. refine (Rle_trans _ _ _ (Rabs_triang _ _) _). lra. }
  pose proof (double_error (d / dt)) as E3. unfold d_speed, d_div. fold d.
  assert (A3 : Rabs (double (d / dt)) <= (1 + unit_error) * Rabs (d / dt) + / 2 ^ 1075).
  { replace (double (d / dt)) with (double (d / dt) - d / dt + d / dt) by ring. refine (Rle_trans _ _ _ (Rabs_triang _ _) _). lra. }
  assert (A4 : Rabs (d / dt) = Rabs d / dt) by (unfold Rdiv; rewrite Rabs_mult, (Rabs_right (/ dt)); [reflexivity|left; now apply Rinv_0_lt_compat]).
  rewrite A4 in A3. refine (Rle_trans _ _ _ A3 _). apply Rplus_le_compat_r.
  assert (A5 : Rabs d <= (1 + / 2 ^ 51) * (dt * v + (tolerance + Rabs q / 2 ^ 53))) by (unfold unit_error in *; lra).
  assert (G : forall g a c, g * (a + c / dt) = g * (dt * a + c) * / dt) by (intros; field; lra). rewrite G.
  unfold Rdiv at 1. rewrite <- Rmult_assoc. apply Rmult_le_compat_r; [left; now apply Rinv_0_lt_compat|]. unfold unit_error.
  assert (0 <= dt * v + (tolerance + Rabs q / 2 ^ 53)) by lra. lra.
Qed.
Print Assumptions C193_speed_partial.

(** ** A joint from -1 to 0.1 *)
Definition ex_joint : d_joint := DJoint (-1) (7205759403792794 / 2 ^ 56) 1.
Lemma ex_joint_sound : double (1 / 10) = dj_upper ex_joint /\ sound_joint ex_joint.
Proof.
  assert (E : double (1 / 10) = dj_upper ex_joint) by (cbn [ex_joint dj_upper]; at_double 56%nat 7205759403792794%Z; reflexivity). split; [exact E|]. split; [|split].
  - apply (is_double_int (-1)). lia.
  - rewrite <- E. apply double_is.
  - cbn [ex_joint dj_lower dj_upper]. lra.
Qed.
Lemma ex_to_limit : d_sub (dj_upper ex_joint) (-1) = 4953959590107546 / 2 ^ 52.
Proof. unfold d_sub. cbn [ex_joint dj_upper]. at_double 52%nat 4953959590107546%Z. reflexivity. Qed.
Lemma ex_at_limit : d_apply (-1) (4953959590107546 / 2 ^ 52) = 7205759403792800 / 2 ^ 56.
Proof. unfold d_apply, d_add. at_double 56%nat 7205759403792800%Z. reflexivity. Qed.

Lemma ex_moves : moves true false 0 ex_joint 0 (-1) (7205759403792800 / 2 ^ 56).
Proof.
  destruct ex_joint_sound as (_ & L & U & O). assert (M1 : is_double (-1)) by (apply (is_double_int (-1)); lia). rewrite <- ex_at_limit.
  destruct (d_limits true false 0 ex_joint (-1)) as [rows| |] eqn:E; try discriminate E. apply (moves_solve _ _ _ _ _ _ (-1) rows); [constructor|exact E|rewrite <- ex_to_limit; apply double_is|].
  apply (satisfies_iff _ _ _ _ _ _ _ _ M1 U L E). rewrite ex_to_limit. split; [|discriminate]. intros _. cbn [ex_joint dj_lower]. assert (d_sub (-1) (-1) = 0) as -> by (unfold d_sub; rewrite Rminus_diag_eq by reflexivity; apply double_0). lra.
Qed.

(** It is sent beyond its upper limit by the rounding, though the constraints of the solve are satisfied. *)
Theorem C193_refuted : ~ (forall velocity_limits dt j q0 q, sound_joint j -> is_double q0 -> dj_lower j <= q0 <= dj_upper j -> moves true velocity_limits dt j 0 q0 q -> dj_lower j <= q <= dj_upper j).
Proof.
  intros H. destruct ex_joint_sound as (_ & J). specialize (H false 0 ex_joint (-1) _ J ltac:(apply (is_double_int (-1)); lia) ltac:(cbn [ex_joint dj_lower dj_upper]; lra) ex_moves).
  cbn [ex_joint dj_lower dj_upper] in H. lra.
Qed.
Print Assumptions C193_refuted.

(** There, the constraints of the next solve do not let it stay: if it is masked they can be satisfied only up to the tolerance. *)
Theorem C193_masked_behaviour : exists q rows, moves true false 0 ex_joint 0 (dj_lower ex_joint) q /\ d_limits true false 0 ex_joint q = Ok rows /\ ~ satisfies 0 rows 0 /\ satisfies (/ 2 ^ 53) rows 0.
Proof.
  destruct ex_joint_sound as (_ & L & U & O). pose proof ex_moves as M. set (q := 7205759403792800 / 2 ^ 56) in *. assert (Q : is_double q) by (unfold q; rewrite <- ex_at_limit; apply double_is).
  destruct (d_limits true false 0 ex_joint q) as [rows| |] eqn:E; try discriminate E. exists q, rows. split; [exact M|]. split; [exact E|].
  pose proof (sub_error _ _ U Q) as EU. pose proof (sub_error _ _ Q L) as EL. apply Rabs_le_inv in EU. apply Rabs_le_inv in EL. unfold unit_error in *.
  rewrite !(satisfies_iff _ _ _ _ _ _ _ _ Q U L E). unfold q in *. cbn [ex_joint dj_lower dj_upper] in *. rewrite Rabs_left in EU by lra. rewrite Rabs_right in EL by lra.
  split; [intros (X & _); specialize (X eq_refl); lra|]. split; [intros _; lra|discriminate].
Qed.
Print Assumptions C193_masked_behaviour.

(** With dt = 0.01 and a velocity limit of 1, a joint at 1 that moves by the limit has a speed over 1 in the state. *)
Definition ex_dt : R := 5764607523034235 / 2 ^ 59.
Definition ex_fast : d_joint := DJoint (-2) 2 1.
Lemma ex_fast_sound : sound_joint ex_fast.
Proof. split; [apply (is_double_int (-2)); lia|]. split; [apply (is_double_int 2); lia|]. cbn. lra. Qed.
Lemma ex_dt_val : double (1 / 100) = ex_dt.
Proof. unfold ex_dt. at_double 59%nat 5764607523034235%Z. reflexivity. Qed.
Lemma ex_dt_double : is_double ex_dt.
Proof. rewrite <- ex_dt_val. apply double_is. Qed.
Theorem C193_speed_behaviour : double (1 / 100) = ex_dt /\
  exists rows delta, d_limits true true ex_dt ex_fast 1 = Ok rows /\ is_double delta /\ satisfies 0 rows delta /\ dj_velocity ex_fast < d_speed 1 (d_apply 1 delta) ex_dt.
Proof.
  split; [exact ex_dt_val|]. destruct ex_fast_sound as (L & U & O). assert (V : d_mul ex_dt (dj_velocity ex_fast) = ex_dt) by (unfold d_mul; cbn [ex_fast dj_velocity]; rewrite Rmult_1_r; apply double_id, ex_dt_double).
  destruct (d_limits true true ex_dt ex_fast 1) as [rows| |] eqn:E; try (unfold d_limits in E; destruct (Req_EM_T ex_dt 0) as [Z0|]; [unfold ex_dt in Z0; lra|discriminate E]).
  exists rows, ex_dt. split; [reflexivity|]. split; [exact ex_dt_double|]. split.
  - apply (satisfies_iff _ _ _ _ _ _ _ _ is_double_1 U L E). rewrite V. cbn [ex_fast dj_lower dj_upper].
    assert (d_sub 2 1 = 1) as -> by (unfold d_sub; replace (2 - 1) with 1 by ring; apply double_id, is_double_1).
    assert (d_sub 1 (-2) = 3) as -> by (unfold d_sub; replace (1 - -2) with (IZR 3) by lra; apply double_id, is_double_int; lia). unfold ex_dt. split; intros _; lra.
  - assert (d_apply 1 ex_dt = 4548635623644201 / 2 ^ 52) as -> by (unfold d_apply, d_add, ex_dt; at_double 52%nat 4548635623644201%Z; reflexivity).
    unfold d_speed. assert (d_sub (4548635623644201 / 2 ^ 52) 1 = 5764607523034240 / 2 ^ 59) as -> by (unfold d_sub; at_double 59%nat 5764607523034240%Z; reflexivity).
    assert (Y : 5764607523034240 / 2 ^ 59 / ex_dt = 5764607523034240 / 5764607523034235) by (unfold ex_dt; field; lra).
    unfold d_div. rewrite Y. at_double 52%nat 4503599627370500%Z. cbn [ex_fast dj_velocity]. lra.
Qed.
Print Assumptions C193_speed_behaviour.

(** The joint of the example, with velocity limits, meets the hypotheses of C193_history_partial, C193_satisfiable and C193_speed_partial with a tolerance, and
    its upper limit is near in the sense of C193_near_partial (see C193_speed_behaviour for the displacement). *)
Example C193_example : sound_joint ex_fast /\ is_double 1 /\ dj_lower ex_fast <= 1 <= dj_upper ex_fast /\ 1 / 2 <= dj_upper ex_fast <= 2 * 1 /\ amount ex_dt /\ amount (dj_velocity ex_fast) /\
  (dj_upper ex_fast - dj_lower ex_fast) / 2 ^ 50 + 6 * / 2 ^ 40 <= d_mul ex_dt (dj_velocity ex_fast) /\ moves true true ex_dt ex_fast (/ 2 ^ 40) 1 (d_apply 1 ex_dt).
Proof.
  pose proof ex_fast_sound as (L & U & O). split; [exact ex_fast_sound|]. split; [exact is_double_1|]. split; [cbn; lra|]. split; [cbn; lra|].
  assert (V : d_mul ex_dt (dj_velocity ex_fast) = ex_dt) by (unfold d_mul; cbn [ex_fast dj_velocity]; rewrite Rmult_1_r; apply double_id, ex_dt_double).
  split; [split; [exact ex_dt_double|right; unfold ex_dt; lra]|]. split; [split; [exact is_double_1|right; cbn [ex_fast dj_velocity]; lra]|]. split; [rewrite V; cbn [ex_fast dj_lower dj_upper]; unfold ex_dt; lra|].
  destruct C193_speed_behaviour as (_ & rows & _ & E & _). apply (moves_solve _ _ _ _ _ _ 1 rows); [constructor|exact E|exact ex_dt_double|].
  apply (satisfies_iff _ _ _ _ _ _ _ _ is_double_1 U L E). rewrite V. cbn [ex_fast dj_lower dj_upper].
  assert (d_sub 2 1 = 1) as -> by (unfold d_sub; replace (2 - 1) with 1 by ring; apply double_id, is_double_1).
  assert (d_sub 1 (-2) = 3) as -> by (unfold d_sub; replace (1 - -2) with (IZR 3) by lra; apply double_id, is_double_int; lia). unfold ex_dt. split; intros _; lra.
Qed.
