(** std::atan2 over the reals, and angles modulo a full turn. *)
From Coq Require Import Reals Lra Lia ZArith.
Open Scope R_scope.

(** std::atan2 (C++ standard library). Signed zeros are not modelled: atan2(-0., x) is taken as atan2(0., x). *)
Definition atan2 (y x : R) : R :=
  if Rlt_dec 0 x then atan (y / x)
  else if Rlt_dec x 0 then (if Rle_dec 0 y then atan (y / x) + PI else atan (y / x) - PI)
  else if Rlt_dec 0 y then PI / 2 else if Rlt_dec y 0 then - (PI / 2) else 0.

(** [same_angle a b]: the angles differ by a whole number of turns. *)
Definition same_angle (a b : R) : Prop := exists k : Z, a = b + IZR k * (2 * PI).

Lemma atan2_range y x : - PI < atan2 y x <= PI.
Proof.
  unfold atan2. pose proof PI_RGT_0 as HP. pose proof (atan_bound (y / x)) as HA.
  destruct (Rlt_dec 0 x); [lra|]. destruct (Rlt_dec x 0) as [Hx|Hx].
  - destruct (Rle_dec 0 y) as [Hy|Hy].
    + assert (atan (y / x) <= 0); [|lra].
      assert (y / x <= 0) as [H|H].
      { unfold Rdiv. assert (/ x < 0) by now apply Rinv_lt_0_compat. nra. }
      * rewrite <- atan_0. left. now apply atan_increasing.
      * rewrite H, atan_0. lra.
    + assert (0 < atan (y / x)); [|lra]. rewrite <- atan_0. apply atan_increasing.
      unfold Rdiv. assert (/ x < 0) by now apply Rinv_lt_0_compat. nra.
  - destruct (Rlt_dec 0 y); [lra|]. destruct (Rlt_dec y 0); lra.
Qed.

Lemma cos_atan_div y x : 0 < x -> cos (atan (y / x)) = x / sqrt (x * x + y * y) /\ sin (atan (y / x)) = y / sqrt (x * x + y * y).
Proof.
  intros Hx. rewrite cos_atan, sin_atan.
  assert (E : sqrt (1 + (y / x)²) = sqrt (x * x + y * y) / x).
  { replace (1 + (y / x)²) with ((x * x + y * y) / (x * x)) by (unfold Rsqr; field; lra).
    rewrite sqrt_div_alt by nra. f_equal. now apply sqrt_square, Rlt_le. }
  assert (Hs : 0 < sqrt (x * x + y * y)) by (apply sqrt_lt_R0; nra).
  rewrite E. split; field; lra.
Qed.

(** The direction of atan2(y, x) is that of (x, y). *)
Lemma atan2_polar y x : (x <> 0 \/ y <> 0) ->
  cos (atan2 y x) = x / sqrt (x * x + y * y) /\ sin (atan2 y x) = y / sqrt (x * x + y * y).
Proof.
  intros Hn. unfold atan2. destruct (Rlt_dec 0 x) as [Hx|Hx]; [now apply cos_atan_div|].
  destruct (Rlt_dec x 0) as [Hx'|Hx'].
  - assert (G : cos (atan (y / x)) = - x / sqrt (x * x + y * y) /\ sin (atan (y / x)) = - y / sqrt (x * x + y * y)).
    { replace (y / x) with ((- y) / (- x)) by (field; lra). destruct (cos_atan_div (- y) (- x) ltac:(lra)) as [G1 G2].
      replace (- x * - x + - y * - y) with (x * x + y * y) in G1, G2 by ring. now split. }
    destruct G as [G1 G2].
    assert (Hs : 0 < sqrt (x * x + y * y)) by (apply sqrt_lt_R0; nra).
    destruct (Rle_dec 0 y).
    + rewrite neg_cos, neg_sin, G1, G2. split; field; lra.
    + unfold Rminus. rewrite cos_plus, sin_plus, cos_neg, sin_neg, cos_PI, sin_PI, G1, G2. split; field; lra.
  - assert (x = 0) by lra. subst x. destruct (Rlt_dec 0 y) as [Hy|Hy].
    + rewrite cos_PI2, sin_PI2. replace (0 * 0 + y * y) with (y * y) by ring. rewrite sqrt_square by lra. split; field; lra.
    + destruct (Rlt_dec y 0) as [Hy'|Hy'].
      * rewrite cos_neg, sin_neg, cos_PI2, sin_PI2. replace (0 * 0 + y * y) with (- y * - y) by ring.
        rewrite sqrt_square by lra. split; field; lra.
      * exfalso. destruct Hn; lra.
Qed.

Lemma same_angle_refl a : same_angle a a.
Proof. exists 0%Z. simpl. ring. Qed.

Lemma same_angle_sym a b : same_angle a b -> same_angle b a.
Proof. intros [k ->]. exists (- k)%Z. rewrite opp_IZR. ring. Qed.

Lemma same_angle_trans a b c : same_angle a b -> same_angle b c -> same_angle a c.
Proof. intros [k ->] [l ->]. exists (k + l)%Z. rewrite plus_IZR. ring. Qed.

Lemma same_angle_add a b c : same_angle a b -> same_angle (c + a) (c + b).
Proof. intros [k ->]. exists k. ring. Qed.

Lemma cos_sin_turns_nat a n : cos (a + INR n * (2 * PI)) = cos a /\ sin (a + INR n * (2 * PI)) = sin a.
Proof.
  replace (a + INR n * (2 * PI)) with (a + 2 * INR n * PI) by ring. split; [apply cos_period|apply sin_period].
Qed.

Lemma same_angle_cos_sin a b : same_angle a b -> cos a = cos b /\ sin a = sin b.
Proof.
  intros [k ->]. destruct (Z_le_dec 0 k) as [H|H].
  - rewrite <- (Z2Nat.id k H), <- INR_IZR_INZ. apply cos_sin_turns_nat.
  - set (n := Z.to_nat (- k)). assert (E : b = (b + IZR k * (2 * PI)) + INR n * (2 * PI)).
    { unfold n. rewrite INR_IZR_INZ, Z2Nat.id, opp_IZR by lia. ring. }
    set (c := b + IZR k * (2 * PI)) in *. rewrite E. destruct (cos_sin_turns_nat c n). now split.
Qed.

Lemma cos_sin_same_angle a b : cos a = cos b -> sin a = sin b -> same_angle a b.
Proof.
  intros Hc Hs.
  assert (S0 : sin (a - b) = 0) by (rewrite sin_minus, Hc, Hs; ring).
  assert (C1 : cos (a - b) = 1) by (rewrite cos_minus, Hc, Hs; pose proof (sin2_cos2 b) as G; unfold Rsqr in G; lra).
  destruct (sin_eq_0_0 _ S0) as [k Hk].
  destruct (Z.Even_or_Odd k) as [[j Hj]|[j Hj]].
  - exists j. replace a with (b + (a - b)) by ring. rewrite Hk, Hj, mult_IZR. ring.
  - exfalso. assert (E : cos (a - b) = -1); [|lra].
    assert (G : same_angle (a - b) PI). { exists j. rewrite Hk, Hj, plus_IZR, mult_IZR. ring. }
    rewrite (proj1 (same_angle_cos_sin _ _ G)). apply cos_PI.
Qed.

Lemma same_angle_unique a b : - PI < a <= PI -> - PI < b <= PI -> same_angle a b -> a = b.
Proof.
  intros Ha Hb [k Hk]. pose proof PI_RGT_0 as HP. assert (k = 0%Z); [|subst k; lra].
  assert (- 1 < IZR k < 1).
  { split; apply Rmult_lt_reg_r with (2 * PI); lra. }
  destruct H as [H1 H2]. apply lt_IZR in H1, H2. lia.
Qed.

Lemma atan2_unique y x a : (x <> 0 \/ y <> 0) -> - PI < a <= PI ->
  cos a * sqrt (x * x + y * y) = x -> sin a * sqrt (x * x + y * y) = y -> atan2 y x = a.
Proof.
  intros Hn Ha Hc Hs. apply same_angle_unique; [apply atan2_range|exact Ha|].
  assert (H : 0 < sqrt (x * x + y * y)).
  { apply sqrt_lt_R0. destruct Hn as [G|G]; apply Rsqr_pos_lt in G; unfold Rsqr in G;
      [pose proof (Rle_0_sqr y) as P|pose proof (Rle_0_sqr x) as P]; unfold Rsqr in P; lra. }
  destruct (atan2_polar y x Hn) as [G1 G2]. apply cos_sin_same_angle.
  - rewrite G1. rewrite <- Hc at 1. field. lra.
  - rewrite G2. rewrite <- Hs at 1. field. lra.
Qed.

(** Scaling both arguments by a positive factor does not change the angle. *)
Lemma atan2_scale r y x : 0 < r -> atan2 (r * y) (r * x) = atan2 y x.
Proof.
  intros Hr. destruct (Req_dec x 0) as [->|Hx].
  - destruct (Req_dec y 0) as [->|Hy]; [now rewrite !Rmult_0_r|].
    unfold atan2. rewrite Rmult_0_r. destruct (Rlt_dec 0 0); [lra|]. clear n.
    destruct (Rlt_dec 0 (r * y)), (Rlt_dec 0 y), (Rlt_dec (r * y) 0), (Rlt_dec y 0); try reflexivity; exfalso; nra.
  - apply atan2_unique.
    + left. intros E. apply Rmult_integral in E. lra.
    + apply atan2_range.
    + replace (r * x * (r * x) + r * y * (r * y)) with ((r * r) * (x * x + y * y)) by ring.
      rewrite sqrt_mult_alt, sqrt_square by nra.
      rewrite (proj1 (atan2_polar y x (or_introl Hx))). field. apply Rgt_not_eq, sqrt_lt_R0.
      apply Rsqr_pos_lt in Hx. unfold Rsqr in Hx. nra.
    + replace (r * x * (r * x) + r * y * (r * y)) with ((r * r) * (x * x + y * y)) by ring.
      rewrite sqrt_mult_alt, sqrt_square by nra.
      rewrite (proj2 (atan2_polar y x (or_introl Hx))). field. apply Rgt_not_eq, sqrt_lt_R0.
      apply Rsqr_pos_lt in Hx. unfold Rsqr in Hx. nra.
Qed.

Lemma atan2_cos_sin a : - PI < a <= PI -> atan2 (sin a) (cos a) = a.
Proof.
  intros Ha. assert (E : cos a * cos a + sin a * sin a = 1) by (pose proof (sin2_cos2 a) as G; unfold Rsqr in G; lra).
  apply atan2_unique; [|exact Ha| |]; try (rewrite E, sqrt_1; ring).
  destruct (Req_dec (cos a) 0) as [Hc|Hc]; [|now left]. right. intros Hs. rewrite Hc, Hs in E. lra.
Qed.

Lemma atan2_same_angle a : same_angle (atan2 (sin a) (cos a)) a.
Proof.
  assert (E : cos a * cos a + sin a * sin a = 1) by (pose proof (sin2_cos2 a) as G; unfold Rsqr in G; lra).
  assert (Hn : cos a <> 0 \/ sin a <> 0).
  { destruct (Req_dec (cos a) 0) as [Hc|Hc]; [|now left]. right. intros Hs. rewrite Hc, Hs in E. lra. }
  destruct (atan2_polar _ _ Hn) as [G1 G2]. rewrite E, sqrt_1 in G1, G2.
  apply cos_sin_same_angle; lra.
Qed.
