(** Property C94, in terms of the angle between the two orientations: what is exact, what is not, and by how much. *)
From Coq Require Import Reals Lra Lia List ZArith Bool String.
From Verif Require Import Base Linalg Angle Geom3 Tools_model Tools_proofs Geometry_model Geometry_spec Geometry_proofs Geometry_props.
Import ListNotations.
Open Scope R_scope.

(** The cosine of half the angle is the product of the quaternions, up to the sign. *)
Lemma half_angle a b phi : rigid a -> rigid b -> 0 <= phi <= PI -> angle_between (fr_R a) (fr_R b) phi ->
  Rabs (quat_dot (quat_of (fr_R a)) (quat_of (fr_R b))) = cos (phi / 2).
Proof.
  intros A B H E. pose proof (C93_condition a b A B) as C. unfold angle_between in E. rewrite E in C.
  assert (P : 0 <= cos (phi / 2)) by (apply cos_ge_0; lra).
  replace phi with (2 * (phi / 2)) in C by field. rewrite cos_2a_cos in C.
  rewrite <- (Rabs_right (cos (phi / 2))) by lra. apply Rsqr_eq_abs_0. unfold Rsqr. lra.
Qed.

(** The turn is at constant rate, for every ratio, unless 1 - cos (phi / 2) is at most 2^-52. *)
Theorem C94_rate_partial a b phi t : rigid a -> rigid b -> 0 <= phi <= PI -> angle_between (fr_R a) (fr_R b) phi ->
  / IZR (2 ^ 52) < 1 - cos (phi / 2) ->
  angle_between (fr_R a) (fr_R (interpolate_frames a b t)) (t * phi) /\
  angle_between (fr_R (interpolate_frames a b t)) (fr_R b) ((1 - t) * phi).
Proof.
  intros A B H E L. pose proof (half_angle a b phi A B H E) as D.
  destruct (C94_constant_rate_partial a b t A B) as (psi & Hp & F & G); [rewrite D; unfold slerp_epsilon; lra|].
  assert (psi = phi) as ->; [|exact G]. unfold angle_between in E, F. apply cos_inj; try lra.
Qed.
Print Assumptions C94_rate_partial.

Lemma trace_product_any a q : unit_quat a ->
  m3_trace (m3_mul (m3_t (quat_matrix a)) (quat_matrix q)) =
  4 * (quat_dot a q * quat_dot a q) - quat_dot q q + (1 - quat_dot q q) * m3_trace (quat_matrix a).
Proof.
  intros A. rewrite (quat_matrix_homogeneous a A).
  transitivity (4 * (quat_dot a q * quat_dot a q) - quat_dot a a * quat_dot q q + (1 - quat_dot q q) * m3_trace (quat_matrix_h a));
    [|rewrite A; ring].
  destruct a as [w x y z], q as [w' x' y' z']. unfold quat_dot, m3_trace, quat_matrix_h, quat_matrix. m3. cbn [qw qx qy qz]. ring.
Qed.

(** Otherwise the trace, that should be 1 + 2 cos (t phi), is the following one, which depends on the orientation of [a];
    for ratios in [0, 1] it is at most 10 * 2^-52 away. *)
Theorem C94_near_behaviour a b phi t : rigid a -> rigid b -> 0 <= phi <= PI -> angle_between (fr_R a) (fr_R b) phi ->
  1 - cos (phi / 2) <= / IZR (2 ^ 52) ->
  let c := cos (phi / 2) in
  let n := 1 - 2 * t * (1 - t) * (1 - c) in
  let trace := m3_trace (m3_mul (m3_t (fr_R a)) (fr_R (interpolate_frames a b t))) in
  trace = 4 * (1 - t * (1 - c)) ^ 2 - n + (1 - n) * m3_trace (fr_R a) /\
  (0 <= t <= 1 -> Rabs (trace - (1 + 2 * cos (t * phi))) <= 10 * / IZR (2 ^ 52)).
Proof.
  intros A B H E L c n trace. pose proof (half_angle a b phi A B H E) as D. fold c in D.
  pose proof (quat_of_unit _ A) as UA. pose proof (quat_of_unit _ B) as UB. pose proof (quat_matrix_of _ A) as MA.
  fold c in L. fold slerp_epsilon in L. fold slerp_epsilon. pose proof slerp_epsilon_range as He.
  assert (T : trace = 4 * (1 - t * (1 - c)) ^ 2 - n + (1 - n) * m3_trace (fr_R a)).
  { unfold trace, interpolate_frames. cbn [fr_R]. set (qa := quat_of (fr_R a)) in *. set (qb := quat_of (fr_R b)) in *.
    rewrite <- MA. rewrite trace_product_any by exact UA. rewrite slerp_near by (rewrite D; lra).
    rewrite comb_dot_l, comb_dot, UA, UB. pose proof (hemi_abs (quat_dot qa qb)) as Hh. pose proof (hemi_sqr (quat_dot qa qb)) as Hq.
    rewrite D in Hh. set (h := hemi (quat_dot qa qb)) in *. set (d := quat_dot qa qb) in *.
    replace ((1 - t) * 1 + h * t * d) with (1 - t * (1 - c)) by (rewrite <- Hh; ring).
    replace ((1 - t) * (1 - t) * 1 + 2 * (1 - t) * (h * t) * d + h * t * (h * t) * 1) with n; [ring|].
    unfold n. rewrite <- Hh.
    transitivity ((1 - t) * (1 - t) + 2 * (1 - t) * t * (h * d) + t * t); [ring|].
    transitivity ((1 - t) * (1 - t) + 2 * (1 - t) * t * (h * d) + (h * h) * (t * t)); [rewrite Hq; ring|ring]. }
  split; [exact T|]. intros Ht. rewrite T.
  replace (t * phi) with (2 * (t * (phi / 2))) by field. rewrite cos_2a_cos. set (k := cos (t * (phi / 2))).
  assert (C1 : 0 <= c <= 1) by (split; [apply cos_ge_0; lra|apply COS_bound]).
  assert (K : c <= k <= 1).
  { split; [|apply COS_bound]. unfold c, k. apply cos_decr_1; try lra; try nra. }
  assert (W : -1 <= m3_trace (fr_R a) <= 3).
  { pose proof (quat_of_represents _ A) as (R & _). fold (unit_quat (quat_of (fr_R a))) in UA. unfold unit_quat, quat_dot in UA.
    set (q := quat_of (fr_R a)) in *. unfold m3_trace.
    pose proof (Rle_0_sqr (qw q)). pose proof (Rle_0_sqr (qx q)). pose proof (Rle_0_sqr (qy q)). pose proof (Rle_0_sqr (qz q)).
    unfold Rsqr in *. lra. }
  assert (U : 0 <= t * (1 - t) <= 1 / 4).
  { split; [apply Rmult_le_pos; lra|]. pose proof (Rle_0_sqr (t - 1 / 2)). unfold Rsqr in *. lra. }
  assert (N : 0 <= 1 - n <= slerp_epsilon / 2).
  { unfold n. replace (1 - (1 - 2 * t * (1 - t) * (1 - c))) with (2 * (t * (1 - t)) * (1 - c)) by ring.
    set (u := t * (1 - t)) in *. split; nra. }
  set (s := 1 - t * (1 - c)). assert (Hs : c <= s <= 1) by (unfold s; split; nra).
  set (e := slerp_epsilon) in *. set (w := m3_trace (fr_R a)) in *. set (m := 1 - n) in *.
  replace (4 * s ^ 2 - n + m * w - (1 + 2 * (2 * k * k - 1))) with (4 * ((s - k) * (s + k)) + m * (1 + w)) by (unfold m; ring).
  assert (P : - (2 * e) <= (s - k) * (s + k) <= 2 * e).
  { assert (X : - e <= s - k <= e) by lra. assert (Y : 0 <= s + k <= 2) by lra. clear - X Y He. split; nra. }
  assert (Q : 0 <= m * (1 + w) <= 2 * e) by (clear - N W He; split; nra).
  apply Rabs_le. lra.
Qed.
Print Assumptions C94_near_behaviour.

(** So the rate is not constant for the orientations that close: half way, the result is not at angle phi / 2. *)
Theorem C94_refuted : exists a b phi, rigid a /\ rigid b /\ 0 <= phi <= PI /\ angle_between (fr_R a) (fr_R b) phi /\
  ~ angle_between (fr_R a) (fr_R (interpolate_frames a b (1 / 2))) (1 / 2 * phi).
Proof.
  pose proof slerp_epsilon_range as He. set (theta := acos (1 - slerp_epsilon / 2)).
  assert (Hc : cos theta = 1 - slerp_epsilon / 2) by (apply cos_acos; lra).
  assert (Hb : 0 <= theta <= PI / 2).
  { pose proof (acos_bound (1 - slerp_epsilon / 2)) as X. fold theta in X. split; [lra|].
    destruct (Rle_lt_dec theta (PI / 2)) as [G|G]; [exact G|]. pose proof (cos_le_0 theta). lra. }
  exists frame_id, (planar 0 0 (2 * theta)), (2 * theta).
  assert (A : rigid frame_id) by apply rotation_id. assert (B : rigid (planar 0 0 (2 * theta))) by apply rotation_z.
  assert (E : angle_between (fr_R frame_id) (fr_R (planar 0 0 (2 * theta))) (2 * theta)).
  { unfold angle_between, planar, frame_id, rot_z, m3_trace, m3_id. cbn [fr_R]. m3. ring. }
  split; [exact A|]. split; [exact B|]. split; [lra|]. split; [exact E|]. intros F.
  destruct (C94_near_behaviour frame_id (planar 0 0 (2 * theta)) (2 * theta) (1 / 2) A B) as [T _]; try lra; [exact E| |].
  - replace (2 * theta / 2) with theta by field. rewrite Hc. unfold slerp_epsilon. fold slerp_epsilon. lra.
  - unfold angle_between in F. rewrite F in T. replace (2 * theta / 2) with theta in T by field.
    replace (1 / 2 * (2 * theta)) with theta in T by field. rewrite Hc in T.
    replace (m3_trace (fr_R frame_id)) with 3 in T by (unfold m3_trace, frame_id, m3_id; cbn; ring).
    set (e := slerp_epsilon) in *. assert (P : 0 < e * e) by nra. lra.
Qed.
Print Assumptions C94_refuted.

(** An angle of each kind. *)
Example C94_angles_example : / IZR (2 ^ 52) < 1 - cos (PI / 2 / 2) /\
  exists phi, 0 < phi <= PI /\ 1 - cos (phi / 2) <= / IZR (2 ^ 52) /\ angle_between (fr_R (planar 1 2 0)) (fr_R (planar 3 4 phi)) phi.
Proof.
  pose proof slerp_epsilon_range as He. fold slerp_epsilon. split.
  - replace (PI / 2 / 2) with (PI / 4) by field. rewrite cos_PI4.
    assert (S2 : sqrt 2 * sqrt 2 = 2) by (apply sqrt_sqrt; lra). pose proof (sqrt_lt_R0 2).
    assert (14 / 10 < sqrt 2) by nra. assert (1 / sqrt 2 < 10 / 14); [|lra].
    unfold Rdiv. apply Rmult_lt_reg_r with (sqrt 2); [lra|]. rewrite Rmult_assoc, Rinv_l by lra. lra.
  - set (theta := acos (1 - slerp_epsilon / 2)).
    assert (Hc : cos theta = 1 - slerp_epsilon / 2) by (apply cos_acos; lra).
    pose proof (acos_bound (1 - slerp_epsilon / 2)) as X. fold theta in X.
    assert (theta <= PI / 2).
    { destruct (Rle_lt_dec theta (PI / 2)) as [G|G]; [exact G|]. pose proof (cos_le_0 theta). lra. }
    assert (theta <> 0) by (intros Z; rewrite Z, cos_0 in Hc; lra).
    exists (2 * theta). split; [lra|]. replace (2 * theta / 2) with theta by field. split; [lra|].
    unfold angle_between, planar, rot_z, m3_trace. cbn [fr_R]. rewrite cos_0, sin_0. m3. ring.
Qed.
