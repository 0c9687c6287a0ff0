(** Proofs about the alignment of two sets of points. *)
From Coq Require Import Reals Lra Lia List ZArith Bool String.
From Verif Require Import Base Linalg Mexp Angle Geom3 Tools_model Tools_proofs Geometry_model Geometry_spec Geometry_proofs.
Import ListNotations.
Open Scope R_scope.

Lemma trace_cyclic a b : m3_trace (m3_mul a b) = m3_trace (m3_mul b a).
Proof. unfold m3_trace. m3. ring. Qed.

Lemma orthogonal_diag m : orthogonal m -> m00 m <= 1 /\ m11 m <= 1 /\ m22 m <= 1.
Proof.
  unfold orthogonal. m3. intros H. injection H as H0 _ _ _ H1 _ _ _ H2. repeat split; nra.
Qed.

Definition m3_opp (a : mat3) : mat3 := M3 (- m00 a) (- m01 a) (- m02 a) (- m10 a) (- m11 a) (- m12 a) (- m20 a) (- m21 a) (- m22 a).

Lemma rotation_opp m : orthogonal m -> m3_det m = -1 -> rotation (m3_opp m).
Proof.
  intros H D. split.
  - unfold orthogonal. rewrite <- H. unfold m3_opp. apply M3_ext; m3; ring.
  - transitivity (- m3_det m); [unfold m3_det, m3_opp; m3; ring|rewrite D; ring].
Qed.

Lemma improper_bound m s1 s2 s3 : orthogonal m -> m3_det m = -1 -> s1 >= s2 -> s2 >= s3 -> s3 >= 0 ->
  s1 * m00 m + s2 * m11 m + s3 * m22 m <= s1 + s2 - s3.
Proof.
  intros H D H1 H2 H3. pose proof (quat_of_represents _ (rotation_opp m H D)) as R.
  set (q := quat_of (m3_opp m)) in *. destruct R as (W & X & Y & Z & _). unfold m3_opp in *. cbn [m00 m11 m22] in *.
  destruct q as [w x y z]. cbn [qw qx qy qz] in *.
  (* 1 - m00 = 2 (w^2 + x^2), 1 - m11 = 2 (w^2 + y^2), 1 + m22 = 2 (x^2 + y^2) *)
  assert (A : 1 - m00 m = 2 * (w * w + x * x)) by lra. assert (B : 1 - m11 m = 2 * (w * w + y * y)) by lra.
  assert (C : 1 + m22 m = 2 * (x * x + y * y)) by lra.
  assert (G : 0 <= s1 * (1 - m00 m) + s2 * (1 - m11 m) - s3 * (1 + m22 m)); [|lra].
  rewrite A, B, C. pose proof (Rle_0_sqr w). pose proof (Rle_0_sqr x). pose proof (Rle_0_sqr y). unfold Rsqr in *.
  set (ww := w * w) in *. set (xx := x * x) in *. set (yy := y * y) in *.
  replace (s1 * (2 * (ww + xx)) + s2 * (2 * (ww + yy)) - s3 * (2 * (xx + yy)))
    with (2 * ((s1 + s2) * ww + (s1 - s3) * xx + (s2 - s3) * yy)) by ring.
  assert (0 <= (s1 + s2) * ww) by (apply Rmult_le_pos; lra). assert (0 <= (s1 - s3) * xx) by (apply Rmult_le_pos; lra).
  assert (0 <= (s2 - s3) * yy) by (apply Rmult_le_pos; lra). lra.
Qed.

Lemma proper_bound m s1 s2 s3 : orthogonal m -> s1 >= s2 -> s2 >= s3 -> s3 >= 0 ->
  s1 * m00 m + s2 * m11 m + s3 * m22 m <= s1 + s2 + s3.
Proof. intros H H1 H2 H3. destruct (orthogonal_diag m H) as (A & B & C). nra. Qed.

(** The rotation chosen by the code. *)
Definition best_rotation (u v : mat3) : mat3 :=
  let r := m3_mul v (m3_t u) in
  if Rlt_dec (m3_det r) 0 then m3_mul (m3_mul v (M3 1 0 0 0 1 0 0 0 (-1))) (m3_t u) else r.

Lemma best_rotation_rotation u v : orthogonal u -> orthogonal v -> rotation (best_rotation u v).
Proof.
  intros U V. unfold best_rotation. rewrite m3_det_mul, m3_det_t.
  assert (Z : orthogonal (M3 1 0 0 0 1 0 0 0 (-1))) by (unfold orthogonal; apply M3_ext; m3; ring).
  destruct (orthogonal_det u U) as [Du|Du], (orthogonal_det v V) as [Dv|Dv]; rewrite Du, Dv; destruct (Rlt_dec _ 0); try lra; split.
  all: try (repeat apply orthogonal_mul; try assumption; now apply orthogonal_t).
  all: rewrite !m3_det_mul, m3_det_t, Du, Dv; try (unfold m3_det; cbn [m00 m01 m02 m10 m11 m12 m20 m21 m22]); ring.
Qed.

Lemma best_rotation_trace h u v q : is_svd h u v -> rotation q ->
  m3_trace (m3_mul q h) <= m3_trace (m3_mul (best_rotation u v) h).
Proof.
  intros (U & V & s1 & s2 & s3 & H1 & H2 & H3 & ->) [Q DQ]. set (S := M3 s1 0 0 0 s2 0 0 0 s3).
  assert (E : forall r, m3_trace (m3_mul r (m3_mul (m3_mul u S) (m3_t v))) = m3_trace (m3_mul (m3_mul (m3_t v) (m3_mul r u)) S)).
  { intros r. rewrite <- !m3_mul_assoc. rewrite trace_cyclic. rewrite <- !m3_mul_assoc. reflexivity. }
  assert (D : forall m, m3_trace (m3_mul m S) = s1 * m00 m + s2 * m11 m + s3 * m22 m) by (intros m; unfold m3_trace, S; m3; ring).
  rewrite !E, !D. set (m := m3_mul (m3_t v) (m3_mul q u)).
  assert (M : orthogonal m) by (unfold m; repeat apply orthogonal_mul; try assumption; now apply orthogonal_t).
  assert (DM : m3_det m = m3_det v * m3_det u) by (unfold m; rewrite !m3_det_mul, m3_det_t, DQ; ring).
  unfold best_rotation. rewrite m3_det_mul, m3_det_t. rewrite <- DM.
  destruct (Rlt_dec (m3_det m) 0) as [N|N].
  - assert (B : m3_mul (m3_t v) (m3_mul (m3_mul (m3_mul v (M3 1 0 0 0 1 0 0 0 (-1))) (m3_t u)) u) = M3 1 0 0 0 1 0 0 0 (-1)).
    { rewrite !m3_mul_assoc, U, m3_mul_id_r, <- m3_mul_assoc, V. apply m3_mul_id_l. }
    rewrite B. cbn [m00 m11 m22]. assert (m3_det m = -1) by (destruct (orthogonal_det m M); lra).
    pose proof (improper_bound m s1 s2 s3 M ltac:(assumption) H1 H2 H3). lra.
  - assert (B : m3_mul (m3_t v) (m3_mul (m3_mul v (m3_t u)) u) = m3_id).
    { rewrite m3_mul_assoc, U, m3_mul_id_r. exact V. }
    rewrite B. cbn [m00 m11 m22 m3_id]. pose proof (proper_bound m s1 s2 s3 M H1 H2 H3). lra.
Qed.

(** ** The cost *)
Section Cost.
Variables (a b : mat).
Hypothesis Hrows : mrows a = mrows b.
Hypothesis Hpos : (0 < mrows a)%nat.

Let n := mrows a.
Let ca i := v3_sub (row3 a i) (barycenter a).
Let cb i := v3_sub (row3 b i) (barycenter b).

Lemma centered_zero (m : mat) : (0 < mrows m)%nat -> let c i := v3_sub (row3 m i) (barycenter m) in
  Rsum (mrows m) (fun i => vx (c i)) = 0 /\ Rsum (mrows m) (fun i => vy (c i)) = 0 /\ Rsum (mrows m) (fun i => vz (c i)) = 0.
Proof.
  intros H. assert (P : INR (mrows m) <> 0) by (apply not_0_INR; lia).
  cbv zeta. unfold v3_sub, barycenter. cbn [vx vy vz]. rewrite !Rsum_minus, !Rsum_const. repeat split; field; exact P.
Qed.

Lemma cost_expand q t : orthogonal q ->
  let delta := v3_sub (v3_sub (barycenter a) (m3_vec q (barycenter b))) t in
  alignment_cost n (row3 a) (row3 b) (Frame q t) =
  (Rsum n (fun i => v3_dot (ca i) (ca i)) + Rsum n (fun i => v3_dot (cb i) (cb i))) - 2 * m3_trace (m3_mul q (covariance a b))
  + INR n * v3_dot delta delta.
Proof.
  intros Q delta. unfold alignment_cost.
  assert (P : forall i, (i < n)%nat -> distance2 (row3 a i) (frame_act (Frame q t) (row3 b i)) =
     (v3_dot (ca i) (ca i) + v3_dot (cb i) (cb i)) - 2 * v3_dot (ca i) (m3_vec q (cb i))
     + (2 * v3_dot delta (v3_sub (ca i) (m3_vec q (cb i))) + v3_dot delta delta)).
  { intros i _. rewrite <- (orthogonal_dot q (cb i) (cb i) Q).
    unfold distance2, frame_act. cbn [fr_R fr_t].
    assert (E : v3_sub (row3 a i) (v3_add (m3_vec q (row3 b i)) t) = v3_add (v3_sub (ca i) (m3_vec q (cb i))) delta).
    { unfold ca, cb, delta. apply V3_ext; m3; ring. }
    rewrite E. unfold v3_dot. m3. ring. }
  rewrite (Rsum_ext _ _ _ P). rewrite !Rsum_plus, Rsum_minus, !Rsum_plus, Rsum_const.
  assert (T : Rsum n (fun i => 2 * v3_dot (ca i) (m3_vec q (cb i))) = 2 * m3_trace (m3_mul q (covariance a b))).
  { rewrite Rsum_scal_l. f_equal. unfold m3_trace, covariance. m3. fold n.
    rewrite <- !Rsum_scal_l, <- !Rsum_plus. apply Rsum_ext. intros i _. unfold v3_dot, ca, cb. m3. ring. }
  assert (Z : Rsum n (fun i => 2 * v3_dot delta (v3_sub (ca i) (m3_vec q (cb i)))) = 0).
  { destruct (centered_zero a Hpos) as (A1 & A2 & A3). destruct (centered_zero b ltac:(rewrite <- Hrows; exact Hpos)) as (B1 & B2 & B3).
    fold n in A1, A2, A3. rewrite <- Hrows in B1, B2, B3. fold n in B1, B2, B3.
    transitivity (2 * vx delta * (Rsum n (fun i => vx (ca i)) - (m00 q * Rsum n (fun i => vx (cb i)) + m01 q * Rsum n (fun i => vy (cb i)) + m02 q * Rsum n (fun i => vz (cb i))))
      + 2 * vy delta * (Rsum n (fun i => vy (ca i)) - (m10 q * Rsum n (fun i => vx (cb i)) + m11 q * Rsum n (fun i => vy (cb i)) + m12 q * Rsum n (fun i => vz (cb i))))
      + 2 * vz delta * (Rsum n (fun i => vz (ca i)) - (m20 q * Rsum n (fun i => vx (cb i)) + m21 q * Rsum n (fun i => vy (cb i)) + m22 q * Rsum n (fun i => vz (cb i))))).
    - rewrite <- !Rsum_scal_l, <- !Rsum_plus, <- !Rsum_minus, <- !Rsum_scal_l, <- !Rsum_plus. apply Rsum_ext. intros i _. unfold v3_dot. m3. ring.
    - unfold ca, cb. rewrite A1, A2, A3, B1, B2, B3. ring. }
  rewrite T, Z. ring.
Qed.
End Cost.

Lemma v3_dot_nonneg v : 0 <= v3_dot v v.
Proof.
  unfold v3_dot. pose proof (Rle_0_sqr (vx v)). pose proof (Rle_0_sqr (vy v)). pose proof (Rle_0_sqr (vz v)). unfold Rsqr in *. lra.
Qed.

Lemma distance2_nonneg p q : 0 <= distance2 p q.
Proof. apply v3_dot_nonneg. Qed.

Lemma distance2_0 p q : distance2 p q = 0 -> p = q.
Proof.
  intros H. destruct (classic_v3 (v3_sub p q)) as [E|E].
  - apply V3_ext; unfold v3_sub, v3_zero in E; injection E; intros; lra.
  - apply v3_dot_pos in E. unfold distance2 in H. lra.
Qed.

Lemma optimal_transformation_result svd a b : mcols a = 3%nat -> mcols b = 3%nat -> mrows a = mrows b -> (3 <= mrows a)%nat ->
  optimal_transformation svd a b =
  (let (u, v) := svd (covariance a b) in
   let r := best_rotation u v in Ok (Frame r (v3_sub (barycenter a) (m3_vec r (barycenter b))))).
Proof.
  intros A B R N. unfold optimal_transformation. rewrite A, B. cbn [Nat.eqb negb orb]. rewrite R, Nat.eqb_refl. cbn [negb].
  destruct (Nat.ltb_spec (mrows b) 3); [lia|]. destruct (svd (covariance a b)) as [u v]. reflexivity.
Qed.
