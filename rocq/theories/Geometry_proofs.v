(** Proofs about the geometric helpers. *)
From Coq Require Import Reals Lra Lia List ZArith Bool String.
From Verif Require Import Base Linalg Angle Geom3 Tools_model Tools_proofs Geometry_model Geometry_spec.
Import ListNotations.
Open Scope R_scope.

(** ** Quaternions *)
Definition unit_quat (q : quat) : Prop := quat_dot q q = 1.

(** q represents m. *)
Definition represents (q : quat) (m : mat3) : Prop :=
  4 * (qw q * qw q) = 1 + m00 m + m11 m + m22 m /\ 4 * (qx q * qx q) = 1 + m00 m - m11 m - m22 m /\
  4 * (qy q * qy q) = 1 - m00 m + m11 m - m22 m /\ 4 * (qz q * qz q) = 1 - m00 m - m11 m + m22 m /\
  4 * (qx q * qy q) = m01 m + m10 m /\ 4 * (qx q * qz q) = m02 m + m20 m /\ 4 * (qy q * qz q) = m12 m + m21 m /\
  4 * (qw q * qx q) = m21 m - m12 m /\ 4 * (qw q * qy q) = m02 m - m20 m /\ 4 * (qw q * qz q) = m10 m - m01 m.

Lemma represents_matrix q m : represents q m -> quat_matrix q = m /\ unit_quat q.
Proof.
  destruct q as [w x y z]. unfold represents, unit_quat, quat_dot, quat_matrix. cbn [qw qx qy qz].
  intros (A & B & C & D & E & F & G & H & I & J). split; [|lra].
  apply M3_ext; cbn [m00 m01 m02 m10 m11 m12 m20 m21 m22]; lra.
Qed.

Lemma rotation_equations m : rotation m ->
  (m00 m * m00 m + m10 m * m10 m + m20 m * m20 m = 1 /\ m01 m * m01 m + m11 m * m11 m + m21 m * m21 m = 1 /\
   m02 m * m02 m + m12 m * m12 m + m22 m * m22 m = 1 /\ m00 m * m01 m + m10 m * m11 m + m20 m * m21 m = 0 /\
   m00 m * m02 m + m10 m * m12 m + m20 m * m22 m = 0 /\ m01 m * m02 m + m11 m * m12 m + m21 m * m22 m = 0) /\
  (m00 m * m00 m + m01 m * m01 m + m02 m * m02 m = 1 /\ m10 m * m10 m + m11 m * m11 m + m12 m * m12 m = 1 /\
   m20 m * m20 m + m21 m * m21 m + m22 m * m22 m = 1 /\ m00 m * m10 m + m01 m * m11 m + m02 m * m12 m = 0 /\
   m00 m * m20 m + m01 m * m21 m + m02 m * m22 m = 0 /\ m10 m * m20 m + m11 m * m21 m + m12 m * m22 m = 0) /\
  (m00 m = m11 m * m22 m - m12 m * m21 m /\ m10 m = m02 m * m21 m - m01 m * m22 m /\ m20 m = m01 m * m12 m - m02 m * m11 m /\
   m01 m = m12 m * m20 m - m10 m * m22 m /\ m11 m = m00 m * m22 m - m02 m * m20 m /\ m21 m = m02 m * m10 m - m00 m * m12 m /\
   m02 m = m10 m * m21 m - m11 m * m20 m /\ m12 m = m01 m * m20 m - m00 m * m21 m /\ m22 m = m00 m * m11 m - m01 m * m10 m).
Proof.
  intros H. pose proof (rotation_r m H) as HR. pose proof (orthogonal_adj m (proj1 H)) as HA. rewrite (proj2 H) in HA.
  destruct H as [HL _]. unfold orthogonal, m3_mul, m3_t, m3_id, m3_adj, m3_scale in *.
  cbn [m00 m01 m02 m10 m11 m12 m20 m21 m22] in *. rewrite !Rmult_1_l in HA.
  injection HL as L0 L1 L2 L3 L4 L5 L6 L7 L8. injection HR as R0 R1 R2 R3 R4 R5 R6 R7 R8. injection HA as A0 A1 A2 A3 A4 A5 A6 A7 A8.
  repeat match goal with |- _ /\ _ => split end; lra.
Qed.

(** The products of the entries a quaternion is made of. *)
Lemma rotation_products m : rotation m ->
  let w := 1 + m00 m + m11 m + m22 m in let x := 1 + m00 m - m11 m - m22 m in
  let y := 1 - m00 m + m11 m - m22 m in let z := 1 - m00 m - m11 m + m22 m in
  let wx := m21 m - m12 m in let wy := m02 m - m20 m in let wz := m10 m - m01 m in
  let xy := m01 m + m10 m in let xz := m02 m + m20 m in let yz := m12 m + m21 m in
  (wx * wx = w * x /\ wy * wy = w * y /\ wz * wz = w * z /\ xy * xy = x * y /\ xz * xz = x * z /\ yz * yz = y * z) /\
  (wx * wy = w * xy /\ wx * wz = w * xz /\ wy * wz = w * yz) /\
  (wx * xy = x * wy /\ wx * xz = x * wz /\ xy * xz = x * yz) /\
  (wy * xy = y * wx /\ wy * yz = y * wz /\ xy * yz = y * xz) /\
  (wz * xz = z * wx /\ wz * yz = z * wy /\ xz * yz = z * xy).
Proof.
  intros H. pose proof (rotation_equations m H) as E. clear H. destruct m as [a b c d e f g h i].
  cbn [m00 m01 m02 m10 m11 m12 m20 m21 m22] in *. cbv zeta.
  destruct E as ((L0 & L1 & L2 & L3 & L4 & L5) & (R0 & R1 & R2 & R3 & R4 & R5) & (A0 & A1 & A2 & A3 & A4 & A5 & A6 & A7 & A8)).
  repeat match goal with |- _ /\ _ => split end; lra.
Qed.

Lemma half_products n t p q : 0 < n -> t = sqrt n ->
  4 * ((1 / 2 * t) * (1 / 2 * t)) = n /\ 4 * ((1 / 2 * t) * (p * (1 / 2 / t))) = p /\ 4 * ((p * (1 / 2 / t)) * (1 / 2 * t)) = p /\
  forall r, p * q = n * r -> 4 * ((p * (1 / 2 / t)) * (q * (1 / 2 / t))) = r.
Proof.
  intros Hn ->. pose proof (sqrt_lt_R0 n Hn) as Hs. pose proof (sqrt_sqrt n ltac:(lra)) as E.
  split; [lra|]. split; [field; lra|]. split; [field; lra|].
  intros r H. replace (4 * (p * (1 / 2 / sqrt n) * (q * (1 / 2 / sqrt n)))) with (p * q / (sqrt n * sqrt n)) by (field; lra).
  rewrite E, H. field. lra.
Qed.

Lemma quat_of_represents m : rotation m -> represents (quat_of m) m.
Proof.
  intros H. pose proof (rotation_products m H) as P. cbv zeta in P.
  destruct P as ((P1 & P2 & P3 & P4 & P5 & P6) & (W1 & W2 & W3) & (X1 & X2 & X3) & (Y1 & Y2 & Y3) & (Z1 & Z2 & Z3)).
  unfold quat_of, m3_trace.
  assert (G : forall n, 0 < n -> forall p q, _) by (intros n Hn p q; exact (half_products n _ p q Hn eq_refl)).
  destruct (Rlt_dec 0 (m00 m + m11 m + m22 m)) as [Ht|Ht].
  - set (n := m00 m + m11 m + m22 m + 1). assert (Hn : 0 < n) by (unfold n; lra).
    specialize (G n Hn). unfold represents. cbn [qw qx qy qz].
    set (t := sqrt n) in *.
    repeat match goal with |- _ /\ _ => split end;
      first [ rewrite (proj1 (G 0 0)); unfold n; lra
            | rewrite (proj1 (proj2 (G _ 0))); lra
            | apply (proj2 (proj2 (proj2 (G _ _)))); unfold n; lra ].
  - assert (Hi : let i := if Rlt_dec (m00 m) (m11 m) then 1%nat else 0%nat in
      let i := if Rlt_dec (match i with 1%nat => m11 m | _ => m00 m end) (m22 m) then 2%nat else i in
      (i = 0%nat /\ m11 m <= m00 m /\ m22 m <= m00 m) \/ (i = 1%nat /\ m00 m <= m11 m /\ m22 m <= m11 m) \/
      (i = 2%nat /\ m00 m <= m22 m /\ m11 m <= m22 m)).
    { cbv zeta. destruct (Rlt_dec (m00 m) (m11 m)).
      - destruct (Rlt_dec (m11 m) (m22 m)); [right; right|right; left]; repeat split; lra.
      - destruct (Rlt_dec (m00 m) (m22 m)); [right; right|left]; repeat split; lra. }
    cbv zeta in Hi. destruct Hi as [(-> & I1 & I2)|[(-> & I1 & I2)|(-> & I1 & I2)]].
    + set (n := m00 m - m11 m - m22 m + 1). assert (Hn : 0 < n) by (unfold n; lra). specialize (G n Hn).
      unfold represents. cbn [qw qx qy qz]. set (t := sqrt n) in *.
      repeat match goal with |- _ /\ _ => split end;
      first [ rewrite (proj1 (G 0 0)); unfold n; lra
            | rewrite (proj1 (proj2 (G _ 0))); lra | rewrite (proj1 (proj2 (proj2 (G _ 0)))); lra
            | apply (proj2 (proj2 (proj2 (G _ _)))); unfold n; lra ].
    + set (n := m11 m - m22 m - m00 m + 1). assert (Hn : 0 < n) by (unfold n; lra). specialize (G n Hn).
      unfold represents. cbn [qw qx qy qz]. set (t := sqrt n) in *.
      repeat match goal with |- _ /\ _ => split end;
      first [ rewrite (proj1 (G 0 0)); unfold n; lra
            | rewrite (proj1 (proj2 (G _ 0))); lra | rewrite (proj1 (proj2 (proj2 (G _ 0)))); lra
            | apply (proj2 (proj2 (proj2 (G _ _)))); unfold n; lra ].
    + set (n := m22 m - m00 m - m11 m + 1). assert (Hn : 0 < n) by (unfold n; lra). specialize (G n Hn).
      unfold represents. cbn [qw qx qy qz]. set (t := sqrt n) in *.
      repeat match goal with |- _ /\ _ => split end;
      first [ rewrite (proj1 (G 0 0)); unfold n; lra
            | rewrite (proj1 (proj2 (G _ 0))); lra | rewrite (proj1 (proj2 (proj2 (G _ 0)))); lra
            | apply (proj2 (proj2 (proj2 (G _ _)))); unfold n; lra ].
Qed.

Lemma quat_matrix_of m : rotation m -> quat_matrix (quat_of m) = m.
Proof. intros H. apply represents_matrix. now apply quat_of_represents. Qed.
Lemma quat_of_unit m : rotation m -> unit_quat (quat_of m).
Proof. intros H. apply (represents_matrix _ m). now apply quat_of_represents. Qed.

(** The converse: the matrix of a unit quaternion is a rotation. In general, the defect is proportional to n - 1. *)
Definition quat_vec (q : quat) : vec3 := V3 (qx q) (qy q) (qz q).

Lemma quat_matrix_defect q :
  let n := quat_dot q q in let v := quat_vec q in
  m3_mul (m3_t (quat_matrix q)) (quat_matrix q) =
  (let k := 4 * (1 - n) in let l := v3_dot v v in
   M3 (1 + k * (vx v * vx v - l)) (k * (vx v * vy v)) (k * (vx v * vz v)) (k * (vx v * vy v)) (1 + k * (vy v * vy v - l)) (k * (vy v * vz v))
      (k * (vx v * vz v)) (k * (vy v * vz v)) (1 + k * (vz v * vz v - l))) /\
  m3_det (quat_matrix q) = 1 + 4 * (n - 1) * v3_dot v v.
Proof.
  cbv zeta. destruct q as [w x y z]. split.
  - apply M3_ext; unfold quat_dot, quat_matrix, quat_vec, v3_dot; m3; cbn [qw qx qy qz]; ring.
  - unfold m3_det, quat_dot, quat_matrix, quat_vec, v3_dot; m3; cbn [qw qx qy qz]; ring.
Qed.

Lemma quat_matrix_rotation q : unit_quat q -> rotation (quat_matrix q).
Proof.
  unfold unit_quat. intros H. destruct (quat_matrix_defect q) as [E F]. rewrite H in *. split.
  - unfold orthogonal. rewrite E. apply M3_ext; m3; ring.
  - rewrite F. ring.
Qed.

Lemma quat_matrix_opp k a l b : quat_matrix (quat_comb k a l b) = quat_matrix (quat_comb (- k) a (- l) b).
Proof. unfold quat_matrix, quat_comb. cbn [qw qx qy qz]. apply M3_ext; m3; ring. Qed.

(** ** Slerp *)
Lemma unit_dot_bound a b : unit_quat a -> unit_quat b -> Rabs (quat_dot a b) <= 1.
Proof.
  unfold unit_quat. intros A B. 
  assert (P : 0 <= quat_dot (quat_comb 1 a 1 b) (quat_comb 1 a 1 b)) by (unfold quat_dot; nra).
  assert (M : 0 <= quat_dot (quat_comb 1 a (-1) b) (quat_comb 1 a (-1) b)) by (unfold quat_dot; nra).
  assert (E : forall k l, quat_dot (quat_comb k a l b) (quat_comb k a l b) = k * k * quat_dot a a + 2 * k * l * quat_dot a b + l * l * quat_dot b b).
  { intros. unfold quat_dot, quat_comb. cbn [qw qx qy qz]. ring. }
  rewrite E, A, B in P, M. apply Rabs_le. lra.
Qed.

Lemma comb_dot k a l b : quat_dot (quat_comb k a l b) (quat_comb k a l b) = k * k * quat_dot a a + 2 * k * l * quat_dot a b + l * l * quat_dot b b.
Proof. unfold quat_dot, quat_comb. cbn [qw qx qy qz]. ring. Qed.

Lemma comb_dot_l a k l b : quat_dot a (quat_comb k a l b) = k * quat_dot a a + l * quat_dot a b.
Proof. unfold quat_dot, quat_comb. cbn [qw qx qy qz]. ring. Qed.

Lemma slerp_epsilon_range : 0 < slerp_epsilon < 1 / 1000.
Proof.
  unfold slerp_epsilon. assert (H : 1000 < IZR (2 ^ 52)) by (apply IZR_lt; reflexivity).
  split; [apply Rinv_0_lt_compat; lra|]. apply Rmult_lt_reg_r with (IZR (2 ^ 52)); [lra|]. rewrite Rinv_l; lra.
Qed.

(** The sign that makes the two quaternions of the same hemisphere. *)
Definition hemi (d : R) : R := if Rlt_dec d 0 then -1 else 1.
Lemma hemi_abs d : hemi d * d = Rabs d.
Proof. unfold hemi. destruct (Rlt_dec d 0); [rewrite Rabs_left|rewrite Rabs_right]; lra. Qed.
Lemma hemi_sqr d : hemi d * hemi d = 1.
Proof. unfold hemi. destruct (Rlt_dec d 0); lra. Qed.

Lemma slerp_near a t b : 1 - slerp_epsilon <= Rabs (quat_dot a b) -> slerp a t b = quat_comb (1 - t) a (hemi (quat_dot a b) * t) b.
Proof.
  intros H. unfold slerp, hemi. destruct (Rle_dec _ _) as [_|N]; [|contradiction].
  destruct (Rlt_dec _ 0); f_equal; ring.
Qed.

Lemma slerp_far a t b : Rabs (quat_dot a b) < 1 - slerp_epsilon ->
  let theta := acos (Rabs (quat_dot a b)) in
  slerp a t b = quat_comb (sin ((1 - t) * theta) / sin theta) a (hemi (quat_dot a b) * (sin (t * theta) / sin theta)) b /\
  0 < theta <= PI / 2 /\ cos theta = Rabs (quat_dot a b) /\ 0 < sin theta.
Proof.
  intros H. pose proof slerp_epsilon_range as He. pose proof (Rabs_pos (quat_dot a b)) as Hp. intros theta.
  assert (Hc : cos theta = Rabs (quat_dot a b)) by (apply cos_acos; lra).
  assert (Hb : 0 <= theta <= PI) by apply acos_bound.
  assert (H0 : 0 < theta). { destruct (Rtotal_order 0 theta) as [G|[G|G]]; [exact G| |lra]. rewrite <- G, cos_0 in Hc. lra. }
  assert (H2 : theta <= PI / 2).
  { apply Rnot_lt_le. intros N. assert (cos theta < 0); [|lra]. apply cos_lt_0; pose proof PI_RGT_0; lra. }
  split; [|repeat split; [exact H0|exact H2|exact Hc|apply sin_gt_0; pose proof PI_RGT_0; lra]].
  unfold slerp, hemi. fold theta. destruct (Rle_dec _ _) as [N|_]; [lra|]. destruct (Rlt_dec _ 0); f_equal; ring.
Qed.

Lemma slerp_0 a b : slerp a 0 b = a.
Proof.
  destruct (Rle_lt_dec (1 - slerp_epsilon) (Rabs (quat_dot a b))) as [H|H].
  - rewrite slerp_near by exact H. destruct a as [w x y z]. unfold quat_comb. cbn [qw qx qy qz]. f_equal; ring.
  - destruct (slerp_far a 0 b H) as (-> & _ & _ & Hs). replace (1 - 0) with 1 by ring. rewrite Rmult_1_l, Rmult_0_l, sin_0.
    destruct a as [w x y z]. unfold quat_comb. cbn [qw qx qy qz]. f_equal; field; lra.
Qed.

Lemma slerp_1 a b : slerp a 1 b = quat_comb 0 a (hemi (quat_dot a b)) b.
Proof.
  destruct (Rle_lt_dec (1 - slerp_epsilon) (Rabs (quat_dot a b))) as [H|H].
  - rewrite slerp_near by exact H. f_equal; ring.
  - destruct (slerp_far a 1 b H) as (-> & _ & _ & Hs). replace (1 - 1) with 0 by ring. rewrite Rmult_1_l, Rmult_0_l, sin_0.
    f_equal; field; lra.
Qed.

Lemma hemi_matrix d a b : quat_matrix (quat_comb 0 a (hemi d) b) = quat_matrix b.
Proof.
  unfold hemi. destruct (Rlt_dec d 0); unfold quat_matrix, quat_comb; cbn [qw qx qy qz]; apply M3_ext; m3; ring.
Qed.

(** On the main branch: a unit quaternion, at the angle t * theta from a. *)
Lemma slerp_unit a t b : unit_quat a -> unit_quat b -> Rabs (quat_dot a b) < 1 - slerp_epsilon ->
  unit_quat (slerp a t b) /\ quat_dot a (slerp a t b) = cos (t * acos (Rabs (quat_dot a b))).
Proof.
  unfold unit_quat. intros A B H. destruct (slerp_far a t b H) as (-> & _ & Hc & Hs). set (theta := acos _) in *.
  rewrite comb_dot, comb_dot_l, A, B. set (d := quat_dot a b) in *.
  assert (E1 : sin ((1 - t) * theta) = sin theta * cos (t * theta) - cos theta * sin (t * theta)).
  { rewrite <- sin_minus. f_equal. ring. }
  pose proof (sin2_cos2 (t * theta)) as S1. pose proof (sin2_cos2 theta) as S2. unfold Rsqr in *.
  rewrite E1. pose proof (hemi_abs d) as Hh. pose proof (hemi_sqr d) as Hq. rewrite <- Hc in Hh.
  set (h := hemi d) in *. set (s := sin (t * theta)) in *. set (c := cos (t * theta)) in *. set (S := sin theta) in *. set (C := cos theta) in *.
  split.
  - replace ((S * c - C * s) / S * ((S * c - C * s) / S) * 1 + 2 * ((S * c - C * s) / S) * (h * (s / S)) * d + h * (s / S) * (h * (s / S)) * 1)
      with (((S * c - C * s) * (S * c - C * s) + 2 * (S * c - C * s) * s * (h * d) + (h * h) * (s * s)) / (S * S)) by (field; lra).
    rewrite Hh, Hq.
    replace ((S * c - C * s) * (S * c - C * s) + 2 * (S * c - C * s) * s * C + 1 * (s * s)) with ((S * S) * (c * c) + (1 - C * C) * (s * s)) by ring.
    replace (1 - C * C) with (S * S) by lra. replace (S * S * (c * c) + S * S * (s * s)) with (S * S) by (replace (c * c) with (1 - s * s) by lra; ring).
    field. lra.
  - replace ((S * c - C * s) / S * 1 + h * (s / S) * d) with ((S * c - C * s + s * (h * d)) / S) by (field; lra).
    rewrite Hh. field. lra.
Qed.

(** On the other branch the norm may be slightly smaller than 1. *)
Lemma slerp_near_norm a t b : unit_quat a -> unit_quat b -> 1 - slerp_epsilon <= Rabs (quat_dot a b) -> 0 <= t <= 1 ->
  1 - slerp_epsilon / 2 <= quat_dot (slerp a t b) (slerp a t b) <= 1.
Proof.
  unfold unit_quat. intros A B H Ht. rewrite slerp_near by exact H. rewrite comb_dot, A, B.
  pose proof (unit_dot_bound a b A B) as Hb. pose proof slerp_epsilon_range as He.
  replace ((1 - t) * (1 - t) * 1 + 2 * (1 - t) * (hemi (quat_dot a b) * t) * quat_dot a b + hemi (quat_dot a b) * t * (hemi (quat_dot a b) * t) * 1)
    with ((1 - t) * (1 - t) + 2 * (1 - t) * t * (hemi (quat_dot a b) * quat_dot a b) + (hemi (quat_dot a b) * hemi (quat_dot a b)) * (t * t)) by ring.
  rewrite hemi_abs, hemi_sqr. set (d := Rabs (quat_dot a b)) in *. set (e := slerp_epsilon) in *.
  assert (T : 0 <= t * (1 - t) <= 1 / 4).
  { split; [apply Rmult_le_pos; lra|]. pose proof (Rle_0_sqr (t - 1 / 2)). unfold Rsqr in *. lra. }
  replace ((1 - t) * (1 - t) + 2 * (1 - t) * t * d + 1 * (t * t)) with (1 - 2 * (t * (1 - t)) * (1 - d)) by ring.
  set (u := t * (1 - t)) in *. split; nra.
Qed.

Definition quat_matrix_h (q : quat) : mat3 :=
  let w := qw q in let x := qx q in let y := qy q in let z := qz q in
  M3 (w * w + x * x - y * y - z * z) (2 * (x * y - w * z)) (2 * (x * z + w * y))
     (2 * (x * y + w * z)) (w * w - x * x + y * y - z * z) (2 * (y * z - w * x))
     (2 * (x * z - w * y)) (2 * (y * z + w * x)) (w * w - x * x - y * y + z * z).
Lemma quat_matrix_homogeneous q : unit_quat q -> quat_matrix q = quat_matrix_h q.
Proof.
  destruct q as [w x y z]. unfold unit_quat, quat_dot, quat_matrix, quat_matrix_h. cbn [qw qx qy qz]. intros H.
  apply M3_ext; m3; lra.
Qed.

Lemma trace_product a b : unit_quat a -> unit_quat b ->
  m3_trace (m3_mul (m3_t (quat_matrix a)) (quat_matrix b)) = 4 * (quat_dot a b * quat_dot a b) - 1.
Proof.
  intros A B. rewrite !quat_matrix_homogeneous by assumption.
  transitivity (4 * (quat_dot a b * quat_dot a b) - quat_dot a a * quat_dot b b); [|rewrite A, B; ring].
  destruct a as [w x y z], b as [w' x' y' z']. unfold quat_dot, m3_trace, quat_matrix_h. m3. cbn [qw qx qy qz]. ring.
Qed.

(** ** Yaw *)
Lemma frame_yaw_first r : frame_yaw r = atan2 (m10 r) (m00 r).
Proof. unfold frame_yaw. m3. now rewrite !Rmult_1_r, !Rmult_0_r, !Rplus_0_r. Qed.

Lemma frame_yaw_rot_z a : same_angle (frame_yaw (rot_z a)) a.
Proof. rewrite frame_yaw_first. apply atan2_same_angle. Qed.

Lemma frame_yaw_rot_z_mul a r : (m00 r <> 0 \/ m10 r <> 0) -> same_angle (frame_yaw (m3_mul (rot_z a) r)) (a + frame_yaw r).
Proof.
  intros H. rewrite !frame_yaw_first. destruct (atan2_polar (m10 r) (m00 r) H) as [P1 P2].
  set (rho := sqrt (m00 r * m00 r + m10 r * m10 r)) in *.
  assert (Hr : 0 < rho).
  { apply sqrt_lt_R0. destruct H as [H|H]; pose proof (Rsqr_pos_lt _ H); [pose proof (Rle_0_sqr (m10 r))|pose proof (Rle_0_sqr (m00 r))]; unfold Rsqr in *; lra. }
  set (b := atan2 (m10 r) (m00 r)) in *.
  replace (m10 (m3_mul (rot_z a) r)) with (rho * sin (a + b)).
  - replace (m00 (m3_mul (rot_z a) r)) with (rho * cos (a + b)).
    + rewrite atan2_scale by exact Hr. apply atan2_same_angle.
    + unfold rot_z. m3. rewrite cos_plus. transitivity (cos a * (rho * cos b) - sin a * (rho * sin b)); [ring|]. rewrite P1, P2. field. lra.
  - unfold rot_z. m3. rewrite sin_plus. transitivity (sin a * (rho * cos b) + cos a * (rho * sin b)); [ring|]. rewrite P1, P2. field. lra.
Qed.

(** ** Rotation vectors *)
Lemma exp3_scale w theta : v3_dot w w = 1 -> 
  exp3 (v3_scale theta w) =
  let a := 1 - cos theta in let b := sin theta in let c := cos theta in
  M3 (c + a * vx w * vx w) (a * vx w * vy w - b * vz w) (a * vx w * vz w + b * vy w)
     (a * vx w * vy w + b * vz w) (c + a * vy w * vy w) (a * vy w * vz w - b * vx w)
     (a * vx w * vz w - b * vy w) (a * vy w * vz w + b * vx w) (c + a * vz w * vz w).
Proof.
  intros H. cbv zeta. unfold exp3.
  assert (E : v3_norm (v3_scale theta w) = Rabs theta).
  { unfold v3_norm. replace (v3_dot (v3_scale theta w) (v3_scale theta w)) with (Rsqr theta).
    - apply sqrt_Rsqr_abs.
    - unfold Rsqr, v3_dot in *. m3. transitivity (theta * theta * 1); [ring|rewrite <- H; ring]. }
  rewrite E. destruct (Req_EM_T (Rabs theta) 0) as [Z|Z].
  - assert (theta = 0) as -> by (destruct (Req_dec theta 0) as [|N]; [assumption|]; apply Rabs_no_R0 in N; contradiction).
    rewrite cos_0, sin_0. unfold m3_id. apply M3_ext; m3; ring.
  - assert (N : theta <> 0) by (intros ->; rewrite Rabs_R0 in Z; contradiction).
    assert (C : cos (Rabs theta) = cos theta) by (unfold Rabs; destruct (Rcase_abs theta); [apply cos_neg|reflexivity]).
    assert (S : sin (Rabs theta) / Rabs theta = sin theta / theta).
    { unfold Rabs. destruct (Rcase_abs theta); [|reflexivity]. rewrite sin_neg. field. exact N. }
    assert (Q : Rabs theta * Rabs theta = theta * theta) by (unfold Rabs; destruct (Rcase_abs theta); ring).
    rewrite C, S, Q. apply M3_ext; m3; field; exact N.
Qed.

Lemma exp3_rotation w theta : v3_dot w w = 1 -> rotation (exp3 (v3_scale theta w)).
Proof.
  intros H. rewrite exp3_scale by exact H. cbv zeta.
  set (q := Quat (cos (theta / 2)) (sin (theta / 2) * vx w) (sin (theta / 2) * vy w) (sin (theta / 2) * vz w)).
  pose proof (sin2_cos2 (theta / 2)) as S2. unfold Rsqr in S2.
  assert (U : unit_quat q).
  { unfold unit_quat, q, quat_dot. cbn [qw qx qy qz]. unfold v3_dot in H.
    transitivity (cos (theta / 2) * cos (theta / 2) + sin (theta / 2) * sin (theta / 2) * (vx w * vx w + vy w * vy w + vz w * vz w)); [ring|].
    rewrite H. lra. }
  assert (C : cos theta = cos (theta / 2) * cos (theta / 2) - sin (theta / 2) * sin (theta / 2)) by (rewrite <- cos_plus; f_equal; lra).
  assert (S : sin theta = 2 * (sin (theta / 2) * cos (theta / 2))).
  { replace theta with (theta / 2 + theta / 2) at 1 by lra. rewrite sin_plus. ring. }
  match goal with |- rotation ?m => replace m with (quat_matrix q) end; [now apply quat_matrix_rotation|].
  rewrite quat_matrix_homogeneous by exact U. unfold quat_matrix_h, q. cbn [qw qx qy qz]. rewrite C, S.
  replace (1 - (cos (theta / 2) * cos (theta / 2) - sin (theta / 2) * sin (theta / 2))) with (2 * (sin (theta / 2) * sin (theta / 2))) by lra.
  set (s := sin (theta / 2)) in *. set (c := cos (theta / 2)) in *. unfold v3_dot in H. destruct w as [x y z]. cbn [vx vy vz] in *.
  apply M3_ext; cbn [m00 m01 m02 m10 m11 m12 m20 m21 m22]; try ring.
  - transitivity (c * c + s * s * (2 * (x * x) - (x * x + y * y + z * z))); [ring|]. rewrite H. ring.
  - transitivity (c * c + s * s * (2 * (y * y) - (x * x + y * y + z * z))); [ring|]. rewrite H. ring.
  - transitivity (c * c + s * s * (2 * (z * z) - (x * x + y * y + z * z))); [ring|]. rewrite H. ring.
Qed.

(** The rotation vector rotates a vector orthogonal to it in the plane. *)
Lemma exp3_orthogonal w theta u : v3_dot w w = 1 -> v3_dot w u = 0 ->
  m3_vec (exp3 (v3_scale theta w)) u = v3_add (v3_scale (cos theta) u) (v3_scale (sin theta) (v3_cross w u)).
Proof.
  intros H O. rewrite exp3_scale by exact H. cbv zeta. unfold v3_dot in O.
  set (c := cos theta). set (s := sin theta). destruct w as [x y z], u as [a b d]. cbn [vx vy vz] in *.
  apply V3_ext; m3.
  - transitivity (c * a + s * (y * d - z * b) + (1 - c) * x * (x * a + y * b + z * d)); [ring|rewrite O; ring].
  - transitivity (c * b + s * (z * a - x * d) + (1 - c) * y * (x * a + y * b + z * d)); [ring|rewrite O; ring].
  - transitivity (c * d + s * (x * b - y * a) + (1 - c) * z * (x * a + y * b + z * d)); [ring|rewrite O; ring].
Qed.

Lemma v3_norm_0 v : v3_norm v = 0 <-> v = v3_zero.
Proof.
  destruct v as [x y z]. unfold v3_norm, v3_dot, v3_zero. cbn [vx vy vz].
  pose proof (Rle_0_sqr x) as X. pose proof (Rle_0_sqr y) as Y. pose proof (Rle_0_sqr z) as Z. unfold Rsqr in *. split.
  - intros H. apply sqrt_eq_0 in H; [|lra].
    assert (x * x = 0) by lra. assert (y * y = 0) by lra. assert (z * z = 0) by lra.
    f_equal; apply Rsqr_0_uniq; unfold Rsqr; assumption.
  - intros E. injection E as -> -> ->. replace (0 * 0 + 0 * 0 + 0 * 0) with 0 by ring. apply sqrt_0.
Qed.

Lemma v3_dot_pos v : v <> v3_zero -> 0 < v3_dot v v.
Proof.
  intros H. destruct (Rtotal_order 0 (v3_dot v v)) as [G|[G|G]]; [exact G| |].
  - exfalso. apply H, v3_norm_0. unfold v3_norm. rewrite <- G. apply sqrt_0.
  - exfalso. unfold v3_dot in G. pose proof (Rle_0_sqr (vx v)). pose proof (Rle_0_sqr (vy v)). pose proof (Rle_0_sqr (vz v)). unfold Rsqr in *. lra.
Qed.

Lemma v3_normalize_unit v : v <> v3_zero -> v3_dot (v3_normalize v) (v3_normalize v) = 1.
Proof.
  intros H. pose proof (v3_dot_pos v H) as P. unfold v3_normalize. destruct (Rlt_dec 0 (v3_dot v v)) as [_|]; [|contradiction].
  replace (v3_dot (v3_scale (/ v3_norm v) v) (v3_scale (/ v3_norm v) v)) with (/ v3_norm v * / v3_norm v * v3_dot v v) by (unfold v3_dot; m3; ring).
  pose proof (sqrt_lt_R0 _ P) as S. fold (v3_norm v) in S. pose proof (sqrt_sqrt (v3_dot v v) ltac:(lra)) as E. fold (v3_norm v) in E.
  rewrite <- E. field. lra.
Qed.

(** sin (acos x) for the angle between unit vectors is the norm of their cross product. *)
Lemma unit_cross u v : v3_dot u u = 1 -> v3_dot v v = 1 ->
  v3_dot (v3_cross u v) (v3_cross u v) = 1 - v3_dot u v * v3_dot u v.
Proof.
  intros U V. transitivity (v3_dot u u * v3_dot v v - v3_dot u v * v3_dot u v); [unfold v3_dot; m3; ring|]. rewrite U, V. ring.
Qed.

Lemma safe_acos_in x : -1 <= x <= 1 -> safe_acos x = acos x.
Proof.
  intros H. unfold safe_acos. destruct (Rle_dec x (-1)); [f_equal; lra|]. destruct (Rle_dec 1 x); [f_equal; lra|reflexivity].
Qed.

Lemma classic_v3 v : v = v3_zero \/ v <> v3_zero.
Proof.
  destruct (Req_EM_T (v3_norm v) 0) as [H|H]; [left|right]; [now apply v3_norm_0|]. intros E. apply H. now apply v3_norm_0.
Qed.

Lemma rotate_onto e v w : v3_dot e e = 1 -> v3_dot v v = 1 -> v3_dot w w = 1 -> v3_dot w e = 0 ->
  (v3_norm (v3_cross e v) <> 0 -> w = v3_normalize (v3_cross e v)) ->
  let r := exp3 (v3_scale (safe_acos (v3_dot e v)) w) in
  rotation r /\ m3_vec r e = v.
Proof.
  intros E V W O Hw r. split; [now apply exp3_rotation|]. unfold r. rewrite exp3_orthogonal by assumption.
  pose proof (unit_cross e v E V) as U.
  assert (P : 0 <= v3_dot (v3_cross e v) (v3_cross e v)).
  { unfold v3_dot. set (c := v3_cross e v). pose proof (Rle_0_sqr (vx c)). pose proof (Rle_0_sqr (vy c)). pose proof (Rle_0_sqr (vz c)). unfold Rsqr in *. lra. }
  set (d := v3_dot e v) in *. assert (D : -1 <= d <= 1) by (split; nra).
  rewrite safe_acos_in by exact D. rewrite cos_acos by exact D. rewrite sin_acos by exact D.
  replace (1 - d²) with (v3_dot (v3_cross e v) (v3_cross e v)) by (rewrite U; reflexivity). fold (v3_norm (v3_cross e v)).
  destruct (Req_EM_T (v3_norm (v3_cross e v)) 0) as [Z|Z].
  - rewrite Z. (* v = d e *)
    assert (Q : d * d = 1). { apply v3_norm_0 in Z. rewrite Z in U. unfold v3_dot, v3_zero in U. cbn [vx vy vz] in U. lra. }
    assert (G : v3_dot (v3_sub v (v3_scale d e)) (v3_sub v (v3_scale d e)) = 0).
    { transitivity (v3_dot v v - 2 * d * v3_dot e v + d * d * v3_dot e e); [unfold v3_dot; m3; ring|]. fold d. rewrite V, E. lra. }
    destruct (classic_v3 (v3_sub v (v3_scale d e))) as [K|K].
    + apply V3_ext; m3; injection K; intros; lra.
    + apply v3_dot_pos in K. lra.
  - rewrite (Hw Z). pose proof (proj1 (not_iff_compat (v3_norm_0 _)) Z) as NZ. unfold v3_normalize.
    destruct (Rlt_dec 0 _) as [PP|N]; [|elim N; now apply v3_dot_pos].
    assert (G : v3_cross (v3_cross e v) e = v3_sub v (v3_scale d e)).
    { transitivity (v3_sub (v3_scale (v3_dot e e) v) (v3_scale (v3_dot e v) e)).
      - unfold v3_dot. apply V3_ext; m3; ring.
      - rewrite E. fold d. apply V3_ext; m3; ring. }
    set (n := v3_norm (v3_cross e v)) in *. set (c := v3_cross e v) in *.
    assert (K : v3_scale n (v3_cross (v3_scale (/ n) c) e) = v3_cross c e) by (apply V3_ext; m3; field; exact Z).
    rewrite K, G. apply V3_ext; m3; ring.
Qed.
