From Coq Require Import Reals List ZArith Bool String Lra Lia.
From Verif Require Import Base Linalg Angle Geom3 Tools_model Geometry_model Geometry_spec Geometry_proofs Footsteps_model Robot_model Robot_spec Robot_proofs Robot_props Humanoid_model Humanoid_spec Humanoid_proofs Humanoid_proofs2.
Import ListNotations.
Open Scope R_scope.

(** ** The camera *)

(** The point in the head. *)
Lemma looks_at_head T d e pan tilt target : rigid T -> let p := frame_act (frame_inv T) target in
  looks_at T d e pan tilt target <-> exists s, 0 <= s /\ vx p = cos pan * (s * cos tilt + e * sin tilt) /\ vy p = sin pan * (s * cos tilt + e * sin tilt) /\ vz p - d = e * cos tilt - s * sin tilt.
Proof.
  intros HT p. assert (B : target = frame_act T p).
  { unfold p. unfold frame_act, frame_inv. cbn [fr_R fr_t]. rewrite m3_vec_add, m3_vec_scale, <- !m3_vec_mul, (rotation_r _ HT), !m3_vec_id. apply V3_ext; m3; ring. }
  assert (C : forall v, frame_act (frame_inv T) (frame_act T v) = v).
  { intros v. unfold frame_act, frame_inv. cbn [fr_R fr_t]. rewrite m3_vec_add, <- m3_vec_mul, (proj1 HT), m3_vec_id. apply V3_ext; m3; ring. }
  split; intros (s & Hs & H); exists s; (split; [exact Hs|]).
  - assert (Ep : p = m3_vec (rot_z pan) (v3_add (V3 0 0 d) (m3_vec (rot_y tilt) (V3 s 0 e)))) by (unfold p; rewrite H, C; reflexivity).
    rewrite Ep. unfold rot_z, rot_y. m3. repeat split; ring.
  - rewrite B. f_equal. destruct H as (Hx & Hy & Hz). unfold rot_z, rot_y. apply V3_ext; m3; rewrite ?Hx, ?Hy; try ring.
    replace (vz p) with (d + (e * cos tilt - s * sin tilt)) by lra. ring.
Qed.

(** The angles that the code computes. *)
Lemma camera_angles x y z e n : n = sqrt (sqrt (x * x + y * y) * sqrt (x * x + y * y) + z * z) -> n <> 0 -> -1 <= e / n <= 1 ->
  let pan := atan2 y x in let tilt := PI / 2 - atan2 z (sqrt (x * x + y * y)) - acos (e / n) in
  exists s, 0 <= s /\ x = cos pan * (s * cos tilt + e * sin tilt) /\ y = sin pan * (s * cos tilt + e * sin tilt) /\ z = e * cos tilt - s * sin tilt.
Proof.
  intros En Hn Hb pan tilt. set (rho := sqrt (x * x + y * y)) in *. set (phi := atan2 z rho) in *. set (beta := acos (e / n)) in *.
  assert (Pn : 0 < n) by (rewrite En in *; pose proof (sqrt_pos (rho * rho + z * z)); lra).
  assert (Hrho : rho = n * cos phi /\ z = n * sin phi).
  { assert (rho <> 0 \/ z <> 0). { destruct (Req_dec rho 0) as [E|E]; [|auto]. right. intros E'. apply Hn. rewrite En, E, E'. replace (0 * 0 + 0 * 0) with 0 by ring. apply sqrt_0. }
    destruct (atan2_polar z rho H) as [P1 P2]. fold phi in P1, P2. rewrite <- En in P1, P2. rewrite P1, P2. split; field; lra. }
  assert (Hpan : x = cos pan * rho /\ y = sin pan * rho).
  { destruct (Req_dec x 0) as [Ex|Ex], (Req_dec y 0) as [Ey|Ey].
    - unfold rho. rewrite Ex, Ey. replace (0 * 0 + 0 * 0) with 0 by ring. rewrite sqrt_0. lra.
    - destruct (atan2_polar y x (or_intror Ey)) as [P1 P2]. fold pan in P1, P2. fold rho in P1, P2. assert (0 < rho) by (apply sqrt_lt_R0; nra). rewrite P1, P2. split; field; lra.
    - destruct (atan2_polar y x (or_introl Ex)) as [P1 P2]. fold pan in P1, P2. fold rho in P1, P2. assert (0 < rho) by (apply sqrt_lt_R0; nra). rewrite P1, P2. split; field; lra.
    - destruct (atan2_polar y x (or_introl Ex)) as [P1 P2]. fold pan in P1, P2. fold rho in P1, P2. assert (0 < rho) by (apply sqrt_lt_R0; nra). rewrite P1, P2. split; field; lra. }
  assert (Cb : e = n * cos beta). { unfold beta. rewrite cos_acos by exact Hb. field. lra. }
  assert (Sb : 0 <= sin beta). { unfold beta. pose proof (acos_bound (e / n)). apply sin_ge_0; lra. }
  exists (n * sin beta). split; [apply Rmult_le_pos; lra|].
  assert (K1 : n * sin beta * cos tilt + e * sin tilt = rho).
  { rewrite Cb. replace (n * sin beta * cos tilt + n * cos beta * sin tilt) with (n * sin (tilt + beta)) by (rewrite sin_plus; ring).
    unfold tilt. replace (PI / 2 - phi - beta + beta) with (PI / 2 - phi) by ring. rewrite sin_shift. symmetry. apply Hrho. }
  assert (K2 : e * cos tilt - n * sin beta * sin tilt = z).
  { rewrite Cb. replace (n * cos beta * cos tilt - n * sin beta * sin tilt) with (n * cos (tilt + beta)) by (rewrite cos_plus; ring).
    unfold tilt. replace (PI / 2 - phi - beta + beta) with (PI / 2 - phi) by ring. rewrite cos_shift. symmetry. apply Hrho. }
  rewrite K1, K2. destruct Hpan. auto.
Qed.

(** A point that is nearer than the camera is never seen. *)
Lemma camera_too_near x y z e n pan tilt s : n = sqrt (sqrt (x * x + y * y) * sqrt (x * x + y * y) + z * z) -> n < Rabs e ->
  x = cos pan * (s * cos tilt + e * sin tilt) -> y = sin pan * (s * cos tilt + e * sin tilt) -> z = e * cos tilt - s * sin tilt -> False.
Proof.
  intros En Hn Hx Hy Hz. assert (E1 : x * x + y * y = (s * cos tilt + e * sin tilt) * (s * cos tilt + e * sin tilt)).
  { rewrite Hx, Hy. pose proof (sin2_cos2 pan) as Q. unfold Rsqr in Q. set (X := s * cos tilt + e * sin tilt). transitivity ((sin pan * sin pan + cos pan * cos pan) * (X * X)); [ring|rewrite Q; ring]. }
  assert (N2 : n * n = s * s + e * e).
  { rewrite En, sqrt_sqrt by (apply Rplus_le_le_0_compat; apply Rle_0_sqr). rewrite sqrt_sqrt by (apply Rplus_le_le_0_compat; apply Rle_0_sqr). rewrite E1, Hz.
    pose proof (sin2_cos2 tilt) as Q. unfold Rsqr in Q. transitivity ((sin tilt * sin tilt + cos tilt * cos tilt) * (s * s + e * e)); [ring|rewrite Q; ring]. }
  assert (0 <= n) by (rewrite En; apply sqrt_pos). assert (e * e = Rabs e * Rabs e) by (rewrite <- Rabs_mult; symmetry; apply Rabs_right; apply Rle_ge, Rle_0_sqr). nra.
Qed.

(** ** Derivatives are unique *)
Lemma v3_deriv_unique f t a b : v3_deriv f t a -> v3_deriv f t b -> a = b.
Proof. intros (A1 & A2 & A3) (B1 & B2 & B3). apply V3_ext; eapply uniqueness_limite; eassumption. Qed.
Lemma moves_angular_unique T t v w v' w' : rigid (T t) -> moves T t v w -> moves T t v' w' -> w = w'.
Proof.
  intros R [_ A] [_ B]. assert (E : m3_mul (skew w) (fr_R (T t)) = m3_mul (skew w') (fr_R (T t))).
  { apply M3_ext; (eapply uniqueness_limite; [apply A|apply B]; cbn; auto 12). }
  assert (F : skew w = skew w'). { rewrite <- (m3_mul_id_r (skew w)), <- (m3_mul_id_r (skew w')), <- (rotation_r _ R), <- !m3_mul_assoc, E. reflexivity. }
  unfold skew in F. injection F. intros. apply V3_ext; lra.
Qed.
Lemma rotation_injective a u v : rotation a -> m3_vec a u = m3_vec a v -> u = v.
Proof. intros [O _] E. rewrite <- (m3_vec_id u), <- (m3_vec_id v), <- O, !m3_vec_mul, E. reflexivity. Qed.
