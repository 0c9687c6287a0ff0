(** Proofs about the yaw and cone constraints of the kinematics solver. *)
From Coq Require Import Reals List ZArith Bool String Lra Lia.
From Verif Require Import Base Linalg Angle Geom3 Tools_model Geometry_model Geometry_proofs Expression_model Expression_spec Expression_proofs Problem_model Problem_spec Problem_props Polynom_model Polynom_spec Polynom_proofs Robot_model
  Robot_spec Robot_proofs Robot_props KinTasks_model Kin_model Kin_spec Kin_proofs Kin_proofs2 Kin_proofs5 Kin_proofs6 Kin_props DynTasks_model DynTasks_proofs Tasks_spec Tasks_proofs
  KinTasks_spec KinTasks_proofs KinCons_spec KinCons_proofs KinReg_spec KinReg_proofs KinAngle_spec.
Import ListNotations.
Open Scope R_scope.

(** ** The derivative of atan2 *)

Lemma atan2_half y x : 0 < sqrt (x * x + y * y) + x -> atan2 y x = 2 * atan (y / (sqrt (x * x + y * y) + x)).
Proof.
  intros H. set (p := sqrt (x * x + y * y)) in *. assert (P0 : 0 <= p) by apply sqrt_pos. assert (PP : p * p = x * x + y * y) by (apply sqrt_sqrt; nra).
  assert (Pp : 0 < p) by (destruct P0 as [?|Z]; [assumption|exfalso; rewrite <- Z in *; assert (x = 0) by nra; lra]).
  set (f := y / (p + x)). assert (F1 : 1 + f * f = 2 * p / (p + x)). { unfold f. field_simplify_eq; [|lra]. nra. }
  pose proof (atan_bound f) as B. pose proof PI_RGT_0.
  assert (C : cos (2 * atan f) = (1 - f * f) / (1 + f * f)).
  { rewrite cos_2a_cos. pose proof (cos_atan f) as Ca. rewrite Ca. unfold Rsqr. assert (S : 0 < 1 + f * f) by nra. assert (Q : sqrt (1 + f * f) * sqrt (1 + f * f) = 1 + f * f) by (apply sqrt_sqrt; lra). pose proof (sqrt_lt_R0 _ S).
    replace (2 * (1 / sqrt (1 + f * f)) * (1 / sqrt (1 + f * f)) - 1) with (2 / (sqrt (1 + f * f) * sqrt (1 + f * f)) - 1) by (field; lra). rewrite Q. field. lra. }
  assert (Sn : sin (2 * atan f) = 2 * f / (1 + f * f)).
  { rewrite sin_2a. rewrite (cos_atan f), (sin_atan f). unfold Rsqr. assert (S : 0 < 1 + f * f) by nra. assert (Q : sqrt (1 + f * f) * sqrt (1 + f * f) = 1 + f * f) by (apply sqrt_sqrt; lra). pose proof (sqrt_lt_R0 _ S).
    replace (2 * (f / sqrt (1 + f * f)) * (1 / sqrt (1 + f * f))) with (2 * f / (sqrt (1 + f * f) * sqrt (1 + f * f))) by (field; lra). now rewrite Q. }
  apply atan2_unique; fold p.
  - destruct (Req_dec x 0) as [->|]; [right|now left]. intros ->. nra.
  - lra.
  - rewrite C, F1. unfold f. replace ((1 - y / (p + x) * (y / (p + x))) / (2 * p / (p + x)) * p) with (((p + x) * (p + x) - y * y) / (2 * (p + x))) by (field; lra).
    replace ((p + x) * (p + x) - y * y) with (2 * (p + x) * x) by nra. field. lra.
  - rewrite Sn, F1. unfold f. field. lra.
Qed.
Lemma slit y x : ~ (y = 0 /\ x <= 0) -> 0 < sqrt (x * x + y * y) + x.
Proof.
  intros H. assert (P0 : 0 <= sqrt (x * x + y * y)) by apply sqrt_pos. assert (PP : sqrt (x * x + y * y) * sqrt (x * x + y * y) = x * x + y * y) by (apply sqrt_sqrt; nra). set (p := sqrt _) in *.
  destruct (Rlt_dec 0 x); [lra|]. destruct (Req_dec y 0) as [->|Hy]; [exfalso; apply H; split; lra|]. assert (0 < y * y) by (pose proof (Rsqr_pos_lt y Hy); assumption).
  destruct (Rlt_dec 0 (p + x)); [assumption|exfalso]. nra.
Qed.
Lemma atan2_deriv (f g : R -> R) t df dg : derivable_pt_lim f t df -> derivable_pt_lim g t dg -> ~ (f t = 0 /\ g t <= 0) ->
  derivable_pt_lim (fun u => atan2 (f u) (g u)) t ((g t * df - f t * dg) / (g t * g t + f t * f t)).
Proof.
  intros Hf Hg Hn. pose proof (slit _ _ Hn) as Hs. set (S := fun u => g u * g u + f u * f u).
  assert (P0 : 0 < S t).
  { unfold S. destruct (Req_dec (f t) 0) as [Z|Z].
    - rewrite Z in *. assert (0 < g t) by (apply Rnot_le_lt; intros C; apply Hn; split; [reflexivity|exact C]). nra.
    - pose proof (Rsqr_pos_lt _ Z). pose proof (Rle_0_sqr (g t)). unfold Rsqr in *. lra. }
  assert (DS : derivable_pt_lim S t (2 * (g t * dg + f t * df))).
  { eapply lim_ext; [intros u; reflexivity| |apply (deriv_plus (fun u => g u * g u) (fun u => f u * f u)); apply deriv_prod; eassumption]. ring. }
  set (p := fun u => sqrt (S u)). assert (Dp : derivable_pt_lim p t ((g t * dg + f t * df) / p t)).
  { eapply lim_ext; [intros u; reflexivity| |apply (derivable_pt_lim_comp S sqrt t _ _ DS (derivable_pt_lim_sqrt _ P0))]. unfold p. field. apply Rgt_not_eq, sqrt_lt_R0, P0. }
  set (h := fun u => p u + g u). assert (Dh : derivable_pt_lim h t ((g t * dg + f t * df) / p t + dg)) by (apply (deriv_plus p g); assumption).
  assert (H0 : 0 < h t) by exact Hs. assert (Pp : 0 < p t) by (apply sqrt_lt_R0, P0). assert (PP : p t * p t = S t) by (apply sqrt_sqrt; lra).
  assert (Dq : derivable_pt_lim (fun u => f u / h u) t ((df * h t - ((g t * dg + f t * df) / p t + dg) * f t) / Rsqr (h t))) by (apply (derivable_pt_lim_div f h); [assumption|assumption|lra]).
  pose proof (derivable_pt_lim_comp _ atan t _ _ Dq (derivable_pt_lim_atan _)) as Da. pose proof (derivable_pt_lim_scal _ 2 t _ Da) as D2.
  assert (E : exists d, 0 < d /\ forall u, Rabs (u - t) < d -> 0 < h u).
  { assert (Ct : continuity_pt h t) by (apply derivable_continuous_pt; exists ((g t * dg + f t * df) / p t + dg); exact Dh).
    destruct (Ct (h t) H0) as (d & Hd & Hc). exists d. split; [exact Hd|]. intros u Hu. destruct (Req_dec u t) as [->|Hne]; [exact H0|].
    specialize (Hc u (conj (conj I (not_eq_sym Hne)) Hu)). unfold dist in Hc. cbn in Hc. unfold R_dist in Hc. apply Rabs_def2 in Hc. lra. }
  destruct E as (d & Hd & He).
  eapply (derivable_pt_lim_locally_ext (mult_real_fct 2 (comp atan (fun u => f u / h u))) _ t (t - d) (t + d)); [lra| |].
  - intros z Hz. unfold mult_real_fct, comp. symmetry. apply atan2_half. apply (He z). apply Rabs_def1; lra.
  - eapply lim_ext; [intros u; reflexivity| |exact D2].
    assert (FF : f t * f t = p t * p t - g t * g t) by (unfold S in PP; lra).
    replace (1 + (f t / h t) ^ 2) with (2 * p t / h t). 2: { unfold h in *. field_simplify_eq; [|lra]. nra. }
    replace (g t * g t + f t * f t) with (p t * p t) by (unfold S in PP; lra). unfold Rsqr, h in *.
    set (a := g t) in *. set (b := f t) in *. set (r := p t) in *. clearbody a b r.
    transitivity ((df * (r + a) * r - (a * dg + b * df) * b - dg * b * r) / (r * r * (r + a))); [field; lra|].
    replace (df * (r + a) * r - (a * dg + b * df) * b - dg * b * r) with (df * (r * r - b * b) + df * a * r - a * b * dg - dg * b * r) by ring.
    rewrite FF. field. lra.
Qed.

Section WithPin.
Variable pn : pin.

(** ** The relative angular velocity *)

Lemma relative_rotation_spec N r a b T J q x : relative_rotation_jacobian pn N r a b = Ok (T, J) -> N = m_nv (r_model r) -> starts r q ->
  turns_local pn (r_model r) q x a -> turns_local pn (r_model r) q x b ->
  let B := fun u => m3_mul (m3_t (fr_R (pn_frame pn (q u) a))) (fr_R (pn_frame pn (q u) b)) in
  mrows J = 3%nat /\ mcols J = N /\ fr_R T = B 0 /\ (forall u, rotation (B u)) /\ m3_deriv B 0 (m3_mul (skew (apply3 J (vat x))) (B 0)).
Proof.
  intros H HN [Se Eq] (A1 & A2 & A3 & A4 & A5) (B1 & B2 & B3 & B4 & B5) B. unfold relative_rotation_jacobian in H. bind H T0 ET. bind H Jb EJb. bind H Ja EJa. bind H Jm Em. bind H Js Es. injection H as <- <-.
  unfold get_T_a_b in ET. bind ET Ta ETa. bind ET Tb ETb. injection ET as <-. destruct (frame_at _ _ _ _ ETa) as [La Ea]. destruct (frame_at _ _ _ _ ETb) as [Lb Eb].
  unfold frame_jacobian in EJa, EJb. rewrite Se in Ea, Eb, EJa, EJb. cbn [fst] in Ea, Eb, EJa, EJb. rewrite <- Eq in Ea, Eb, EJa, EJb. subst Ta Tb.
  destruct (block_size _ _ _ _ _ _ EJa) as [Ra Ca]. destruct (block_size _ _ _ _ _ _ EJb) as [Rb Cb]. destruct (mat_of3_apply3 _ _ _ (vat x) Em Rb) as (Rm & Cm & Sm).
  destruct (sub_size _ _ _ Es) as [Rs Cs]. split; [congruence|]. split; [congruence|]. split; [reflexivity|]. split.
  { intros u. apply rotation_mul; [apply rotation_t, A4|apply B4]. }
  set (wa := rows3 (pn_jac pn (q 0) a Local) 3 x) in *. set (wb := rows3 (pn_jac pn (q 0) b Local) 3 x) in *. set (a0 := fr_R (pn_frame pn (q 0) a)) in *. set (b0 := fr_R (pn_frame pn (q 0) b)) in *.
  assert (W : apply3 Js (vat x) = m3_vec (m3_t a0) (v3_sub (m3_vec b0 wb) (m3_vec a0 wa))).
  { unfold mat_sub in Es. apply guard_inv in Es. destruct Es as [Gs Es]. apply andb_prop in Gs. destruct Gs as [_ Gs]. apply Nat.eqb_eq in Gs. injection Es as <-.
    transitivity (v3_sub (apply3 Jm (vat x)) (apply3 Ja (vat x))).
    - unfold apply3, v3_sub. cbn [mcols mat_at vx vy vz]. rewrite <- Gs. f_equal; rewrite <- Rsum_minus; apply Rsum_ext; intros j _; ring.
    - rewrite Sm, (block_apply3 _ _ _ _ _ EJa), (block_apply3 _ _ _ _ _ EJb) by congruence. fold wa wb. rewrite m3_vec_sub, <- !m3_vec_mul. cbn [frame_mul frame_inv fr_R]. fold a0 b0.
      assert (R0 : m3_mul (m3_t a0) a0 = m3_id) by exact (rotation_l _ (A4 0)). rewrite R0, m3_vec_id. reflexivity. }
  rewrite W. exact (relative_rotation_deriv _ _ 0 _ _ (A4 0) A5 B5).
Qed.

(** ** Yaw *)

Lemma heading_deriv (B : R -> mat3) w : m3_deriv B 0 (m3_mul (skew w) (B 0)) -> v3_deriv (fun u => frame_axis (B u) 0) 0 (v3_cross w (frame_axis (B 0) 0)).
Proof.
  intros H. pose proof (vector_deriv B 0 w (V3 1 0 0) H) as V. 
  assert (E : forall a, m3_vec a (V3 1 0 0) = frame_axis a 0) by (intros a; apply V3_ext; unfold m3_vec, frame_axis; cbn; ring). rewrite E in V. eapply v3_deriv_ext; [| |exact V]; [intros u; apply E|reflexivity].
Qed.
Lemma normalize_unit v : v3_dot v v = 1 -> v3_normalize v = v.
Proof. intros H. unfold v3_normalize, v3_norm. rewrite H, sqrt_1. destruct (Rlt_dec 0 1); [|reflexivity]. apply V3_ext; cbn; field. Qed.

(** The yaw axis: the component of the angular velocity on it is the derivative of the yaw times the level part. *)
Lemma yaw_axis_dot d w : v3_dot d d = 1 -> vx d * vx d + vy d * vy d <> 0 -> let p := sqrt (vx d * vx d + vy d * vy d) in let v := v3_cross w d in
  v3_dot (v3_normalize (v3_cross d (v3_normalize (v3_cross (V3 0 0 1) d)))) w = p * ((vx d * vy v - vy d * vx v) / (vx d * vx d + vy d * vy d)).
Proof.
  intros Hd Hn p v. set (S := vx d * vx d + vy d * vy d) in *. assert (S0 : 0 < S) by (assert (0 <= S) by (unfold S; nra); lra). assert (Pp : 0 < p) by (apply sqrt_lt_R0; exact S0). assert (PP : p * p = S) by (apply sqrt_sqrt; lra).
  assert (E1 : v3_normalize (v3_cross (V3 0 0 1) d) = V3 (- vy d / p) (vx d / p) 0).
  { assert (Q : v3_dot (v3_cross (V3 0 0 1) d) (v3_cross (V3 0 0 1) d) = S) by (unfold v3_dot, v3_cross, S; cbn; ring). unfold v3_normalize, v3_norm. rewrite Q. fold p. destruct (Rlt_dec 0 S); [|lra]. apply V3_ext; unfold v3_cross; cbn; field; lra. }
  rewrite E1. assert (U : v3_dot (v3_cross d (V3 (- vy d / p) (vx d / p) 0)) (v3_cross d (V3 (- vy d / p) (vx d / p) 0)) = 1).
  { unfold v3_dot, v3_cross. cbn [vx vy vz]. replace (vy d * 0 - vz d * (vx d / p)) with (- vz d * vx d / p) by (field; lra). replace (vz d * (- vy d / p) - vx d * 0) with (- vz d * vy d / p) by (field; lra).
    replace (vx d * (vx d / p) - vy d * (- vy d / p)) with p by (apply Rmult_eq_reg_r with p; [rewrite PP; unfold S; field; lra|lra]).
    replace (- vz d * vx d / p * (- vz d * vx d / p) + - vz d * vy d / p * (- vz d * vy d / p) + p * p) with (vz d * vz d * S / (p * p) + p * p) by (unfold S; field; lra). rewrite PP. replace (vz d * vz d * S / S) with (vz d * vz d) by (field; lra). unfold v3_dot in Hd. unfold S. lra. }
  rewrite (normalize_unit _ U). rewrite <- PP. unfold v, v3_dot, v3_cross. cbn [vx vy vz]. field_simplify_eq; [|lra]. replace (p ^ 2) with (vx d ^ 2 + vy d ^ 2) by (replace (p ^ 2) with (p * p) by ring; rewrite PP; unfold S; ring). ring.
Qed.

Lemma yaw_made N r a b max c q x : N = m_nv (r_model r) -> starts r q -> turns_local pn (r_model r) q x a -> turns_local pn (r_model r) q x b ->
  let A := fun u => pn_frame pn (q u) a in let B := fun u => pn_frame pn (q u) b in has_yaw (A 0) (B 0) -> yaw_constraint pn N r a b max = Ok c ->
  exists g d, made c Inequality Hard 1 2 N g /\ derivable_pt_lim (fun u => yaw_of (A u) (B u)) 0 d /\
    g (vat x) 0%nat = max - (yaw_of (A 0) (B 0) + level_part (A 0) (B 0) * d) /\ g (vat x) 1%nat = max + (yaw_of (A 0) (B 0) + level_part (A 0) (B 0) * d).
Proof.
  intros HN Hs Ta Tb A B Hy H. unfold yaw_constraint in H. bind H y Ey. destruct y as [T J]. destruct (relative_rotation_spec _ _ _ _ _ _ _ _ Ey HN Hs Ta Tb) as (RJ & CJ & ET & HR & D).
  set (M := fun u => m3_mul (m3_t (fr_R (pn_frame pn (q u) a))) (fr_R (pn_frame pn (q u) b))) in *.
  assert (Hh : forall u, heading (A u) (B u) = frame_axis (M u) 0) by (intros u; apply V3_ext; unfold heading, A, B, M, m3_vec, m3_mul, frame_axis; cbn; ring).
  set (d := frame_axis (M 0) 0). replace (V3 (m00 (fr_R T)) (m10 (fr_R T)) (m20 (fr_R T))) with d in H by (rewrite ET; reflexivity).
  bind H Ja EJ. destruct (row_times_apply _ _ _ (vat x) EJ RJ) as (RA & CA & DA). set (w := apply3 J (vat x)) in *.
  assert (Dd : v3_dot d d = 1). { pose proof (f_equal m00 (rotation_l _ (HR 0))) as O. unfold m3_mul at 1, m3_t, m3_id in O. cbn [m00] in O. unfold d, v3_dot, frame_axis. cbn [vx vy vz]. exact O. }
  unfold has_yaw in Hy. rewrite Hh in Hy. fold d in Hy. assert (S0 : vx d * vx d + vy d * vy d <> 0). { intros Z. apply Hy. split; nra. }
  apply le_d_made in H; [|reflexivity]. cbn [mrows mcols mat_at vat] in H. destruct (heading_deriv M w D) as (V1 & V2 & _). fold d in V1, V2. set (v := v3_cross w d) in *.
  exists (fun x i => max - (Rsum N (fun j => (if Nat.eqb i 0 then mat_at Ja 0 j else - mat_at Ja 0 j) * x j) + (if Nat.eqb i 0 then atan2 (vy d) (vx d) else - atan2 (vy d) (vx d)))), ((vx d * vy v - vy d * vx v) / (vx d * vx d + vy d * vy d)).
  split; [exact H|]. split.
  { eapply lim_ext; [| |exact (atan2_deriv _ _ 0 _ _ V2 V1 Hy)]; [intros u; unfold yaw_of; now rewrite Hh|reflexivity]. }
  unfold level_part, yaw_of. rewrite Hh. fold d. pose proof (yaw_axis_dot d w Dd S0) as Y. cbv zeta in Y. rewrite <- DA, CA, CJ in Y. fold v in Y. rewrite <- Y. cbn [Nat.eqb]. split; [ring|].
  rewrite (Rsum_ext N _ (fun j => - (mat_at Ja 0 j * vat x j))) by (intros j _; ring). rewrite Rsum_opp. ring.
Qed.

(** ** Cone *)

(** The axis z of b in a. *)
Lemma cone_axis a : m3_vec a (V3 0 0 1) = frame_axis a 2.
Proof. apply V3_ext; unfold m3_vec, frame_axis; cbn; ring. Qed.

Lemma cone_made N r a b max n range c q x : N = m_nv (r_model r) -> starts r q -> turns_local pn (r_model r) q x a -> turns_local pn (r_model r) q x b -> cone_constraint pn N r a b max n range = Ok c ->
  exists g w, let B := fun u => m3_mul (m3_t (fr_R (pn_frame pn (q u) a))) (fr_R (pn_frame pn (q u) b)) in
    made c Inequality Hard 1 n N g /\ (forall u, rotation (B u)) /\ m3_deriv B 0 (m3_mul (skew w) (B 0)) /\
    forall k, (k < n)%nat -> g (vat x) k = max - (v3_dot (snd (cone_slice range n (frame_axis (B 0) 2) k)) w + fst (cone_slice range n (frame_axis (B 0) 2) k)).
Proof.
  intros HN Hs Ta Tb H. unfold cone_constraint in H. bind H y Ey. destruct y as [T J]. destruct (relative_rotation_spec _ _ _ _ _ _ _ _ Ey HN Hs Ta Tb) as (RJ & CJ & ET & HR & D). apply guard_inv in H. destruct H as [_ H].
  apply le_d_made in H; [|reflexivity]. cbn [mrows mcols mat_at vat] in H. eexists. exists (apply3 J (vat x)). cbv zeta. split; [exact H|]. split; [exact HR|]. split; [exact D|].
  intros k Hk. cbv beta. rewrite ET, cone_axis. f_equal. f_equal. unfold apply3, v3_dot. cbn [vx vy vz]. rewrite CJ, <- !Rsum_scal_l, <- !Rsum_plus. apply Rsum_ext. intros j _. ring.
Qed.
End WithPin.

(** The slice that contains the axis. *)
Lemma central_slice range h d : v3_dot d d = 1 -> (0 < h)%nat -> vx d * vx d + vy d * vy d <> 0 -> let p := sqrt (vx d * vx d + vy d * vy d) in
  cone_slice range (2 * h) d h = (acos (vz d), V3 (- vy d / p) (vx d / p) 0).
Proof.
  intros Hd Hh Hn p. assert (S0 : 0 < vx d * vx d + vy d * vy d) by nra. assert (Pp : 0 < p) by (apply sqrt_lt_R0; exact S0). assert (PP : p * p = vx d * vx d + vy d * vy d) by (apply sqrt_sqrt; lra).
  assert (Hx : vx d <> 0 \/ vy d <> 0). { destruct (Req_dec (vx d) 0) as [Z|Z]; [right|now left]. intros Y. apply Hn. rewrite Z, Y. ring. }
  destruct (atan2_polar (vy d) (vx d) Hx) as [C S]. fold p in C, S. unfold cone_slice.
  assert (I : 0 < INR h) by now apply lt_0_INR. replace (atan2 (vy d) (vx d) + INR h * 2 * range / INR (2 * h) - range) with (atan2 (vy d) (vx d)) by (rewrite mult_INR; cbn [INR]; field; lra).
  unfold rot_z. rewrite C, S. unfold v3_dot in Hd. f_equal.
  - cbn [m3_vec m3_t m00 m01 m02 m10 m11 m12 m20 m21 m22 vx vy vz].
    replace (vx d / p * vx d + vy d / p * vy d + 0 * vz d) with p by (apply Rmult_eq_reg_r with p; [rewrite PP; field; lra|lra]). replace (0 * vx d + 0 * vy d + 1 * vz d) with (vz d) by ring.
    assert (B : -1 <= vz d <= 1) by (split; nra). pose proof (acos_bound (vz d)) as Ab. pose proof PI_RGT_0. apply atan2_unique; [right; lra|lra| |].
    + rewrite cos_acos by exact B. replace (vz d * vz d + p * p) with 1 by lra. rewrite sqrt_1. ring.
    + rewrite sin_acos by exact B. replace (vz d * vz d + p * p) with 1 by lra. rewrite sqrt_1, Rmult_1_r. replace p with (sqrt (p * p)) by (apply sqrt_square; lra). f_equal. unfold Rsqr. lra.
  - cbn. f_equal. field. lra.
Qed.

Lemma z_axis_third T : z_axis T = frame_axis (fr_R T) 2.
Proof. reflexivity. Qed.
Lemma tilt_relative A B : rigid A -> tilt_of A B = angle_between (m3_vec (m3_mul (m3_t (fr_R A)) (fr_R B)) (V3 0 0 1)) (V3 0 0 1).
Proof.
  intros HA. unfold tilt_of, angle_between. rewrite m3_vec_mul, cone_axis.
  assert (E : z_axis A = m3_vec (fr_R A) (V3 0 0 1)) by (rewrite cone_axis; reflexivity). assert (N1 : v3_norm (z_axis A) = v3_norm (V3 0 0 1)) by (rewrite E; apply norm_rotated, HA).
  change (frame_axis (fr_R B) 2) with (z_axis B). rewrite (norm_rotated _ _ (rotation_t _ HA)), N1, E. f_equal. unfold Rdiv. f_equal; [|f_equal; ring].
  unfold v3_dot, m3_vec, m3_t, z_axis. cbn. ring.
Qed.
Lemma unit_angle d : v3_dot d d = 1 -> angle_between d (V3 0 0 1) = acos (vz d).
Proof. intros H. unfold angle_between. assert (v3_norm d = 1) as -> by (unfold v3_norm; rewrite H; apply sqrt_1). assert (v3_norm (V3 0 0 1) = 1) as -> by (unfold v3_norm, v3_dot; cbn; transitivity (sqrt 1); [f_equal; ring|apply sqrt_1]). f_equal. unfold v3_dot. cbn. field. Qed.

Lemma cone_central pn N r a b max h range c q x : N = m_nv (r_model r) -> starts r q -> turns_local pn (r_model r) q x a -> turns_local pn (r_model r) q x b -> (0 < h)%nat ->
  let A := fun u => pn_frame pn (q u) a in let B := fun u => pn_frame pn (q u) b in v3_cross (z_axis (A 0)) (z_axis (B 0)) <> v3_zero -> cone_constraint pn N r a b max (2 * h) range = Ok c ->
  exists g d, made c Inequality Hard 1 (2 * h) N g /\ derivable_pt_lim (fun u => tilt_of (A u) (B u)) 0 d /\ g (vat x) h = max - (tilt_of (A 0) (B 0) + d).
Proof.
  intros HN Hs Ta Tb Hh A B Hc H. destruct (cone_made pn N r a b max _ range c q x HN Hs Ta Tb H) as (g & w & M & HR & D & G). set (P := fun u => m3_mul (m3_t (fr_R (pn_frame pn (q u) a))) (fr_R (pn_frame pn (q u) b))) in *.
  destruct Ta as (_ & _ & _ & RA & _). set (d := frame_axis (P 0) 2) in *.
  assert (Dd : v3_dot d d = 1). { pose proof (f_equal m22 (rotation_l _ (HR 0))) as O. unfold m3_mul at 1, m3_t, m3_id in O. cbn [m22] in O. unfold d, v3_dot, frame_axis. cbn [vx vy vz]. exact O. }
  assert (Ed : d = m3_vec (m3_t (fr_R (A 0))) (z_axis (B 0))) by (unfold d, P, A, B; apply V3_ext; unfold frame_axis, m3_vec, m3_mul, z_axis; cbn; ring).
  assert (RA0 : rotation (fr_R (A 0))) by exact (RA 0).
  assert (Hx : v3_cross d (V3 0 0 1) <> v3_zero).
  { intros Z. apply Hc. assert (Ez : V3 0 0 1 = m3_vec (m3_t (fr_R (A 0))) (z_axis (A 0))) by (rewrite z_axis_third, <- cone_axis, <- m3_vec_mul, (rotation_l _ RA0), m3_vec_id; reflexivity).
    rewrite Ez, Ed, <- (rotation_cross_t _ _ _ RA0) in Z. assert (Z' : v3_cross (z_axis (B 0)) (z_axis (A 0)) = v3_zero).
    { rewrite <- (m3_vec_id (v3_cross _ _)), <- (rotation_r _ RA0), m3_vec_mul, Z. apply V3_ext; unfold m3_vec, v3_zero; cbn; ring. }
    pose proof (f_equal vx Z') as Z1. pose proof (f_equal vy Z') as Z2. pose proof (f_equal vz Z') as Z3. unfold v3_cross in Z1, Z2, Z3. cbn [vx vy vz v3_zero] in Z1, Z2, Z3. apply V3_ext; unfold v3_cross; cbn [vx vy vz v3_zero]; lra. }
  assert (S0 : vx d * vx d + vy d * vy d <> 0).
  { intros Z. apply Hx. assert (vx d = 0) by nra. assert (vy d = 0) by nra. apply V3_ext; unfold v3_cross; cbn [vx vy vz v3_zero]; lra. }
  pose proof (angle_deriv P (V3 0 0 1) (V3 0 0 1) w HR D) as X. rewrite cone_axis in X. fold d in X. specialize (X Hx). eexists g, _. split; [exact M|]. split.
  { eapply lim_ext; [| |exact X]; [intros u; symmetry; apply tilt_relative, RA|reflexivity]. }
  rewrite (G h) by lia. change (m3_mul (m3_t (fr_R (pn_frame pn (q 0) a))) (fr_R (pn_frame pn (q 0) b))) with (P 0). fold d. rewrite (central_slice range h d Dd Hh S0). cbn [fst snd]. f_equal. rewrite (tilt_relative _ _ RA0). rewrite cone_axis. change (m3_mul (m3_t (fr_R (A 0))) (fr_R (B 0))) with (P 0). fold d. rewrite (unit_angle d Dd).
  rewrite (normalize_unit d Dd), (normalize_unit (V3 0 0 1)) by (unfold v3_dot; cbn; ring). rewrite (normalize_scale _ Hx).
  assert (Nx : v3_norm (v3_cross d (V3 0 0 1)) = sqrt (vx d * vx d + vy d * vy d)) by (unfold v3_norm, v3_dot, v3_cross; cbn; f_equal; ring). rewrite Nx.
  assert (Pp : 0 < sqrt (vx d * vx d + vy d * vy d)) by (apply sqrt_lt_R0; nra). set (p := sqrt _) in *. clearbody p. unfold v3_dot, v3_scale, v3_cross. cbn [vx vy vz]. field. lra.
Qed.
