From Coq Require Import Reals List ZArith Bool String Lra Lia.
From Verif Require Import Base Linalg Angle Geom3 Tools_model Geometry_model Geometry_proofs Expression_model Problem_model Problem_spec Polynom_model Robot_model Robot_spec
  Robot_proofs Robot_props KinTasks_model Kin_model Kin_spec Kin_proofs Kin_proofs2 Kin_proofs5 Kin_proofs6 Kin_props DynTasks_model DynTasks_proofs Tasks_spec Tasks_proofs KinTasks_spec.
Import ListNotations.
Open Scope R_scope.

(** ** Derivatives *)

Lemma deriv_axis a f t d : v3_deriv f t d -> derivable_pt_lim (fun u => v3_dot a (f u)) t (v3_dot a d).
Proof.
  intros (X & Y & Z). unfold v3_dot.
  eapply lim_ext; [intros u; reflexivity| |exact (deriv_dot (fun _ => vx a) (fun _ => vy a) (fun _ => vz a) _ _ _ t 0 0 0 _ _ _ (lim_const _ t) (lim_const _ t) (lim_const _ t) X Y Z)].
  cbn. ring.
Qed.
Lemma deriv_minus c f t d : derivable_pt_lim f t d -> derivable_pt_lim (fun u => c - f u) t (- d).
Proof. intros H. eapply lim_ext; [intros u; reflexivity| |exact (deriv_sub (fun _ => c) f t 0 d (lim_const c t) H)]. ring. Qed.
Lemma v3_deriv_from c f t d : v3_deriv f t d -> v3_deriv (fun u => v3_sub c (f u)) t (v3_scale (-1) d).
Proof.
  intros H. eapply v3_deriv_ext; [intros u; reflexivity| |apply (v3_deriv_sub (fun _ => c) f t v3_zero d); [|exact H]].
  - apply V3_ext; cbn; ring.
  - split; [|split]; apply lim_const.
Qed.

Lemma norm_deriv f t d : v3_deriv f t d -> f t <> v3_zero -> derivable_pt_lim (fun u => v3_norm (f u)) t (v3_dot (v3_normalize (f t)) d).
Proof.
  intros (X & Y & Z) H. pose proof (v3_dot_pos _ H) as P. unfold v3_norm.
  pose proof (deriv_dot _ _ _ _ _ _ t _ _ _ _ _ _ X Y Z X Y Z) as D. cbv beta in D.
  pose proof (derivable_pt_lim_comp (fun u => v3_dot (f u) (f u)) sqrt t _ _ D (derivable_pt_lim_sqrt _ P)) as C.
  eapply lim_ext; [intros u; reflexivity| |exact C]. unfold v3_normalize. destruct (Rlt_dec 0 (v3_dot (f t) (f t))); [|contradiction].
  unfold v3_norm. set (n := sqrt (v3_dot (f t) (f t))). assert (0 < n) by (apply sqrt_lt_R0; exact P). unfold v3_dot, v3_scale. cbn. field. lra.
Qed.

(** ** The equation of a task and its errors *)

(** The equation of the task gives the errors and their derivatives. *)
Definition measures (e : equation) (x : vec) (n : nat) (error : nat -> R -> R) : Prop :=
  mrows (fst e) = n /\ forall k, (k < n)%nat -> vat (snd e) k = error k 0 /\
    derivable_pt_lim (error k) 0 (- Rsum (mcols (fst e)) (fun j => mat_at (fst e) k j * vat x j)).

Lemma masked_measures m J A v b (x : vec) (f : R -> vec3) (axis : nat -> vec3) : apply_mask m J = Ok A -> mask_v m v = Ok b -> mrows J = 3%nat -> v = f 0 ->
  v3_deriv f 0 (v3_scale (-1) (apply3 J (vat x))) ->
  (forall k, (k < List.length (m_indices m))%nat -> axis k = mask_axis m (row3 (m_R_local m)) k) ->
  measures (A, b) x (List.length (m_indices m)) (fun k u => v3_dot (axis k) (f u)).
Proof.
  intros HA Hb HJ -> D Hx. split; [apply (mask_size _ _ _ HA)|]. intros k Hk. cbn [fst snd]. rewrite (mask_v_entry _ _ _ _ Hb Hk), (mask_row _ _ _ _ _ HA HJ Hk), (Hx k Hk).
  split; [reflexivity|]. eapply lim_ext; [intros u; reflexivity| |apply deriv_axis, D]. unfold v3_dot, v3_scale. cbn. ring.
Qed.

Section WithRobot.
Variable pn : pin.

Lemma position_measures N r f target m e q x : N = m_nv (r_model r) -> starts r q -> jacobian_of pn (r_model r) q 0 x f -> position_update pn N r f target m = Ok e ->
  measures e x (List.length (m_indices m)) (fun k u => v3_dot (mask_axis m (frame_axis (fr_R (pn_frame pn (q 0) f))) k) (v3_sub target (fr_t (pn_frame pn (q u) f)))).
Proof.
  intros -> [Se Eq] (J1 & J2 & J3 & J4 & [J5 J6]) H. unfold position_update in H. bind H T ET. bind H J EJ. bind H A EA. bind H b Eb. injection H as <-.
  assert (HT : T = pn_frame pn (q 0) f) by (unfold get_T_world_frame in ET; apply guard_inv in ET; destruct ET as [_ ET]; rewrite Se in ET; cbn in ET; congruence).
  destruct (block_size _ _ _ _ _ _ EJ) as [RJ CJ]. subst T.
  unfold frame_jacobian in EJ. rewrite Se in EJ. cbn [fst] in EJ. rewrite <- Eq in EJ.
  refine (masked_measures _ _ _ _ _ x (fun u => v3_sub target (fr_t (pn_frame pn (q u) f))) (mask_axis m (frame_axis (fr_R (pn_frame pn (q 0) f)))) EA Eb RJ eq_refl _ _).
  - rewrite (block_apply3 _ _ _ _ _ EJ J2). apply v3_deriv_from. exact J5.
  - intros k Hk. symmetry. exact (mask_axis_local m _ k J A EA RJ Hk).
Qed.

Lemma com_measures r target m e q x : starts r q -> com_moves pn (r_model r) q x -> com_update pn r target m = Ok e ->
  measures e x (List.length (m_indices m)) (fun k u => v3_dot (mask_axis m (row3 (m_R_local m)) k) (v3_sub target (pn_com pn (q u)))).
Proof.
  intros [Se Eq] (J1 & J2 & J3 & J4) H. unfold com_update in H. bind H A EA. bind H b Eb. injection H as <-.
  unfold com_jacobian in EA. rewrite <- Eq in EA. unfold com_world in Eb. rewrite Se in Eb. cbn [fst] in Eb. rewrite <- Eq in Eb.
  refine (masked_measures _ _ _ _ _ x (fun u => v3_sub target (pn_com pn (q u))) _ EA Eb J1 eq_refl _ _).
  - apply v3_deriv_from. exact J4.
  - reflexivity.
Qed.

Lemma frame_at r f T : get_T_world_frame pn r f = Ok T -> (f < List.length (m_frames (r_model r)))%nat /\ T = pn_frame pn (fst (r_seen r)) f.
Proof. intros H. unfold get_T_world_frame in H. apply guard_inv in H. destruct H as [G H]. apply Nat.ltb_lt in G. split; [exact G|congruence]. Qed.

Lemma relative_position_measures r a b target m e q x : starts r q -> jacobian_of pn (r_model r) q 0 x a -> jacobian_of pn (r_model r) q 0 x b ->
  relative_position_update pn r a b target m = Ok e ->
  measures e x (List.length (m_indices m)) (fun k u => v3_dot (mask_axis m (row3 (m_R_local m)) k) (v3_sub target (position_in (pn_frame pn (q u) a) (pn_frame pn (q u) b)))).
Proof.
  intros [Se Eq] Ja Jb H. unfold relative_position_update in H. bind H Ta ETa. bind H Tb ETb. bind H J EJ. bind H A EA. bind H v Ev. injection H as <-.
  destruct (frame_at _ _ _ ETa) as [La Ea]. destruct (frame_at _ _ _ ETb) as [Lb Eb]. rewrite Se in Ea, Eb. cbn [fst] in Ea, Eb. rewrite <- Eq in Ea, Eb. subst Ta Tb.
  assert (E0 : fst (r_seen r) = q 0) by (rewrite Se; exact (eq_sym Eq)).
  destruct (C108_relative_position_jacobian pn r q 0 x a b E0 La Lb Ja Jb) as (J' & EJ' & RJ & CJ & D). rewrite EJ in EJ'. injection EJ' as <-.
  refine (masked_measures _ _ _ _ _ x (fun u => v3_sub target (position_in (pn_frame pn (q u) a) (pn_frame pn (q u) b))) _ EA Ev RJ _ _ _).
  - unfold position_in. rewrite <- frame_inv_mul_t. reflexivity.
  - apply v3_deriv_from. eapply v3_deriv_ext; [intros u; apply frame_inv_mul_t|reflexivity|exact D].
  - reflexivity.
Qed.

Lemma row_times_apply v M C (x : nat -> R) : row_times v M = Ok C -> mrows M = 3%nat -> mrows C = 1%nat /\ mcols C = mcols M /\
  Rsum (mcols C) (fun j => mat_at C 0 j * x j) = v3_dot v (apply3 M x).
Proof.
  intros H HM. unfold row_times, mat_mul in H. apply guard_inv in H. destruct H as [_ H]. injection H as <-. cbn [mrows mcols mat_at]. split; [reflexivity|]. split; [reflexivity|].
  unfold apply3, v3_dot. cbn [vx vy vz]. rewrite <- !Rsum_scal_l, <- !Rsum_plus. apply Rsum_ext. intros j _. cbn. ring.
Qed.

Lemma sub_apply3 A B C i N D (x : vec) : mat_sub A B = Ok C -> block C i 0 3 N = Ok D -> mcols A = N -> mcols B = N -> apply3 D (vat x) = v3_sub (rows3 A i x) (rows3 B i x).
Proof.
  intros H HD HA HB. pose proof (sub_size _ _ _ H) as [_ HC]. rewrite (block_apply3 _ _ _ _ _ HD) by congruence. unfold mat_sub in H. apply guard_inv in H. destruct H as [_ H]. injection H as <-.
  unfold rows3, row_of, v3_sub. cbn [mcols mat_at vx vy vz] in *. rewrite HA, HB.
  f_equal; rewrite <- Rsum_minus; apply Rsum_ext; intros j _; ring.
Qed.

Lemma distance_jacobian_spec N r a b d J q x : N = m_nv (r_model r) -> starts r q -> jacobian_of pn (r_model r) q 0 x a -> jacobian_of pn (r_model r) q 0 x b ->
  fr_t (pn_frame pn (q 0) a) <> fr_t (pn_frame pn (q 0) b) -> distance_jacobian pn N r a b = Ok (d, J) ->
  mrows J = 1%nat /\ mcols J = N /\ d = v3_norm (v3_sub (fr_t (pn_frame pn (q 0) b)) (fr_t (pn_frame pn (q 0) a))) /\
  derivable_pt_lim (fun u => v3_norm (v3_sub (fr_t (pn_frame pn (q u) b)) (fr_t (pn_frame pn (q u) a)))) 0 (Rsum (mcols J) (fun j => mat_at J 0 j * vat x j)).
Proof.
  intros -> [Se Eq] (A1 & A2 & A3 & A4 & [A5 A6]) (B1 & B2 & B3 & B4 & [B5 B6]) Hne H. unfold distance_jacobian in H.
  bind H Ta ETa. bind H Tb ETb. bind H D ED. bind H D' ED'. bind H J' EJ'. injection H as <- <-.
  destruct (frame_at _ _ _ ETa) as [La Ea]. destruct (frame_at _ _ _ ETb) as [Lb Eb]. unfold frame_jacobian in ED. rewrite Se in Ea, Eb, ED. cbn [fst] in Ea, Eb, ED. rewrite <- Eq in Ea, Eb, ED. subst Ta Tb.
  destruct (block_size _ _ _ _ _ _ ED') as [R3 C3]. destruct (row_times_apply _ _ _ (vat x) EJ' R3) as (RJ & CJ & S). split; [exact RJ|]. split; [congruence|]. split; [reflexivity|].
  rewrite S, (sub_apply3 _ _ _ _ _ _ x ED ED' B2 A2). apply (norm_deriv (fun u => v3_sub (fr_t (pn_frame pn (q u) b)) (fr_t (pn_frame pn (q u) a))) 0).
  - apply v3_deriv_sub; assumption.
  - intros E. apply Hne. assert (X := f_equal vx E). assert (Y := f_equal vy E). assert (Z := f_equal vz E). cbn in X, Y, Z. apply V3_ext; lra.
Qed.

Lemma distance_measures N r a b d e q x : N = m_nv (r_model r) -> starts r q -> jacobian_of pn (r_model r) q 0 x a -> jacobian_of pn (r_model r) q 0 x b ->
  fr_t (pn_frame pn (q 0) a) <> fr_t (pn_frame pn (q 0) b) -> distance_update pn N r a b d = Ok e ->
  measures e x 1 (fun _ u => d - v3_norm (v3_sub (fr_t (pn_frame pn (q u) b)) (fr_t (pn_frame pn (q u) a)))).
Proof.
  intros HN Hs Ja Jb Hne H. unfold distance_update in H. bind H y Ey. injection H as <-. destruct y as [d0 J]. destruct (distance_jacobian_spec _ _ _ _ _ _ _ _ HN Hs Ja Jb Hne Ey) as (R1 & C1 & -> & D).
  split; [exact R1|]. intros k Hk. cbn [fst snd vat]. split; [reflexivity|]. replace k with 0%nat by lia. apply deriv_minus. exact D.
Qed.

Lemma task_measures log3 msqrt N dt r t e q x n error : N = m_nv (r_model r) -> starts r q -> task_motion pn (r_model r) q x t -> task_errors pn (q 0) t = Some (n, error) ->
  task_update pn log3 msqrt N dt r t = Ok e -> measures e x n (fun k u => error k (q u)).
Proof.
  intros HN Hs Hm He Hu. destruct t; try discriminate He; cbn in Hm, He, Hu; injection He as <- <-.
  - eapply position_measures; eassumption.
  - eapply com_measures; eassumption.
  - destruct Hm. eapply relative_position_measures; eassumption.
  - destruct Hm as (A & B & C). eapply distance_measures; eassumption.
Qed.

End WithRobot.

(** ** Orientations *)

Lemma m3_vec_ext a b : (forall v, m3_vec a v = m3_vec b v) -> a = b.
Proof.
  intros H. pose proof (H (V3 1 0 0)) as X. pose proof (H (V3 0 1 0)) as Y. pose proof (H (V3 0 0 1)) as Z. destruct a, b. unfold m3_vec in X, Y, Z. cbn in X, Y, Z.
  injection X as X0 X1 X2. injection Y as Y0 Y1 Y2. injection Z as Z0 Z1 Z2. apply M3_ext; cbn; lra.
Qed.
Lemma skew_rotated a w : rotation a -> m3_mul (skew (m3_vec (m3_t a) w)) (m3_t a) = m3_mul (m3_t a) (skew w).
Proof. intros H. apply m3_vec_ext. intros v. rewrite !m3_vec_mul, !skew_vec. apply rotation_cross. now apply rotation_t. Qed.

(** The rotation of [B] relatively to [A] turns at the difference of the angular velocities, in [A]. *)
Lemma relative_rotation_deriv (A B : R -> mat3) t wa wb : rotation (A t) -> m3_deriv A t (m3_mul (skew wa) (A t)) -> m3_deriv B t (m3_mul (skew wb) (B t)) ->
  m3_deriv (fun u => m3_mul (m3_t (A u)) (B u)) t (m3_mul (skew (m3_vec (m3_t (A t)) (v3_sub wb wa))) (m3_mul (m3_t (A t)) (B t))).
Proof.
  intros Hr HA HB. rewrite <- m3_mul_assoc, (skew_rotated _ _ Hr), m3_mul_assoc.
  entry HA m00. entry HA m01. entry HA m02. entry HA m10. entry HA m11. entry HA m12. entry HA m20. entry HA m21. entry HA m22. clear HA.
  entry HB m00. entry HB m01. entry HB m02. entry HB m10. entry HB m11. entry HB m12. entry HB m20. entry HB m21. entry HB m22. clear HB.
  intros e He. cbn [In] in He. repeat (destruct He as [<-|He]); try destruct He;
    (eapply lim_ext; [intros u; unfold m3_mul, m3_t; cbn [m00 m01 m02 m10 m11 m12 m20 m21 m22]; reflexivity| |
      cbn [m3_mul m3_t m00 m01 m02 m10 m11 m12 m20 m21 m22]; eapply deriv_dot; eassumption]);
    unfold skew, v3_sub, m3_mul, m3_t; cbn; ring.
Qed.

(** The rotation of a vector. *)
Lemma vector_deriv (A : R -> mat3) t w v : m3_deriv A t (m3_mul (skew w) (A t)) -> v3_deriv (fun u => m3_vec (A u) v) t (v3_cross w (m3_vec (A t) v)).
Proof.
  intros HA. entry HA m00. entry HA m01. entry HA m02. entry HA m10. entry HA m11. entry HA m12. entry HA m20. entry HA m21. entry HA m22. clear HA.
  split; [|split]; (eapply lim_ext; [intros u; unfold m3_vec; cbn [vx vy vz]; reflexivity| |
    cbn [m3_vec vx vy vz]; eapply (deriv_dot _ _ _ (fun _ => vx v) (fun _ => vy v) (fun _ => vz v)); try eassumption; apply lim_const]);
    unfold skew, v3_cross, m3_mul, m3_vec; cbn; ring.
Qed.

Lemma orientation_rows pn log3 N r f target m e q (x : vec) : N = m_nv (r_model r) -> starts r q -> turns pn (r_model r) q x f -> orientation_update pn log3 N r f target m = Ok e ->
  mrows (fst e) = List.length (m_indices m) /\ forall k, (k < List.length (m_indices m))%nat ->
    vat (snd e) k = v3_dot (mask_axis m (frame_axis target) k) (log3 (m3_mul target (m3_t (fr_R (pn_frame pn (q 0) f))))) /\
    Rsum (mcols (fst e)) (fun j => mat_at (fst e) k j * vat x j) = v3_dot (mask_axis m (frame_axis target) k) (rows3 (pn_jac pn (q 0) f World) 3 x).
Proof.
  intros -> [Se Eq] (J1 & J2 & J3 & J4 & J5) H. unfold orientation_update in H. bind H T ET. bind H J EJ. bind H A EA. bind H b Eb. injection H as <-. cbn [fst snd].
  destruct (frame_at _ _ _ _ ET) as [Lf HT]. rewrite Se in HT. cbn [fst] in HT. rewrite <- Eq in HT. subst T.
  destruct (block_size _ _ _ _ _ _ EJ) as [RJ CJ]. unfold frame_jacobian in EJ. rewrite Se in EJ. cbn [fst] in EJ. rewrite <- Eq in EJ.
  split; [apply (mask_size _ _ _ EA)|]. intros k Hk. rewrite (mask_v_entry _ _ _ _ Eb Hk), (mask_row _ _ _ _ _ EA RJ Hk), (mask_axis_local m target k J A EA RJ Hk).
  split; [reflexivity|]. now rewrite (block_apply3 _ _ _ _ _ EJ J2).
Qed.

Lemma mat_of3_apply3 a M C (x : nat -> R) : mat_mul (mat_of3 a) M = Ok C -> mrows M = 3%nat -> mrows C = 3%nat /\ mcols C = mcols M /\ apply3 C x = m3_vec a (apply3 M x).
Proof.
  intros H HM. unfold mat_mul in H. apply guard_inv in H. destruct H as [_ H]. injection H as <-. cbn [mrows mcols]. split; [reflexivity|]. split; [reflexivity|].
  unfold apply3, m3_vec. cbn [mrows mcols mat_at vx vy vz]. f_equal; rewrite <- !Rsum_scal_l, <- !Rsum_plus; apply Rsum_ext; intros j _; cbn; ring.
Qed.

Lemma relative_orientation_rows pn log3 N r a b target m e q (x : vec) : N = m_nv (r_model r) -> starts r q -> turns pn (r_model r) q x a -> turns pn (r_model r) q x b ->
  relative_orientation_update pn log3 N r a b target m = Ok e ->
  mrows (fst e) = List.length (m_indices m) /\ forall k, (k < List.length (m_indices m))%nat ->
    vat (snd e) k = v3_dot (mask_axis m (row3 (m_R_local m)) k) (log3 (m3_mul target (m3_t (m3_mul (m3_t (fr_R (pn_frame pn (q 0) a))) (fr_R (pn_frame pn (q 0) b)))))) /\
    Rsum (mcols (fst e)) (fun j => mat_at (fst e) k j * vat x j) = v3_dot (mask_axis m (row3 (m_R_local m)) k)
      (m3_vec (m3_t (fr_R (pn_frame pn (q 0) a))) (v3_sub (rows3 (pn_jac pn (q 0) b World) 3 x) (rows3 (pn_jac pn (q 0) a World) 3 x))).
Proof.
  intros -> [Se Eq] (A1 & A2 & A3 & A4 & A5) (B1 & B2 & B3 & B4 & B5) H. unfold relative_orientation_update in H.
  bind H Ta ETa. bind H Tb ETb. bind H D ED. bind H D' ED'. bind H J EJ. bind H A EA. bind H v Ev. injection H as <-. cbn [fst snd].
  destruct (frame_at _ _ _ _ ETa) as [La Ea]. destruct (frame_at _ _ _ _ ETb) as [Lb Eb]. unfold frame_jacobian in ED. rewrite Se in Ea, Eb, ED. cbn [fst] in Ea, Eb, ED. rewrite <- Eq in Ea, Eb, ED. subst Ta Tb.
  destruct (block_size _ _ _ _ _ _ ED') as [R3 C3]. destruct (mat_of3_apply3 _ _ _ (vat x) EJ R3) as (RJ & CJ & S).
  split; [apply (mask_size _ _ _ EA)|]. intros k Hk. rewrite (mask_v_entry _ _ _ _ Ev Hk), (mask_row _ _ _ _ _ EA RJ Hk). split; [reflexivity|].
  now rewrite S, (sub_apply3 _ _ _ _ _ _ x ED ED' B2 A2).
Qed.

(** ** Axes *)

Lemma cross_dot_l u v : v3_dot (v3_cross u v) u = 0.
Proof. unfold v3_dot, v3_cross. cbn. ring. Qed.
Lemma axis_columns x z : v3_dot x x = 1 -> v3_dot z z = 1 -> v3_dot z x = 0 -> rotation (columns x (v3_cross z x) z).
Proof.
  intros Hx Hz Hzx. assert (Hy : v3_dot (v3_cross z x) (v3_cross z x) = 1).
  { transitivity (v3_dot z z * v3_dot x x - v3_dot z x * v3_dot z x); [unfold v3_dot, v3_cross; cbn; ring|rewrite Hx, Hz, Hzx; ring]. }
  split.
  - unfold orthogonal. apply M3_ext; unfold m3_mul, m3_t, columns, m3_id; cbn [m00 m01 m02 m10 m11 m12 m20 m21 m22];
    unfold v3_dot, v3_cross in *; cbn [vx vy vz] in *; lra.
  - transitivity (v3_dot (v3_cross z x) (v3_cross z x)); [|exact Hy]. unfold m3_det, columns, v3_dot, v3_cross; cbn [m00 m01 m02 m10 m11 m12 m20 m21 m22 vx vy vz]. ring.
Qed.
Lemma rotation_inverse a : rotation a -> m3_inverse a = Some (m3_t a).
Proof.
  intros [Ho Hd]. unfold m3_inverse. destruct (Req_EM_T (m3_det a) 0); [lra|]. f_equal. pose proof (orthogonal_adj a Ho) as E. rewrite <- E, Hd. apply M3_ext; cbn; field.
Qed.

Lemma norm_rotated a v : rotation a -> v3_norm (m3_vec a v) = v3_norm v.
Proof. intros [Ho _]. unfold v3_norm. now rewrite orthogonal_dot. Qed.
Lemma norm_pos v : v <> v3_zero -> 0 < v3_norm v.
Proof. intros H. apply sqrt_lt_R0. now apply v3_dot_pos. Qed.
Lemma normalize_scale v : v <> v3_zero -> v3_normalize v = v3_scale (/ v3_norm v) v.
Proof. intros H. unfold v3_normalize. destruct (Rlt_dec 0 (v3_dot v v)); [reflexivity|]. pose proof (v3_dot_pos v H). lra. Qed.
Lemma rotated_nonzero a v : rotation a -> v <> v3_zero -> m3_vec a v <> v3_zero.
Proof. intros Hr Hv E. apply Hv. apply v3_norm_0. rewrite <- (norm_rotated a v Hr), E. now apply v3_norm_0. Qed.
Lemma dot_normalized u v : u <> v3_zero -> v <> v3_zero -> v3_dot (v3_normalize u) (v3_normalize v) = v3_dot u v / (v3_norm u * v3_norm v).
Proof.
  intros Hu Hv. rewrite (normalize_scale u Hu), (normalize_scale v Hv). pose proof (norm_pos u Hu). pose proof (norm_pos v Hv). unfold v3_dot, v3_scale. cbn. field. lra.
Qed.
Lemma cross_normalized u v : u <> v3_zero -> v <> v3_zero -> v3_cross (v3_normalize u) (v3_normalize v) = v3_scale (/ (v3_norm u * v3_norm v)) (v3_cross u v).
Proof.
  intros Hu Hv. rewrite (normalize_scale u Hu), (normalize_scale v Hv). pose proof (norm_pos u Hu). pose proof (norm_pos v Hv). apply V3_ext; unfold v3_cross, v3_scale; cbn; field; lra.
Qed.
Lemma scale_nonzero k v : k <> 0 -> v <> v3_zero -> v3_scale k v <> v3_zero.
Proof.
  intros Hk Hv E. apply Hv. assert (X := f_equal vx E). assert (Y := f_equal vy E). assert (Z := f_equal vz E). cbn in X, Y, Z.
  apply V3_ext; cbn; [apply Rmult_integral in X; tauto|apply Rmult_integral in Y; tauto|apply Rmult_integral in Z; tauto].
Qed.
Lemma cross_zero_r u : v3_cross u v3_zero = v3_zero.
Proof. apply V3_ext; unfold v3_cross; cbn; ring. Qed.
Lemma cross_zero_l u : v3_cross v3_zero u = v3_zero.
Proof. apply V3_ext; unfold v3_cross; cbn; ring. Qed.

Lemma axis_align_rows pn N r f axis target o q (x : vec) : N = m_nv (r_model r) -> starts r q -> turns pn (r_model r) q x f ->
  let v := m3_vec (fr_R (pn_frame pn (q 0) f)) axis in let w := rows3 (pn_jac pn (q 0) f World) 3 x in
  v3_cross v target <> v3_zero -> axis_align_update pn N r f axis target = Ok o ->
  exists A b, o = Some (A, b) /\ mrows A = 2%nat /\ vat b 0 = 0 /\ vat b 1 = angle_between v target /\
    Rsum (mcols A) (fun j => mat_at A 0 j * vat x j) = v3_dot (v3_cross (v3_normalize (v3_cross (v3_normalize v) (v3_normalize target))) (v3_normalize v)) w /\
    Rsum (mcols A) (fun j => mat_at A 1 j * vat x j) = v3_dot (v3_normalize (v3_cross (v3_normalize v) (v3_normalize target))) w.
Proof.
  intros -> [Se Eq] (J1 & J2 & J3 & J4 & J5) v w Hne H. unfold axis_align_update in H. bind H T ET. bind H J EJ.
  destruct (frame_at _ _ _ _ ET) as [Lf HT]. rewrite Se in HT. cbn [fst] in HT. rewrite <- Eq in HT. subst T.
  assert (Hv : v <> v3_zero) by (intros E; apply Hne; rewrite E; apply cross_zero_l). assert (Ht : target <> v3_zero) by (intros E; apply Hne; rewrite E; apply cross_zero_r).
  unfold axis_frame in H. fold v in H. set (xh := v3_normalize v) in *. set (d := v3_normalize target) in *. set (z := v3_normalize (v3_cross xh d)) in *.
  assert (Hc : v3_cross xh d <> v3_zero).
  { unfold xh, d. rewrite cross_normalized by assumption. apply scale_nonzero; [|exact Hne]. pose proof (norm_pos v Hv). pose proof (norm_pos target Ht). apply Rinv_neq_0_compat. nra. }
  assert (Hx : v3_dot xh xh = 1) by (apply v3_normalize_unit; exact Hv). assert (Hz : v3_dot z z = 1) by (apply v3_normalize_unit; exact Hc).
  assert (Hd : v3_dot d d = 1) by (apply v3_normalize_unit; exact Ht).
  assert (Hzx : v3_dot z xh = 0).
  { unfold z. rewrite (normalize_scale _ Hc). transitivity (/ v3_norm (v3_cross xh d) * v3_dot (v3_cross xh d) xh); [unfold v3_dot, v3_scale; cbn; ring|]. rewrite cross_dot_l. ring. }
  pose proof (axis_columns xh z Hx Hz Hzx) as Rot. rewrite (rotation_inverse _ Rot) in H. bind H K EK. bind H A EA. injection H as <-.
  destruct (block_size _ _ _ _ _ _ EJ) as [RJ CJ]. unfold frame_jacobian in EJ. rewrite Se in EJ. cbn [fst] in EJ. rewrite <- Eq in EJ.
  destruct (mat_of3_apply3 _ _ _ (vat x) EK RJ) as (RK & CK & S). rewrite (block_apply3 _ _ _ _ _ EJ J2) in S. fold w in S.
  destruct (block_entry _ _ _ _ _ _ EA) as (RA & CA & _ & EAe). eexists A, _. split; [reflexivity|]. split; [exact RA|]. cbn [vat Nat.eqb].
  assert (B : -1 <= v3_dot xh d <= 1).
  { assert (0 <= 1 - v3_dot xh d * v3_dot xh d); [|split; nra].
    rewrite <- (unit_cross xh d Hx Hd). unfold v3_dot. nra. }
  split; [reflexivity|]. split.
  { unfold columns. cbn [m00 m10 m20]. replace (V3 (vx xh) (vy xh) (vz xh)) with xh by (destruct xh; reflexivity). rewrite (safe_acos_in _ B). unfold angle_between. f_equal. now apply dot_normalized. }
  assert (CC : mcols A = mcols K) by congruence.
  assert (S1 := f_equal vy S). assert (S2 := f_equal vz S). unfold apply3, m3_vec, m3_t, columns in S1, S2. cbn [vx vy vz m00 m01 m02 m10 m11 m12 m20 m21 m22] in S1, S2.
  rewrite CC. split.
  - transitivity (Rsum (mcols K) (fun j => mat_at K 1 j * vat x j)); [apply Rsum_ext; intros j _; rewrite EAe; reflexivity|]. rewrite S1. reflexivity.
  - transitivity (Rsum (mcols K) (fun j => mat_at K 2 j * vat x j)); [apply Rsum_ext; intros j _; rewrite EAe; reflexivity|]. rewrite S2. reflexivity.
Qed.

Lemma lim_acos y : -1 < y < 1 -> derivable_pt_lim acos y (- / sqrt (1 - Rsqr y)).
Proof. intros H. pose proof (derive_pt_acos y H) as E. apply (derive_pt_eq acos y _ (derivable_pt_acos y H)) in E. eapply lim_ext; [reflexivity| |exact E]. field. apply Rgt_not_eq, sqrt_lt_R0. unfold Rsqr. nra. Qed.

(** The variation of the angle between a turning vector and a fixed one. *)
Lemma angle_deriv (A : R -> mat3) axis target w : (forall u, rotation (A u)) -> m3_deriv A 0 (m3_mul (skew w) (A 0)) -> v3_cross (m3_vec (A 0) axis) target <> v3_zero ->
  derivable_pt_lim (fun u => angle_between (m3_vec (A u) axis) target) 0 (- v3_dot (v3_normalize (v3_cross (v3_normalize (m3_vec (A 0) axis)) (v3_normalize target))) w).
Proof.
  intros Hr HA Hne. set (v := m3_vec (A 0) axis) in *.
  assert (Hv : v <> v3_zero) by (intros E; apply Hne; rewrite E; apply cross_zero_l). assert (Ht : target <> v3_zero) by (intros E; apply Hne; rewrite E; apply cross_zero_r).
  assert (Na : v3_norm v = v3_norm axis) by (apply norm_rotated, Hr). pose proof (norm_pos v Hv) as Pv. pose proof (norm_pos target Ht) as Pt.
  set (xh := v3_normalize v) in *. set (d := v3_normalize target) in *.
  assert (Hc : v3_cross xh d <> v3_zero).
  { unfold xh, d. rewrite cross_normalized by assumption. apply scale_nonzero; [|exact Hne]. apply Rinv_neq_0_compat. nra. }
  assert (Hx : v3_dot xh xh = 1) by (apply v3_normalize_unit; exact Hv). assert (Hd : v3_dot d d = 1) by (apply v3_normalize_unit; exact Ht).
  set (k := / (v3_norm axis * v3_norm target)).
  assert (D : derivable_pt_lim (fun u => k * v3_dot target (m3_vec (A u) axis)) 0 (k * v3_dot target (v3_cross w v))).
  { eapply lim_ext; [intros u; unfold mult_real_fct; reflexivity| |apply (derivable_pt_lim_scal _ k), (deriv_axis target), (vector_deriv A 0 w axis HA)]. reflexivity. }
  assert (C0 : k * v3_dot target v = v3_dot xh d).
  { unfold xh, d. rewrite dot_normalized by assumption. unfold k. rewrite Na. unfold v3_dot. cbn. field. rewrite <- Na. lra. }
  pose proof (unit_cross xh d Hx Hd) as UC. pose proof (v3_dot_pos _ Hc) as PC.
  assert (B : -1 < k * v3_dot target v < 1) by (rewrite C0; split; nra).
  pose proof (derivable_pt_lim_comp (fun u => k * v3_dot target (m3_vec (A u) axis)) acos 0 _ _ D (lim_acos _ B)) as DA. fold v in DA.
  eapply lim_ext; [| |exact DA].
  - intros u. unfold comp, angle_between. rewrite norm_rotated by apply Hr. f_equal. unfold k, v3_dot, Rdiv. ring.
  - rewrite (normalize_scale _ Hc). set (n := v3_norm (v3_cross xh d)). assert (Hn : n = sqrt (1 - Rsqr (k * v3_dot target v))).
    { unfold n, v3_norm. f_equal. rewrite UC, C0. unfold Rsqr. ring. }
    fold v. rewrite <- Hn. assert (Pn : 0 < n) by (apply norm_pos; exact Hc).
    assert (T : k * v3_dot target (v3_cross w v) = v3_dot (v3_cross xh d) w).
    { unfold xh, d. rewrite cross_normalized by assumption. unfold k. rewrite Na. unfold v3_dot, v3_cross, v3_scale. cbn. ring. }
    rewrite T. unfold v3_dot, v3_scale. cbn. field. lra.
Qed.

(** ** The tasks of a successful solve *)

Section WithSolver.
Variable pn : pin.
Variable log3 : mat3 -> vec3.
Variable msqrt : mat -> mat.

Lemma solved_updates N s r apply qr qp s' r' delta t : kreachable pn log3 msqrt N s -> sound pn log3 msqrt s r ->
  ksolve pn log3 msqrt qr qp s r apply = (s', r', Ok delta) -> In t (ks_tasks s) -> vlen delta = N /\ exists e, task_update pn log3 msqrt N (ks_dt s) r (kt_kind t) = Ok e.
Proof.
  intros R So E Ht. apply reachable_knows in R. pose proof (proj1 R) as HN.
  destruct (ksolve_solved pn log3 msqrt N s r apply qr qp s' r' delta R) as (s2 & pb' & S); [rewrite <- HN; apply So|exact E|].
  split; [apply (so_delta _ _ _ _ _ _ _ _ _ _ _ _ _ _ S)|].
  destruct (pr_tasks _ _ _ _ _ _ _ (so_prepared _ _ _ _ _ _ _ _ _ _ _ _ _ _ S) t Ht) as (e & _ & He). exists e. rewrite <- HN. exact He.
Qed.

Lemma imposed_rows N s r apply qr qp s' r' delta t part : kreachable pn log3 msqrt N s -> sound pn log3 msqrt s r -> qr_correct qr -> qp_correct qp ->
  ksolve pn log3 msqrt qr qp s r apply = (s', r', Ok delta) -> In t (ks_tasks s) -> imposed s' t part ->
  exists e, task_update pn log3 msqrt N (ks_dt s) r (kt_kind t) = Ok e /\ mcols (fst e) = N /\ vlen delta = N /\
    forall k, (k < mrows (fst e))%nat -> Rsum (mcols (fst e)) (fun j => mat_at (fst e) k j * vat delta j) = part * vat (snd e) k.
Proof.
  intros R So Hqr Hqp E Ht Hi. destruct (solved_updates N s r apply qr qp s' r' delta t R So E Ht) as [L [[A b] He]]. exists (A, b). cbn [fst snd]. split; [exact He|].
  destruct Hi as [[Hp ->]|[Hp ->]].
  - destruct (C63_hard_tasks pn log3 msqrt N s r apply qr qp s' r' delta t A b R So Hqr Hqp E Ht Hp He) as [C H]. split; [exact C|]. split; [exact L|]. intros k Hk. rewrite C, (H k Hk). ring.
  - assert (C : mcols A = N).
    { pose proof (proj1 (reachable_knows _ _ _ _ _ R)) as HN. assert (He' := He). rewrite <- HN in He'. rewrite <- HN. exact (proj1 (proj1 So t (A, b) (conj Ht He'))). }
    split; [exact C|]. split; [exact L|]. intros k Hk.
    destruct (C63_scaled_tasks pn log3 msqrt N s r apply qr qp s' r' delta R So Hqr Hqp E t A b Ht Hp He ltac:(lia)) as (_ & _ & H). rewrite C. exact (H k Hk).
Qed.

End WithSolver.
