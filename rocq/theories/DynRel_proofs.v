From Coq Require Import Reals List ZArith Bool String Lra Lia.
From Verif Require Import Base Linalg Geom3 Tools_model Geometry_model Expression_model Problem_model Polynom_model Robot_model Robot_spec Robot_proofs KinTasks_model
  Kin_model Kin_spec Kin_proofs Kin_proofs6 Kin_proofs7 DynTasks_model Dyn_model Dyn_spec Dyn_proofs3 Tasks_spec Tasks_proofs DynTasks_proofs KinTasks_proofs KinReg_proofs DynRel_spec.
Import ListNotations.
Open Scope R_scope.

Lemma seen_deriv (A : R -> mat3) (p : R -> vec3) t w dp : m3_deriv A t (m3_mul (skew w) (A t)) -> v3_deriv p t dp ->
  v3_deriv (fun u => m3_vec (m3_t (A u)) (p u)) t (m3_vec (m3_t (A t)) (v3_sub dp (v3_cross w (p t)))).
Proof.
  intros HA (P0 & P1 & P2). entry HA m00. entry HA m01. entry HA m02. entry HA m10. entry HA m11. entry HA m12. entry HA m20. entry HA m21. entry HA m22. clear HA.
  split; [|split]; (eapply lim_ext; [intros u; unfold m3_vec, m3_t; cbn [vx vy vz m00 m01 m02 m10 m11 m12 m20 m21 m22]; reflexivity| |
    eapply (deriv_dot _ _ _ (fun u => vx (p u)) (fun u => vy (p u)) (fun u => vz (p u))); eassumption]);
    unfold skew, v3_cross, m3_mul, m3_vec, v3_sub; cbn; ring.
Qed.
Lemma cross_deriv f g t a b : v3_deriv f t a -> v3_deriv g t b -> v3_deriv (fun u => v3_cross (f u) (g u)) t (v3_add (v3_cross a (g t)) (v3_cross (f t) b)).
Proof.
  intros (F0 & F1 & F2) (G0 & G1 & G2). unfold v3_cross, v3_add. split; [|split]; cbn [vx vy vz].
  - pose proof (deriv_sub _ _ t _ _ (deriv_prod _ _ t _ _ F1 G2) (deriv_prod _ _ t _ _ F2 G1)) as D. cbv beta in D. eapply lim_ext; [intros u; reflexivity| |exact D]. cbn. ring.
  - pose proof (deriv_sub _ _ t _ _ (deriv_prod _ _ t _ _ F2 G0) (deriv_prod _ _ t _ _ F0 G2)) as D. cbv beta in D. eapply lim_ext; [intros u; reflexivity| |exact D]. cbn. ring.
  - pose proof (deriv_sub _ _ t _ _ (deriv_prod _ _ t _ _ F0 G1) (deriv_prod _ _ t _ _ F1 G0)) as D. cbv beta in D. eapply lim_ext; [intros u; reflexivity| |exact D]. cbn. ring.
Qed.

Lemma sub_apply A B C (x : nat -> R) : mat_sub A B = Ok C -> mrows C = mrows A /\ mcols C = mcols A /\ mcols B = mcols A /\ apply3 C x = v3_sub (apply3 A x) (apply3 B x).
Proof.
  intros H. unfold mat_sub in H. apply guard_inv in H. destruct H as [G H]. injection H as <-. apply andb_prop in G. destruct G as [_ G]. apply Nat.eqb_eq in G. cbn [mrows mcols]. split; [reflexivity|]. split; [reflexivity|]. split; [congruence|].
  unfold apply3, v3_sub. cbn [mcols mat_at vx vy vz]. rewrite <- G. f_equal; rewrite <- Rsum_minus; apply Rsum_ext; intros j _; ring.
Qed.
Lemma add_apply A B C (x : nat -> R) : mat_add A B = Ok C -> mrows C = mrows A /\ mcols C = mcols A /\ apply3 C x = v3_add (apply3 A x) (apply3 B x).
Proof.
  intros H. unfold mat_add in H. apply guard_inv in H. destruct H as [G H]. injection H as <-. apply andb_prop in G. destruct G as [_ G]. apply Nat.eqb_eq in G. cbn [mrows mcols]. split; [reflexivity|]. split; [reflexivity|].
  unfold apply3, v3_add. cbn [mcols mat_at vx vy vz]. rewrite <- G. f_equal; rewrite <- Rsum_plus; apply Rsum_ext; intros j _; ring.
Qed.
Lemma skew_vec a b : m3_vec (skew a) b = v3_cross a b.
Proof. apply V3_ext; unfold m3_vec, skew, v3_cross; cbn; ring. Qed.

Section WithRobot.
Variable pn : pin.

Lemma seen_T r f T (q : R -> vec) t : get_T_world_frame pn r f = Ok T -> r_seen r = (st_q (r_state r), st_qd (r_state r)) -> q t = st_q (r_state r) -> T = pn_frame pn (q t) f.
Proof. intros ET Se Eq. unfold get_T_world_frame in ET. apply guard_inv in ET. destruct ET as [_ ET]. rewrite Se in ET. cbn in ET. congruence. Qed.

(** The acceleration of the position of [b] in [a]. *)
Lemma seen_twice r q qd t qdd a b : in_motion r q qd t qdd -> frame_contract pn (r_model r) q qd t a -> frame_contract pn (r_model r) q qd t b ->
  let Ra := fun u => fr_R (pn_frame pn (q u) a) in let p := fun u => v3_sub (fr_t (pn_frame pn (q u) b)) (fr_t (pn_frame pn (q u) a)) in
  let lin := fun f x => rows3 (pn_jac pn (q t) f LocalWorldAligned) 0 x in let w := fun u => spin pn (q u) (qd u) a in
  let dp := fun u => v3_sub (rows3 (pn_jac pn (q u) b LocalWorldAligned) 0 (qd u)) (rows3 (pn_jac pn (q u) a LocalWorldAligned) 0 (qd u)) in
  twice (fun u => seen_from (pn_frame pn (q u) a) (pn_frame pn (q u) b)) (fun u => m3_vec (m3_t (Ra u)) (v3_sub (dp u) (v3_cross (w u) (p u)))) t
    (m3_vec (m3_t (Ra t)) (v3_sub
      (v3_sub (v3_sub (v3_add (lin b qdd) (linear_bias pn (q t) (qd t) b)) (v3_add (lin a qdd) (linear_bias pn (q t) (qd t) a)))
              (v3_add (v3_cross (v3_add (rows3 (pn_jac pn (q t) a LocalWorldAligned) 3 qdd) (angular_bias pn (q t) (qd t) a)) (p t)) (v3_cross (w t) (dp t))))
      (v3_cross (w t) (v3_sub (dp t) (v3_cross (w t) (p t)))))).
Proof.
  intros Mo Ca Cb Ra p lin w dp. pose proof (frame_twice pn r q qd t qdd a Mo Ca) as [Pa1 Pa2]. pose proof (frame_twice pn r q qd t qdd b Mo Cb) as [Pb1 Pb2]. destruct Mo as [Se Eq Ed [S1 S2] Sd].
  assert (Hp : forall u, v3_deriv p u (dp u)) by (intros u; apply v3_deriv_sub; [apply Pb1|apply Pa1]).
  assert (HR : forall u, m3_deriv Ra u (m3_mul (skew (w u)) (Ra u))) by (intros u; apply (proj1 Ca u)).
  split; [intros u; apply (seen_deriv Ra p u (w u) (dp u) (HR u) (Hp u))|].
  apply (seen_deriv Ra (fun u => v3_sub (dp u) (v3_cross (w u) (p u))) t (w t)); [apply HR|]. apply v3_deriv_sub.
  - apply v3_deriv_sub.
    + eapply v3_deriv_ext; [intros u; reflexivity| |exact Pb2]. unfold frame_jacobian, frame_jacobian_time_variation, lin, linear_bias. rewrite Se, Eq, Ed. reflexivity.
    + eapply v3_deriv_ext; [intros u; reflexivity| |exact Pa2]. unfold frame_jacobian, frame_jacobian_time_variation, lin, linear_bias. rewrite Se, Eq, Ed. reflexivity.
  - apply cross_deriv; [|apply Hp]. destruct Ca as [C1 C2]. pose proof C2 as (D1 & D2 & _). destruct (C1 t) as (J1 & J2 & _). unfold w, spin, angular_bias.
    apply (deriv_rows3 (fun u => pn_jac pn (q u) a LocalWorldAligned)); [exact C2| | |].
    + intros u. destruct (C1 u) as (_ & K & _). rewrite D2. congruence.
    + rewrite D1, J1. lia.
    + intros k Hk. apply Sd. rewrite D2, J2 in Hk. exact Hk.
Qed.

Lemma relative_position_residual N r kp kd a b x dx ddx m e q qd t (qdd : vec) target dtarget : N = m_nv (r_model r) ->
  relative_position_dynamics pn N r kp kd a b x dx ddx m = Ok e -> in_motion r q qd t qdd -> frame_contract pn (r_model r) q qd t a -> frame_contract pn (r_model r) q qd t b ->
  twice target dtarget t ddx -> target t = x -> dtarget t = dx ->
  mrows (de_A e) = List.length (m_indices m) /\
  exists error derror dderror, (forall u, error u = v3_sub (target u) (seen_from (pn_frame pn (q u) a) (pn_frame pn (q u) b))) /\ twice error derror t dderror /\ forall k, (k < mrows (de_A e))%nat ->
    let w := spin pn (q t) (qd t) a in let p := v3_sub (fr_t (pn_frame pn (q t) b)) (fr_t (pn_frame pn (q t) a)) in
    Rsum (mcols (de_A e)) (fun j => mat_at (de_A e) k j * vat qdd j) - vat (de_b e) k =
      v3_dot (mask_axis m (row3 (m_R_local m)) k) (v3_sub
        (m3_vec (m3_t (fr_R (pn_frame pn (q t) a))) (v3_add (v3_cross w (v3_cross w p))
          (v3_sub (v3_sub (angular_bias pn (q t) (qd t) b) (angular_bias pn (q t) (qd t) a)) (v3_sub (linear_bias pn (q t) (qd t) b) (linear_bias pn (q t) (qd t) a)))))
        (second_order kp (get_kd kp kd) (error t) (derror t) dderror)) /\
    vat (de_error e) k = v3_dot (mask_axis m (row3 (m_R_local m)) k) (error t) /\ vat (de_derror e) k = v3_dot (mask_axis m (row3 (m_R_local m)) k) (derror t).
Proof.
  intros HN H Mo Ca Cb Tt Ex Edx. pose proof (seen_twice r q qd t qdd a b Mo Ca Cb) as Tp. cbv zeta in Tp. pose proof (twice_sub _ _ _ _ _ _ _ Tt Tp) as Te.
  unfold relative_position_dynamics in H. bind H Ta ETa. bind H Tb ETb. bind H Jal E1. bind H Jar E2. bind H Jbl E3. bind H dJar E4. bind H dJbr E5. bind H woa E6. bind H D E7. bind H wdAB E8. bind H J1 E9. bind H J2 E10. bind H J E11. bind H dD E12. bind H xx E13. bind H yy E14.
  pose proof (masked_size _ _ _ _ _ _ H) as Sz. split; [exact Sz|]. eexists _, _, _. split; [intros u; reflexivity|]. split; [exact Te|]. intros k Hk w p.
  destruct Mo as [Se Eq Ed [S1 S2] Sd]. pose proof (seen_T r a Ta q t ETa Se Eq) as ->. pose proof (seen_T r b Tb q t ETb Se Eq) as ->.
  assert (FJ : forall f, frame_jacobian pn r f LocalWorldAligned = pn_jac pn (q t) f LocalWorldAligned) by (intros f; unfold frame_jacobian; rewrite Se, Eq; reflexivity).
  assert (FD : forall f, frame_jacobian_time_variation pn r f LocalWorldAligned = pn_djac pn (q t) (qd t) f LocalWorldAligned) by (intros f; unfold frame_jacobian_time_variation; rewrite Se, Eq, Ed; reflexivity).
  rewrite FJ in *. rewrite FD in *. destruct Ca as [A1 A2]. destruct (A1 t) as (JA1 & JA2 & _). pose proof A2 as (DA1 & DA2 & _). destruct Cb as [B1 B2]. destruct (B1 t) as (JB1 & JB2 & _). pose proof B2 as (DB1 & DB2 & _).
  destruct (block_size _ _ _ _ _ _ E1) as [R1 C1]. destruct (block_size _ _ _ _ _ _ E2) as [R2 C2]. destruct (block_size _ _ _ _ _ _ E3) as [R3 C3]. destruct (block_size _ _ _ _ _ _ E5) as [R5 C5].
  apply times3_inv in E6. destruct E6 as (_ & _ & ->). apply times3_inv in E8. destruct E8 as (_ & _ & ->). apply times3_inv in E13. destruct E13 as (_ & _ & ->). apply times3_inv in E14. destruct E14 as (_ & _ & ->).
  destruct (mat_of3_apply3 _ _ _ (vat qdd) E9 R2) as (R9 & C9 & Q9). destruct (sub_apply _ _ _ (vat qdd) E7) as (R7 & _ & _ & Q7). rewrite R3 in R7. destruct (mat_of3_apply3 _ _ _ (vat qdd) E10 R7) as (R10 & C10 & Q10).
  destruct (add_apply _ _ _ (vat qdd) E11) as (R11 & _ & Q11). rewrite R9 in R11. rewrite Q9, Q10, Q7 in Q11.
  destruct (sub_apply _ _ _ (vat (st_qd (r_state r))) E7) as (_ & _ & _ & V7). destruct (sub_apply _ _ _ (vat (st_qd (r_state r))) E12) as (_ & _ & _ & V12).
  destruct (masked_residual _ _ _ _ _ _ (vat qdd) k H R11 Hk) as (G1 & G2 & G3). rewrite G1, G2, G3. clear G1 G2 G3. rewrite Q11, V7, V12, <- Ed.
  rewrite (block_apply3 _ _ _ _ _ E1), (block_apply3 _ _ _ _ _ E2), (block_apply3 _ _ _ _ _ E3), (block_apply3 _ _ _ _ (qd t) E1), (block_apply3 _ _ _ _ (qd t) E2), (block_apply3 _ _ _ _ (qd t) E3),
    (block_apply3 _ _ _ _ (qd t) E4), (block_apply3 _ _ _ _ (qd t) E5) by congruence.
  cbv beta. rewrite Ex, Edx. subst w p. unfold seen_from, spin, linear_bias, angular_bias.
  generalize (rows3 (pn_jac pn (q t) a LocalWorldAligned) 3 (qd t)). generalize (rows3 (pn_djac pn (q t) (qd t) a LocalWorldAligned) 3 (qd t)). generalize (rows3 (pn_djac pn (q t) (qd t) b LocalWorldAligned) 3 (qd t)).
  generalize (rows3 (pn_djac pn (q t) (qd t) a LocalWorldAligned) 0 (qd t)). generalize (rows3 (pn_djac pn (q t) (qd t) b LocalWorldAligned) 0 (qd t)).
  generalize (rows3 (pn_jac pn (q t) a LocalWorldAligned) 0 (qd t)). generalize (rows3 (pn_jac pn (q t) b LocalWorldAligned) 0 (qd t)). generalize (rows3 (pn_jac pn (q t) a LocalWorldAligned) 0 qdd). generalize (rows3 (pn_jac pn (q t) b LocalWorldAligned) 0 qdd). generalize (rows3 (pn_jac pn (q t) a LocalWorldAligned) 3 qdd).
  destruct (A1 t) as (_ & _ & _ & Rot & _). unfold rigid in Rot. set (Q := fr_R (pn_frame pn (q t) a)) in *. set (p := v3_sub (fr_t (pn_frame pn (q t) b)) (fr_t (pn_frame pn (q t) a))).
  intros al lb la vb va bb ba wb wa w. assert (X : forall u v, v3_cross (m3_vec (m3_t Q) u) (m3_vec (m3_t Q) v) = m3_vec (m3_t Q) (v3_cross u v)) by (intros u v; symmetry; apply (rotation_cross_t _ _ _ Rot)).
  assert (N1 : v3_scale (-1) (m3_vec (m3_t Q) w) = m3_vec (m3_t Q) (v3_scale (-1) w)) by (apply V3_ext; unfold m3_vec, v3_scale; cbn; ring).
  rewrite N1, !m3_vec_mul, !skew_vec, !X. generalize (m3_t Q). intros A.
  split; [f_equal; apply V3_ext; unfold desired, second_order, m3_vec, v3_sub, v3_add, v3_scale, v3_cross; cbn; ring|]. split; [reflexivity|]. f_equal. apply V3_ext; unfold m3_vec, v3_sub, v3_add, v3_scale, v3_cross; cbn; ring.
Qed.

Lemma relative_orientation_residual log3 jlog N r kp kd a b Rt w dw m e q qd t (qdd : vec) : N = m_nv (r_model r) ->
  relative_orientation_dynamics pn log3 jlog N r kp kd a b Rt w dw m = Ok e -> in_motion r q qd t qdd -> frame_contract_world pn (r_model r) q qd t a -> frame_contract_world pn (r_model r) q qd t b ->
  mrows (de_A e) = List.length (m_indices m) /\
  exists oa ob domega, (forall u, m3_deriv (fun v => fr_R (pn_frame pn (q v) a)) u (m3_mul (skew (oa u)) (fr_R (pn_frame pn (q u) a)))) /\
    (forall u, m3_deriv (fun v => fr_R (pn_frame pn (q v) b)) u (m3_mul (skew (ob u)) (fr_R (pn_frame pn (q u) b)))) /\ v3_deriv (fun u => v3_sub (ob u) (oa u)) t domega /\
  let Ra := fr_R (pn_frame pn (q t) a) in let M := m3_mul Rt (m3_t (m3_mul (m3_t Ra) (fr_R (pn_frame pn (q t) b)))) in forall k, (k < mrows (de_A e))%nat ->
    Rsum (mcols (de_A e)) (fun j => mat_at (de_A e) k j * vat qdd j) - vat (de_b e) k =
      v3_dot (mask_axis m (row3 (m_R_local m)) k) (v3_sub (m3_vec (jlog M) domega) (desired kp kd (m3_vec Ra (log3 M)) (v3_sub (m3_vec Ra w) (v3_sub (ob t) (oa t))) dw)) /\
    vat (de_error e) k = v3_dot (mask_axis m (row3 (m_R_local m)) k) (m3_vec Ra (log3 M)) /\
    vat (de_derror e) k = v3_dot (mask_axis m (row3 (m_R_local m)) k) (v3_sub (m3_vec Ra w) (v3_sub (ob t) (oa t))).
Proof.
  intros HN H Mo Ca Cb. pose proof (angular_deriv pn r q qd t qdd a Mo Ca) as Da. pose proof (angular_deriv pn r q qd t qdd b Mo Cb) as Db.
  unfold relative_orientation_dynamics in H. bind H Ja E1. bind H dJa E2. bind H Jb E3. bind H dJb E4. bind H Ta ETa. bind H Tb ETb. bind H wa E5. bind H wb E6. bind H D E7. bind H J E8. bind H xx E9. bind H yy E10.
  pose proof (masked_size _ _ _ _ _ _ H) as Sz. split; [exact Sz|].
  exists (fun u => rows3 (pn_jac pn (q u) a World) 3 (qd u)), (fun u => rows3 (pn_jac pn (q u) b World) 3 (qd u)). eexists. split; [intros u; apply (proj1 Ca u)|]. split; [intros u; apply (proj1 Cb u)|]. split; [apply v3_deriv_sub; [exact Db|exact Da]|].
  intros Ra M k Hk. destruct Mo as [Se Eq Ed [S1 S2] Sd]. pose proof (seen_T r a Ta q t ETa Se Eq) as ->. pose proof (seen_T r b Tb q t ETb Se Eq) as ->. fold Ra in H, E8. fold M in H, E8.
  assert (FJ : forall f, frame_jacobian pn r f World = pn_jac pn (q t) f World) by (intros f; unfold frame_jacobian; rewrite Se, Eq; reflexivity).
  assert (FD : forall f, frame_jacobian_time_variation pn r f World = pn_djac pn (q t) (qd t) f World) by (intros f; unfold frame_jacobian_time_variation; rewrite Se, Eq, Ed; reflexivity).
  rewrite FJ in *. rewrite FD in *. destruct Ca as [A1 A2]. destruct (A1 t) as (JA1 & JA2 & _). pose proof A2 as (DA1 & DA2 & _). destruct Cb as [B1 B2]. destruct (B1 t) as (JB1 & JB2 & _). pose proof B2 as (DB1 & DB2 & _).
  destruct (block_size _ _ _ _ _ _ E3) as [R3 C3].
  apply times3_inv in E5. destruct E5 as (_ & _ & ->). apply times3_inv in E6. destruct E6 as (_ & _ & ->). apply times3_inv in E9. destruct E9 as (_ & _ & ->). apply times3_inv in E10. destruct E10 as (_ & _ & ->).
  destruct (sub_apply _ _ _ (vat qdd) E7) as (R7 & _ & _ & Q7). rewrite R3 in R7. destruct (mat_of3_apply3 _ _ _ (vat qdd) E8 R7) as (R8 & C8 & Q8). rewrite Q7 in Q8.
  destruct (masked_residual _ _ _ _ _ _ (vat qdd) k H R8 Hk) as (G1 & G2 & G3). rewrite G1, G2, G3. clear G1 G2 G3. rewrite Q8, <- Ed, ?FJ, ?FD.
  rewrite (block_apply3 _ _ _ _ _ E1), (block_apply3 _ _ _ _ _ E3), (block_apply3 _ _ _ _ (qd t) E1), (block_apply3 _ _ _ _ (qd t) E2), (block_apply3 _ _ _ _ (qd t) E3), (block_apply3 _ _ _ _ (qd t) E4) by congruence.
  split; [|split; reflexivity]. f_equal. apply V3_ext; unfold desired, m3_vec, v3_sub, v3_add, v3_scale; cbn; ring.
Qed.
End WithRobot.
