From Coq Require Import Reals List ZArith Bool String Lra Lia.
From Verif Require Import Base Linalg Geom3 Tools_model Geometry_model Expression_model Problem_model Problem_spec Problem_props Backends_proofs Polynom_model Robot_model Robot_spec Robot_proofs Robot_props KinTasks_model
  Kin_model Kin_spec Kin_proofs Kin_proofs6 DynTasks_model Dyn_model Dyn_spec Dyn_proofs3 Tasks_spec Tasks_proofs DynTasks_spec DynTasks_proofs KinTasks_proofs KinReg_proofs Dyn_example Dyn_example2 DynTasks_props
  DynRel_spec DynRel_proofs.
Import ListNotations.
Open Scope R_scope.

(** ** Relative positions *)

(** A hard relative position task, when the robot moves with the accelerations of the result: error'' + kd error' + kp error is not 0 but the sum of the centrifugal
    acceleration (counted twice) and of the difference of the angular biases (taken instead of the linear ones). [target] may move. *)
Theorem C73_relative_position_behaviour pn log3 jlog qr qp s r i s' r' res t a b x dx ddx m q qd t0 target dtarget c : dsound pn log3 jlog s r -> qr_correct qr -> qp_correct qp ->
  dsolve pn log3 jlog qr qp s r i = (s', r', Ok res) -> dr_success res = true ->
  In t (ds_tasks s) -> dt_priority t = PHard -> dt_kind t = DRelativePosition a b x dx ddx m -> damping (dt_kp t) (dt_kd t) c ->
  in_motion r q qd t0 (dr_qdd res) -> frame_contract pn (r_model r) q qd t0 a -> frame_contract pn (r_model r) q qd t0 b -> twice target dtarget t0 ddx -> target t0 = x -> dtarget t0 = dx ->
  let w := spin pn (q t0) (qd t0) a in let p := v3_sub (fr_t (pn_frame pn (q t0) b)) (fr_t (pn_frame pn (q t0) a)) in
  exists error derror dderror, (forall u, error u = v3_sub (target u) (seen_from (pn_frame pn (q u) a) (pn_frame pn (q u) b))) /\ twice error derror t0 dderror /\
    forall k, (k < List.length (m_indices m))%nat ->
      v3_dot (mask_axis m (row3 (m_R_local m)) k) (second_order (dt_kp t) c (error t0) (derror t0) dderror) =
      v3_dot (mask_axis m (row3 (m_R_local m)) k) (m3_vec (m3_t (fr_R (pn_frame pn (q t0) a))) (v3_add (v3_cross w (v3_cross w p))
          (v3_sub (v3_sub (angular_bias pn (q t0) (qd t0) b) (angular_bias pn (q t0) (qd t0) a)) (v3_sub (linear_bias pn (q t0) (qd t0) b) (linear_bias pn (q t0) (qd t0) a))))).
Proof.
  intros Hd Hqr Hqp H Hs Ht Hp Hk Hc Mo Ca Cb Tt Ex Edx w p. destruct (C73_satisfied pn log3 jlog qr qp s r i s' r' res t Hd Hqr Hqp H Hs Ht Hp) as (_ & e & He & Hr).
  unfold dtask_update in He. rewrite Hk in He. apply damping_get_kd in Hc. subst c.
  destruct (relative_position_residual pn _ _ _ _ _ _ _ _ _ _ _ _ _ _ _ _ _ (dn_N _ _ _ _ _ Hd) He Mo Ca Cb Tt Ex Edx) as (L & er & de & dd & A & B & C). exists er, de, dd. split; [exact A|]. split; [exact B|].
  intros k Hkl. rewrite <- L in Hkl. specialize (Hr k Hkl). unfold dresidual in Hr. rewrite Hk in Hr. cbn [about_tau] in Hr. destruct (C k Hkl) as [E _]. fold w in E. fold p in E. rewrite E in Hr.
  unfold v3_dot in *. unfold v3_sub at 1 in Hr. unfold v3_sub at 3 in Hr. unfold v3_sub at 5 in Hr. cbn [vx vy vz] in Hr. unfold v3_sub in *. cbn [vx vy vz] in *. lra.
Qed.
Print Assumptions C73_relative_position_behaviour.

(** The error dynamics hold when the frame a does not turn and the frames do not accelerate by themselves. Missing: the other cases, where they do not hold
    (C73_relative_position_refuted). *)
Theorem C73_relative_position_partial pn log3 jlog qr qp s r i s' r' res t a b x dx ddx m q qd t0 target dtarget c : dsound pn log3 jlog s r -> qr_correct qr -> qp_correct qp ->
  dsolve pn log3 jlog qr qp s r i = (s', r', Ok res) -> dr_success res = true ->
  In t (ds_tasks s) -> dt_priority t = PHard -> dt_kind t = DRelativePosition a b x dx ddx m -> damping (dt_kp t) (dt_kd t) c ->
  in_motion r q qd t0 (dr_qdd res) -> frame_contract pn (r_model r) q qd t0 a -> frame_contract pn (r_model r) q qd t0 b -> twice target dtarget t0 ddx -> target t0 = x -> dtarget t0 = dx ->
  spin pn (q t0) (qd t0) a = v3_zero -> (forall f, f = a \/ f = b -> linear_bias pn (q t0) (qd t0) f = v3_zero /\ angular_bias pn (q t0) (qd t0) f = v3_zero) ->
  exists error derror dderror, (forall u, error u = v3_sub (target u) (seen_from (pn_frame pn (q u) a) (pn_frame pn (q u) b))) /\ twice error derror t0 dderror /\
    forall k, (k < List.length (m_indices m))%nat -> v3_dot (mask_axis m (row3 (m_R_local m)) k) (second_order (dt_kp t) c (error t0) (derror t0) dderror) = 0.
Proof.
  intros Hd Hqr Hqp H Hs Ht Hp Hk Hc Mo Ca Cb Tt Ex Edx Hw Hb.
  destruct (C73_relative_position_behaviour pn log3 jlog qr qp s r i s' r' res t a b x dx ddx m q qd t0 target dtarget c Hd Hqr Hqp H Hs Ht Hp Hk Hc Mo Ca Cb Tt Ex Edx) as (er & de & dd & A & B & C). exists er, de, dd. split; [exact A|]. split; [exact B|].
  intros k Hkl. rewrite (C k Hkl), Hw. destruct (Hb a (or_introl eq_refl)) as [-> ->]. destruct (Hb b (or_intror eq_refl)) as [-> ->]. unfold v3_dot, m3_vec, v3_add, v3_sub, v3_cross, v3_zero. cbn. ring.
Qed.
Print Assumptions C73_relative_position_partial.

(** A robot at rest is in this case. *)
Lemma rest pn (q qd : vec) f : (forall k, vat qd k = 0) -> spin pn q qd f = v3_zero /\ linear_bias pn q qd f = v3_zero /\ angular_bias pn q qd f = v3_zero.
Proof. intros Z. assert (E : forall M i, row_of M i qd = 0) by (intros M i; unfold row_of; apply Rsum_zero_ext; intros k _; rewrite Z; ring). unfold spin, linear_bias, angular_bias, rows3. rewrite !E. auto. Qed.

(** ** Relative orientations *)

(** A hard relative orientation task imposes Jlog3(M) d/dt(omega_b - omega_a) = domega + kp R_a log3(M) + kd (R_a omega - (omega_b - omega_a)) where M is the rotation
    from the orientation of b in a to the target: the Jacobian of the logarithm, in a, is applied to a vector of the world, and domega is not rotated. *)
Theorem C73_relative_orientation_behaviour pn log3 jlog qr qp s r i s' r' res t a b Rt w dw m q qd t0 c : dsound pn log3 jlog s r -> qr_correct qr -> qp_correct qp ->
  dsolve pn log3 jlog qr qp s r i = (s', r', Ok res) -> dr_success res = true ->
  In t (ds_tasks s) -> dt_priority t = PHard -> dt_kind t = DRelativeOrientation a b Rt w dw m -> damping (dt_kp t) (dt_kd t) c ->
  in_motion r q qd t0 (dr_qdd res) -> frame_contract_world pn (r_model r) q qd t0 a -> frame_contract_world pn (r_model r) q qd t0 b ->
  let A := fun u => fr_R (pn_frame pn (q u) a) in let B := fun u => fr_R (pn_frame pn (q u) b) in let M := m3_mul Rt (m3_t (m3_mul (m3_t (A t0)) (B t0))) in
  exists oa ob domega, (forall u, m3_deriv A u (m3_mul (skew (oa u)) (A u))) /\ (forall u, m3_deriv B u (m3_mul (skew (ob u)) (B u))) /\ v3_deriv (fun u => v3_sub (ob u) (oa u)) t0 domega /\
    forall k, (k < List.length (m_indices m))%nat ->
      v3_dot (mask_axis m (row3 (m_R_local m)) k) (m3_vec (jlog M) domega) =
      v3_dot (mask_axis m (row3 (m_R_local m)) k)
        (v3_add dw (v3_add (v3_scale (dt_kp t) (m3_vec (A t0) (log3 M))) (v3_scale c (v3_sub (m3_vec (A t0) w) (v3_sub (ob t0) (oa t0)))))).
Proof.
  intros Hd Hqr Hqp H Hs Ht Hp Hk Hc Mo Ca Cb A B M. destruct (C73_satisfied pn log3 jlog qr qp s r i s' r' res t Hd Hqr Hqp H Hs Ht Hp) as (_ & e & He & Hr).
  unfold dtask_update in He. rewrite Hk in He. apply damping_get_kd in Hc. subst c.
  destruct (relative_orientation_residual pn log3 jlog _ _ _ _ _ _ _ _ _ _ _ _ _ _ _ (dn_N _ _ _ _ _ Hd) He Mo Ca Cb) as (L & oa & ob & dom & X & Y & Z & C). exists oa, ob, dom. split; [exact X|]. split; [exact Y|]. split; [exact Z|].
  intros k Hkl. rewrite <- L in Hkl. specialize (Hr k Hkl). unfold dresidual in Hr. rewrite Hk in Hr. cbn [about_tau] in Hr. destruct (C k Hkl) as [E _]. change (fr_R (pn_frame pn (q t0) a)) with (A t0) in E. change (fr_R (pn_frame pn (q t0) b)) with (B t0) in E. fold M in E.
  rewrite E in Hr. set (l := m3_vec (jlog M) dom) in *. unfold desired, v3_dot, v3_sub, v3_add, v3_scale in *. cbn in *. lra.
Qed.
Print Assumptions C73_relative_orientation_behaviour.

(** What is expected of it: the relative angular acceleration, in the world, is the one of the target corrected by the errors. [on_target]: only when the frames
    are in their target orientation. *)
Definition relative_orientation_law (on_target : bool) (no_acceleration : bool) : Prop := forall pn log3 jlog qr qp s r i s' r' res t a b Rt w dw m q qd t0 c, dsound pn log3 jlog s r -> qr_correct qr -> qp_correct qp ->
  dsolve pn log3 jlog qr qp s r i = (s', r', Ok res) -> dr_success res = true ->
  In t (ds_tasks s) -> dt_priority t = PHard -> dt_kind t = DRelativeOrientation a b Rt w dw m -> damping (dt_kp t) (dt_kd t) c ->
  in_motion r q qd t0 (dr_qdd res) -> frame_contract_world pn (r_model r) q qd t0 a -> frame_contract_world pn (r_model r) q qd t0 b ->
  log3 m3_id = v3_zero -> jlog m3_id = m3_id -> (no_acceleration = true -> dw = v3_zero) ->
  let A := fun u => fr_R (pn_frame pn (q u) a) in let B := fun u => fr_R (pn_frame pn (q u) b) in let M := m3_mul Rt (m3_t (m3_mul (m3_t (A t0)) (B t0))) in
  (on_target = true -> M = m3_id) ->
  exists oa ob domega, (forall u, m3_deriv A u (m3_mul (skew (oa u)) (A u))) /\ (forall u, m3_deriv B u (m3_mul (skew (ob u)) (B u))) /\ v3_deriv (fun u => v3_sub (ob u) (oa u)) t0 domega /\
    forall k, (k < List.length (m_indices m))%nat ->
      v3_dot (mask_axis m (row3 (m_R_local m)) k) domega =
      v3_dot (mask_axis m (row3 (m_R_local m)) k)
        (v3_add (m3_vec (A t0) dw) (v3_add (v3_scale (dt_kp t) (m3_vec (A t0) (log3 M))) (v3_scale c (v3_sub (m3_vec (A t0) w) (v3_sub (ob t0) (oa t0)))))).

(** It holds in the target orientation when the target has no acceleration. Missing: the other cases. *)
Theorem C73_relative_orientation_partial : relative_orientation_law true true.
Proof.
  intros pn log3 jlog qr qp s r i s' r' res t a b Rt w dw m q qd t0 c Hd Hqr Hqp H Hs Ht Hp Hk Hc Mo Ca Cb Hl Hj Hz A B M Hm. specialize (Hm eq_refl). specialize (Hz eq_refl). subst dw.
  destruct (C73_relative_orientation_behaviour pn log3 jlog qr qp s r i s' r' res t a b Rt w v3_zero m q qd t0 c Hd Hqr Hqp H Hs Ht Hp Hk Hc Mo Ca Cb) as (oa & ob & dom & X & Y & Z & C). exists oa, ob, dom. split; [exact X|]. split; [exact Y|]. split; [exact Z|].
  intros k Hkl. specialize (C k Hkl). fold A B in C. change (m3_mul Rt _) with M in C. rewrite Hm, Hj, m3_vec_id in C. rewrite C, Hm. assert (Z0 : m3_vec (A t0) v3_zero = v3_zero) by (generalize (A t0); intros X0; apply V3_ext; unfold m3_vec, v3_zero; cbn; ring). now rewrite Z0.
Qed.
Print Assumptions C73_relative_orientation_partial.

Lemma spin_unique_at (M : R -> mat3) t v w : rotation (M t) -> m3_deriv M t (m3_mul (skew v) (M t)) -> m3_deriv M t (m3_mul (skew w) (M t)) -> v = w.
Proof.
  intros HM D1 D2. assert (E : m3_mul (skew v) (M t) = m3_mul (skew w) (M t)).
  { apply M3_ext; (eapply uniqueness_limite; [apply D1|apply D2]); cbn; tauto. }
  assert (E' : skew v = skew w). { rewrite <- (m3_mul_id_r (skew v)), <- (m3_mul_id_r (skew w)), <- (rotation_r _ HM), <- !m3_mul_assoc, E. reflexivity. }
  pose proof (f_equal m21 E') as E1. pose proof (f_equal m02 E') as E2. pose proof (f_equal m10 E') as E3. cbn in E1, E2, E3. apply V3_ext; assumption.
Qed.

(** *** Example and refutation: the frame 2 turns around z; the axis x of the frame 0 is the axis z of the world. *)
Definition upright : mat3 := M3 0 0 (-1) 0 1 0 1 0 0.
Definition uframe (q : vec) (f : nat) : frame := if Nat.eqb f 2 then Frame (rot_z (vat q 7)) v3_zero else Frame upright v3_zero.
Definition upin : pin := gpin uframe (fun _ f _ => Mat 6 7 (rj f)) (fun _ _ _ _ => Mat 6 7 (fun _ _ => 0)) (fun _ => v3_zero)
  (fun _ => Mat 3 7 (fun _ _ => 0)) (fun _ _ => Mat 3 7 (fun _ _ => 0)).
Lemma upright_rotation : rotation upright.
Proof. split; [apply M3_ext|]; unfold m3_mul, m3_t, m3_id, upright, m3_det; cbn; ring. Qed.
Lemma upin_contracts a : frame_contract_world upin ex_model (hm_q a) (hm_qd a) 0 2 /\ frame_contract_world upin ex_model (hm_q a) (hm_qd a) 0 0.
Proof.
  split; (split; [intros u|split; [reflexivity|]; split; [reflexivity|]; intros i j _ _; apply derivable_pt_lim_const]); (do 2 (split; [reflexivity|])).
  - split; [apply rotation_z|]. assert (Z : forall i, (i < 5)%nat -> row_of (Mat 6 7 (rj 2)) i (hm_qd a u) = 0).
    { intros i Hi. unfold row_of. apply Rsum_zero_ext. intros k _. cbn [mat_at]. unfold rj. destruct (Nat.eqb_spec i 5); [lia|]. cbn. ring. }
    cbn [upin gpin pn_frame pn_jac Nat.eqb]. unfold rows3. rewrite !Z by lia.
    replace (row_of (Mat 6 7 (rj 2)) 5 (hm_qd a u)) with (vat (hm_qd a u) 6).
    + exact (hm_turning_R a u _ eq_refl).
    + unfold row_of. cbn [mcols]. rewrite (Rsum_delta 7 6); [cbn [mat_at]; unfold rj; cbn [Nat.eqb andb]; ring|lia|]. intros k _ Hk. cbn [mat_at]. unfold rj. apply Nat.eqb_neq in Hk. rewrite Hk. cbn. ring.
  - split; [apply upright_rotation|]. assert (Z : forall i, row_of (Mat 6 7 (rj 0)) i (hm_qd a u) = 0) by (intros i; unfold row_of; apply Rsum_zero_ext; intros k _; cbn; ring).
    cbn [upin gpin pn_frame pn_jac Nat.eqb]. unfold rows3. rewrite !Z.
    intros e He. unfold uframe. cbn [Nat.eqb fr_R]. eapply lim_eq; [apply derivable_pt_lim_const|]. cbn [In] in He. repeat (destruct He as [<-|He]); try destruct He; cbn; ring.
Qed.
Definition u_target : mat3 := m3_mul (m3_t upright) (rot_z (1 / 2)).
Definition u_task (w dw : vec3) (kd : R) : dtask := DTask (DRelativeOrientation 0 2 u_target w dw mask_z) PHard 1 1 kd.
Lemma u_solved w dw kd : 0 <= kd -> vz dw + kd * (vx w - 1 / 10) = 1 / 10 -> let t := u_task w dw kd in
  exists s' res, dsolve upin dex_log dex_jlog perfect_qr perfect_qp (gex t true 0) dex_robot false = (s', dex_robot, Ok res) /\ dr_success res = true /\
    dsound upin dex_log dex_jlog (gex t true 0) dex_robot /\ In t (ds_tasks (gex t true 0)) /\ in_motion dex_robot (hm_q (dr_qdd res)) (hm_qd (dr_qdd res)) 0 (dr_qdd res) /\ damping 1 kd kd /\
    m3_mul u_target (m3_t (m3_mul (m3_t (fr_R (pn_frame upin (hm_q (dr_qdd res) 0) 0))) (fr_R (pn_frame upin (hm_q (dr_qdd res) 0) 2)))) = m3_id.
Proof.
  intros Hkd Hw t. assert (G : get_kd 1 kd = kd) by (unfold get_kd; destruct (Rlt_dec kd 0); [lra|reflexivity]).
  assert (U : exists e, dtask_update upin dex_log dex_jlog 7 dex_robot t = Ok e /\ dshaped 7 e /\ mrows (de_A e) = 1%nat /\
    (forall j, (j < 7)%nat -> mat_at (de_A e) 0 j = if Nat.eqb j 6 then 1 else 0) /\ vat (de_b e) 0 = 1 / 10).
  { eexists. split; [reflexivity|]. split; [split; reflexivity|]. split; [reflexivity|]. split; [intros j Hj; do 7 (destruct j as [|j]; [cbn; ring|]); lia|].
    cbn. unfold desired. rewrite G. cbn. lra. }
  destruct U as (e & Hu & Hs & H1 & HA & Hb).
  destruct (g_solved _ _ _ _ _ _ t e Hu Hs H1 eq_refl (head_row t e 0 1 eq_refl (proj1 Hs) HA ltac:(lra) ltac:(lra))) as (s' & res & E & Hsu & So & Hin & Mo). fold upin in E, So.
  exists s', res. do 5 (split; [assumption|]). split; [split; intros; [lra|reflexivity]|].
  replace (fr_R (pn_frame upin (hm_q (dr_qdd res) 0) 2)) with (rot_z (1 / 2)) by (cbn; f_equal; field). change (fr_R (pn_frame upin (hm_q (dr_qdd res) 0) 0)) with upright. fold u_target. apply rotation_r. unfold u_target. apply rotation_mul; [apply rotation_t, upright_rotation|apply rotation_z].
Qed.
Example C73_relative_orientation_example : let t := u_task (V3 (2 / 10) 0 0) v3_zero 1 in exists s' res, dsolve upin dex_log dex_jlog perfect_qr perfect_qp (gex t true 0) dex_robot false = (s', dex_robot, Ok res) /\ dr_success res = true /\
    dsound upin dex_log dex_jlog (gex t true 0) dex_robot /\ In t (ds_tasks (gex t true 0)) /\ in_motion dex_robot (hm_q (dr_qdd res)) (hm_qd (dr_qdd res)) 0 (dr_qdd res) /\ damping 1 1 1 /\
    m3_mul u_target (m3_t (m3_mul (m3_t (fr_R (pn_frame upin (hm_q (dr_qdd res) 0) 0))) (fr_R (pn_frame upin (hm_q (dr_qdd res) 0) 2)))) = m3_id /\
    frame_contract_world upin ex_model (hm_q (dr_qdd res)) (hm_qd (dr_qdd res)) 0 2 /\ frame_contract_world upin ex_model (hm_q (dr_qdd res)) (hm_qd (dr_qdd res)) 0 0.
Proof.
  intros t. destruct (u_solved (V3 (2 / 10) 0 0) v3_zero 1 ltac:(lra) ltac:(cbn; lra)) as (s' & res & H1 & H2 & H3 & H4 & H5 & H6 & H7). exists s', res. destruct (upin_contracts (dr_qdd res)). tauto.
Qed.

(** With an acceleration of the target the law does not hold, even in the target orientation. *)
Theorem C73_relative_orientation_refuted : ~ relative_orientation_law true false.
Proof.
  intros F. destruct (u_solved v3_zero (V3 0 0 (1 / 10)) 0 ltac:(lra) ltac:(cbn; lra)) as (s' & res & E & Su & So & Hin & Mo & Dm & HM). destruct (upin_contracts (dr_qdd res)) as [C2 C0].
  destruct (F upin dex_log dex_jlog perfect_qr perfect_qp _ dex_robot false s' dex_robot res (u_task v3_zero (V3 0 0 (1 / 10)) 0) 0%nat 2%nat u_target v3_zero (V3 0 0 (1 / 10)) mask_z (hm_q (dr_qdd res)) (hm_qd (dr_qdd res)) 0 0
    So perfect_qr_correct perfect_qp_correct E Su Hin eq_refl eq_refl Dm Mo C0 C2 eq_refl eq_refl ltac:(discriminate) (fun _ => HM)) as (oa & ob & dom & Ha & Hb & D & K). specialize (K 0%nat ltac:(cbn; lia)).
  destruct (C73_relative_orientation_behaviour upin dex_log dex_jlog perfect_qr perfect_qp _ dex_robot false s' dex_robot res (u_task v3_zero (V3 0 0 (1 / 10)) 0) 0%nat 2%nat u_target v3_zero (V3 0 0 (1 / 10)) mask_z (hm_q (dr_qdd res)) (hm_qd (dr_qdd res)) 0 0
    So perfect_qr_correct perfect_qp_correct E Su Hin eq_refl eq_refl Dm Mo C0 C2) as (oa' & ob' & dom' & Ha' & Hb' & D' & K'). specialize (K' 0%nat ltac:(cbn; lia)).
  assert (Ea : forall u, oa u = oa' u) by (intros u; refine (spin_unique_at _ u _ _ _ (Ha u) (Ha' u)); apply (proj1 C0 u)).
  assert (Eb : forall u, ob u = ob' u) by (intros u; refine (spin_unique_at _ u _ _ _ (Hb u) (Hb' u)); apply (proj1 C2 u)).
  assert (Ed : vz dom = vz dom'). { eapply uniqueness_limite; [apply D|]. eapply lim_ext; [| |apply D']; [intros u; cbv beta; now rewrite Ea, Eb|reflexivity]. }
  unfold mask_axis, v3_dot in K, K'. cbn [mask_z m_indices m_frame nth world_axis vx vy vz] in K, K'. unfold v3_add, v3_scale in K, K'. cbn [vx vy vz u_task dt_kp] in K, K'. unfold dex_log, dex_jlog in K, K'.
  change (pn_frame upin (hm_q (dr_qdd res) 0) 0) with (Frame upright v3_zero) in K, K'. cbn in K, K'. lra.
Qed.
Print Assumptions C73_relative_orientation_refuted.

(** *** Example for the positions: the frame 2 slides along y. *)
Definition slide_frame (q : vec) (f : nat) : frame := if Nat.eqb f 2 then Frame m3_id (V3 0 (vat q 7) 0) else Frame m3_id v3_zero.
Definition slide_j (f i j : nat) : R := if Nat.eqb f 2 && Nat.eqb i 1 && Nat.eqb j 6 then 1 else 0.
Definition slide_pin : pin := gpin slide_frame (fun _ f _ => Mat 6 7 (slide_j f)) (fun _ _ _ _ => Mat 6 7 (fun _ _ => 0)) (fun _ => v3_zero)
  (fun _ => Mat 3 7 (fun _ _ => 0)) (fun _ _ => Mat 3 7 (fun _ _ => 0)).
Lemma slide_contracts a : frame_contract slide_pin ex_model (hm_q a) (hm_qd a) 0 2 /\ frame_contract slide_pin ex_model (hm_q a) (hm_qd a) 0 0.
Proof.
  split; (split; [intros u|split; [reflexivity|]; split; [reflexivity|]; intros i j _ _; apply derivable_pt_lim_const]); (do 3 (split; [reflexivity|])).
  - split; [apply rotation_id|]. assert (Z : forall i, i <> 1%nat -> row_of (Mat 6 7 (slide_j 2)) i (hm_qd a u) = 0).
    { intros i Hi. unfold row_of. apply Rsum_zero_ext. intros k _. cbn [mat_at]. unfold slide_j. apply Nat.eqb_neq in Hi. rewrite Hi. cbn. ring. }
    cbn [slide_pin gpin pn_frame pn_jac Nat.eqb]. unfold rows3. rewrite (Z 0%nat), (Z 2%nat), (Z 3%nat), (Z 4%nat), (Z 5%nat) by lia. split.
    + split; [apply derivable_pt_lim_const|split; [|apply derivable_pt_lim_const]]. cbn [vy]. replace (row_of (Mat 6 7 (slide_j 2)) 1 (hm_qd a u)) with (vat (hm_qd a u) 6).
      * exact (hm_angle a u).
      * unfold row_of. cbn [mcols]. rewrite (Rsum_delta 7 6); [cbn [mat_at]; unfold slide_j; cbn [Nat.eqb andb]; ring|lia|]. intros k _ Hk. cbn [mat_at]. unfold slide_j. apply Nat.eqb_neq in Hk. rewrite Hk. cbn. ring.
    + intros e He. unfold slide_frame. cbn [Nat.eqb fr_R]. eapply lim_eq; [apply derivable_pt_lim_const|]. cbn [In] in He. repeat (destruct He as [<-|He]); try destruct He; cbn; ring.
  - split; [apply rotation_id|]. assert (Z : forall i, row_of (Mat 6 7 (slide_j 0)) i (hm_qd a u) = 0) by (intros i; unfold row_of; apply Rsum_zero_ext; intros k _; cbn; ring).
    cbn [slide_pin gpin pn_frame pn_jac Nat.eqb]. unfold rows3. rewrite !Z. split.
    + split; [|split]; apply derivable_pt_lim_const.
    + intros e He. unfold slide_frame. cbn [Nat.eqb fr_R]. eapply lim_eq; [apply derivable_pt_lim_const|]. cbn [In] in He. repeat (destruct He as [<-|He]); try destruct He; cbn; ring.
Qed.
Example C73_relative_position_example : let x := V3 0 (6 / 10) 0 in let t := DTask (DRelativePosition 0 2 x v3_zero v3_zero mask_y) PHard 1 1 0 in
  exists s' res, let a := dr_qdd res in dsolve slide_pin dex_log dex_jlog perfect_qr perfect_qp (gex t true 0) dex_robot false = (s', dex_robot, Ok res) /\ dr_success res = true /\
    dsound slide_pin dex_log dex_jlog (gex t true 0) dex_robot /\ In t (ds_tasks (gex t true 0)) /\ in_motion dex_robot (hm_q a) (hm_qd a) 0 a /\ damping 1 0 0 /\
    frame_contract slide_pin ex_model (hm_q a) (hm_qd a) 0 2 /\ frame_contract slide_pin ex_model (hm_q a) (hm_qd a) 0 0 /\ twice (fun _ => x) (fun _ => v3_zero) 0 v3_zero /\
    spin slide_pin (hm_q a 0) (hm_qd a 0) 0 = v3_zero /\ (forall f, f = 0%nat \/ f = 2%nat -> linear_bias slide_pin (hm_q a 0) (hm_qd a 0) f = v3_zero /\ angular_bias slide_pin (hm_q a 0) (hm_qd a 0) f = v3_zero).
Proof.
  intros x t.
  assert (U : exists e, dtask_update slide_pin dex_log dex_jlog 7 dex_robot t = Ok e /\ dshaped 7 e /\ mrows (de_A e) = 1%nat /\
    (forall j, (j < 7)%nat -> mat_at (de_A e) 0 j = if Nat.eqb j 6 then 1 else 0) /\ vat (de_b e) 0 = 1 / 10).
  { eexists. split; [reflexivity|]. split; [split; reflexivity|]. split; [reflexivity|]. split; [intros j Hj; do 7 (destruct j as [|j]; [cbn; ring|]); lia|].
    cbn. unfold desired. rewrite get_kd_zero. cbn. field. }
  destruct U as (e & Hu & Hs & H1 & HA & Hb).
  destruct (g_solved _ _ _ _ _ _ t e Hu Hs H1 eq_refl (head_row t e 0 1 eq_refl (proj1 Hs) HA ltac:(lra) ltac:(lra))) as (s' & res & E & Hsu & So & Hin & Mo). fold slide_pin in E, So.
  exists s', res. intros a. destruct (slide_contracts a) as [C2 C0]. do 5 (split; [assumption|]). split; [split; intros; [lra|reflexivity]|]. do 2 (split; [assumption|]).
  split; [split; [intros u|]; (split; [|split]); apply derivable_pt_lim_const|].
  assert (Z : forall i, row_of (Mat 6 7 (slide_j 0)) i (hm_qd a 0) = 0) by (intros i; unfold row_of; apply Rsum_zero_ext; intros k _; cbn; ring).
  assert (Z' : forall i, row_of (Mat 6 7 (fun _ _ => 0)) i (hm_qd a 0) = 0) by (intros i; unfold row_of; apply Rsum_zero_ext; intros k _; cbn [mat_at]; ring).
  split; [unfold spin, rows3; cbn [slide_pin gpin pn_jac Nat.eqb]; now rewrite !Z|]. intros f _. unfold linear_bias, angular_bias, rows3. cbn [slide_pin gpin pn_djac]. rewrite !Z'. auto.
Qed.
