(** Properties of the tasks of the dynamics solver (C73): the second order dynamics that they impose. *)
From Coq Require Import Reals List ZArith Bool String Lra Lia Sorted FunctionalExtensionality.
From Verif Require Import Base Linalg Geom3 Tools_model Geometry_model Expression_model Expression_spec Expression_proofs Problem_model Problem_spec
  Problem_proofs Problem_proofs2 Problem_proofs3 Backends_proofs Polynom_model Robot_model Robot_spec Robot_proofs Robot_props KinTasks_model Kin_model Kin_spec Kin_proofs
  Kin_proofs3 Kin_proofs6 Kin_proofs7 DynTasks_model DynTasks_spec Dyn_model Dyn_spec Dyn_proofs Dyn_proofs2 Dyn_proofs3 Dyn_proofs4 Dyn_proofs5 Dyn_proofs6 Dyn_proofs7 Dyn_proofs8 Dyn_example
  Dyn_example2 Tasks_spec Tasks_proofs DynTasks_proofs.
Import ListNotations.
Open Scope R_scope.

Lemma get_kd_damping kp kd : damping kp kd (get_kd kp kd).
Proof. unfold damping, get_kd. destruct (Rlt_dec kd 0); split; intros; try lra; reflexivity. Qed.
Lemma damping_get_kd kp kd c : damping kp kd c -> c = get_kd kp kd.
Proof. intros [H1 H2]. unfold get_kd. destruct (Rlt_dec kd 0); [now apply H1|apply H2; lra]. Qed.

(** Every task was updated. *)
Lemma tasks_updated pn log3 jlog N r : forall l es, update_tasks pn log3 jlog N r l = Ok es -> forall t, In t l -> exists e, dtask_update pn log3 jlog N r t = Ok e.
Proof.
  induction l as [|t0 l IH]; cbn [update_tasks]; intros es H t Ht; [destruct Ht|]. bind H e Ee. bind H rest Er. destruct Ht as [<-|Ht]; [now exists e|]. exact (IH rest eq_refl t Ht).
Qed.
Lemma built_updated pn log3 jlog s r b : dbuild pn log3 jlog s r = Ok b -> forall t, In t (ds_tasks s) -> exists e, dtask_update pn log3 jlog (ds_N s) r t = Ok e.
Proof.
  intros H. unfold dbuild in H. cbn [add_variable clear_variables clear_constraints set_vars set_cons p_n p_vars p_cons app Nat.add] in H.
  bind H qdd Eq. bind H cs0 E0. bind H es Ees. intros t. exact (tasks_updated _ _ _ _ _ _ _ Ees t).
Qed.

(** The hard tasks are satisfied exactly by the accelerations and the torques of a successful solve. *)
Theorem C73_satisfied pn log3 jlog qr qp s r i s' r' res t : dsound pn log3 jlog s r -> qr_correct qr -> qp_correct qp ->
  dsolve pn log3 jlog qr qp s r i = (s', r', Ok res) -> dr_success res = true -> In t (ds_tasks s) -> dt_priority t = PHard ->
  vlen (dr_qdd res) = ds_N s /\ exists e, dtask_update pn log3 jlog (ds_N s) r t = Ok e /\ forall k, (k < mrows (de_A e))%nat -> dresidual t e (vat (dr_qdd res)) (vat (dr_tau res)) k = 0.
Proof.
  intros Hd Hqr Hqp H Hs Ht Hp. destruct (dsolve_success pn log3 jlog qr qp s r i s' r' res Hd H Hs) as (b & M & Js & x & Eb & V & _).
  pose proof (dsolved_allowed _ _ _ _ _ _ _ _ _ _ _ _ _ Hqr Hqp V) as [_ _ _ _ A5 _]. destruct V as [F V1 V2 V3 [T1 T2] [Q1 Q2] [S1 S2] V7 V8 V9]. split; [exact Q1|].
  destruct (built_updated pn log3 jlog s r b Eb t Ht) as [e He]. exists e. split; [exact He|]. intros k Hk.
  specialize (A5 t e (conj Ht He) Hp k Hk). destruct (dn_tasks _ _ _ _ _ Hd t e (conj Ht He)) as [C _].
  rewrite <- A5. unfold dresidual. f_equal. apply Rsum_ext. intros j Hj. rewrite C in Hj. rewrite Q2, T2 by exact Hj. reflexivity.
Qed.
Print Assumptions C73_satisfied.

(** ** Positions *)

(** The error of a hard position task, when the robot moves with the accelerations of the result, is the solution of error'' + kd error' + kp error = 0,
    along each axis selected by the mask. [target] is the target as a function of the time; it may move. *)
Theorem C73_position pn log3 jlog qr qp s r i s' r' res t f x dx ddx m q qd t0 target dtarget c : dsound pn log3 jlog s r -> qr_correct qr -> qp_correct qp ->
  dsolve pn log3 jlog qr qp s r i = (s', r', Ok res) -> dr_success res = true ->
  In t (ds_tasks s) -> dt_priority t = PHard -> dt_kind t = DPosition f x dx ddx m -> damping (dt_kp t) (dt_kd t) c ->
  in_motion r q qd t0 (dr_qdd res) -> frame_contract pn (r_model r) q qd t0 f -> twice target dtarget t0 ddx -> target t0 = x -> dtarget t0 = dx ->
  exists error derror dderror, (forall u, error u = v3_sub (target u) (fr_t (pn_frame pn (q u) f))) /\ twice error derror t0 dderror /\
    forall k, (k < List.length (m_indices m))%nat ->
      v3_dot (mask_axis m (frame_axis (fr_R (pn_frame pn (q t0) f))) k) (second_order (dt_kp t) c (error t0) (derror t0) dderror) = 0.
Proof.
  intros Hd Hqr Hqp H Hs Ht Hp Hk Hc Mo Fc Tt Ex Edx. destruct (C73_satisfied pn log3 jlog qr qp s r i s' r' res t Hd Hqr Hqp H Hs Ht Hp) as (_ & e & He & Hr).
  unfold dtask_update in He. rewrite Hk in He. apply damping_get_kd in Hc. subst c.
  destruct (position_residual pn _ _ _ _ _ _ _ _ _ _ _ _ _ _ _ _ (dn_N _ _ _ _ _ Hd) He Mo Fc Tt Ex Edx) as (L & er & de & dd & A & B & C). exists er, de, dd. split; [exact A|]. split; [exact B|].
  intros k Hkl. rewrite <- L in Hkl. specialize (Hr k Hkl). unfold dresidual in Hr. rewrite Hk in Hr. cbn [about_tau] in Hr. destruct (C k Hkl) as [E _]. lra.
Qed.
Print Assumptions C73_position.

(** The center of mass. *)
Theorem C73_com pn log3 jlog qr qp s r i s' r' res t x dx ddx m q qd t0 target dtarget c : dsound pn log3 jlog s r -> qr_correct qr -> qp_correct qp ->
  dsolve pn log3 jlog qr qp s r i = (s', r', Ok res) -> dr_success res = true ->
  In t (ds_tasks s) -> dt_priority t = PHard -> dt_kind t = DCom x dx ddx m -> damping (dt_kp t) (dt_kd t) c ->
  in_motion r q qd t0 (dr_qdd res) -> com_contract pn (r_model r) q qd t0 -> twice target dtarget t0 ddx -> target t0 = x -> dtarget t0 = dx ->
  exists error derror dderror, (forall u, error u = v3_sub (target u) (pn_com pn (q u))) /\ twice error derror t0 dderror /\
    forall k, (k < List.length (m_indices m))%nat ->
      v3_dot (mask_axis m (row3 (m_R_local m)) k) (second_order (dt_kp t) c (error t0) (derror t0) dderror) = 0.
Proof.
  intros Hd Hqr Hqp H Hs Ht Hp Hk Hc Mo Fc Tt Ex Edx. destruct (C73_satisfied pn log3 jlog qr qp s r i s' r' res t Hd Hqr Hqp H Hs Ht Hp) as (_ & e & He & Hr).
  unfold dtask_update in He. rewrite Hk in He. apply damping_get_kd in Hc. subst c.
  destruct (com_residual pn _ _ _ _ _ _ _ _ _ _ _ _ _ _ He Mo Fc Tt Ex Edx) as (L & er & de & dd & A & B & C). exists er, de, dd. split; [exact A|]. split; [exact B|].
  intros k Hkl. rewrite <- L in Hkl. specialize (Hr k Hkl). unfold dresidual in Hr. rewrite Hk in Hr. cbn [about_tau] in Hr. pose proof (C k Hkl) as E. lra.
Qed.
Print Assumptions C73_com.

(** With the default mask, which selects the three axes of the world, the whole vector vanishes. *)
Theorem C73_all_axes (m : axises_mask) local v : m_indices m = [0; 1; 2]%nat -> m_frame m = TaskFrame ->
  (forall k, (k < List.length (m_indices m))%nat -> v3_dot (mask_axis m local k) v = 0) -> v = v3_zero.
Proof.
  intros Hi Hf H. pose proof (H 0%nat) as H0. pose proof (H 1%nat) as H1. pose proof (H 2%nat) as H2. unfold mask_axis in *. rewrite Hi, Hf in *. cbn in H0, H1, H2.
  specialize (H0 ltac:(lia)). specialize (H1 ltac:(lia)). specialize (H2 ltac:(lia)). unfold v3_dot in *. cbn in *. apply V3_ext; cbn; lra.
Qed.
Print Assumptions C73_all_axes.

(** ** Orientations *)

(** A hard orientation task imposes the angular acceleration dw + kp log(R_target R^T) + kd (w - omega), along each axis selected by the mask: the axes of the
    world, of the target, or of the custom frame. *)
Theorem C73_orientation pn log3 jlog qr qp s r i s' r' res t f Rt w dw m q qd t0 c : dsound pn log3 jlog s r -> qr_correct qr -> qp_correct qp ->
  dsolve pn log3 jlog qr qp s r i = (s', r', Ok res) -> dr_success res = true ->
  In t (ds_tasks s) -> dt_priority t = PHard -> dt_kind t = DOrientation f Rt w dw m -> damping (dt_kp t) (dt_kd t) c ->
  in_motion r q qd t0 (dr_qdd res) -> frame_contract_world pn (r_model r) q qd t0 f ->
  exists omega domega, (forall u, m3_deriv (fun v => fr_R (pn_frame pn (q v) f)) u (m3_mul (skew (omega u)) (fr_R (pn_frame pn (q u) f)))) /\ v3_deriv omega t0 domega /\
    forall k, (k < List.length (m_indices m))%nat ->
      v3_dot (mask_axis m (frame_axis Rt) k) domega =
      v3_dot (mask_axis m (frame_axis Rt) k)
        (v3_add dw (v3_add (v3_scale (dt_kp t) (log3 (m3_mul Rt (m3_t (fr_R (pn_frame pn (q t0) f)))))) (v3_scale c (v3_sub w (omega t0))))).
Proof.
  intros Hd Hqr Hqp H Hs Ht Hp Hk Hc Mo Fc. destruct (C73_satisfied pn log3 jlog qr qp s r i s' r' res t Hd Hqr Hqp H Hs Ht Hp) as (_ & e & He & Hr).
  unfold dtask_update in He. rewrite Hk in He. apply damping_get_kd in Hc. subst c.
  destruct (orientation_residual pn log3 _ _ _ _ _ _ _ _ _ _ _ _ _ _ (dn_N _ _ _ _ _ Hd) He Mo Fc) as (L & om & dom & A & B & C). exists om, dom. split; [exact A|]. split; [exact B|].
  intros k Hkl. rewrite <- L in Hkl. specialize (Hr k Hkl). unfold dresidual in Hr. rewrite Hk in Hr. cbn [about_tau] in Hr. pose proof (C k Hkl) as E. rewrite E in Hr.
  unfold desired, v3_dot, v3_sub, v3_add, v3_scale in *. cbn in *. lra.
Qed.
Print Assumptions C73_orientation.

(** ** Joints and gears *)

Theorem C73_joints pn log3 jlog qr qp s r i s' r' res t l name x v a q qd t0 target dtarget c : dsound pn log3 jlog s r -> qr_correct qr -> qp_correct qp ->
  dsolve pn log3 jlog qr qp s r i = (s', r', Ok res) -> dr_success res = true ->
  In t (ds_tasks s) -> dt_priority t = PHard -> dt_kind t = DJoints l -> In (name, (x, v, a)) l -> damping (dt_kp t) (dt_kd t) c ->
  in_motion r q qd t0 (dr_qdd res) -> joint_follows r q qd name -> twice_r target dtarget t0 a -> target t0 = x -> dtarget t0 = v ->
  exists iq error derror dderror, get_joint_offset r name = Ok iq /\ (forall u, error u = target u - vat (q u) iq) /\ twice_r error derror t0 dderror /\
    second_order_r (dt_kp t) c (error t0) (derror t0) dderror = 0.
Proof.
  intros Hd Hqr Hqp H Hs Ht Hp Hk Hin Hc Mo (iq & k & Ho & Hv & Hf) [Tt1 Tt2] Ex Ev.
  destruct (C73_satisfied pn log3 jlog qr qp s r i s' r' res t Hd Hqr Hqp H Hs Ht Hp) as (Q & e & He & Hr).
  unfold dtask_update in He. rewrite Hk in He. apply damping_get_kd in Hc. subst c. destruct (In_nth_error _ _ Hin) as [n Hn].
  destruct (joints_residual _ _ _ _ _ _ _ _ _ _ _ (vat (dr_qdd res)) He Hn) as (L & k' & q0 & Hk' & Hq0 & Hlt & E). rewrite Hv in Hk'. injection Hk' as <-.
  destruct Mo as [Se Eq Ed [S1 S2] Sd]. unfold get_joint in Hq0. rewrite Ho in Hq0. cbn [obind] in Hq0. apply vec_get_spec in Hq0. destruct Hq0 as [_ ->].
  exists iq, (fun u => target u - vat (q u) iq), (fun u => dtarget u - vat (qd u) k), (a - vat (dr_qdd res) k). split; [exact Ho|]. split; [reflexivity|]. split.
  - split; [intros u; apply (derivable_pt_lim_minus target (fun v => vat (q v) iq)); [apply Tt1|apply Hf]|].
    apply (derivable_pt_lim_minus dtarget (fun v => vat (qd v) k)); [exact Tt2|]. apply Sd. rewrite <- (dn_N _ _ _ _ _ Hd). exact Hlt.
  - specialize (Hr n). unfold dresidual in Hr. rewrite Hk in Hr. cbn [about_tau] in Hr. rewrite E in Hr. specialize (Hr ltac:(rewrite L; apply nth_error_Some; congruence)).
    unfold second_order_r. rewrite Eq, Ed, Ex, Ev. lra.
Qed.
Print Assumptions C73_joints.

Lemma gear_dsources_below N q qd l : forall row sq sd y, gear_dsources N q qd l row sq sd = Ok y -> forall k, In k (map fst l) -> (k < N)%nat.
Proof.
  induction l as [|[s0 r0] l IH]; intros row sq sd y Es k Hk; [destruct Hk|]. cbn [gear_dsources] in Es. bind Es a Ea. bind Es b Eb. apply guard_inv in Es. destruct Es as [G' Es].
  destruct Hk as [<-|Hk]; [now apply Nat.ltb_lt|]. exact (IH _ _ _ _ Es k Hk).
Qed.
(** The error of a gear is the position of its target minus the sum of those of the sources, times their ratios. The positions of the degrees of freedom [k] are
    at [k + 1]. A target that is not one of its own sources. *)
Theorem C73_gear_partial pn log3 jlog qr qp s r i s' r' res t g target l q qd t0 c : dsound pn log3 jlog s r -> qr_correct qr -> qp_correct qp ->
  dsolve pn log3 jlog qr qp s r i = (s', r', Ok res) -> dr_success res = true ->
  In t (ds_tasks s) -> dt_priority t = PHard -> dt_kind t = DGear g -> dgears_made r g -> In (target, l) g -> ~ In target (map fst l) -> damping (dt_kp t) (dt_kd t) c ->
  in_motion r q qd t0 (dr_qdd res) -> (forall k u, k = target \/ In k (map fst l) -> derivable_pt_lim (fun v => vat (q v) (k + 1)) u (vat (qd u) k)) ->
  exists error derror dderror, (forall u, error u = vat (q u) (target + 1) - driven l (fun k => vat (q u) (k + 1))) /\ twice_r error derror t0 dderror /\
    second_order_r (dt_kp t) c (error t0) (derror t0) dderror = 0.
Proof.
  intros Hd Hqr Hqp H Hs Ht Hp Hk Hg Hin Hno Hc Mo Hf.
  destruct (C73_satisfied pn log3 jlog qr qp s r i s' r' res t Hd Hqr Hqp H Hs Ht Hp) as (Q & e & He & Hr).
  unfold dtask_update in He. rewrite Hk in He. apply damping_get_kd in Hc. subst c. destruct (In_nth_error _ _ Hin) as [n Hn].
  assert (ND : NoDup (map fst l)).
  { assert (Gm : gears_made r g) by (clear - Hg; induction Hg; [constructor|now apply gm_add with g a b x|now apply gm_add with [] a b x; [constructor|]]).
    destruct (gears_made_sorted r g Gm) as [_ Sl]. apply sorted_nodup. exact (Sl target l Hin). }
  destruct (gear_residual _ _ _ _ _ _ _ _ _ (vat (dr_qdd res)) He Hn ND) as (L & E). destruct Mo as [Se Eq Ed [S1 S2] Sd].
  assert (X : existsb (Nat.eqb target) (map fst l) = false).
  { destruct (existsb (Nat.eqb target) (map fst l)) eqn:X; [|reflexivity]. apply existsb_exists in X. destruct X as (k & Hk1 & Hk2). apply Nat.eqb_eq in Hk2. subst k. contradiction. }
  rewrite X in E.
  assert (Dl : forall (p v : nat -> R -> R) u, (forall k, In k (map fst l) -> derivable_pt_lim (p k) u (v k u)) ->
     derivable_pt_lim (fun w => driven l (fun k => p k w)) u (driven l (fun k => v k u))).
  { clear. induction l as [|[s0 r0] l IH]; intros p v u Hp; cbn [driven].
    - apply derivable_pt_lim_const.
    - apply (derivable_pt_lim_plus (fun w => r0 * p s0 w) (fun w => driven l (fun k => p k w))).
      + apply (derivable_pt_lim_scal (p s0) r0 u). apply Hp. now left.
      + apply (IH p v u). intros k Hk. apply Hp. now right. }
  assert (Bnd : forall k, k = target \/ In k (map fst l) -> (k < m_nv (r_model r))%nat).
  { unfold gear_dynamics in He. bind He rs Er. rewrite <- (dn_N _ _ _ _ _ Hd). destruct (gear_drows_spec _ _ _ _ _ _ _ Er) as [_ S]. destruct (S n target l Hn) as (y & Hy & _).
    unfold gear_drow in Hy. bind Hy a Ea. bind Hy b Eb. apply guard_inv in Hy. destruct Hy as [G Hy]. bind Hy sy Es. destruct sy as [[row sq] sd]. intros k [->|Hk']; [now apply Nat.ltb_lt|]. exact (gear_dsources_below _ _ _ _ _ _ _ _ Es k Hk'). }
  exists (fun u => vat (q u) (target + 1) - driven l (fun k => vat (q u) (k + 1))), (fun u => vat (qd u) target - driven l (fun k => vat (qd u) k)),
    (vat (dr_qdd res) target - driven l (vat (dr_qdd res))). split; [reflexivity|]. split.
  - split.
    + intros u. apply (derivable_pt_lim_minus (fun v => vat (q v) (target + 1)) (fun w => driven l (fun k => vat (q w) (k + 1)))); [apply Hf; now left|].
      apply (Dl (fun k w => vat (q w) (k + 1)%nat) (fun k w => vat (qd w) k)). intros k Hk'. apply Hf. now right.
    + apply (derivable_pt_lim_minus (fun v => vat (qd v) target) (fun w => driven l (fun k => vat (qd w) k))); [apply Sd, Bnd; now left|].
      apply (Dl (fun k w => vat (qd w) k) (fun k _ => vat (dr_qdd res) k)). intros k Hk'. apply Sd, Bnd. now right.
  - specialize (Hr n ltac:(rewrite L; apply nth_error_Some; congruence)). unfold dresidual in Hr. rewrite Hk in Hr. cbn [about_tau] in Hr. rewrite E in Hr.
    unfold second_order_r. rewrite Eq, Ed. change (fun k => vat (st_qd (r_state r)) k) with (vat (st_qd (r_state r))). lra.
Qed.
Print Assumptions C73_gear_partial.

(** ** Critical damping *)

(** With a negative kd and a target that is never lost, each coordinate of the error is a critically damped oscillation: it tends to zero without oscillating. *)
Theorem C73_critical kp kd c (e de dde : R -> R) : 0 < kp -> kd < 0 -> damping kp kd c -> (forall t, twice_r e de t (dde t)) -> (forall t, second_order_r kp c (e t) (de t) (dde t) = 0) ->
  (forall t, e t = (e 0 + (de 0 + sqrt kp * e 0) * t) * exp (- (sqrt kp * t))) /\
  (forall t, 0 < t -> Rabs (e t) <= (Rabs (e 0) / sqrt kp + 4 * Rabs (de 0 + sqrt kp * e 0) / kp) / t).
Proof.
  intros Hp Hk [Hc _] Ht H. specialize (Hc Hk). subst c. assert (S : sqrt kp * sqrt kp = kp) by (apply sqrt_sqrt; lra).
  assert (D1 : forall t, derivable_pt_lim e t (de t)) by (intros t; apply (Ht t)).
  assert (D2 : forall t, derivable_pt_lim de t (- (2 * sqrt kp * de t + sqrt kp * sqrt kp * e t))).
  { intros t. replace (- (2 * sqrt kp * de t + sqrt kp * sqrt kp * e t)) with (dde t); [apply (Ht t)|]. specialize (H t). unfold second_order_r in H. rewrite S. lra. }
  split; [exact (critical_closed_form (sqrt kp) e de D1 D2)|]. intros t Hpos. pose proof (critical_decay (sqrt kp) e de (sqrt_lt_R0 kp Hp) D1 D2 t Hpos) as B. rewrite S in B. exact B.
Qed.
Print Assumptions C73_critical.

(** ** Examples and limits of the property *)

Lemma lim_quadratic a b c u : derivable_pt_lim (fun v => a + (b * v + c * (v * v))) u (b + c * (2 * u)).
Proof.
  eapply lim_ext; [intros v; reflexivity| |apply (derivable_pt_lim_plus (fun _ => a) (fun v => b * v + c * (v * v)) u 0 (b * 1 + c * (1 * u + u * 1)))].
  - ring.
  - apply derivable_pt_lim_const.
  - apply (derivable_pt_lim_plus (fun v => b * v) (fun v => c * (v * v))).
    + apply (derivable_pt_lim_scal (fun v => v) b u 1), derivable_pt_lim_id.
    + apply (derivable_pt_lim_scal (fun v => v * v) c u). apply (derivable_pt_lim_mult (fun v => v) (fun v => v)); apply derivable_pt_lim_id.
Qed.

(** A motion of the robot of Dyn_example, of acceleration [a], the number [k] + 1 of the configuration moving with the degree of freedom [k]. *)
Definition hm_q (a : vec) (u : R) : vec := Vec 8 (fun k => vat ex_q k + (vat dex_speed (k - 1) * u + vat a (k - 1) / 2 * (u * u))).
Definition hm_qd (a : vec) (u : R) : vec := Vec 7 (fun k => vat dex_speed k + (vat a k * u + 0 * (u * u))).
Lemma hm_follows a u k : derivable_pt_lim (fun v => vat (hm_q a v) (k + 1)) u (vat (hm_qd a u) k).
Proof. cbn [hm_q hm_qd vat]. replace (k + 1 - 1)%nat with k by lia. eapply lim_ext; [intros v; reflexivity| |apply lim_quadratic]. field. Qed.
Lemma hm_angle a u : derivable_pt_lim (fun v => vat (hm_q a v) 7) u (vat (hm_qd a u) 6).
Proof. exact (hm_follows a u 6). Qed.
Lemma hm_rate a u k : derivable_pt_lim (fun v => vat (hm_qd a v) k) u (vat a k).
Proof. cbn [hm_qd vat]. eapply lim_ext; [intros v; reflexivity| |apply lim_quadratic]. ring. Qed.

Lemma hm_motion a : vlen a = 7%nat -> in_motion dex_robot (hm_q a) (hm_qd a) 0 a.
Proof.
  intros L. constructor.
  - reflexivity.
  - unfold hm_q. cbn [dex_robot r_state st_q]. unfold ex_q at 2. f_equal. apply functional_extensionality. intros k. unfold ex_q. cbn [vat]. ring.
  - unfold hm_qd. cbn [dex_robot r_state st_qd]. unfold dex_speed at 2. f_equal. apply functional_extensionality. intros k. unfold dex_speed. cbn [vat]. ring.
  - split; [exact L|]. reflexivity.
  - intros k _. apply hm_rate.
Qed.

(** Joints: the head of the robot of Dyn_example, which is asked to go to 8/10. *)
Example C73_joints_example : exists s' res a, dsolve dex_pin dex_log dex_jlog perfect_qr perfect_qp (dex true 0) dex_robot false = (s', dex_robot, Ok res) /\
  dr_success res = true /\ dsound dex_pin dex_log dex_jlog (dex true 0) dex_robot /\ In dex_task (ds_tasks (dex true 0)) /\ dt_priority dex_task = PHard /\
  dt_kind dex_task = DJoints [("head"%string, (8 / 10, 0, 0))] /\ a = dr_qdd res /\ damping (dt_kp dex_task) (dt_kd dex_task) 2 /\
  in_motion dex_robot (hm_q a) (hm_qd a) 0 (dr_qdd res) /\ joint_follows dex_robot (hm_q a) (hm_qd a) "head" /\ twice_r (fun _ => 8 / 10) (fun _ => 0) 0 0.
Proof.
  destruct (dex_solved true 0 ltac:(lra)) as (s' & res & Hs & E). exists s', res, (dr_qdd res).
  destruct (dsolve_success _ _ _ _ _ _ _ _ _ _ _ (dex_sound true 0) E Hs) as (b & M & Js & x & _ & V & _). pose proof (dv_qdd _ _ _ _ _ _ _ _ _ _ _ _ _ V) as [Q _].
  split; [exact E|]. split; [exact Hs|]. split; [apply dex_sound|]. split; [now left|]. do 3 (split; [reflexivity|]).
  split; [split; cbn; intros; [rewrite sqrt_1; ring|lra]|]. split; [now apply hm_motion|].
  split; [|split; [intros u|]; apply derivable_pt_lim_const]. exists 7%nat, 6%nat. split; [reflexivity|]. split; [reflexivity|]. intros u. apply hm_angle.
Qed.

(** Frames: a point at the distance 1 of the axis of the head, which is also the center of mass. *)
Definition turning (q : vec) : frame := Frame (rot_z (vat q 7)) (V3 (cos (vat q 7)) (sin (vat q 7)) 0).
Definition tj (q : vec) (i j : nat) : R := if Nat.eqb j 6 then match i with 0%nat => - sin (vat q 7) | 1%nat => cos (vat q 7) | 5%nat => 1 | _ => 0 end else 0.
Definition tdj (q qd : vec) (i j : nat) : R := if Nat.eqb j 6 then match i with 0%nat => - cos (vat q 7) * vat qd 6 | 1%nat => - sin (vat q 7) * vat qd 6 | _ => 0 end else 0.
Definition tpin : pin := gpin (fun q _ => turning q) (fun q _ _ => Mat 6 7 (tj q)) (fun q qd _ _ => Mat 6 7 (tdj q qd)) (fun q => fr_t (turning q))
  (fun q => Mat 3 7 (tj q)) (fun q qd => Mat 3 7 (tdj q qd)).

Lemma lim_cos (f : R -> R) u d : derivable_pt_lim f u d -> derivable_pt_lim (fun v => cos (f v)) u (- sin (f u) * d).
Proof. intros H. apply (derivable_pt_lim_comp f cos u d (- sin (f u)) H). apply derivable_pt_lim_cos. Qed.
Lemma lim_sin (f : R -> R) u d : derivable_pt_lim f u d -> derivable_pt_lim (fun v => sin (f v)) u (cos (f u) * d).
Proof. intros H. apply (derivable_pt_lim_comp f sin u d (cos (f u)) H). apply derivable_pt_lim_sin. Qed.
Lemma lim_neg (f : R -> R) u d : derivable_pt_lim f u d -> derivable_pt_lim (fun v => - f v) u (- d).
Proof. intros H. exact (derivable_pt_lim_opp f u d H). Qed.
Lemma lim_eq (f : R -> R) u d d' : derivable_pt_lim f u d' -> d' = d -> derivable_pt_lim f u d.
Proof. intros H <-. exact H. Qed.

Lemma tj_row q qd i : vlen qd = 7%nat -> row_of (Mat 6 7 (tj q)) i qd = tj q i 6 * vat qd 6 /\ row_of (Mat 3 7 (tj q)) i qd = tj q i 6 * vat qd 6.
Proof. intros _. unfold row_of. cbn [mcols mat_at]. split; (rewrite (Rsum_delta 7 6); [reflexivity|lia|]; intros j _ Hj; unfold tj; apply Nat.eqb_neq in Hj; rewrite Hj; ring). Qed.
Lemma hm_turning_v a u : v3_deriv (fun v => fr_t (turning (hm_q a v))) u
  (V3 (- sin (vat (hm_q a u) 7) * vat (hm_qd a u) 6) (cos (vat (hm_q a u) 7) * vat (hm_qd a u) 6) 0).
Proof.
  split; [|split]; cbn [fr_t turning vx vy vz].
  - apply (lim_cos (fun v => vat (hm_q a v) 7)), hm_angle.
  - apply (lim_sin (fun v => vat (hm_q a v) 7)), hm_angle.
  - apply derivable_pt_lim_const.
Qed.
Lemma hm_turning_R a u w : w = V3 0 0 (vat (hm_qd a u) 6) ->
  m3_deriv (fun v => fr_R (turning (hm_q a v))) u (m3_mul (skew w) (fr_R (turning (hm_q a u)))).
Proof.
  intros ->. intros e He. cbn [In] in He. set (th := fun v => vat (hm_q a v) 7). assert (T : derivable_pt_lim th u (vat (hm_qd a u) 6)) by apply hm_angle.
  repeat (destruct He as [<-|He]); try destruct He; unfold turning, rot_z; cbn [fr_R m00 m01 m02 m10 m11 m12 m20 m21 m22];
    match goal with
    | |- derivable_pt_lim (fun v => cos (vat (hm_q a v) 7)) _ _ => eapply lim_eq; [apply (lim_cos th u _ T)|]
    | |- derivable_pt_lim (fun v => sin (vat (hm_q a v) 7)) _ _ => eapply lim_eq; [apply (lim_sin th u _ T)|]
    | |- derivable_pt_lim (fun v => - sin (vat (hm_q a v) 7)) _ _ => eapply lim_eq; [apply lim_neg, (lim_sin th u _ T)|]
    | |- _ => eapply lim_eq; [apply derivable_pt_lim_const|]
    end; unfold th, hm_q, turning, rot_z, m3_mul, skew, hm_qd; cbn [vat Nat.eqb fr_R m00 m01 m02 m10 m11 m12 m20 m21 m22 vx vy vz]; ring.
Qed.
Lemma hm_tj a u i j : derivable_pt_lim (fun v => tj (hm_q a v) i j) u (tdj (hm_q a u) (hm_qd a u) i j).
Proof.
  unfold tj, tdj. destruct (Nat.eqb j 6); [|apply derivable_pt_lim_const].
  destruct i as [|[|[|[|[|[|i]]]]]]; try apply derivable_pt_lim_const.
  - eapply lim_eq; [apply lim_neg, (lim_sin (fun v => vat (hm_q a v) 7)), hm_angle|]. ring.
  - eapply lim_eq; [apply (lim_cos (fun v => vat (hm_q a v) 7)), hm_angle|]. ring.
Qed.
Lemma tpin_contracts a : frame_contract tpin ex_model (hm_q a) (hm_qd a) 0 2 /\ frame_contract_world tpin ex_model (hm_q a) (hm_qd a) 0 2 /\
  com_contract tpin ex_model (hm_q a) (hm_qd a) 0.
Proof.
  split; [|split]; (split; [intros u|split; [reflexivity|]; split; [reflexivity|]; intros i j _ _; apply (hm_tj a 0 i j)]).
  - split; [reflexivity|]. split; [reflexivity|]. split; [reflexivity|]. split; [apply rotation_z|]. cbn [tpin gpin pn_frame pn_jac Nat.eqb]. split.
    + unfold rows3. rewrite !(fun i => proj1 (tj_row (hm_q a u) (hm_qd a u) i eq_refl)). unfold tj. cbn [Nat.eqb]. rewrite Rmult_0_l. apply hm_turning_v.
    + unfold rows3. rewrite !(fun i => proj1 (tj_row (hm_q a u) (hm_qd a u) i eq_refl)). unfold tj. cbn [Nat.eqb]. rewrite Rmult_0_l, Rmult_1_l. now apply hm_turning_R.
  - split; [reflexivity|]. split; [reflexivity|]. split; [apply rotation_z|]. cbn [tpin gpin pn_frame pn_jac Nat.eqb].
    unfold rows3. rewrite !(fun i => proj1 (tj_row (hm_q a u) (hm_qd a u) i eq_refl)). unfold tj. cbn [Nat.eqb]. rewrite Rmult_0_l, Rmult_1_l. now apply hm_turning_R.
  - split; [reflexivity|]. split; [reflexivity|]. cbn [tpin gpin pn_com pn_comjac]. unfold rows3. rewrite !(fun i => proj2 (tj_row (hm_q a u) (hm_qd a u) i eq_refl)).
    unfold tj. cbn [Nat.eqb]. rewrite Rmult_0_l. apply hm_turning_v.
Qed.

Lemma cos_half : cos (1 / 2) <> 0.
Proof. assert (0 < cos (1 / 2)); [|lra]. pose proof PI2_1. apply cos_gt_0; lra. Qed.

Definition mask_y : axises_mask := Mask identity3 identity3 [1%nat] TaskFrame.
Definition mask_z : axises_mask := Mask identity3 identity3 [2%nat] TaskFrame.
Definition t_target : vec3 := V3 0 (sin (1 / 2) + cos (1 / 2) / 10 - sin (1 / 2) / 100) 0.
Definition t_position : dtask := DTask (DPosition 2 t_target v3_zero v3_zero mask_y) PHard 1 1 0.
Definition t_com : dtask := DTask (DCom t_target v3_zero v3_zero mask_y) PHard 1 1 0.
Definition t_orientation : dtask := DTask (DOrientation 2 (rot_z (1 / 2)) (V3 0 0 (1 / 10)) (V3 0 0 (1 / 10)) mask_z) PHard 1 1 1.

Lemma t_update t c : (t = t_position \/ t = t_com) /\ c = cos (1 / 2) \/ t = t_orientation /\ c = 1 ->
  exists e, dtask_update tpin dex_log dex_jlog 7 dex_robot t = Ok e /\ dshaped 7 e /\ mrows (de_A e) = 1%nat /\
    (forall j, (j < 7)%nat -> mat_at (de_A e) 0 j = if Nat.eqb j 6 then c else 0) /\ vat (de_b e) 0 = c / 10.
Proof.
  assert (G : get_kd 1 0 = 0) by (unfold get_kd; destruct (Rlt_dec 0 0); [lra|reflexivity]). assert (G1 : get_kd 1 1 = 1) by (unfold get_kd; destruct (Rlt_dec 1 0); [lra|reflexivity]).
  intros [[[->| ->] ->]|[-> ->]]; eexists; (split; [reflexivity|]; split; [split; reflexivity|]; split; [reflexivity|]; split;
   [intros j Hj; do 7 (destruct j as [|j]; [cbn; ring|]); lia|]).
  - cbn. unfold desired. rewrite G. cbn. field.
  - cbn. unfold desired. rewrite G. cbn. field.
  - cbn. unfold desired. rewrite G1. cbn. field.
Qed.

(** A hard task that is met by dex_x, in the solver of Dyn_example2: the solver succeeds. *)
Lemma g_solved frames jac djac com comjac dcomjac t e : let pn := gpin frames jac djac com comjac dcomjac in
  dtask_update pn dex_log dex_jlog 7 dex_robot t = Ok e -> dshaped 7 e -> mrows (de_A e) = 1%nat -> dt_priority t = PHard ->
  (forall tau : (nat -> R) -> nat -> R, (forall x k, (k < 7)%nat -> tau x k = gtorque 0 x k) ->
    (forall j, (7 <= j < 13)%nat -> coefficients (fun x => dresidual t e x (tau x) 0) j = 0) /\ coefficients (fun x => dresidual t e x (tau x) 0) 6 <> 0 /\
    dresidual t e dex_x (tau dex_x) 0 = 0) ->
  exists s' res, dsolve pn dex_log dex_jlog perfect_qr perfect_qp (gex t true 0) dex_robot false = (s', dex_robot, Ok res) /\ dr_success res = true /\
    dsound pn dex_log dex_jlog (gex t true 0) dex_robot /\ In t (ds_tasks (gex t true 0)) /\ in_motion dex_robot (hm_q (dr_qdd res)) (hm_qd (dr_qdd res)) 0 (dr_qdd res).
Proof.
  intros pn Hu Hs H1 Hp Hrow.
  destruct (gex_solved _ _ _ _ _ _ t e Hu Hs H1 Hp true 0 ltac:(lra) Hrow) as (s' & res & Hsu & E). exists s', res.
  assert (So : dsound pn dex_log dex_jlog (gex t true 0) dex_robot) by exact (gex_sound _ _ _ _ _ _ t e Hu Hs true 0).
  destruct (dsolve_success _ _ _ _ _ _ _ _ _ _ _ So E Hsu) as (b & M & Js & x & _ & V & _). pose proof (dv_qdd _ _ _ _ _ _ _ _ _ _ _ _ _ V) as [Q _].
  split; [exact E|]. split; [exact Hsu|]. split; [exact So|]. split; [now left|]. now apply hm_motion.
Qed.

(** The target of the frame tasks does not move. *)
Example C73_frames_example t : t = t_position \/ t = t_com \/ t = t_orientation ->
  exists s' res, dsolve tpin dex_log dex_jlog perfect_qr perfect_qp (gex t true 0) dex_robot false = (s', dex_robot, Ok res) /\ dr_success res = true /\
    dsound tpin dex_log dex_jlog (gex t true 0) dex_robot /\ In t (ds_tasks (gex t true 0)) /\ dt_priority t = PHard /\
    in_motion dex_robot (hm_q (dr_qdd res)) (hm_qd (dr_qdd res)) 0 (dr_qdd res) /\
    frame_contract tpin ex_model (hm_q (dr_qdd res)) (hm_qd (dr_qdd res)) 0 2 /\ frame_contract_world tpin ex_model (hm_q (dr_qdd res)) (hm_qd (dr_qdd res)) 0 2 /\
    com_contract tpin ex_model (hm_q (dr_qdd res)) (hm_qd (dr_qdd res)) 0 /\ twice (fun _ => t_target) (fun _ => v3_zero) 0 v3_zero.
Proof.
  intros Ht. assert (Hp : dt_priority t = PHard) by (destruct Ht as [->|[->| ->]]; reflexivity). assert (Ha : about_tau (dt_kind t) = false) by (destruct Ht as [->|[->| ->]]; reflexivity).
  assert (X : exists c e, c <> 0 /\ dtask_update tpin dex_log dex_jlog 7 dex_robot t = Ok e /\ dshaped 7 e /\ mrows (de_A e) = 1%nat /\
    (forall j, (j < 7)%nat -> mat_at (de_A e) 0 j = if Nat.eqb j 6 then c else 0) /\ vat (de_b e) 0 = c / 10).
  { destruct Ht as [->|[->| ->]].
    - exists (cos (1 / 2)). destruct (t_update t_position (cos (1 / 2)) ltac:(auto)) as (e & H). exists e. split; [exact cos_half|exact H].
    - exists (cos (1 / 2)). destruct (t_update t_com (cos (1 / 2)) ltac:(auto)) as (e & H). exists e. split; [exact cos_half|exact H].
    - exists 1. destruct (t_update t_orientation 1 ltac:(auto)) as (e & H). exists e. split; [lra|exact H]. }
  destruct X as (c & e & Hc & Hu & Hs & H1 & HA & Hb).
  destruct (g_solved _ _ _ _ _ _ t e Hu Hs H1 Hp (head_row t e 0 c Ha (proj1 Hs) HA Hc Hb)) as (s' & res & E & Hsu & So & Hin & Mo).
  exists s', res. do 4 (split; [assumption|]). split; [exact Hp|]. split; [exact Mo|]. destruct (tpin_contracts (dr_qdd res)) as (C1 & C2 & C3). do 3 (split; [assumption|]).
  split; [intros u|]; (split; [|split]); apply derivable_pt_lim_const.
Qed.

(** A gear: the head driven by a joint of the base. *)
Definition t_gears : gears := [(6%nat, [(0%nat, 1 / 2)])].
Definition t_gear : dtask := DTask (DGear t_gears) PHard 1 (1 / 5) 0.
Lemma get_kd_zero kp : get_kd kp 0 = 0.
Proof. unfold get_kd. destruct (Rlt_dec 0 0); [lra|reflexivity]. Qed.
Lemma gear_law c t : dt_kind t = DGear [(6%nat, [(0%nat, c)])] -> dt_priority t = PHard -> dt_kd t = 0 -> dt_kp t * (1 / 2 - 2 * c) = - (1 / 10) ->
  exists s' res, dsolve tpin dex_log dex_jlog perfect_qr perfect_qp (gex t true 0) dex_robot false = (s', dex_robot, Ok res) /\ dr_success res = true /\
    dsound tpin dex_log dex_jlog (gex t true 0) dex_robot /\ In t (ds_tasks (gex t true 0)) /\ in_motion dex_robot (hm_q (dr_qdd res)) (hm_qd (dr_qdd res)) 0 (dr_qdd res).
Proof.
  intros Hk Hp Hd Hl.
  assert (U : exists e, dtask_update tpin dex_log dex_jlog 7 dex_robot t = Ok e /\ dshaped 7 e /\ mrows (de_A e) = 1%nat /\
    (forall x, Rsum (mcols (de_A e)) (fun j => mat_at (de_A e) 0 j * x j) = c * x 0%nat - x 6%nat) /\ vat (de_b e) 0 = - (1 / 10)).
  { eexists. split; [unfold dtask_update; rewrite Hk; reflexivity|]. split; [split; reflexivity|]. split; [reflexivity|]. split; [intros x; cbn; ring|]. cbn. rewrite Hd, get_kd_zero, <- Hl. ring. }
  destruct U as (e & Hu & Hs & H1 & HA & Hb).
  refine (g_solved _ _ _ _ _ _ t e Hu Hs H1 Hp _). intros tau _.
  assert (D : forall x, dresidual t e x (tau x) 0 = c * x 0%nat - x 6%nat - - (1 / 10)) by (intros x; unfold dresidual; rewrite Hk; cbn [about_tau]; rewrite HA, Hb; reflexivity).
  split; [|split].
  - intros j Hj. unfold coefficients. rewrite !D. unfold unit_row. destruct (Nat.eqb_spec 6 j); [lia|]. destruct (Nat.eqb_spec 0 j); [lia|]. ring.
  - unfold coefficients. rewrite !D. unfold unit_row. cbn. lra.
  - rewrite D. unfold dex_x. cbn. field.
Qed.
Example C73_gear_example : dgears_made dex_robot t_gears /\ In (6%nat, [(0%nat, 1 / 2)]) t_gears /\
  exists s' res, dsolve tpin dex_log dex_jlog perfect_qr perfect_qp (gex t_gear true 0) dex_robot false = (s', dex_robot, Ok res) /\ dr_success res = true /\
    dsound tpin dex_log dex_jlog (gex t_gear true 0) dex_robot /\ In t_gear (ds_tasks (gex t_gear true 0)) /\
    in_motion dex_robot (hm_q (dr_qdd res)) (hm_qd (dr_qdd res)) 0 (dr_qdd res) /\
    forall k u, k = 6%nat \/ In k (map fst [(0%nat, 1 / 2)]) -> derivable_pt_lim (fun v => vat (hm_q (dr_qdd res) v) (k + 1)) u (vat (hm_qd (dr_qdd res) u) k).
Proof.
  split. { apply dgm_add with [] "head"%string "root_joint"%string (1 / 2); [constructor|reflexivity]. } split; [now left|].
  destruct (gear_law (1 / 2) t_gear eq_refl eq_refl eq_refl ltac:(cbn; lra)) as (s' & res & E & Hsu & So & Hin & Mo). exists s', res.
  do 5 (split; [assumption|]). intros k u _. apply hm_follows.
Qed.

(** A target that is one of its own sources: the task does not impose the dynamics of the error. *)
Theorem C73_self_gear_refuted : exists pn log3 jlog qr qp s r s' res t g target l q qd t0 c error derror dderror, dsound pn log3 jlog s r /\ qr_correct qr /\ qp_correct qp /\
  dsolve pn log3 jlog qr qp s r false = (s', r, Ok res) /\ dr_success res = true /\
  In t (ds_tasks s) /\ dt_priority t = PHard /\ dt_kind t = DGear g /\ dgears_made r g /\ In (target, l) g /\ damping (dt_kp t) (dt_kd t) c /\
  in_motion r q qd t0 (dr_qdd res) /\ (forall k u, derivable_pt_lim (fun v => vat (q v) (k + 1)) u (vat (qd u) k)) /\
  (forall u, error u = vat (q u) (target + 1) - driven l (fun k => vat (q u) (k + 1))) /\ twice_r error derror t0 dderror /\
  second_order_r (dt_kp t) c (error t0) (derror t0) dderror <> 0.
Proof.
  set (g := [(6%nat, [(6%nat, 1 / 2)])] : gears). set (t := DTask (DGear g) PHard 1 (1 / 5) 0).
  assert (U : exists e, dtask_update tpin dex_log dex_jlog 7 dex_robot t = Ok e /\ dshaped 7 e /\ mrows (de_A e) = 1%nat /\
    (forall j, (j < 7)%nat -> mat_at (de_A e) 0 j = if Nat.eqb j 6 then 1 / 2 else 0) /\ vat (de_b e) 0 = 1 / 2 / 10).
  { eexists. split; [reflexivity|]. split; [split; reflexivity|]. split; [reflexivity|]. split; [intros j Hj; do 7 (destruct j as [|j]; [cbn; ring|]); lia|].
    cbn. rewrite get_kd_zero. field. }
  destruct U as (e & Hu & Hs & H1 & HA & Hb).
  destruct (g_solved _ _ _ _ _ _ t e Hu Hs H1 eq_refl (head_row t e 0 (1 / 2) eq_refl (proj1 Hs) HA ltac:(lra) Hb)) as (s' & res & E & Hsu & So & Hin & Mo). fold tpin in E, So.
  assert (A6 : vat (dr_qdd res) 6 = 1 / 10).
  { destruct (C73_satisfied _ _ _ _ _ _ _ _ _ _ _ t So perfect_qr_correct perfect_qp_correct E Hsu Hin eq_refl) as (Q & e' & He' & Hr). cbn [ds_N gex dex_settings dex_base] in He'.
    rewrite Hu in He'. injection He' as <-. specialize (Hr 0%nat ltac:(lia)). unfold dresidual in Hr. cbn [about_tau t dt_kind] in Hr. rewrite (proj1 Hs), Hb in Hr.
    rewrite (Rsum_delta 7 6) in Hr; [rewrite HA in Hr by lia; cbn [Nat.eqb] in Hr; lra|lia|]. intros j Hj Hne. rewrite HA by exact Hj. apply Nat.eqb_neq in Hne. rewrite Hne. ring. }
  exists tpin, dex_log, dex_jlog, perfect_qr, perfect_qp, (gex t true 0), dex_robot, s', res, t, g, 6%nat, [(6%nat, 1 / 2)], (hm_q (dr_qdd res)), (hm_qd (dr_qdd res)), 0, 0.
  exists (fun u => vat (hm_q (dr_qdd res) u) 7 - (1 / 2 * vat (hm_q (dr_qdd res) u) 7 + 0)), (fun u => vat (hm_qd (dr_qdd res) u) 6 - (1 / 2 * vat (hm_qd (dr_qdd res) u) 6 + 0)),
    (vat (dr_qdd res) 6 - (1 / 2 * vat (dr_qdd res) 6 + 0)).
  split; [exact So|]. split; [exact perfect_qr_correct|]. split; [exact perfect_qp_correct|]. split; [exact E|]. split; [exact Hsu|]. split; [exact Hin|]. do 2 (split; [reflexivity|]).
  split; [apply dgm_add with [] "head"%string "head"%string (1 / 2); [constructor|reflexivity]|]. split; [now left|]. split; [split; cbn; intros; lra|]. split; [exact Mo|].
  split; [intros k u; apply hm_follows|]. split; [reflexivity|]. split.
  - assert (Half : forall f u d, derivable_pt_lim f u d -> derivable_pt_lim (fun v => f v - (1 / 2 * f v + 0)) u (d - (1 / 2 * d + 0))).
    { intros f u d Hf. apply (derivable_pt_lim_minus f (fun v => 1 / 2 * f v + 0)); [exact Hf|]. apply (derivable_pt_lim_plus (fun v => 1 / 2 * f v) (fun _ => 0)); [|apply derivable_pt_lim_const].
      apply (derivable_pt_lim_scal f (1 / 2) u d Hf). }
    split; [intros u; apply (Half (fun v => vat (hm_q (dr_qdd res) v) 7)), hm_angle|apply (Half (fun v => vat (hm_qd (dr_qdd res) v) 6)), hm_rate].
  - unfold second_order_r. rewrite A6. cbn. lra.
Qed.
Print Assumptions C73_self_gear_refuted.

(** ** Relative positions *)

(** The frame 2 turns around the vertical axis; the frame 0 does not move. *)
Definition rframe (q : vec) (f : nat) : frame := if Nat.eqb f 2 then Frame (rot_z (vat q 7)) v3_zero else Frame m3_id (V3 1 0 0).
Definition rj (f i j : nat) : R := if Nat.eqb f 2 && Nat.eqb i 5 && Nat.eqb j 6 then 1 else 0.
Definition rpin : pin := gpin rframe (fun _ f _ => Mat 6 7 (rj f)) (fun _ _ _ _ => Mat 6 7 (fun _ _ => 0)) (fun _ => v3_zero)
  (fun _ => Mat 3 7 (fun _ _ => 0)) (fun _ _ => Mat 3 7 (fun _ _ => 0)).
Lemma rpin_contracts a : frame_contract rpin ex_model (hm_q a) (hm_qd a) 0 2 /\ frame_contract rpin ex_model (hm_q a) (hm_qd a) 0 0.
Proof.
  split; (split; [intros u|split; [reflexivity|]; split; [reflexivity|]; intros i j _ _; apply derivable_pt_lim_const]); (do 3 (split; [reflexivity|])).
  - split; [apply rotation_z|]. assert (Z : forall i, (i < 5)%nat -> row_of (Mat 6 7 (rj 2)) i (hm_qd a u) = 0).
    { intros i Hi. unfold row_of. apply Rsum_zero_ext. intros k _. cbn [mat_at]. unfold rj. destruct (Nat.eqb_spec i 5); [lia|]. cbn. ring. }
    cbn [rpin gpin pn_frame pn_jac Nat.eqb]. unfold rows3. rewrite !Z by lia. split.
    + split; [|split]; apply derivable_pt_lim_const.
    + replace (row_of (Mat 6 7 (rj 2)) 5 (hm_qd a u)) with (vat (hm_qd a u) 6).
      * exact (hm_turning_R a u _ eq_refl).
      * unfold row_of. cbn [mcols]. rewrite (Rsum_delta 7 6); [cbn [mat_at]; unfold rj; cbn [Nat.eqb andb]; ring|lia|]. intros k _ Hk. cbn [mat_at]. unfold rj. apply Nat.eqb_neq in Hk. rewrite Hk. cbn. ring.
  - split; [apply rotation_id|]. assert (Z : forall i, row_of (Mat 6 7 (rj 0)) i (hm_qd a u) = 0) by (intros i; unfold row_of; apply Rsum_zero_ext; intros k _; cbn; ring).
    cbn [rpin gpin pn_frame pn_jac Nat.eqb]. unfold rows3. rewrite !Z. split.
    + split; [|split]; apply derivable_pt_lim_const.
    + intros e He. unfold rframe. cbn [Nat.eqb fr_R]. eapply lim_eq; [apply derivable_pt_lim_const|]. cbn [In] in He. repeat (destruct He as [<-|He]); try destruct He; cbn; ring.
Qed.

(** The position of [b] in the frame [a]; when [a] turns, a hard task on it does not impose the dynamics of its error. *)
Theorem C73_relative_position_refuted : exists pn log3 jlog qr qp s r s' res t a b x m q qd t0 c error derror dderror, dsound pn log3 jlog s r /\ qr_correct qr /\ qp_correct qp /\
  dsolve pn log3 jlog qr qp s r false = (s', r, Ok res) /\ dr_success res = true /\
  In t (ds_tasks s) /\ dt_priority t = PHard /\ dt_kind t = DRelativePosition a b x v3_zero v3_zero m /\ damping (dt_kp t) (dt_kd t) c /\
  in_motion r q qd t0 (dr_qdd res) /\ frame_contract pn (r_model r) q qd t0 a /\ frame_contract pn (r_model r) q qd t0 b /\
  (forall u, error u = v3_sub x (m3_vec (m3_t (fr_R (pn_frame pn (q u) a))) (v3_sub (fr_t (pn_frame pn (q u) b)) (fr_t (pn_frame pn (q u) a))))) /\ twice error derror t0 dderror /\
  m_indices m = [1%nat] /\ m_frame m = TaskFrame /\ v3_dot (world_axis 1) (second_order (dt_kp t) c (error t0) (derror t0) dderror) <> 0.
Proof.
  set (x := V3 0 (- sin (1 / 2) - cos (1 / 2) / 10 + 2 * (sin (1 / 2) / 100)) 0). set (t := DTask (DRelativePosition 2 0 x v3_zero v3_zero mask_y) PHard 1 1 0).
  assert (U : exists e, dtask_update rpin dex_log dex_jlog 7 dex_robot t = Ok e /\ dshaped 7 e /\ mrows (de_A e) = 1%nat /\
    (forall j, (j < 7)%nat -> mat_at (de_A e) 0 j = if Nat.eqb j 6 then - cos (1 / 2) else 0) /\ vat (de_b e) 0 = - cos (1 / 2) / 10).
  { eexists. split; [reflexivity|]. split; [split; reflexivity|]. split; [reflexivity|]. split; [intros j Hj; do 7 (destruct j as [|j]; [cbn; ring|]); lia|].
    cbn. unfold desired. rewrite get_kd_zero. cbn. field. }
  destruct U as (e & Hu & Hs & H1 & HA & Hb). assert (Hc : - cos (1 / 2) <> 0) by (pose proof cos_half; lra).
  destruct (g_solved _ _ _ _ _ _ t e Hu Hs H1 eq_refl (head_row t e 0 _ eq_refl (proj1 Hs) HA Hc Hb)) as (s' & res & E & Hsu & So & Hin & Mo). fold rpin in E, So.
  assert (A6 : vat (dr_qdd res) 6 = 1 / 10).
  { destruct (C73_satisfied _ _ _ _ _ _ _ _ _ _ _ t So perfect_qr_correct perfect_qp_correct E Hsu Hin eq_refl) as (Q & e' & He' & Hr). cbn [ds_N gex dex_settings dex_base] in He'.
    rewrite Hu in He'. injection He' as <-. specialize (Hr 0%nat ltac:(lia)). unfold dresidual in Hr. cbn [about_tau t dt_kind] in Hr. rewrite (proj1 Hs), Hb in Hr.
    rewrite (Rsum_delta 7 6) in Hr; [rewrite HA in Hr by lia; cbn [Nat.eqb] in Hr; apply Rmult_eq_reg_l with (- cos (1 / 2)); [lra|exact Hc]|lia|].
    intros j Hj Hne. rewrite HA by exact Hj. apply Nat.eqb_neq in Hne. rewrite Hne. ring. }
  set (a := dr_qdd res) in *. set (th := fun u => vat (hm_q a u) 7). set (dth := fun u => vat (hm_qd a u) 6).
  assert (T : forall u, derivable_pt_lim th u (dth u)) by (intros u; apply hm_angle). assert (T2 : forall u, derivable_pt_lim dth u (vat a 6)) by (intros u; apply hm_rate).
  exists rpin, dex_log, dex_jlog, perfect_qr, perfect_qp, (gex t true 0), dex_robot, s', res, t, 2%nat, 0%nat, x, mask_y, (hm_q a), (hm_qd a), 0, 0.
  exists (fun u => v3_sub x (m3_vec (m3_t (fr_R (pn_frame rpin (hm_q a u) 2))) (v3_sub (fr_t (pn_frame rpin (hm_q a u) 0)) (fr_t (pn_frame rpin (hm_q a u) 2))))),
    (fun u => V3 (sin (th u) * dth u) (cos (th u) * dth u) 0),
    (V3 (cos (th 0) * dth 0 * dth 0 + sin (th 0) * vat a 6) (- sin (th 0) * dth 0 * dth 0 + cos (th 0) * vat a 6) 0).
  split; [exact So|]. split; [exact perfect_qr_correct|]. split; [exact perfect_qp_correct|]. split; [exact E|]. split; [exact Hsu|]. split; [exact Hin|]. do 2 (split; [reflexivity|]).
  split; [split; cbn; intros; lra|]. split; [exact Mo|]. split; [apply rpin_contracts|]. split; [apply rpin_contracts|]. split; [reflexivity|]. split; [|split; [reflexivity|split; [reflexivity|]]].
  - split; [intros u|]; (split; [|split]).
    + eapply lim_ext with (f := fun v => vx x - cos (th v)); [intros v; cbn; unfold th; cbn; ring| |apply (derivable_pt_lim_minus (fun _ => vx x) (fun v => cos (th v))); [apply derivable_pt_lim_const|apply lim_cos, T]]. cbn [vx]. ring.
    + eapply lim_ext with (f := fun v => vy x - - sin (th v)); [intros v; cbn; unfold th; cbn; ring| |apply (derivable_pt_lim_minus (fun _ => vy x) (fun v => - sin (th v))); [apply derivable_pt_lim_const|apply lim_neg, lim_sin, T]]. cbn [vy]. ring.
    + eapply lim_ext with (f := fun v => vz x); [intros v; cbn; ring| |apply derivable_pt_lim_const]. reflexivity.
    + cbn [vx]. eapply lim_eq; [apply (derivable_pt_lim_mult (fun v => sin (th v)) dth); [apply lim_sin, T|apply T2]|]. cbn beta. ring.
    + cbn [vy]. eapply lim_eq; [apply (derivable_pt_lim_mult (fun v => cos (th v)) dth); [apply lim_cos, T|apply T2]|]. cbn beta. ring.
    + apply derivable_pt_lim_const.
  - assert (E0 : th 0 = 1 / 2) by (unfold th; cbn; field). assert (E1 : dth 0 = 1 / 10) by (unfold dth; cbn; field). rewrite A6, E0, E1.
    assert (S : 0 < sin (1 / 2)) by (pose proof PI2_1; apply sin_gt_0; lra).
    unfold v3_dot, second_order. cbn [world_axis vx vy vz v3_add v3_scale t dt_kp v3_sub]. unfold rpin, gpin, pn_frame, rframe. cbn [Nat.eqb fr_R fr_t]. fold (th 0). rewrite E0. cbn. lra.
Qed.
Print Assumptions C73_relative_position_refuted.
