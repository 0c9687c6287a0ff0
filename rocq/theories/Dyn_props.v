(** Properties of the dynamics solver (C67 to C72): equation of motion, limits, contacts, failures. *)
From Coq Require Import Reals List ZArith Bool String Lra Lia Sorted.
From Verif Require Import Base Linalg Geom3 Tools_model Geometry_model Expression_model Expression_spec Expression_proofs Problem_model Problem_spec
  Problem_proofs Problem_proofs2 Problem_proofs3 Problem_props Backends_proofs Polynom_model Robot_model Robot_spec Robot_props KinTasks_model Kin_model Kin_spec Kin_proofs
  Kin_proofs3 Kin_proofs6 Kin_proofs7 DynTasks_model Dyn_model Dyn_spec Dyn_proofs Dyn_proofs2 Dyn_proofs3 Dyn_proofs4 Dyn_proofs5 Dyn_proofs6 Dyn_proofs7 Dyn_proofs8 Dyn_example.
Import ListNotations.
Open Scope R_scope.

(** ** C67 The equation of motion *)

(** The sizes asked for below are those of every solver used with the robot for which it was made. *)
Theorem C67_sizes pn log3 jlog s r : dusual pn s r -> dsound pn log3 jlog s r.
Proof. apply usual_dsound. Qed.
Print Assumptions C67_sizes.

(** The equation that holds: the documented one, with a damping of the joints. No contract on the back-ends is needed. *)
Theorem C67_behaviour pn log3 jlog qr qp s r i s' r' res : dsound pn log3 jlog s r -> dsolve pn log3 jlog qr qp s r i = (s', r', Ok res) -> dr_success res = true ->
  exists M Js, mass_matrix pn r = Ok M /\ contact_matrices pn log3 jlog s r Js /\ contacts_after (ds_contacts s) Js (ds_contacts s') /\
    vlen (dr_qdd res) = ds_N s /\ vlen (dr_tau res) = ds_N s /\ vlen (dr_tau_contacts res) = ds_N s /\
    forall k, (k < ds_N s)%nat ->
      vat (dr_tau_contacts res) k = applied_effort (ds_contacts s') Js k /\
      Rsum (ds_N s) (fun j => mat_at M k j * vat (dr_qdd res) j) + ds_damping s * vat (st_qd (r_state r)) k + bias_of pn s r k =
        vat (dr_tau res) k + vat (dr_tau_contacts res) k.
Proof.
  intros Hd H Hs. destruct (dsolve_success pn log3 jlog qr qp s r i s' r' res Hd H Hs) as (b & M & Js & x & _ & V & _). destruct V as [F V1 V2 V3 [T1 T2] [Q1 Q2] [S1 S2] V7 V8 V9].
  exists M, Js. split; [apply F|]. split; [apply F|]. split; [exact V8|]. split; [exact Q1|]. split; [exact T1|]. split; [exact S1|].
  intros k Hk. rewrite S2, V7 by exact Hk. split; [reflexivity|]. rewrite T2 by exact Hk. unfold torques_of, damping_of.
  rewrite (Rsum_ext (ds_N s) (fun j => mat_at M k j * vat (dr_qdd res) j) (fun j => mat_at M k j * vat x j)) by (intros j Hj; now rewrite Q2). ring.
Qed.
Print Assumptions C67_behaviour.

(** The documented equation, for the solvers without damping (0 is the default). *)
Theorem C67_equation_partial pn log3 jlog qr qp s r i s' r' res : dsound pn log3 jlog s r -> ds_damping s = 0 ->
  dsolve pn log3 jlog qr qp s r i = (s', r', Ok res) -> dr_success res = true ->
  exists M Js, mass_matrix pn r = Ok M /\ contact_matrices pn log3 jlog s r Js /\ contacts_after (ds_contacts s) Js (ds_contacts s') /\
    forall k, (k < ds_N s)%nat ->
      vat (dr_tau_contacts res) k = applied_effort (ds_contacts s') Js k /\
      Rsum (ds_N s) (fun j => mat_at M k j * vat (dr_qdd res) j) + bias_of pn s r k = vat (dr_tau res) k + vat (dr_tau_contacts res) k.
Proof.
  intros Hd Hz H Hs. destruct (C67_behaviour pn log3 jlog qr qp s r i s' r' res Hd H Hs) as (M & Js & A & B & C & _ & _ & _ & E). exists M, Js.
  do 3 (split; [assumption|]). intros k Hk. destruct (E k Hk) as [E1 E2]. split; [exact E1|]. rewrite Hz in E2. lra.
Qed.
Print Assumptions C67_equation_partial.

(** With a damping, the documented equation does not hold. *)
Theorem C67_damping_refuted : exists pn log3 jlog qr qp s r s' res M, dsound pn log3 jlog s r /\ qr_correct qr /\ qp_correct qp /\
  dsolve pn log3 jlog qr qp s r false = (s', r, Ok res) /\ dr_success res = true /\ mass_matrix pn r = Ok M /\
  Rsum (ds_N s) (fun j => mat_at M 6 j * vat (dr_qdd res) j) + bias_of pn s r 6 <> vat (dr_tau res) 6 + vat (dr_tau_contacts res) 6.
Proof.
  destruct (dex_solved true 1 ltac:(lra)) as (s' & res & Hs & E). destruct (C67_behaviour _ _ _ _ _ _ _ _ _ _ _ (dex_sound true 1) E Hs) as (M & Js & A & _ & _ & _ & _ & _ & H).
  exists dex_pin, dex_log, dex_jlog, perfect_qr, perfect_qp, (dex true 1), dex_robot, s', res, M. split; [apply dex_sound|]. split; [exact perfect_qr_correct|].
  split; [exact perfect_qp_correct|]. split; [exact E|]. split; [exact Hs|]. split; [exact A|]. destruct (H 6%nat ltac:(cbn; lia)) as [_ H6]. intros H'. rewrite <- H' in H6.
  cbn [ds_damping dex dex_settings] in H6. cbn [dex_robot r_state st_qd dex_speed vat Nat.eqb] in H6. lra.
Qed.
Print Assumptions C67_damping_refuted.

Example C67_example : dusual dex_pin (dex true 0) dex_robot /\ dsound dex_pin dex_log dex_jlog (dex true 0) dex_robot /\ ds_damping (dex true 0) = 0 /\
  exists s' res, dsolve dex_pin dex_log dex_jlog perfect_qr perfect_qp (dex true 0) dex_robot false = (s', dex_robot, Ok res) /\ dr_success res = true /\
    vat (dr_qdd res) 6 = 1 / 10.
Proof.
  split; [|split; [apply dex_sound|split; [reflexivity|]]].
  - constructor; try (cbn; intros; contradiction); try reflexivity.
    + exact dex_well_formed.
    + repeat split.
    + repeat split.
    + intros c f k w [<-|[]]. discriminate.
    + intros t f a e [<-|[]]. discriminate.
    + constructor.
  - destruct (dex_solved true 0 ltac:(lra)) as (s' & res & Hs & E). exists s', res. split; [exact E|]. split; [exact Hs|].
    destruct (dsolve_success _ _ _ _ _ _ _ _ _ _ _ (dex_sound true 0) E Hs) as (b & M & Js & x & _ & V & _).
    pose proof (dsolved_allowed _ _ _ _ _ _ _ _ _ _ _ _ _ perfect_qr_correct perfect_qp_correct V) as [_ A2 A3 A4 A5 _].
    destruct V as [F V1 V2 V3 [T1 T2] [Q1 Q2] [S1 S2] V7 V8 V9]. pose proof (df_mass _ _ _ _ _ _ _ _ F) as HM. destruct (dex_matrices true 0 Js (df_matrices _ _ _ _ _ _ _ _ F)) as (J & -> & Hr & HJ).
    rewrite Q2 by (cbn; lia).
    destruct dex_task_update as (e & He & Ee). specialize (A5 dex_task e (conj (or_introl eq_refl) He) eq_refl 0%nat). rewrite Ee in A5. specialize (A5 ltac:(cbn; lia)).
    unfold dresidual in A5. cbn in A5. rewrite critical in A5. lra.
Qed.

(** ** C68 Limits *)

(** With correct back-ends, the result respects all the limits that are enabled ([within_limits]); the torques of the floating base are zero, or its
    accelerations when it is masked. *)
Theorem C68_limits pn log3 jlog qr qp s r i s' r' res : dsound pn log3 jlog s r -> qr_correct qr -> qp_correct qp ->
  dsolve pn log3 jlog qr qp s r i = (s', r', Ok res) -> dr_success res = true ->
  within_limits s r (vat (dr_qdd res)) (vat (dr_tau res)) /\
  forall k, (k < 6)%nat -> (k < ds_N s)%nat -> if ds_masked_fbase s then vat (dr_qdd res) k = 0 else vat (dr_tau res) k = 0.
Proof.
  intros Hd Hqr Hqp H Hs. destruct (dsolve_success pn log3 jlog qr qp s r i s' r' res Hd H Hs) as (b & M & Js & x & _ & V & _).
  pose proof (dsolved_allowed _ _ _ _ _ _ _ _ _ _ _ _ _ Hqr Hqp V) as [A1 A2 _ A4 _ _]. destruct V as [F V1 V2 V3 [T1 T2] [Q1 Q2] _ _ _ _]. split.
  - eapply within_limits_ext; [| |exact A4]; intros k Hk; symmetry; auto.
  - intros k Hk Hn. destruct (ds_masked_fbase s); [rewrite Q2|rewrite T2]; auto.
Qed.
Print Assumptions C68_limits.

(** What the limit of the velocities that depends on the torques says, for a positive torque: the velocity is at most vmax (1 - tau / tau_max). *)
Theorem C68_velocity_vs_torque s r qdd tau d : within_limits s r qdd tau -> ds_vs_torque s = true -> (6 <= d < ds_N s)%nat ->
  let vmax := vat (m_velocity (r_model r)) d in let tmax := vat (m_effort (r_model r)) d in let v := vat (st_qd (r_state r)) d + ds_dt s * qdd d in
  0 < vmax -> 0 < tmax -> - vmax * (1 + tau d / tmax) <= v <= vmax * (1 - tau d / tmax).
Proof.
  intros W Hv Hd vmax tmax v Hvm Ht. pose proof (wl_vs_torque _ _ _ _ W Hv d Hd) as H. cbv zeta in H. apply Rabs_le_inv in H. fold vmax tmax v in H.
  assert (E : vmax / tmax * tau d = vmax * (tau d / tmax)) by (field; lra). rewrite E in H. lra.
Qed.
Print Assumptions C68_velocity_vs_torque.

(** A joint that respects its upper limit can be stopped before it, with the deceleration qdd_safe, from the velocity that the solver chose: along the whole braking
    it stays below the limit. Beyond the limit, the solver brings the joint back with at least qdd_safe. Likewise for the lower limit. *)
Theorem C68_braking s r qdd tau d : within_limits s r qdd tau -> ds_joint_limits s = true -> (6 <= d < ds_N s)%nat -> 0 < safe_at s d ->
  let q := vat (st_q (r_state r)) (S d) in let v := vat (st_qd (r_state r)) d + ds_dt s * qdd d in
  let lower := vat (m_lower (r_model r)) (S d) in let upper := vat (m_upper (r_model r)) (S d) in
  (q <= upper -> forall t, 0 <= t -> safe_at s d * t <= v -> q + v * t - safe_at s d * Rsqr t / 2 <= upper) /\
  (upper < q -> qdd d <= - safe_at s d) /\
  (lower <= q -> forall t, 0 <= t -> safe_at s d * t <= - v -> lower <= q + v * t + safe_at s d * Rsqr t / 2) /\
  (q < lower -> safe_at s d <= qdd d).
Proof.
  intros W Hj Hd Ha q v lower upper. pose proof (wl_upper _ _ _ _ W Hj d Hd) as U. pose proof (wl_lower _ _ _ _ W Hj d Hd) as L. cbv zeta in U, L. fold q v lower upper in U, L.
  set (a := safe_at s d) in *.
  assert (K : forall D w t, 0 <= D -> 0 <= w -> w <= braking_speed a D -> w * t - a * Rsqr t / 2 <= D).
  { intros D w t HD Hw Hb. unfold braking_speed in Hb.
    assert (Hp : 0 <= 2 * D * a) by (apply Rmult_le_pos; lra).
    assert (Hq : w * w <= 2 * D * a) by (rewrite <- (sqrt_sqrt (2 * D * a)) by exact Hp; apply Rmult_le_compat; assumption).
    pose proof (Rle_0_sqr (w - a * t)) as Sq. unfold Rsqr in *. apply Rmult_le_reg_l with (2 * a); [lra|]. lra. }
  split; [|split; [|split]].
  - intros Hq t Ht Hv. destruct (Rlt_dec upper q); [lra|]. pose proof (K (upper - q) v t ltac:(lra) ltac:(nra) U). lra.
  - intros Hq. destruct (Rlt_dec upper q); [exact U|lra].
  - intros Hq t Ht Hv. destruct (Rlt_dec q lower); [lra|]. pose proof (K (q - lower) (- v) t ltac:(lra) ltac:(nra) ltac:(lra)). lra.
  - intros Hq. destruct (Rlt_dec q lower); [exact L|lra].
Qed.
Print Assumptions C68_braking.

(** During one period at the velocity that the solver chose, the limit can be exceeded by at most qdd_safe dt^2 / 2. *)
Theorem C68_one_step s r qdd tau d : within_limits s r qdd tau -> ds_joint_limits s = true -> (6 <= d < ds_N s)%nat -> 0 < safe_at s d -> 0 <= ds_dt s ->
  let q := vat (st_q (r_state r)) (S d) in let v := vat (st_qd (r_state r)) d + ds_dt s * qdd d in
  let lower := vat (m_lower (r_model r)) (S d) in let upper := vat (m_upper (r_model r)) (S d) in
  lower <= q <= upper -> lower - safe_at s d * Rsqr (ds_dt s) / 2 <= q + ds_dt s * v <= upper + safe_at s d * Rsqr (ds_dt s) / 2.
Proof.
  intros W Hj Hd Ha Ht q v lower upper [Hl Hu]. pose proof (wl_upper _ _ _ _ W Hj d Hd) as U. pose proof (wl_lower _ _ _ _ W Hj d Hd) as L. cbv zeta in U, L. fold q v lower upper in U, L.
  destruct (Rlt_dec upper q); [lra|]. destruct (Rlt_dec q lower); [lra|]. set (a := safe_at s d) in *. set (dt := ds_dt s) in *.
  assert (K : forall D, 0 <= D -> dt * braking_speed a D <= D + a * Rsqr dt / 2).
  { intros D HD. unfold braking_speed. set (w := sqrt (2 * D * a)). assert (Hw : w * w = 2 * D * a) by (apply sqrt_sqrt; repeat apply Rmult_le_pos; lra). unfold Rsqr.
    pose proof (Rle_0_sqr (w - a * dt)) as Sq. unfold Rsqr in Sq. apply Rmult_le_reg_l with (2 * a); [lra|]. lra. }
  pose proof (K (upper - q) ltac:(lra)) as K1. pose proof (K (q - lower) ltac:(lra)) as K2.
  assert (dt * v <= dt * braking_speed a (upper - q)) by (apply Rmult_le_compat_l; lra).
  assert (dt * (- braking_speed a (q - lower)) <= dt * v) by (apply Rmult_le_compat_l; lra). lra.
Qed.
Print Assumptions C68_one_step.

(** set_torque_limit: replaces the limit of one joint; the limits of the model, which the limit of the velocities uses, do not change. *)
Theorem C68_set_torque_limit r s joint limit s' : set_dtorque_limit r s joint limit = Ok s' -> StronglySorted lt (map fst (ds_overridden s)) ->
  StronglySorted lt (map fst (ds_overridden s')) /\ exists d, get_joint_v_offset r joint = Ok d /\
    torque_limit s' r d = limit /\ (forall k, k <> d -> torque_limit s' r k = torque_limit s r k) /\
    (forall qdd tau, ds_torque_limits s = false -> within_limits s' r qdd tau <-> within_limits s r qdd tau).
Proof.
  unfold set_dtorque_limit. intros H Hs. bind H k E. injection H as <-. split; [now apply map_put_sorted|]. exists k. split; [reflexivity|].
  unfold torque_limit. cbn [ds_overridden dset_overridden]. split; [|split].
  - rewrite map_find_put, Nat.eqb_refl. reflexivity.
  - intros j Hj. rewrite map_find_put. destruct (Nat.eqb_spec j k); [contradiction|reflexivity].
  - intros qdd tau Hz. split; intros [W1 W2 W3 W4 W5]; (constructor; [intros H; cbn in H; congruence|exact W2|exact W3|exact W4|exact W5]).
Qed.
Print Assumptions C68_set_torque_limit.

Example C68_example : dsound dex_pin dex_log dex_jlog (dex true 1) dex_robot /\ ds_torque_limits (dex true 1) = true /\ ds_vs_torque (dex true 1) = true /\
  ds_joint_limits (dex true 1) = true /\ safe_at (dex true 1) 6 = 1 /\
  (exists s' res, dsolve dex_pin dex_log dex_jlog perfect_qr perfect_qp (dex true 1) dex_robot false = (s', dex_robot, Ok res) /\ dr_success res = true) /\
  exists s1, set_dtorque_limit dex_robot (dex true 1) "head" 2 = Ok s1 /\ torque_limit s1 dex_robot 6 = 2.
Proof.
  split; [apply dex_sound|]. do 4 (split; [reflexivity|]). split.
  - destruct (dex_solved true 1 ltac:(lra)) as (s' & res & Hs & E). exists s', res. auto.
  - eexists. split; reflexivity.
Qed.

(** ** C69 The wrenches of unilateral contacts *)

(** After a successful solve, the wrench of every active contact satisfies [contact_valid]. *)
Theorem C69_valid pn log3 jlog qr qp s r i s' r' res : dsound pn log3 jlog s r -> qr_correct qr -> qp_correct qp ->
  dsolve pn log3 jlog qr qp s r i = (s', r', Ok res) -> dr_success res = true ->
  forall k c c', nth_error (ds_contacts s) k = Some c -> nth_error (ds_contacts s') k = Some c' ->
    if co_active c then c' = set_wrench c (co_wrench c') /\ contact_valid c (vat (co_wrench c')) else c' = c.
Proof.
  intros Hd Hqr Hqp H Hs k c c' Hc Hc'. destruct (dsolve_success pn log3 jlog qr qp s r i s' r' res Hd H Hs) as (b & M & Js & x & _ & V & _).
  pose proof (dsolved_allowed _ _ _ _ _ _ _ _ _ _ _ _ _ Hqr Hqp V) as [_ _ A3 _ _ _]. destruct V as [F V1 V2 V3 _ _ _ _ [V8 V8'] V9].
  destruct (Forall2_nth_l _ _ _ _ _ (df_matrices _ _ _ _ _ _ _ _ F) Hc) as (J & HJ & HcJ). cbv beta in HcJ.
  destruct (V8' k c Hc) as (c1 & E1 & E2). rewrite Hc' in E1. injection E1 as <-. rewrite HJ in E2. destruct J as [J|].
  - destruct HcJ as [Ha HJc]. rewrite Ha. destruct E2 as [E2 L]. split; [exact E2|]. specialize (A3 k c J Hc HJ).
    destruct Hd as [_ _ _ _ He _ _]. destruct HJc as [_ HJc].
    assert (X : forall n, n = mrows J -> n = match co_kind c with CExternal _ _ v => vlen v | CPlanar _ _ _ _ _ => 6%nat | _ => 3%nat end -> contact_valid c (vat (co_wrench c'))).
    { intros n E3 E4. eapply contact_valid_ext; [|exact A3]. intros a Hl. symmetry. apply (V9 k c' J a Hc' HJ). rewrite <- E3, E4. exact Hl. }
    destruct (co_kind c) as [t u Rs|fp fo u len wid|fp t u len Rs|f' kk v| |t] eqn:K.
    + apply (X 3%nat); [now destruct HJc|reflexivity].
    + apply (X 6%nat); [now destruct HJc|reflexivity].
    + unfold contact_valid. rewrite K. exact I.
    + subst J. apply (X (vlen v)); [exact (He c f' kk v (nth_error_In _ _ Hc) Ha K)|reflexivity].
    + unfold contact_valid. rewrite K. exact I.
    + unfold contact_valid. rewrite K. exact I.
  - rewrite HcJ. exact E2.
Qed.
Print Assumptions C69_valid.

(** The friction pyramid is in the cone of coefficient sqrt 2 mu: the tangential force is at most sqrt 2 mu times the normal force. *)
Theorem C69_friction mu x y z : friction_ok mu x y z -> sqrt (Rsqr x + Rsqr y) <= sqrt 2 * (mu * z).
Proof.
  intros (Hz & Hx & Hy). pose proof (Rle_trans _ _ _ (Rabs_pos x) Hx) as H. apply Rabs_le_inv in Hx, Hy.
  replace (sqrt 2 * (mu * z)) with (sqrt (2 * Rsqr (mu * z))) by (rewrite sqrt_mult by (try lra; apply Rle_0_sqr); now rewrite sqrt_Rsqr).
  apply sqrt_le_1_alt. unfold Rsqr. assert (x * x <= (mu * z) * (mu * z)) by nra. assert (y * y <= (mu * z) * (mu * z)) by nra. lra.
Qed.
Print Assumptions C69_friction.

(** The ZMP of a planar contact that pushes is in its rectangle; the moment of the wrench there has no component along the surface. *)
Theorem C69_zmp c fp fo length width : co_kind c = CPlanar fp fo true length width -> vlen (co_wrench c) = 6%nat -> contact_valid c (vat (co_wrench c)) ->
  0 < vat (co_wrench c) 2 -> exists p, planar_zmp c = Ok p /\
    Rabs (vx p) <= length / 2 /\ Rabs (vy p) <= width / 2 /\ vz p = 0 /\
    let w := vat (co_wrench c) in
    let moment := v3_sub (V3 (w 3%nat) (w 4%nat) (w 5%nat)) (v3_cross p (V3 (w 0%nat) (w 1%nat) (w 2%nat))) in vx moment = 0 /\ vy moment = 0.
Proof.
  intros K L V Hz. unfold contact_valid in V. rewrite K in V. destruct V as (_ & V1 & V2). unfold planar_zmp. rewrite !vec_get_total by lia. cbn [obind].
  eexists. split; [reflexivity|]. cbn [vx vy vz]. set (w := vat (co_wrench c)) in *. split; [|split; [|split; [reflexivity|]]].
  - apply Rabs_le. split; apply Rmult_le_reg_r with (w 2%nat); try exact Hz; unfold Rdiv; rewrite ?Ropp_mult_distr_l_reverse, ?Rmult_assoc, ?Rinv_l by lra; lra.
  - apply Rabs_le. split; apply Rmult_le_reg_r with (w 2%nat); try exact Hz; unfold Rdiv; rewrite ?Ropp_mult_distr_l_reverse, ?Rmult_assoc, ?Rinv_l by lra; lra.
  - unfold v3_sub, v3_cross. cbn. split; field; lra.
Qed.
Print Assumptions C69_zmp.

Example C69_example : dsound dex_pin dex_log dex_jlog (dex true 1) dex_robot /\
  (exists s' res, dsolve dex_pin dex_log dex_jlog perfect_qr perfect_qp (dex true 1) dex_robot false = (s', dex_robot, Ok res) /\ dr_success res = true /\
     exists c', nth_error (ds_contacts s') 0 = Some c' /\ co_kind c' = CPlanar 1 1 true 1 1 /\ contact_valid dex_contact (vat (co_wrench c'))) /\
  let c := set_wrench dex_contact (Vec 6 (fun k => dex_x (7 + k))) in contact_valid c (vat (co_wrench c)) /\ 0 < vat (co_wrench c) 2.
Proof.
  split; [apply dex_sound|]. split.
  - destruct (dex_solved true 1 ltac:(lra)) as (s' & res & Hs & E). exists s', res. split; [exact E|]. split; [exact Hs|].
    destruct (dsolve_success _ _ _ _ _ _ _ _ _ _ _ (dex_sound true 1) E Hs) as (b & M & Js & x & _ & V & _). destruct (dv_contacts _ _ _ _ _ _ _ _ _ _ _ _ _ V) as [_ H].
    destruct (H 0%nat dex_contact eq_refl) as (c' & Hc' & _). exists c'. split; [exact Hc'|].
    destruct (C69_valid _ _ _ _ _ _ _ _ _ _ _ (dex_sound true 1) perfect_qr_correct perfect_qp_correct E Hs 0%nat dex_contact c' eq_refl Hc') as [Ec Vc]. split; [|exact Vc].
    rewrite Ec. reflexivity.
  - cbn. unfold contact_valid, friction_ok, dex_x. cbn. unfold Rabs. destruct (Rcase_abs (1 / 10)); lra.
Qed.

(** ** C70 The weights of the tangential forces *)

(** A point contact: exactly the two coordinates of the force along the surface. *)
Theorem C70_point_partial c f m g cs t u Rs : co_kind c = CPoint t u Rs -> denotes f 3 m g -> contact_constraints c f = Ok cs -> 0 < co_wtangentials c -> co_wforces c <= 0 ->
  forall x, soft_cost cs x = co_wtangentials c / 2 * (Rsqr (vx (in_surface Rs (g x))) + Rsqr (vy (in_surface Rs (g x)))).
Proof.
  intros K D H Ht Hf x. destruct (contact_means c f 3 m g cs D) as (_ & C & _); [intros w (f' & k & E); congruence|intros (a & b & d & e & h & E); congruence|exact H|].
  rewrite C. unfold contact_penalty. rewrite K. unfold weighted. destruct (Rlt_dec 0 (co_wforces c)); [lra|]. destruct (Rlt_dec 0 (co_wtangentials c)); [|lra]. cbn [fold_right]. ring.
Qed.
Print Assumptions C70_point_partial.

(** A planar contact: the code takes the second tangential force and the normal force. *)
Theorem C70_planar_behaviour c f m g cs fp fo u length width : co_kind c = CPlanar fp fo u length width -> denotes f 6 m g -> contact_constraints c f = Ok cs ->
  0 < co_wtangentials c -> co_wforces c <= 0 -> co_wmoments c <= 0 ->
  forall x, soft_cost cs x = co_wtangentials c / 2 * (Rsqr (g x 1%nat) + Rsqr (g x 2%nat)).
Proof.
  intros K D H Ht Hf Hm x. destruct (contact_means c f 6 m g cs D) as (_ & C & _); [intros w (f' & k & E); congruence|intros (a & b & d & e & h & E); congruence|exact H|].
  rewrite C. unfold contact_penalty. rewrite K. unfold weighted. destruct (Rlt_dec 0 (co_wforces c)); [lra|]. destruct (Rlt_dec 0 (co_wmoments c)); [lra|].
  destruct (Rlt_dec 0 (co_wtangentials c)); [|lra]. cbn [fold_right]. ring.
Qed.
Print Assumptions C70_planar_behaviour.

(** A force purely tangential, of any size, costs nothing; a force purely normal has a cost. *)
Theorem C70_planar_refuted : exists c f cs, co_kind c = CPlanar 1 1 true 1 1 /\ co_wtangentials c = 1 /\ co_wforces c = 0 /\ co_wmoments c = 0 /\
  denotes f 6 6 (fun x i => x i) /\ contact_constraints c f = Ok cs /\
  (forall a, soft_cost cs (fun k => if Nat.eqb k 0 then a else 0) = 0) /\ (forall a, a <> 0 -> 0 < soft_cost cs (fun k => if Nat.eqb k 2 then a else 0)).
Proof.
  set (c := Contact (CPlanar 1 1 true 1 1) true 1 0 1 0 (Vec 0 (fun _ => 0))). set (f := Expr (Mat 6 6 (fun i j => if Nat.eqb i j then 1 else 0)) (Vec 6 (fun _ => 0))).
  assert (D : denotes f 6 6 (fun x i => x i)).
  { apply denotes_intro; try reflexivity. intros x i Hi. unfold ev, f. do 6 (destruct i as [|i]; [cbn; ring|]). lia. }
  assert (X : exists cs, contact_constraints c f = Ok cs).
  { unfold contact_constraints, c, planar_constraints. cbn [co_kind co_mu co_wforces co_wtangentials co_wmoments].
    destruct (Req_EM_T 1 0); [lra|]. unfold penalise. destruct (Rlt_dec 0 0); [lra|]. destruct (Rlt_dec 0 1); [|lra]. eexists. reflexivity. }
  destruct X as (cs & E). exists c, f, cs. do 4 (split; [reflexivity|]). split; [exact D|]. split; [exact E|].
  pose proof (C70_planar_behaviour c f 6 _ cs 1 1 true 1 1 eq_refl D E ltac:(cbn; lra) ltac:(cbn; lra) ltac:(cbn; lra)) as H. split.
  - intros a. rewrite H. cbn. unfold Rsqr. ring.
  - intros a Ha. rewrite H. cbn. unfold Rsqr. assert (0 < a * a) by nra. lra.
Qed.
Print Assumptions C70_planar_refuted.

Example C70_example : let c := Contact (CPoint 0 true m3_id) true 1 0 2 0 (Vec 0 (fun _ => 0)) in
  exists f cs, denotes f 3 3 (fun x i => x i) /\ contact_constraints c f = Ok cs /\ soft_cost cs (fun k => INR k + 1) = 5.
Proof.
  intros c. set (f := Expr (Mat 3 3 (fun i j => if Nat.eqb i j then 1 else 0)) (Vec 3 (fun _ => 0))).
  assert (D : denotes f 3 3 (fun x i => x i)) by (apply denotes_intro; try reflexivity; intros x i Hi; unfold ev, f; do 3 (destruct i as [|i]; [cbn; ring|]); lia).
  assert (X : exists cs, contact_constraints c f = Ok cs).
  { unfold contact_constraints, c, point_constraints. cbn [co_kind co_mu co_wforces co_wtangentials co_wmoments].
    unfold penalise. destruct (Rlt_dec 0 0); [lra|]. destruct (Rlt_dec 0 2); [|lra]. eexists. reflexivity. }
  destruct X as (cs & E). exists f, cs. split; [exact D|]. split; [exact E|].
  rewrite (C70_point_partial c f 3 _ cs 0 true m3_id eq_refl D E ltac:(cbn; lra) ltac:(cbn; lra)). unfold in_surface. cbn. unfold Rsqr. lra.
Qed.

(** ** C71 Line contacts *)

(** A unilateral line contact, or one with a weight for its forces, multiplies a matrix with three columns by an expression with five rows (undefined). *)
Theorem C71_line_behaviour c fp t u length Rs f m g : co_kind c = CLine fp t u length Rs -> denotes f 5 m g ->
  (u = true -> length <> 0 -> contact_constraints c f = UB) /\ (u = true -> length = 0 -> contact_constraints c f = Throw ELogic) /\
  (u = false -> 0 < co_wforces c \/ 0 < co_wtangentials c -> contact_constraints c f = UB) /\
  (u = false -> co_wforces c <= 0 -> co_wtangentials c <= 0 -> exists cs, contact_constraints c f = Ok cs /\
     (forall x, hard_holds cs x) /\ forall x, soft_cost cs x = weighted (co_wmoments c) [g x 3%nat; g x 4%nat]).
Proof.
  intros K D. pose proof (denotes_elim _ _ _ _ D) as (R1 & R2 & _).
  assert (B : m_mul_e (mat_of3 (m3_t Rs)) f = UB).
  { unfold m_mul_e. rewrite R1. reflexivity. }
  unfold contact_constraints. rewrite K. unfold line_constraints. split; [|split; [|split]].
  - intros -> Hl. destruct (Req_EM_T length 0); [contradiction|]. rewrite B. reflexivity.
  - intros -> ->. destruct (Req_EM_T 0 0); [reflexivity|contradiction].
  - intros -> Hw. cbn [obind]. unfold penalise. rewrite B. cbn [obind]. destruct (Rlt_dec 0 (co_wforces c)); [reflexivity|]. cbn [obind].
    destruct (Rlt_dec 0 (co_wtangentials c)); [reflexivity|]. destruct Hw; contradiction.
  - intros -> Hf Ht. cbn [obind]. unfold penalise. destruct (Rlt_dec 0 (co_wforces c)); [lra|]. destruct (Rlt_dec 0 (co_wtangentials c)); [lra|]. cbn [obind app].
    assert (X : exists cs, contact_constraints c f = Ok cs).
    { unfold contact_constraints. rewrite K. unfold line_constraints, penalise. cbn [obind]. destruct (Rlt_dec 0 (co_wforces c)); [lra|]. destruct (Rlt_dec 0 (co_wtangentials c)); [lra|]. cbn [obind app].
      destruct (Rlt_dec 0 (co_wmoments c)); [|eexists; reflexivity]. destruct (part_total f 5 m g 3 2 D ltac:(lia)) as (e & -> & De). cbn [obind].
      destruct (made_eq_d _ _ _ _ 0 De) as (d & -> & _). eexists. reflexivity. }
    destruct X as (cs & E). pose proof E as E'. unfold contact_constraints in E'. rewrite K in E'. unfold line_constraints, penalise in E'. cbn [obind] in E'.
    destruct (Rlt_dec 0 (co_wforces c)); [lra|]. destruct (Rlt_dec 0 (co_wtangentials c)); [lra|]. cbn [obind app] in E'. exists cs. split; [exact E'|].
    destruct (contact_means c f 5 m g cs D) as (A & C & _); [intros w (f' & k & Ef); congruence|reflexivity|exact E|].
    unfold contact_valid, contact_penalty in *. rewrite K in *. split; [intros x; now apply A|exact C].
Qed.
Print Assumptions C71_line_behaviour.

Lemma add_contacts_app pn N r es pb l1 pb1 fs cs l2 : add_contacts pn N r es pb l1 = Ok (pb1, fs, cs) ->
  (add_contacts pn N r es pb1 l2 = UB -> add_contacts pn N r es pb (l1 ++ l2) = UB) /\
  (forall e, add_contacts pn N r es pb1 l2 = Throw e -> add_contacts pn N r es pb (l1 ++ l2) = Throw e).
Proof.
  revert pb pb1 fs cs. induction l1 as [|c l1 IH]; intros pb pb1 fs cs H; cbn [add_contacts app] in *; [injection H as <- <- <-; auto|].
  destruct (co_active c).
  - bind H J EJ. destruct (add_variable pb (mrows J)) as [pb' v] eqn:Ev. bind H f Ef. bind H ds Ed. bind H x Ex. destruct x as [[pb2 fs2] cs2]. injection H as <- <- <-.
    destruct (IH _ _ _ _ Ex) as [I1 I2].
    cbn [obind]. rewrite ?Ev, ?Ef. cbn [obind]. rewrite ?Ed. cbn [obind]. split; [intros H; rewrite (I1 H); reflexivity|intros e H; rewrite (I2 e H); reflexivity].
  - bind H x Ex. destruct x as [[pb2 fs2] cs2]. injection H as <- <- <-.
    destruct (IH _ _ _ _ Ex) as [I1 I2]. split; [intros H; rewrite (I1 H); reflexivity|intros e H; rewrite (I2 e H); reflexivity].
Qed.

(** Whatever the rest of the solver and the back-ends, a solve with an active unilateral line contact that has a length is undefined. *)
Theorem C71_line_refuted pn log3 jlog qr qp s r i l1 c l2 fp t length Rs A : dready pn log3 jlog (dset_contacts s l1) r -> ds_contacts s = l1 ++ c :: l2 ->
  co_active c = true -> co_kind c = CLine fp t true length Rs -> length <> 0 ->
  mcols (frame_jacobian pn r fp LocalWorldAligned) = ds_N s -> mrows (frame_jacobian pn r fp LocalWorldAligned) = 6%nat ->
  matrix_of_task pn log3 jlog s r t A -> mrows A = 2%nat -> dsolve pn log3 jlog qr qp s r i = (s, r, UB).
Proof.
  intros Rd El Ha K Hl J1 J2 HA HA2. pose proof Rd as [So [H6 Hq] Hx Hdt Ho Hcost Ht Hc Hk]. pose proof So as [HN Wr Dy Hts He Hcs Hov].
  cbn [ds_N dset_contacts ds_tasks ds_extra ds_contacts] in *.
  assert (B : dbuild pn log3 jlog s r = UB); [|unfold dsolve; rewrite B; reflexivity].
  unfold dbuild. cbn [add_variable clear_variables clear_constraints set_vars set_cons p_n p_vars p_cons app Nat.add].
  set (v := MkVar 0 (m_nv (r_model r)) (Vec 0 (fun _ => 0)) 0).
  match goal with |- context [add_contacts _ _ _ _ ?p _] => set (pb0 := p) end. set (N := ds_N s) in *.
  destruct (var_whole v) as (qdd & Eq & Dq); [cbn; lia|]. rewrite Eq. cbn [obind].
  assert (Vs : var_size v = N) by (unfold var_size; cbn; lia). rewrite Vs in Dq. assert (Ve : k_end v = N) by (cbn; lia). rewrite Ve in Dq.
  change (fun (x : nat -> R) (i : nat) => x (k_start v + i)%nat) with (fun (x : nat -> R) (i : nat) => x i) in Dq.
  assert (C0 : exists cs0, (if ds_masked_fbase s then e <- var_expr v 0 6 ;; c <- e_eq_d e 0 ;; Ok [c] else Ok []) = Ok cs0).
  { destruct (ds_masked_fbase s); [|eexists; reflexivity].
    destruct (var_expr_denotes v 0 6) as (e0 & Ee0 & De0); [cbn; lia|rewrite Vs; cbn; lia|]. change (var_expr v (Z.of_nat 0) (Z.of_nat 6)) with (var_expr v 0 6) in Ee0.
    rewrite Ee0. cbn [obind]. destruct (made_eq_d _ _ _ _ 0 De0) as (d & -> & _). eexists. reflexivity. }
  destruct C0 as (cs0 & ->). cbn [obind].
  destruct (update_tasks_total pn log3 jlog N r (ds_tasks s)) as (es & Ees); [intros t0 H; now apply Ht|]. rewrite Ees. cbn [obind]. pose proof (update_tasks_spec pn log3 jlog N r _ _ Ees) as Fes.
  destruct (motion_torques_total pn log3 jlog (dset_contacts s l1) r qdd Dq So Hx) as (tau0 & Et0). change (motion_torques pn (dset_contacts s l1) r qdd) with (motion_torques pn s r qdd) in Et0.
  rewrite Et0. cbn [obind].
  destruct (add_contacts_total pn log3 jlog (dset_contacts s l1) r es So ltac:(cbn; lia) Fes l1 pb0) as (pb & fs & cs1 & Js0 & Ex & _); [auto|exact Hc|cbn; lia|].
  cbn [ds_N dset_contacts] in Ex. fold N in Ex. rewrite El.
  destruct (add_contacts_app pn N r es pb0 l1 pb fs cs1 (c :: l2) Ex) as [Eu _]. rewrite Eu; [reflexivity|].
  cbn [add_contacts]. rewrite Ha, K. cbn [contact_update].
  pose proof (task_matrix_total pn log3 jlog s r es t A Fes HA) as ET. unfold block. rewrite J1, J2. fold N. rewrite guard_true by (rewrite Nat.leb_refl; reflexivity). cbn [obind]. rewrite ET. cbn [obind].
  rewrite HA2. cbn [Nat.eqb negb]. destruct HA as (t0 & e & Hn & Hu & ->). destruct (Hts t0 e) as [S1 S2]; [split; [exact (nth_error_In _ _ Hn)|exact Hu]|]. fold N in S1.
  rewrite guard_true by now apply Nat.eqb_eq. cbn [obind stack_rows mrows]. rewrite HA2. cbn [Nat.add add_variable].
  match goal with |- context [var_expr ?w (-1) (-1)] => destruct (var_whole w) as (f & -> & Df); [cbn; lia|] end. cbn [obind].
  match type of Df with denotes _ (var_size ?w) _ _ => assert (Vw : var_size w = 5%nat) by (unfold var_size; cbn; lia) end. rewrite Vw in Df.
  destruct (C71_line_behaviour c fp t true length Rs f _ _ K Df) as (E & _). rewrite (E eq_refl Hl). reflexivity.
Qed.
Print Assumptions C71_line_refuted.

(** The wrench of a line contact has the moments around y and z in its rows 3 and 4: zmp() reads the moment around z. *)
Theorem C71_zmp_behaviour c : vlen (co_wrench c) = 5%nat -> line_zmp c = Ok (V3 (- vat (co_wrench c) 4 / vat (co_wrench c) 2) 0 0).
Proof. intros L. unfold line_zmp. rewrite !vec_get_total by lia. reflexivity. Qed.
Print Assumptions C71_zmp_behaviour.

(** The ZMP p of a line along x is such that my + p fz = 0. *)
Theorem C71_zmp_refuted : exists c p, vlen (co_wrench c) = 5%nat /\ line_zmp c = Ok p /\ 0 < vat (co_wrench c) 2 /\ vat (co_wrench c) 3 + vx p * vat (co_wrench c) 2 <> 0.
Proof.
  exists (Contact (CLine 1 0 true 1 m3_id) true 1 0 0 0 (Vec 5 (fun k => nth k [0; 0; 1; 1; 0] 0))). eexists. split; [reflexivity|]. split; [reflexivity|]. cbn. lra.
Qed.
Print Assumptions C71_zmp_refuted.

(** What can be used: a line contact that is not unilateral, without a weight on its forces ([contact_ready]); the solve then succeeds whenever there is a solution. *)
Theorem C71_bilateral_partial pn log3 jlog qr qp s r : dready pn log3 jlog s r -> qr_correct qr -> qp_correct qp -> p_rewrite (ds_problem s) = true -> 0 < p_reg (ds_problem s) ->
  (forall M Js tau, mass_matrix pn r = Ok M -> contact_matrices pn log3 jlog s r Js -> independent_rows (unknowns (ds_N s) Js) (equality_coefficients pn log3 jlog s r M Js tau)) ->
  (forall M Js tau, mass_matrix pn r = Ok M -> contact_matrices pn log3 jlog s r Js -> exists x, dallowed pn log3 jlog s r M Js tau x) ->
  (exists s' res, dr_success res = true /\ dsolve pn log3 jlog qr qp s r false = (s', r, Ok res)) \/ qr_fails qr \/ qp_fails qp.
Proof. apply dsolve_complete. Qed.
Print Assumptions C71_bilateral_partial.

(** An orientation task with two rows, and a line contact that uses it. *)
Definition dex_line_task : dtask := DTask (DOrientation 1 m3_id v3_zero v3_zero (Mask identity3 identity3 [1; 2]%nat TaskFrame)) PSoft 1 1 (-1).
Definition dex_line (u : bool) : contact := Contact (CLine 1 0 u 1 m3_id) true 1 0 0 1 (Vec 0 (fun _ => 0)).
Example C71_example : let s := dex_settings dex_base (1 / 10) false false 0 [dex_line_task] [dex_line false] in
  let s0 := dex_settings dex_base (1 / 10) false false 0 [dex_line_task] [] in
  dready dex_pin dex_log dex_jlog s dex_robot /\ dready dex_pin dex_log dex_jlog s0 dex_robot /\
  exists A, matrix_of_task dex_pin dex_log dex_jlog s dex_robot 0 A /\ mrows A = 2%nat.
Proof.
  intros s s0. assert (U : exists e, dtask_update dex_pin dex_log dex_jlog 7 dex_robot dex_line_task = Ok e /\ mrows (de_A e) = 2%nat /\ dshaped 7 e).
  { eexists. split; [reflexivity|]. split; [reflexivity|]. split; reflexivity. }
  destruct U as (e & Ee & Re & Se).
  assert (So : forall u l, (l = [] \/ l = [dex_line u]) -> dsound dex_pin dex_log dex_jlog (dex_settings dex_base (1 / 10) false false 0 [dex_line_task] l) dex_robot).
  { intros u l Hl. constructor; try reflexivity.
    - exact dex_well_formed.
    - repeat split.
    - intros t e' [[<-|[]] H]. cbn [ds_N dex_settings dex_base] in H. rewrite Ee in H. injection H as <-. exact Se.
    - intros c f k w Hc _ Hk. destruct Hl as [-> | ->]; [destruct Hc|]. destruct Hc as [<-|[]]. discriminate.
    - intros c tau cs c' [].
    - constructor. }
  assert (Rd : forall l, (l = [] \/ l = [dex_line false]) -> dready dex_pin dex_log dex_jlog (dex_settings dex_base (1 / 10) false false 0 [dex_line_task] l) dex_robot).
  { intros l Hl. constructor.
    - exact (So false l Hl).
    - cbn; lia.
    - left. reflexivity.
    - discriminate.
    - intros d x [].
    - cbn. lra.
    - intros t [<-|[]]. split; [exists e; exact Ee|]. split; [discriminate|]. intros _. cbn. lra.
    - intros c Hc _. destruct Hl as [-> | ->]; [destruct Hc|]. destruct Hc as [<-|[]]. cbn. split; [reflexivity|]. split; [reflexivity|]. split; [|split; [reflexivity|lra]].
      exists (de_A e). split; [|exact Re]. exists dex_line_task, e. auto.
    - intros c tau []. }
  split; [apply Rd; auto|]. split; [apply Rd; auto|]. exists (de_A e). split; [|exact Re]. exists dex_line_task, e. auto.
Qed.

(** ** C72 Failures *)

(** The result is a failure exactly when the problem was refused by the QP (QPError); the robot does not change; any other error leaves the robot as it was. *)
Theorem C72_failure pn log3 jlog qr qp s r i s' r' o : dsound pn log3 jlog s r -> dsolve pn log3 jlog qr qp s r i = (s', r', o) ->
  ((exists res, o = Ok res /\ dr_success res = false) <-> exists b pb, dbuild pn log3 jlog s r = Ok b /\ solve (db_problem b) qr qp = (pb, Throw EQP)) /\
  (forall res, o = Ok res -> dr_success res = false -> r' = r /\ ds_contacts s' = ds_contacts s) /\
  ((forall res, o <> Ok res) -> r' = r) /\ (i = false -> r' = r).
Proof.
  intros Hd H. destruct (dsolve_cases pn log3 jlog qr qp s r i Hd) as [(e & Eb & E)|[(Eb & E)|[(b & pb & Eb & Es & E)|[(b & pb & Eb & Es & E)|(s1 & res1 & b & M & Js & x & Eb & V & E)]]]];
    rewrite E in H.
  - injection H as <- <- <-. split; [|split; [|split]]; auto; try discriminate. split; [intros (res & X & _); discriminate|intros (b & pb & X & _); congruence].
  - injection H as <- <- <-. split; [|split; [|split]]; auto; try discriminate. split; [intros (res & X & _); discriminate|intros (b & pb & X & _); congruence].
  - injection H as <- <- <-. split; [|split; [|split]]; auto; try discriminate. split; [intros (res & X & _); discriminate|]. intros (b' & pb' & X & Y). rewrite Eb in X. injection X as <-. congruence.
  - injection H as <- <- <-. split; [|split; [|split]]; auto. split; [intros _; exists b, pb; auto|]. intros _. exists failed. auto.
  - pose proof (dv_success _ _ _ _ _ _ _ _ _ _ _ _ _ V) as Hs. destruct (dv_solve _ _ _ _ _ _ _ _ _ _ _ _ _ V) as (pb & Es & _).
    assert (N : ~ exists b pb, dbuild pn log3 jlog s r = Ok b /\ solve (db_problem b) qr qp = (pb, Throw EQP)) by (intros (b' & pb' & X & Y); rewrite Eb in X; injection X as <-; congruence).
    destruct i.
    + destruct (Req_EM_T (ds_dt s) 0).
      * injection H as <- <- <-. split; [split; [intros (res & X & _); discriminate|tauto]|]. split; [discriminate|]. auto.
      * destruct (apply_result pn s r (dr_qdd res1)); injection H as <- <- <-.
        -- split; [split; [intros (res & X & Y); injection X as <-; congruence|tauto]|]. split; [intros res X Y; injection X as <-; congruence|]. split; [intros X; now destruct (X res1)|discriminate].
        -- split; [split; [intros (res & X & _); discriminate|tauto]|]. split; [discriminate|]. auto.
        -- split; [split; [intros (res & X & _); discriminate|tauto]|]. split; [discriminate|]. auto.
    + injection H as <- <- <-. split; [split; [intros (res & X & Y); injection X as <-; congruence|tauto]|]. split; [intros res X Y; injection X as <-; congruence|]. auto.
Qed.
Print Assumptions C72_failure.

(** With integrate and dt = 0, the robot is never modified: the call throws, or the problem was not solved. *)
Theorem C72_zero_period pn log3 jlog qr qp s r s' r' o : dsound pn log3 jlog s r -> ds_dt s = 0 -> dsolve pn log3 jlog qr qp s r true = (s', r', o) ->
  r' = r /\ forall res, o = Ok res -> dr_success res = false.
Proof.
  intros Hd Hz H. destruct (dsolve_cases pn log3 jlog qr qp s r true Hd) as [(e & Eb & E)|[(Eb & E)|[(b & pb & Eb & Es & E)|[(b & pb & Eb & Es & E)|(s1 & res1 & b & M & Js & x & Eb & V & E)]]]];
    rewrite E in H; try (injection H as <- <- <-; split; [reflexivity|intros res X; try discriminate; injection X as <-; reflexivity]).
  destruct (Req_EM_T (ds_dt s) 0); [|contradiction]. injection H as <- <- <-. split; [reflexivity|discriminate].
Qed.
Print Assumptions C72_zero_period.

(** With integrate, a successful solve moves the robot with the accelerations of the result: the new velocities are qd + dt qdd, and every simple joint moves at its new velocity. *)
Theorem C72_integrated pn log3 jlog qr qp s r s' r' res : dsound pn log3 jlog s r -> (0 < ds_N s)%nat -> integrates pn (r_model r) -> qr_correct qr -> qp_correct qp ->
  dsolve pn log3 jlog qr qp s r true = (s', r', Ok res) -> dr_success res = true ->
  ds_dt s <> 0 /\ r_model r' = r_model r /\ well_formed_robot r' /\
  (forall k, (k < ds_N s)%nat -> vat (st_qdd (r_state r')) k = vat (dr_qdd res) k /\ vat (st_qd (r_state r')) k = vat (st_qd (r_state r)) k + ds_dt s * vat (dr_qdd res) k) /\
  (forall j, In j (m_joints (r_model r)) -> jt_nq j = 1%nat -> jt_nv j = 1%nat ->
     vat (st_q (r_state r')) (jt_idx_q j) = vat (st_q (r_state r)) (jt_idx_q j) + ds_dt s * vat (st_qd (r_state r')) (jt_idx_v j)).
Proof.
  intros Hd H0 Hi Hqr Hqp H Hs. destruct (C68_limits pn log3 jlog qr qp s r true s' r' res Hd Hqr Hqp H Hs) as [_ Hb].
  destruct (dsolve_success pn log3 jlog qr qp s r true s' r' res Hd H Hs) as (b & M & Js & x & _ & V & Hdt & Ha). split; [exact Hdt|].
  destruct (dv_qdd _ _ _ _ _ _ _ _ _ _ _ _ _ V) as [L _]. pose proof Hd as [HN (Wm & Wq & Wv & Wa) _ _ _ _ _].
  unfold apply_result in Ha. apply guard_inv in Ha. destruct Ha as [_ Ha].
  set (qdd := if ds_masked_fbase s then Vec (vlen (dr_qdd res)) (fun i => if Nat.ltb i 6 then 0 else vat (dr_qdd res) i) else dr_qdd res) in *.
  assert (Lq : vlen qdd = m_nv (r_model r)) by (unfold qdd; destruct (ds_masked_fbase s); cbn; congruence).
  assert (Vq : forall k, (k < ds_N s)%nat -> vat qdd k = vat (dr_qdd res) k).
  { intros k Hk. unfold qdd. specialize (Hb k). destruct (ds_masked_fbase s); [|reflexivity]. cbn [vat]. destruct (Nat.ltb_spec k 6) as [H6|H6]; [symmetry; exact (Hb H6 Hk)|reflexivity]. }
  destruct (C113_integrate pn (set_qdd r qdd) (ds_dt s)) as (r1 & E1 & W1 & M1 & A1 & V1 & J1).
  - split; [exact Wm|]. cbn. auto.
  - cbn. lia.
  - exact Hi.
  - rewrite Ha in E1. injection E1 as <-. split; [exact M1|]. split; [exact W1|]. split.
    + intros k Hk. rewrite A1, V1. cbn [set_qdd set_state r_state st_qdd st_qd]. rewrite Vq by exact Hk. auto.
    + exact J1.
Qed.
Print Assumptions C72_integrated.

Example C72_example : dsound dex_pin dex_log dex_jlog (dex true 1) dex_robot /\ integrates dex_pin (r_model dex_robot) /\ qp_correct (fun _ => QPResult true (fun _ => 0) (fun _ => false) []) /\
  (exists s' r' res, dsolve dex_pin dex_log dex_jlog perfect_qr perfect_qp (dex true 1) dex_robot true = (s', r', Ok res) /\ dr_success res = true /\
     vat (st_qd (r_state r')) 6 = 11 / 100).
Proof.
  assert (Hi : integrates dex_pin (r_model dex_robot)). { intros q v Eq Ev. split; [exact Eq|]. intros j [<-|[<-|[]]]; cbn; [discriminate|]. reflexivity. }
  split; [apply dex_sound|]. split; [exact Hi|]. split; [intros p H; discriminate H|].
  destruct (dex_solved true 1 ltac:(lra)) as (s0 & res0 & Hs0 & E0).
  destruct (dsolve_cases dex_pin dex_log dex_jlog perfect_qr perfect_qp (dex true 1) dex_robot true (dex_sound true 1))
    as [(e & Eb & E)|[(Eb & E)|[(b & pb & Eb & Es & E)|[(b & pb & Eb & Es & E)|(s' & res & b & M & Js & x & Eb & V & E)]]]].
  - exfalso. unfold dsolve in E0. rewrite Eb in E0. discriminate E0.
  - exfalso. unfold dsolve in E0. rewrite Eb in E0. discriminate E0.
  - exfalso. unfold dsolve in E0. rewrite Eb, Es in E0. discriminate E0.
  - exfalso. unfold dsolve in E0. rewrite Eb, Es in E0. injection E0 as _ <-. discriminate Hs0.
  - cbn [ds_dt dex dex_settings] in E. destruct (Req_EM_T (1 / 10) 0); [lra|].
    assert (X : exists r', apply_result dex_pin (dex true 1) dex_robot (dr_qdd res) = Ok r').
    { destruct (C113_integrate dex_pin (set_qdd dex_robot (dr_qdd res)) (1 / 10)) as (r1 & E1 & _); [|cbn; lia|exact Hi|exists r1; exact E1].
      split; [exact (proj1 dex_well_formed)|]. cbn. destruct (dv_qdd _ _ _ _ _ _ _ _ _ _ _ _ _ V) as [L _]. rewrite L. auto. }
    destruct X as (r' & Er). rewrite Er in E. exists s', r', res. split; [exact E|]. pose proof (dv_success _ _ _ _ _ _ _ _ _ _ _ _ _ V) as Hs. split; [exact Hs|].
    destruct (C72_integrated _ _ _ _ _ _ _ _ _ _ (dex_sound true 1) ltac:(cbn; lia) Hi perfect_qr_correct perfect_qp_correct E Hs) as (_ & _ & _ & H & _).
    destruct (H 6%nat) as [_ ->]; [cbn; lia|]. change (vat (st_qd (r_state dex_robot)) 6) with (1 / 10). change (ds_dt (dex true 1)) with (1 / 10).
    pose proof (dsolved_allowed _ _ _ _ _ _ _ _ _ _ _ _ _ perfect_qr_correct perfect_qp_correct V) as [_ _ _ _ A5 _].
    destruct (dv_qdd _ _ _ _ _ _ _ _ _ _ _ _ _ V) as [_ Q2]. rewrite Q2 by (cbn; lia).
    destruct dex_task_update as (e & He & Ee). specialize (A5 dex_task e (conj (or_introl eq_refl) He) eq_refl 0%nat). rewrite Ee in A5. specialize (A5 ltac:(cbn; lia)).
    unfold dresidual in A5. cbn in A5. rewrite critical in A5. lra.
Qed.
