(** Solvers with one hard task, and a robot with an arm, for the examples of KinTasks_props.v. *)
From Coq Require Import Reals List ZArith Bool String Lra Lia.
From Verif Require Import Base Linalg Angle Geom3 Tools_model Geometry_model Geometry_proofs Expression_model Problem_model Problem_spec Problem_props Polynom_model Robot_model
  Robot_spec Robot_proofs Robot_props KinTasks_model Kin_model Kin_spec Kin_proofs Kin_proofs2 Kin_proofs5 Kin_proofs6 Kin_props Backends_proofs Tasks_spec Tasks_proofs KinTasks_spec KinTasks_proofs.
Import ListNotations.
Open Scope R_scope.

(** ** A logarithm *)

(** The rotation vector of the quaternion of a rotation. *)
Definition klog (a : mat3) : vec3 :=
  let q := quat_of a in let v := V3 (qx q) (qy q) (qz q) in
  if Req_EM_T (v3_norm v) 0 then v3_zero else v3_scale (2 * acos (qw q) / v3_norm v) v.

Lemma klog_inverts : log3_inverts klog.
Proof.
  intros a Ha. pose proof (quat_of_unit a Ha) as U. rewrite <- (quat_matrix_of a Ha) at 2. unfold klog. cbv zeta. set (q := quat_of a) in *. set (v := V3 (qx q) (qy q) (qz q)).
  unfold unit_quat, quat_dot in U. assert (Dv : v3_dot v v = 1 - qw q * qw q) by (unfold v, v3_dot; cbn; lra).
  destruct (Req_EM_T (v3_norm v) 0) as [Z|Z].
  - apply v3_norm_0 in Z. rewrite Z in Dv. unfold v3_dot in Dv. cbn in Dv. assert (qx q = 0) by exact (f_equal vx Z). assert (qy q = 0) by exact (f_equal vy Z). assert (qz q = 0) by exact (f_equal vz Z).
    unfold exp3. destruct (Req_EM_T (v3_norm v3_zero) 0) as [_|n]; [|exfalso; apply n, v3_norm_0; reflexivity]. unfold quat_matrix, m3_id. cbv zeta. rewrite H, H0, H1. apply M3_ext; cbn; ring.
  - assert (Hv : v <> v3_zero) by (intros E; apply Z; apply v3_norm_0; exact E). pose proof (norm_pos v Hv) as P. set (sn := v3_norm v) in *.
    assert (Sn : sn = sqrt (1 - Rsqr (qw q))) by (unfold sn, v3_norm, Rsqr; now rewrite Dv).
    assert (W : -1 <= qw q <= 1) by (split; nra). set (n := v3_scale (/ sn) v).
    assert (Hn : v3_dot n n = 1) by (pose proof (v3_normalize_unit v Hv) as X; rewrite (normalize_scale v Hv) in X; exact X).
    replace (v3_scale (2 * acos (qw q) / sn) v) with (v3_scale (2 * acos (qw q)) n) by (apply V3_ext; unfold n; cbn; field; lra).
    rewrite (exp3_scale n _ Hn). cbv zeta. rewrite cos_2a, sin_2a, (cos_acos _ W), (sin_acos _ W), <- Sn.
    assert (S2 : qw q * qw q = 1 - sn * sn) by (pose proof (v3_dot_pos v Hv); unfold sn, v3_norm; rewrite sqrt_sqrt; lra).
    assert (Ex : qx q = sn * vx n) by (unfold n, v; cbn; field; lra). assert (Ey : qy q = sn * vy n) by (unfold n, v; cbn; field; lra). assert (Ez : qz q = sn * vz n) by (unfold n, v; cbn; field; lra).
    clearbody n. unfold quat_matrix. cbv zeta. rewrite Ex, Ey, Ez, S2. destruct n as [na nb nc]. unfold v3_dot in Hn. cbn [vx vy vz] in *.
    apply M3_ext; cbn [m00 m01 m02 m10 m11 m12 m20 m21 m22]; try ring.
    + replace (na * na) with (1 - nb * nb - nc * nc) by lra. transitivity (1 - sn * sn - sn * sn + (1 - (1 - sn * sn - sn * sn)) * (na * na)); [ring|]. replace (na * na) with (1 - nb * nb - nc * nc) by lra. ring.
    + transitivity (1 - sn * sn - sn * sn + (1 - (1 - sn * sn - sn * sn)) * (nb * nb)); [ring|]. replace (nb * nb) with (1 - na * na - nc * nc) by lra. ring.
    + transitivity (1 - sn * sn - sn * sn + (1 - (1 - sn * sn - sn * sn)) * (nc * nc)); [ring|]. replace (nc * nc) with (1 - na * na - nb * nb) by lra. ring.
Qed.

(** ** Solvers with one hard task *)

Definition one_task (dt : R) (fbase : bool) (t : ktask) (cons : list kconstraint) : ksolver := with_settings (new_ksolver ex_robot) dt [] fbase false false [t] cons 1 false true.

Lemma one_reachable pn log3 msqrt dt fbase t cons : kreachable pn log3 msqrt 7 (one_task dt fbase t cons).
Proof. apply kr_settings, kr_new. reflexivity. Qed.

Lemma one_solved pn log3 msqrt dt (fbase : bool) t e x : task_update pn log3 msqrt 7 dt ex_robot (kt_kind t) = Ok e -> shaped 7 e -> kt_priority t = PHard ->
  independent_rows 8 (map (fun k (j : nat) => if Nat.ltb j 7 then mat_at (fst e) k j else 0) (seq 0 (mrows (fst e))) ++ (if fbase then map unit_row (seq 0 6) else [])) ->
  follows e x 1 -> (fbase = true -> forall j, (j < 6)%nat -> x j = 0) ->
  sound pn log3 msqrt (one_task dt fbase t []) ex_robot /\
  exists s' delta, ksolve pn log3 msqrt perfect_qr perfect_qp (one_task dt fbase t []) ex_robot false = (s', ex_robot, Ok delta) /\ vlen delta = 7%nat.
Proof.
  intros Hu Hs Hp Hi Hx Hf. set (s := one_task dt fbase t []).
  assert (An : answerable pn log3 msqrt s ex_robot).
  { split; cbn [s one_task with_settings ks_tasks ks_masked ks_masked_fbase ks_joint_limits ks_velocity_limits ks_cons ks_N ks_dt new_ksolver].
    - intros t' [<-|[]]. exists e. split; [split; [now left|exact Hu]|exact Hs].
    - intros t' [<-|[]] H. congruence.
    - intros j [].
    - intros _. cbn. lia.
    - discriminate.
    - discriminate.
    - intros c []. }
  pose proof (answerable_sound _ _ _ _ _ An) as So. split; [exact So|].
  assert (Al : allowed pn log3 msqrt s ex_robot x).
  { split; unfold asks_for; cbn [s one_task with_settings ks_tasks ks_masked ks_masked_fbase ks_joint_limits ks_velocity_limits ks_cons ks_N ks_dt new_ksolver].
    - intros t' e' [[<-|[]] E] _. cbn in E. rewrite Hu in E. injection E as <-. exact Hx.
    - intros t' e' [[<-|[]] E] H. congruence.
    - intros (t' & e' & [[<-|[]] _] & H & _). congruence.
    - intros j [].
    - exact Hf.
    - discriminate.
    - discriminate.
    - intros c cs []. }
  destruct (perfect_ksolve pn log3 msqrt 7 s ex_robot (one_reachable _ _ _ _ _ _ _) An eq_refl ltac:(cbn; lra)) as [(s' & r' & delta & E) _].
  - unfold hard_rows. cbn [s one_task with_settings ks_tasks ks_masked ks_masked_fbase ks_cons flat_map map app]. rewrite !app_nil_r.
    unfold task_rows. rewrite Hp. change (ks_N s) with 7%nat. change (ks_dt s) with dt. rewrite Hu. destruct e as [A b]. exact Hi.
  - exists x. exact Al.
  - exists s', delta. pose proof (C64_no_apply pn log3 msqrt perfect_qr perfect_qp s ex_robot s' r' _ E) as ->. split; [exact E|].
    apply (solved_updates pn log3 msqrt 7 s ex_robot false perfect_qr perfect_qp s' ex_robot delta t (one_reachable _ _ _ _ _ _ _) So E (or_introl eq_refl)).
Qed.

(** The same for a soft task, with any equation. *)
Lemma one_soft_solved pn log3 msqrt dt t e : task_update pn log3 msqrt 7 dt ex_robot (kt_kind t) = Ok e -> shaped 7 e -> kt_priority t = PSoft -> 0 <= kt_weight t ->
  sound pn log3 msqrt (one_task dt true t []) ex_robot /\
  exists s' delta, ksolve pn log3 msqrt perfect_qr perfect_qp (one_task dt true t []) ex_robot false = (s', ex_robot, Ok delta) /\ vlen delta = 7%nat.
Proof.
  intros Hu Hs Hp Hw. set (s := one_task dt true t []).
  assert (An : answerable pn log3 msqrt s ex_robot).
  { split; cbn [s one_task with_settings ks_tasks ks_masked ks_masked_fbase ks_joint_limits ks_velocity_limits ks_cons ks_N ks_dt new_ksolver].
    - intros t' [<-|[]]. exists e. split; [split; [now left|exact Hu]|exact Hs].
    - intros t' [<-|[]] H. exact Hw.
    - intros j [].
    - intros _. cbn. lia.
    - discriminate.
    - discriminate.
    - intros c []. }
  pose proof (answerable_sound _ _ _ _ _ An) as So. split; [exact So|].
  assert (Al : allowed pn log3 msqrt s ex_robot (fun _ => 0)).
  { split; unfold asks_for; cbn [s one_task with_settings ks_tasks ks_masked ks_masked_fbase ks_joint_limits ks_velocity_limits ks_cons ks_N ks_dt new_ksolver].
    - intros t' e' [[<-|[]] E] H. congruence.
    - intros t' e' [[<-|[]] E] H. congruence.
    - intros (t' & e' & [[<-|[]] _] & H & _). congruence.
    - intros j [].
    - reflexivity.
    - discriminate.
    - discriminate.
    - intros c cs []. }
  destruct (perfect_ksolve pn log3 msqrt 7 s ex_robot (one_reachable _ _ _ _ _ _ _) An eq_refl ltac:(cbn; lra)) as [(s' & r' & delta & E) _].
  - unfold hard_rows. cbn [s one_task with_settings ks_tasks ks_masked ks_masked_fbase ks_cons flat_map map app].
    unfold task_rows. rewrite Hp. cbn [app]. intros mu H k Hk. cbn in Hk. specialize (H k ltac:(lia)). cbn in H. do 6 (destruct k as [|k]; [unfold unit_row in H; cbn in H; lra|]). lia.
  - exists (fun _ => 0). exact Al.
  - exists s', delta. pose proof (C64_no_apply pn log3 msqrt perfect_qr perfect_qp s ex_robot s' r' _ E) as ->. split; [exact E|].
    apply (solved_updates pn log3 msqrt 7 s ex_robot false perfect_qr perfect_qp s' ex_robot delta t (one_reachable _ _ _ _ _ _ _) So E (or_introl eq_refl)).
Qed.

(** With a single row, of which the coefficient of the hinge is not 0. *)
Lemma one_row_solved pn log3 msqrt dt t e : task_update pn log3 msqrt 7 dt ex_robot (kt_kind t) = Ok e -> shaped 7 e -> kt_priority t = PHard -> mrows (fst e) = 1%nat -> mat_at (fst e) 0 6 <> 0 ->
  sound pn log3 msqrt (one_task dt true t []) ex_robot /\
  exists s' delta, ksolve pn log3 msqrt perfect_qr perfect_qp (one_task dt true t []) ex_robot false = (s', ex_robot, Ok delta) /\ vlen delta = 7%nat.
Proof.
  intros Hu Hs Hp H1 H6. apply (one_solved pn log3 msqrt dt true t e (fun j => if Nat.eqb j 6 then vat (snd e) 0 / mat_at (fst e) 0 6 else 0) Hu Hs Hp).
  - rewrite H1. intros mu H. cbn [seq map app] in *. assert (X := H 6%nat ltac:(lia)). cbn in X.
    assert (M0 : mu 0%nat = 0). { assert (Y : mu 0%nat * mat_at (fst e) 0 6 = 0) by (unfold unit_row in X; cbn in X; lra). apply Rmult_integral in Y. tauto. }
    intros k Hk. cbn in Hk. destruct k as [|k]; [exact M0|]. specialize (H k ltac:(lia)). cbn in H. rewrite M0 in H. do 6 (destruct k as [|k]; [unfold unit_row in H; cbn in H; lra|]). lia.
  - intros k Hk. rewrite H1 in Hk. replace k with 0%nat by lia. unfold Kin_spec.residual. rewrite (proj1 Hs). rewrite (Rsum_delta 7 6); [cbn; field; exact H6|lia|].
    intros j _ Hj. apply Nat.eqb_neq in Hj. rewrite Hj. ring.
  - intros _ j Hj. destruct (Nat.eqb_spec j 6); [lia|reflexivity].
Qed.

(** ** A robot with an arm *)

(** The frame 0 is the world, the frame 1 is fixed at (2, 0, 0), the frame 2 is at the end of an arm of length 1 that the hinge turns around z; so is the center of mass. *)
Definition arm_at (a : R) : frame := Frame (rot_z a) (V3 (cos a) (sin a) 0).
Definition arm_frame (q : vec) (f : nat) : frame := match f with 0%nat => frame_id | 1%nat => Frame m3_id (V3 2 0 0) | _ => arm_at (vat q 7) end.
Definition arm_jac (q : vec) (f : nat) (k : ref) (i j : nat) : R :=
  if Nat.eqb f 2 && Nat.eqb j 6 then
    match i, k with
    | 5%nat, _ => 1
    | 0%nat, LocalWorldAligned => - sin (vat q 7)
    | 1%nat, LocalWorldAligned => cos (vat q 7)
    | 1%nat, Local => 1
    | _, _ => 0
    end
  else 0.
Definition arm_pin : pin := Pin arm_frame (fun q f k => Mat 6 7 (arm_jac q f k)) (pn_djac ex_pin) (pn_integrate ex_pin3) (pn_difference ex_pin) (pn_neutral ex_pin)
  (fun q => fr_t (arm_at (vat q 7))) (fun q => Mat 3 7 (arm_jac q 2 LocalWorldAligned)) (pn_dcomjac ex_pin)
  (fun _ => Mat 6 7 (fun i j => if Nat.eqb i 5 && Nat.eqb j 6 then 3 else 0)) (pn_crba ex_pin) (pn_gravity ex_pin) (pn_nle ex_pin) 
  (fun q j k => Mat 6 7 (arm_jac q (if Nat.eqb j 0 then 1 else 2)%nat k)) (pn_joint_djac ex_pin).

(** The motion in which the hinge has the velocity of the displacement. *)
Definition arm_path (x : vec) (u : R) : vec := Vec 8 (fun k => if Nat.eqb k 7 then 1 / 2 + u * vat x 6 else vat ex_q k).

Lemma arm_starts x : starts ex_robot (arm_path x).
Proof.
  split; [reflexivity|]. unfold arm_path, ex_robot. cbn [r_state st_q]. unfold ex_q. f_equal. apply FunctionalExtensionality.functional_extensionality. intros k.
  destruct (Nat.eqb_spec k 7) as [->|]; [cbn; lra|reflexivity].
Qed.
Lemma arm_angle x u : vat (arm_path x u) 7 = 1 / 2 + u * vat x 6.
Proof. reflexivity. Qed.
Lemma arm_angle_deriv x u : derivable_pt_lim (fun v => vat (arm_path x v) 7) u (vat x 6).
Proof.
  eapply lim_ext; [intros v; rewrite arm_angle; reflexivity| |apply (derivable_pt_lim_plus (fun _ => 1 / 2) (fun v => v * vat x 6)); [apply lim_const|]].
  2: { apply (deriv_prod (fun v => v) (fun _ => vat x 6) u 1 0); [apply lim_id|apply lim_const]. }
  ring.
Qed.

Lemma arm_row x q f k i : vlen x = 7%nat -> row_of (Mat 6 7 (arm_jac q f k)) i x = arm_jac q f k i 6 * vat x 6 /\ row_of (Mat 3 7 (arm_jac q f k)) i x = arm_jac q f k i 6 * vat x 6.
Proof.
  intros _. unfold row_of. cbn [mcols mat_at]. split; (rewrite (Rsum_delta 7 6); [reflexivity|lia|]; intros j _ Hj; unfold arm_jac; apply Nat.eqb_neq in Hj; rewrite Hj, andb_false_r; ring).
Qed.

Lemma arm_position_deriv x : v3_deriv (fun u => fr_t (arm_at (vat (arm_path x u) 7))) 0 (V3 (- sin (vat (arm_path x 0) 7) * vat x 6) (cos (vat (arm_path x 0) 7) * vat x 6) 0).
Proof.
  split; [|split]; cbn [fr_t arm_at vx vy vz]; [| |apply lim_const].
  - apply (derivable_pt_lim_comp (fun u => vat (arm_path x u) 7) cos 0 (vat x 6) (- sin (vat (arm_path x 0) 7)) (arm_angle_deriv x 0)). apply derivable_pt_lim_cos.
  - apply (derivable_pt_lim_comp (fun u => vat (arm_path x u) 7) sin 0 (vat x 6) (cos (vat (arm_path x 0) 7)) (arm_angle_deriv x 0)). apply derivable_pt_lim_sin.
Qed.
Lemma arm_rotation_deriv x w : w = V3 0 0 (vat x 6) ->
  m3_deriv (fun u => fr_R (arm_at (vat (arm_path x u) 7))) 0 (m3_mul (skew w) (fr_R (arm_at (vat (arm_path x 0) 7)))).
Proof.
  intros ->. pose proof (arm_angle_deriv x 0) as T. set (th := fun u => vat (arm_path x u) 7) in *.
  pose proof (derivable_pt_lim_comp th cos 0 _ _ T (derivable_pt_lim_cos (th 0))) as C. pose proof (derivable_pt_lim_comp th sin 0 _ _ T (derivable_pt_lim_sin (th 0))) as S.
  pose proof (derivable_pt_lim_opp _ _ _ S) as O.
  intros e He. cbn [In] in He. repeat (destruct He as [<-|He]); try destruct He; unfold arm_at, rot_z; cbn [fr_R m00 m01 m02 m10 m11 m12 m20 m21 m22];
    change (vat (arm_path x 0) 7) with (th 0);
    first [solve [eapply lim_ext; [| |exact C]; [intros u; reflexivity|unfold m3_mul, skew; cbn; ring]]
          |solve [eapply lim_ext; [| |exact S]; [intros u; reflexivity|unfold m3_mul, skew; cbn; ring]]
          |solve [eapply lim_ext; [| |exact O]; [intros u; reflexivity|unfold m3_mul, skew; cbn; ring]]
          |eapply lim_ext; [| |apply lim_const]; [intros u; reflexivity|unfold m3_mul, skew; cbn; ring]].
Qed.

Lemma arm_contracts x : vlen x = 7%nat -> (forall f, (f < 3)%nat -> jacobian_of arm_pin ex_model (arm_path x) 0 x f) /\ (forall f, (f < 3)%nat -> turns arm_pin ex_model (arm_path x) x f) /\
  com_moves arm_pin ex_model (arm_path x) x.
Proof.
  intros L.
  assert (Z : forall (T : frame) w, w = v3_zero -> m3_deriv (fun _ : R => fr_R T) 0 (m3_mul (skew w) (fr_R T))).
  { intros T w ->. intros e He. replace (e (m3_mul (skew v3_zero) (fr_R T))) with 0; [apply lim_const|]. cbn [In] in He. repeat (destruct He as [<-|He]); try destruct He; unfold m3_mul, skew; cbn; ring. }
  split; [|split].
  - intros f Hf. split; [reflexivity|]. split; [reflexivity|]. split; [exact L|]. cbn [arm_pin pn_frame pn_jac]. unfold rows3. rewrite !(fun i => proj1 (arm_row x _ f LocalWorldAligned i L)).
    destruct f as [|[|[|f]]]; [| | |lia]; unfold arm_jac; cbn [Nat.eqb andb arm_frame].
    + split; [apply rotation_id|]. split; [split; [|split]; (eapply lim_ext; [intros; reflexivity| |apply lim_const]; cbn; ring)|]. apply Z. apply V3_ext; cbn; ring.
    + split; [apply rotation_id|]. split; [split; [|split]; (eapply lim_ext; [intros; reflexivity| |apply lim_const]; cbn; ring)|]. apply (Z (Frame m3_id (V3 2 0 0))). apply V3_ext; cbn; ring.
    + split; [apply rotation_z|]. split; [rewrite Rmult_0_l; apply arm_position_deriv|]. apply arm_rotation_deriv. apply V3_ext; cbn; ring.
  - intros f Hf. unfold turns. cbv zeta. split; [reflexivity|]. split; [reflexivity|]. split; [exact L|]. cbn [arm_pin pn_frame pn_jac]. unfold rows3. rewrite !(fun i => proj1 (arm_row x _ f World i L)).
    destruct f as [|[|[|f]]]; [| | |lia]; unfold arm_jac; cbn [Nat.eqb andb arm_frame].
    + split; [apply rotation_id|]. apply Z. apply V3_ext; cbn; ring.
    + split; [apply rotation_id|]. apply (Z (Frame m3_id (V3 2 0 0))). apply V3_ext; cbn; ring.
    + split; [apply rotation_z|]. apply arm_rotation_deriv. apply V3_ext; cbn; ring.
  - split; [reflexivity|]. split; [reflexivity|]. split; [exact L|]. cbn [arm_pin pn_com pn_comjac]. unfold rows3. rewrite !(fun i => proj2 (arm_row x _ 2 LocalWorldAligned i L)). unfold arm_jac. cbn [Nat.eqb andb].
    rewrite Rmult_0_l. apply arm_position_deriv.
Qed.
Lemma arm_rigid x f : always_rigid arm_pin (arm_path x) f.
Proof. intros u. unfold rigid. cbn [arm_pin pn_frame]. destruct f as [|[|f]]; [apply rotation_id|apply rotation_id|apply rotation_z]. Qed.
Lemma sin_cos_half : 0 < sin (1 / 2) /\ 0 < cos (1 / 2).
Proof. pose proof PI2_1. split; [apply sin_gt_0; lra|apply cos_gt_0; lra]. Qed.

(** ** A robot with a ball joint *)

(** The frame 2 turns around its center: the entries 3, 4 and 7 of q are its angles around x, y and z. *)
Definition rot_x (a : R) : mat3 := M3 1 0 0 0 (cos a) (- sin a) 0 (sin a) (cos a).
Definition rot_y (a : R) : mat3 := M3 (cos a) 0 (sin a) 0 1 0 (- sin a) 0 (cos a).
Lemma rotation_x a : rotation (rot_x a).
Proof. pose proof (sin2_cos2 a) as H. unfold Rsqr in H. split; [apply M3_ext; unfold m3_mul, m3_t, rot_x, m3_id|unfold m3_det, rot_x]; cbn; lra. Qed.
Lemma rotation_y a : rotation (rot_y a).
Proof. pose proof (sin2_cos2 a) as H. unfold Rsqr in H. split; [apply M3_ext; unfold m3_mul, m3_t, rot_y, m3_id|unfold m3_det, rot_y]; cbn; lra. Qed.
Definition ball_at (q : vec) : frame := Frame (m3_mul (rot_x (vat q 3)) (m3_mul (rot_y (vat q 4)) (rot_z (vat q 7)))) v3_zero.
Definition ball_jac (i j : nat) : R := match i, j with 3%nat, 3%nat => 1 | 4%nat, 4%nat => 1 | 5%nat, 6%nat => 1 | _, _ => 0 end.
Definition ball_pin : pin := Pin (fun q f => if Nat.eqb f 2 then ball_at q else frame_id) (fun q f k => Mat 6 7 ball_jac) (pn_djac ex_pin) (pn_integrate ex_pin3) (pn_difference ex_pin) (pn_neutral ex_pin)
  (pn_com ex_pin) (pn_comjac ex_pin) (pn_dcomjac ex_pin) (pn_centroidal ex_pin) (pn_crba ex_pin) (pn_gravity ex_pin) (pn_nle ex_pin) (pn_joint_jac ex_pin) (pn_joint_djac ex_pin).
Definition ball_path (x : vec) (u : R) : vec :=
  Vec 8 (fun k => if Nat.eqb k 3 then u * vat x 3 else if Nat.eqb k 4 then u * vat x 4 else if Nat.eqb k 7 then 1 / 2 + u * vat x 6 else vat ex_q k).

Lemma ball_starts x : starts ex_robot (ball_path x).
Proof.
  split; [reflexivity|]. unfold ball_path, ex_robot. cbn [r_state st_q]. unfold ex_q. f_equal. apply FunctionalExtensionality.functional_extensionality. intros k.
  do 8 (destruct k as [|k]; [cbn; lra|]). reflexivity.
Qed.
Lemma ball_rigid x : always_rigid ball_pin (ball_path x) 2.
Proof. intros u. unfold rigid. cbn. apply rotation_mul; [apply rotation_x|]. apply rotation_mul; [apply rotation_y|apply rotation_z]. Qed.
Lemma ball_turns x : vlen x = 7%nat -> turns ball_pin ex_model (ball_path x) x 2.
Proof.
  intros L. split; [reflexivity|]. split; [reflexivity|]. split; [exact L|]. split; [apply ball_rigid|]. cbn [ball_pin pn_frame pn_jac Nat.eqb].
  assert (W : rows3 (Mat 6 7 ball_jac) 3 x = V3 (vat x 3) (vat x 4) (vat x 6)) by (unfold rows3, row_of; cbn; f_equal; ring). rewrite W.
  assert (A : derivable_pt_lim (fun u => u * vat x 3) 0 (vat x 3)) by (eapply lim_ext; [intros; reflexivity| |apply (deriv_prod (fun v => v) (fun _ => vat x 3) 0 1 0); [apply lim_id|apply lim_const]]; ring).
  assert (B : derivable_pt_lim (fun u => u * vat x 4) 0 (vat x 4)) by (eapply lim_ext; [intros; reflexivity| |apply (deriv_prod (fun v => v) (fun _ => vat x 4) 0 1 0); [apply lim_id|apply lim_const]]; ring).
  pose proof (arm_angle_deriv x 0) as C. cbn [arm_path vat Nat.eqb] in C.
  pose proof (derivable_pt_lim_comp _ cos 0 _ _ A (derivable_pt_lim_cos _)) as CA. pose proof (derivable_pt_lim_comp _ sin 0 _ _ A (derivable_pt_lim_sin _)) as SA.
  pose proof (derivable_pt_lim_comp _ cos 0 _ _ B (derivable_pt_lim_cos _)) as CB. pose proof (derivable_pt_lim_comp _ sin 0 _ _ B (derivable_pt_lim_sin _)) as SB.
  pose proof (derivable_pt_lim_comp _ cos 0 _ _ C (derivable_pt_lim_cos _)) as CC. pose proof (derivable_pt_lim_comp _ sin 0 _ _ C (derivable_pt_lim_sin _)) as SC. unfold comp in *.
  assert (N : forall (g : R -> R) d, derivable_pt_lim g 0 d -> derivable_pt_lim (fun u => - g u) 0 (- d)) by (intros g d Hg; exact (derivable_pt_lim_opp g 0 d Hg)).
  assert (K : forall c, derivable_pt_lim (fun _ => c) 0 0) by (intros c; apply lim_const).
  assert (S3 : forall f1 f2 f3 g1 g2 g3 a1 a2 a3 b1 b2 b3, derivable_pt_lim f1 0 a1 -> derivable_pt_lim f2 0 a2 -> derivable_pt_lim f3 0 a3 -> derivable_pt_lim g1 0 b1 -> derivable_pt_lim g2 0 b2 -> derivable_pt_lim g3 0 b3 ->
    derivable_pt_lim (fun u => f1 u * g1 u + f2 u * g2 u + f3 u * g3 u) 0 (a1 * g1 0 + f1 0 * b1 + (a2 * g2 0 + f2 0 * b2) + (a3 * g3 0 + f3 0 * b3))).
  { intros. apply (deriv_plus (fun u => f1 u * g1 u + f2 u * g2 u) (fun u => f3 u * g3 u)); [apply (deriv_plus (fun u => f1 u * g1 u) (fun u => f2 u * g2 u)); apply deriv_prod; assumption|apply deriv_prod; assumption]. }
  intros e He. cbn [In] in He. unfold ball_at, m3_mul, rot_x, rot_y, rot_z, ball_path. cbn [fr_R vat Nat.eqb m00 m01 m02 m10 m11 m12 m20 m21 m22].
  repeat (destruct He as [<-|He]); try destruct He; cbn [m00 m01 m02 m10 m11 m12 m20 m21 m22];
    (eapply lim_ext; [intros u; reflexivity| |
      apply S3; first [apply K|exact CA|exact SA|apply N; exact SA|
        apply S3; first [apply K|exact CB|exact SB|apply N; exact SB|exact CC|exact SC|apply N; exact SC]]]);
    cbv beta; rewrite !Rmult_0_l, ?Rplus_0_r, cos_0, sin_0; unfold skew; cbn; ring.
Qed.

(** ** Solvers with one hard constraint *)

Definition one_constraint (dt : R) (c : kconstraint) : ksolver := with_settings (new_ksolver ex_robot) dt [] true false false [] [c] 1 false true.
Lemma one_constraint_reachable pn log3 msqrt dt c : kreachable pn log3 msqrt 7 (one_constraint dt c).
Proof. apply kr_settings, kr_new. reflexivity. Qed.

(** A constraint that holds when the robot does not move. *)
Lemma one_constraint_solved pn log3 msqrt dt c c' : constraint_add pn 7 dt ex_robot c = Ok [c'] -> c_type c' = Inequality -> (0 < rows (c_expr c'))%nat -> vlen (eb (c_expr c')) = rows (c_expr c') ->
  (cols (c_expr c') <= 7)%nat -> (c_prio c' = Soft -> 0 < c_weight c') -> (forall i, (i < rows (c_expr c'))%nat -> 0 <= vat (eb (c_expr c')) i) ->
  sound pn log3 msqrt (one_constraint dt c) ex_robot /\
  exists s' delta, ksolve pn log3 msqrt perfect_qr perfect_qp (one_constraint dt c) ex_robot false = (s', ex_robot, Ok delta) /\ vlen delta = 7%nat.
Proof.
  intros Ha Ht Hr Hb Hc Hw H0. set (s := one_constraint dt c).
  assert (An : answerable pn log3 msqrt s ex_robot).
  { split; cbn [s one_constraint with_settings ks_tasks ks_masked ks_masked_fbase ks_joint_limits ks_velocity_limits ks_cons ks_N ks_dt new_ksolver].
    - intros t' [].
    - intros t' [].
    - intros j [].
    - intros _. cbn. lia.
    - discriminate.
    - discriminate.
    - intros c0 [<-|[]]. exists [c']. split; [exact Ha|]. intros c1 [<-|[]]. auto. }
  pose proof (answerable_sound _ _ _ _ _ An) as So. split; [exact So|].
  assert (Al : allowed pn log3 msqrt s ex_robot (fun _ => 0)).
  { split; unfold asks_for; cbn [s one_constraint with_settings ks_tasks ks_masked ks_masked_fbase ks_joint_limits ks_velocity_limits ks_cons ks_N ks_dt new_ksolver].
    - intros t' e' [[] _].
    - intros t' e' [[] _].
    - intros (t' & e' & [[] _] & _).
    - reflexivity.
    - reflexivity.
    - discriminate.
    - discriminate.
    - intros c0 cs [<-|[]] E. change (m_nv (r_model ex_robot)) with 7%nat in E. rewrite Ha in E. injection E as <-. intros c1 [<-|[]] _ i Hi. rewrite Ht. unfold row.
      rewrite (Rsum_zero_ext (cols (c_expr c'))) by (intros j _; ring). rewrite Rplus_0_l. apply H0. exact Hi. }
  destruct (perfect_ksolve pn log3 msqrt 7 s ex_robot (one_constraint_reachable _ _ _ _ _) An eq_refl ltac:(cbn; lra)) as [(s' & r' & delta & E) _].
  - unfold hard_rows. cbn [s one_constraint with_settings ks_tasks ks_masked ks_masked_fbase ks_cons flat_map map app]. unfold constraint_rows. change (ks_N s) with 7%nat. change (ks_dt s) with dt. rewrite Ha. cbn [flat_map].
    assert (E0 : equality_rows c' = []) by (unfold equality_rows; rewrite Ht; destruct (c_prio c'); reflexivity). rewrite E0. cbn [app].
    intros mu H k Hk. cbn in Hk. specialize (H k ltac:(lia)). cbn in H. do 6 (destruct k as [|k]; [unfold unit_row in H; cbn in H; lra|]). lia.
  - exists (fun _ => 0). exact Al.
  - exists s', delta. pose proof (C64_no_apply pn log3 msqrt perfect_qr perfect_qp s ex_robot s' r' _ E) as ->. split; [exact E|].
    destruct (ksolve_solved pn log3 msqrt 7 s ex_robot false perfect_qr perfect_qp s' ex_robot delta (reachable_knows pn log3 msqrt 7 s (one_constraint_reachable pn log3 msqrt dt c))) as (s2 & pb' & S); [intros t e He; apply (proj1 So t e He)|exact E|].
    apply (so_delta _ _ _ _ _ _ _ _ _ _ _ _ _ _ S).
Qed.
