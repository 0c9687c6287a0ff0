From Coq Require Import Reals List ZArith Bool String Lra Lia.
From Verif Require Import Base Linalg Angle Geom3 Tools_model Geometry_model Geometry_proofs Expression_model Problem_model Problem_spec Problem_props Polynom_model Polynom_spec Robot_model
  Robot_spec Robot_proofs Robot_props KinTasks_model Kin_model Kin_spec Kin_proofs Kin_proofs2 Kin_proofs5 Kin_proofs6 Kin_props DynTasks_model DynTasks_proofs Tasks_spec Tasks_proofs
  KinTasks_spec KinTasks_proofs Backends_proofs KinTasks_example KinCons_spec KinCons_proofs KinReg_spec KinReg_proofs KinAngle_spec KinAngle_proofs.
Import ListNotations.
Open Scope R_scope.

(** ** C135 The yaw constraint *)

Lemma hard_gap pn log3 msqrt N s r apply qr qp s' r' delta k w c' g n : kreachable pn log3 msqrt N s -> sound pn log3 msqrt s r ->
  qr_correct qr -> qp_correct qp -> ksolve pn log3 msqrt qr qp s r apply = (s', r', Ok delta) -> In (KConstraint k PHard w) (ks_cons s) ->
  constraint_add pn N (ks_dt s) r (KConstraint k PHard w) = Ok [configure_prio c' Hard w] -> made c' Inequality Hard 1 n N g -> forall i, (i < n)%nat -> 0 <= g (vat delta) i.
Proof.
  intros Rh So Hqr Hqp E Hc Ec M i Hi. refine (hard_rows_hold pn log3 msqrt N s r apply qr qp s' r' delta _ _ (configure_prio c' Hard w) g n Rh So Hqr Hqp E Hc Ec (or_introl eq_refl) _ i Hi).
  eapply made_configure; exact M.
Qed.

(** What the constraint asks for: the yaw after the displacement is predicted with its derivative times the level part of the x axis. *)
Theorem C135_behaviour pn log3 msqrt N s r apply qr qp s' r' delta a b max w q : kreachable pn log3 msqrt N s -> sound pn log3 msqrt s r ->
  qr_correct qr -> qp_correct qp -> ksolve pn log3 msqrt qr qp s r apply = (s', r', Ok delta) -> In (KConstraint (KYaw a b max) PHard w) (ks_cons s) ->
  m_nv (r_model r) = N -> starts r q -> turns_local pn (r_model r) q delta a -> turns_local pn (r_model r) q delta b ->
  let A := fun u => pn_frame pn (q u) a in let B := fun u => pn_frame pn (q u) b in has_yaw (A 0) (B 0) ->
  exists d, derivable_pt_lim (fun u => yaw_of (A u) (B u)) 0 d /\ Rabs (yaw_of (A 0) (B 0) + level_part (A 0) (B 0) * d) <= max.
Proof.
  intros Rh So Hqr Hqp E Hc HN Hq Ta Tb A B Hy. destruct (solved_constraints pn log3 msqrt N s r apply qr qp s' r' delta _ Rh So E Hc) as (L & cs & Ec). assert (Ec' := Ec).
  unfold constraint_add in Ec. cbn [kc_kind kc_priority to_priority kc_weight] in Ec. bind Ec c' Ey. injection Ec as <-.
  destruct (yaw_made pn N r a b max c' q delta (eq_sym HN) Hq Ta Tb Hy Ey) as (g & d & M & D & G0 & G1). exists d. split; [exact D|].
  pose proof (hard_gap _ _ _ _ _ _ _ _ _ _ _ _ _ _ _ _ _ Rh So Hqr Hqp E Hc Ec' M) as H. pose proof (H 0%nat ltac:(lia)) as H0. pose proof (H 1%nat ltac:(lia)) as H1. rewrite G0 in H0. rewrite G1 in H1.
  apply Rabs_le. unfold A, B. lra.
Qed.
Print Assumptions C135_behaviour.

(** The yaw stays within the limit at the first order when the x axis of b is in the plane (x, y) of a. Missing: the other cases, where this is not true (C135_refuted). *)
Theorem C135_level_partial pn log3 msqrt N s r apply qr qp s' r' delta a b max w q : kreachable pn log3 msqrt N s -> sound pn log3 msqrt s r ->
  qr_correct qr -> qp_correct qp -> ksolve pn log3 msqrt qr qp s r apply = (s', r', Ok delta) -> In (KConstraint (KYaw a b max) PHard w) (ks_cons s) ->
  m_nv (r_model r) = N -> starts r q -> turns_local pn (r_model r) q delta a -> turns_local pn (r_model r) q delta b ->
  let A := fun u => pn_frame pn (q u) a in let B := fun u => pn_frame pn (q u) b in has_yaw (A 0) (B 0) -> v3_dot (frame_axis (fr_R (B 0)) 0) (z_axis (A 0)) = 0 ->
  exists d, derivable_pt_lim (fun u => yaw_of (A u) (B u)) 0 d /\ Rabs (yaw_of (A 0) (B 0) + d) <= max.
Proof.
  intros Rh So Hqr Hqp E Hc HN Hq Ta Tb A B Hy Hl. destruct (C135_behaviour pn log3 msqrt N s r apply qr qp s' r' delta a b max w q Rh So Hqr Hqp E Hc HN Hq Ta Tb Hy) as (d & D & H). exists d. split; [exact D|].
  replace (level_part _ _) with 1 in H; [fold A B in H; now rewrite Rmult_1_l in H|]. destruct Ta as (_ & _ & _ & RA & _). destruct Tb as (_ & _ & _ & RB & _).
  change (1 = level_part (A 0) (B 0)). unfold level_part. set (h := heading (A 0) (B 0)). assert (Vz : vz h = 0).
  { rewrite <- Hl. unfold h, heading, m3_vec, m3_t, v3_dot, z_axis. cbn. ring. }
  assert (Dh : v3_dot h h = 1).
  { unfold h, heading. rewrite (orthogonal_dot _ _ _ (orthogonal_t _ (proj1 (RA 0)))). pose proof (f_equal m00 (rotation_l _ (RB 0))) as O. unfold m3_mul, m3_t, m3_id in O. cbn [m00] in O. unfold v3_dot, frame_axis. cbn [vx vy vz]. exact O. }
  unfold v3_dot in Dh. rewrite Vz in Dh. symmetry. rewrite <- sqrt_1. f_equal. lra.
Qed.
Print Assumptions C135_level_partial.

(** A soft yaw constraint. *)
Theorem C135_soft pn log3 msqrt N s r apply qr qp s' r' delta c (x : vec) a b max q : kreachable pn log3 msqrt N s -> sound pn log3 msqrt s r ->
  ksolve pn log3 msqrt qr qp s r apply = (s', r', Ok delta) -> In c (ks_cons s) -> kc_kind c = KYaw a b max -> kc_priority c <> PHard ->
  m_nv (r_model r) = N -> starts r q -> turns_local pn (r_model r) q x a -> turns_local pn (r_model r) q x b ->
  let A := fun u => pn_frame pn (q u) a in let B := fun u => pn_frame pn (q u) b in has_yaw (A 0) (B 0) ->
  exists d, derivable_pt_lim (fun u => yaw_of (A u) (B u)) 0 d /\ let y := yaw_of (A 0) (B 0) + level_part (A 0) (B 0) * d in
    constraint_penalty pn s r c (vat x) = kc_weight c / 2 * (Rsqr (Rmin 0 (max - y)) + Rsqr (Rmin 0 (max + y))).
Proof.
  intros Rh So E Hc Hk Hp HN Hq Ta Tb A B Hy. destruct (solved_constraints pn log3 msqrt N s r apply qr qp s' r' delta c Rh So E Hc) as (L & cs & Ec). assert (Ec' := Ec).
  unfold constraint_add in Ec. rewrite Hk in Ec. bind Ec c' Ey. injection Ec as <-. assert (P : to_priority (kc_priority c) = Soft) by (destruct (kc_priority c); [congruence|reflexivity|reflexivity]). rewrite P in Ec'.
  destruct (yaw_made pn N r a b max c' q x (eq_sym HN) Hq Ta Tb Hy Ey) as (g & d & M & D & G0 & G1). exists d. split; [exact D|]. cbv zeta.
  unfold constraint_penalty. rewrite (proj1 (reachable_knows _ _ _ _ _ Rh)), Ec'. cbn [soft_cost]. assert (M' : made (configure_prio c' Soft (kc_weight c)) Inequality Soft (kc_weight c) 2 N g) by (eapply made_configure; exact M).
  rewrite (made_penalty_ineq _ _ _ _ _ (vat x) M'), Rplus_0_r. f_equal. cbn [Rsum]. rewrite G0, G1. unfold A, B. ring.
Qed.
Print Assumptions C135_soft.

(** ** C136 The cone constraint *)

(** What the constraint asks for: in each slice, the angle of the axis in the slice plus the angular velocity around the normal of the slice is at most the maximum. *)
Theorem C136_behaviour pn log3 msqrt N s r apply qr qp s' r' delta a b max n range w q : kreachable pn log3 msqrt N s -> sound pn log3 msqrt s r ->
  qr_correct qr -> qp_correct qp -> ksolve pn log3 msqrt qr qp s r apply = (s', r', Ok delta) -> In (KConstraint (KCone a b max n range) PHard w) (ks_cons s) ->
  m_nv (r_model r) = N -> starts r q -> turns_local pn (r_model r) q delta a -> turns_local pn (r_model r) q delta b ->
  let A := fun u => pn_frame pn (q u) a in let B := fun u => pn_frame pn (q u) b in
  exists v, relative_spin A B v /\ forall k, (k < n)%nat -> let f := azimuth (A 0) (B 0) range n k in let p := pole (A 0) (B 0) in
    atan2 (cos f * vx p + sin f * vy p) (vz p) + (cos f * vy v - sin f * vx v) <= max.
Proof.
  intros Rh So Hqr Hqp E Hc HN Hq Ta Tb A B. destruct (solved_constraints pn log3 msqrt N s r apply qr qp s' r' delta _ Rh So E Hc) as (L & cs & Ec). assert (Ec' := Ec).
  unfold constraint_add in Ec. cbn [kc_kind kc_priority to_priority kc_weight] in Ec. bind Ec c' Ey. injection Ec as <-.
  destruct (cone_made pn N r a b max n range c' q delta (eq_sym HN) Hq Ta Tb Ey) as (g & v & M & HR & D & G). exists v. split; [exact D|]. intros k Hk f p.
  pose proof (hard_gap _ _ _ _ _ _ _ _ _ _ _ _ _ _ _ _ _ Rh So Hqr Hqp E Hc Ec' M k Hk) as H. rewrite (G k Hk) in H.
  assert (Ep : frame_axis (m3_mul (m3_t (fr_R (pn_frame pn (q 0) a))) (fr_R (pn_frame pn (q 0) b))) 2 = p) by (unfold p, pole, A, B; apply V3_ext; unfold frame_axis, m3_vec, m3_mul, z_axis; cbn; ring). rewrite Ep in H.
  unfold cone_slice in H. cbn [fst snd] in H. replace (atan2 (vy p) (vx p) + INR k * 2 * range / INR n - range) with f in H by (unfold f, azimuth; fold p; unfold Rdiv; ring).
  unfold rot_z, v3_dot in H. cbn [m3_vec m3_t m00 m01 m02 m10 m11 m12 m20 m21 m22 vx vy vz] in H.
  replace (0 * vx p + 0 * vy p + 1 * vz p) with (vz p) in H by ring. replace (cos f * vx p + sin f * vy p + 0 * vz p) with (cos f * vx p + sin f * vy p) in H by ring. lra.
Qed.
Print Assumptions C136_behaviour.

(** The angle between the axes z stays below the maximum at the first order, with an even number of slices and when the axes are not parallel.
    Missing: the other cases, where this is not true (C136_odd_refuted, C136_aligned_refuted). *)
Theorem C136_partial pn log3 msqrt N s r apply qr qp s' r' delta a b max h range w q : kreachable pn log3 msqrt N s -> sound pn log3 msqrt s r ->
  qr_correct qr -> qp_correct qp -> ksolve pn log3 msqrt qr qp s r apply = (s', r', Ok delta) -> In (KConstraint (KCone a b max (2 * h) range) PHard w) (ks_cons s) ->
  m_nv (r_model r) = N -> starts r q -> turns_local pn (r_model r) q delta a -> turns_local pn (r_model r) q delta b -> (0 < h)%nat ->
  let A := fun u => pn_frame pn (q u) a in let B := fun u => pn_frame pn (q u) b in v3_cross (z_axis (A 0)) (z_axis (B 0)) <> v3_zero ->
  exists d, derivable_pt_lim (fun u => tilt_of (A u) (B u)) 0 d /\ tilt_of (A 0) (B 0) + d <= max.
Proof.
  intros Rh So Hqr Hqp E Hc HN Hq Ta Tb Hh A B Hx. destruct (solved_constraints pn log3 msqrt N s r apply qr qp s' r' delta _ Rh So E Hc) as (L & cs & Ec). assert (Ec' := Ec).
  unfold constraint_add in Ec. cbn [kc_kind kc_priority to_priority kc_weight] in Ec. bind Ec c' Ey. injection Ec as <-.
  destruct (cone_central pn N r a b max h range c' q delta (eq_sym HN) Hq Ta Tb Hh Hx Ey) as (g & d & M & D & G). exists d. split; [exact D|].
  pose proof (hard_gap _ _ _ _ _ _ _ _ _ _ _ _ _ _ _ _ _ Rh So Hqr Hqp E Hc Ec' M h ltac:(lia)) as H. rewrite G in H. unfold A, B. lra.
Qed.
Print Assumptions C136_partial.

(** *** The robots of the examples: the hinge turns the frame 2 *)

Definition mount_pin (M : R -> mat3) (w : vec3) : pin := Pin (fun q f => if Nat.eqb f 2 then Frame (M (vat q 7 - 1 / 2)) v3_zero else frame_id)
  (fun q f k => Mat 6 7 (fun i j => if Nat.eqb f 2 && Nat.eqb j 6 && Nat.leb 3 i then coord w (i - 3) else 0)) (pn_djac ex_pin) (pn_integrate ex_pin3) (pn_difference ex_pin) (pn_neutral ex_pin)
  (pn_com ex_pin) (pn_comjac ex_pin) (pn_dcomjac ex_pin) (pn_centroidal ex_pin) (pn_crba ex_pin) (pn_gravity ex_pin) (pn_nle ex_pin) (pn_joint_jac ex_pin) (pn_joint_djac ex_pin).
(** [w] is the angular velocity of [M], in its axes. *)
Definition hinged (M : R -> mat3) (w : vec3) : Prop := (forall a, rotation (M a)) /\ forall d, m3_deriv (fun u => M (u * d)) 0 (m3_mul (skew (m3_vec (M 0) (v3_scale d w))) (M 0)).

Lemma mount_turns M w x f : hinged M w -> vlen x = 7%nat -> (f < 3)%nat -> turns_local (mount_pin M w) ex_model (arm_path x) x f.
Proof.
  intros [HM HD] L Hf. split; [reflexivity|]. split; [reflexivity|]. split; [exact L|]. split.
  { intros u. unfold rigid. cbn [mount_pin pn_frame]. destruct (Nat.eqb f 2); [apply HM|apply rotation_id]. }
  unfold spins. cbn [mount_pin pn_frame pn_jac]. destruct (Nat.eqb_spec f 2) as [->|Hn]; cbn [fr_R].
  - assert (E : rows3 (Mat 6 7 (fun i j => if true && Nat.eqb j 6 && Nat.leb 3 i then coord w (i - 3) else 0)) 3 x = v3_scale (vat x 6) w).
    { unfold rows3, row_of. cbn [mcols mat_at Rsum andb Nat.eqb Nat.leb Nat.add Nat.sub coord]. apply V3_ext; cbn; ring. }
    rewrite E. assert (E0 : vat (arm_path x 0) 7 - 1 / 2 = 0) by (cbn; lra). rewrite E0. intros e He. eapply lim_ext; [| |exact (HD (vat x 6) e He)]; [|reflexivity].
    intros u. cbn [arm_path vat Nat.eqb]. do 2 f_equal. lra.
  - assert (E : rows3 (Mat 6 7 (fun i j : nat => if false && Nat.eqb j 6 && Nat.leb 3 i then coord w (i - 3) else 0)) 3 x = v3_zero).
    { unfold rows3, row_of. cbn [mcols mat_at Rsum andb Nat.eqb Nat.leb Nat.add Nat.sub coord]. apply V3_ext; cbn; ring. }
    rewrite E. intros e He. cbn [In] in He. repeat (destruct He as [<-|He]); try destruct He; (eapply lim_ext; [intros u; reflexivity| |apply lim_const]; unfold m3_mul, skew, m3_vec, v3_zero, frame_id, m3_id; cbn; ring).
Qed.

(** A solver with a hard task that moves the hinge by [d], and a hard constraint that is satisfied by this displacement. *)
Definition push (d : R) (k : constraint_kind) : ksolver := one_task 1 true (KTask (KJoints [("head"%string, 1 / 2 + d)]) PHard 1) [KConstraint k PHard 1].
Definition pushed (d : R) : vec := Vec 7 (fun j => if Nat.eqb j 6 then d else 0).

Lemma push_solved pn d k c n g : constraint_add pn 7 1 ex_robot (KConstraint k PHard 1) = Ok [configure_prio c Hard 1] -> made c Inequality Hard 1 n 7 g -> (0 < n)%nat ->
  (forall i, (i < n)%nat -> 0 <= g (vat (pushed d)) i) ->
  kreachable pn klog ex_sqrt 7 (push d k) /\ sound pn klog ex_sqrt (push d k) ex_robot /\
  exists s' delta, ksolve pn klog ex_sqrt perfect_qr perfect_qp (push d k) ex_robot false = (s', ex_robot, Ok delta) /\ vlen delta = 7%nat /\ vat delta 6 = d.
Proof.
  intros Ha Mc Hn H0. set (t := KTask (KJoints [("head"%string, 1 / 2 + d)]) PHard 1). set (s := push d k). assert (Rs : kreachable pn klog ex_sqrt 7 s) by apply one_reachable. split; [exact Rs|].
  assert (Hu : task_update pn klog ex_sqrt 7 1 ex_robot (kt_kind t) = Ok (Mat 1 7 (fun k j => if Nat.eqb j (fst (nth k [(6%nat, 1 / 2 + d - 1 / 2)] (0%nat, 0))) then 1 else 0), Vec 1 (fun k => snd (nth k [(6%nat, 1 / 2 + d - 1 / 2)] (0%nat, 0))))) by reflexivity.
  set (e := (Mat 1 7 _, Vec 1 _)) in Hu.
  assert (M' : made (configure_prio c Hard 1) Inequality Hard 1 n 7 g) by (eapply made_configure; exact Mc). pose proof M' as (M1 & M2 & M3 & M4 & M5 & M6 & M7).
  assert (An : answerable pn klog ex_sqrt s ex_robot).
  { split; cbn [s push one_task with_settings ks_tasks ks_masked ks_masked_fbase ks_joint_limits ks_velocity_limits ks_cons ks_N ks_dt new_ksolver].
    - intros t' [<-|[]]. exists e. split; [split; [now left|exact Hu]|split; reflexivity].
    - intros t' [<-|[]] H. discriminate.
    - intros j [].
    - intros _. cbn. lia.
    - discriminate.
    - discriminate.
    - intros c0 [<-|[]]. exists [configure_prio c Hard 1]. split; [exact Ha|]. intros c1 [<-|[]]. split; [rewrite M4; exact Hn|]. split; [congruence|]. split; [rewrite M6; cbn; lia|]. rewrite M2. discriminate. }
  pose proof (answerable_sound _ _ _ _ _ An) as So. split; [exact So|].
  assert (Al : allowed pn klog ex_sqrt s ex_robot (vat (pushed d))).
  { split; unfold asks_for; cbn [s push one_task with_settings ks_tasks ks_masked ks_masked_fbase ks_joint_limits ks_velocity_limits ks_cons ks_N ks_dt new_ksolver].
    - intros t' e' [[<-|[]] E] _. cbn [ks_N ks_dt with_settings new_ksolver] in E. change (m_nv (r_model ex_robot)) with 7%nat in E. unfold t in Hu. rewrite Hu in E. injection E as <-. intros i Hi. cbn in Hi. replace i with 0%nat by lia. unfold Kin_spec.residual. cbn. ring.
    - intros t' e' [[<-|[]] E] H. discriminate.
    - intros (t' & e' & [[<-|[]] _] & H & _). discriminate.
    - intros j [].
    - intros _ j Hj. cbn. destruct (Nat.eqb_spec j 6); [lia|reflexivity].
    - discriminate.
    - discriminate.
    - intros c0 cs [<-|[]] E. change (m_nv (r_model ex_robot)) with 7%nat in E. rewrite Ha in E. injection E as <-. intros c1 [<-|[]] _ i Hi. rewrite M1, M7 by (rewrite <- M4; exact Hi). apply H0. rewrite <- M4. exact Hi. }
  destruct (perfect_ksolve pn klog ex_sqrt 7 s ex_robot Rs An eq_refl ltac:(cbn; lra)) as [(s' & r' & delta & E) _].
  - unfold hard_rows. cbn [s push one_task with_settings ks_tasks ks_masked ks_masked_fbase ks_cons flat_map map app]. unfold constraint_rows, task_rows. change (ks_N s) with 7%nat. change (ks_dt s) with 1. cbn [kt_priority]. fold t. rewrite Hu, Ha. cbn [flat_map].
    assert (E0 : equality_rows (configure_prio c Hard 1) = []) by (unfold equality_rows; rewrite M1; destruct (c_prio _); reflexivity). rewrite E0. cbn [app fst mrows e seq map].
    intros mu H. assert (X := H 6%nat ltac:(lia)). cbn in X.
    assert (M0 : mu 0%nat = 0) by (unfold unit_row in X; cbn in X; lra).
    intros l Hl. cbn in Hl. destruct l as [|l]; [exact M0|]. specialize (H l ltac:(lia)). cbn in H. rewrite M0 in H. do 6 (destruct l as [|l]; [unfold unit_row in H; cbn in H; lra|]). lia.
  - exists (vat (pushed d)). exact Al.
  - exists s', delta. pose proof (C64_no_apply pn klog ex_sqrt perfect_qr perfect_qp s ex_robot s' r' _ E) as ->. split; [exact E|].
    destruct (imposed_rows pn klog ex_sqrt 7 s ex_robot false perfect_qr perfect_qp s' ex_robot delta t 1 Rs So perfect_qr_correct perfect_qp_correct E (or_introl eq_refl) (or_introl (conj eq_refl eq_refl))) as (e' & Hu' & C & Ld & H).
    split; [exact Ld|]. change (ks_dt s) with 1 in Hu'. change (task_update pn klog ex_sqrt 7 1 ex_robot (kt_kind t) = Ok e') in Hu'. rewrite Hu in Hu'. injection Hu' as <-. specialize (H 0%nat ltac:(cbn; lia)). cbn in H. lra.
Qed.

Lemma m3_deriv_mul_r (A : R -> mat3) t D B : m3_deriv A t D -> m3_deriv (fun u => m3_mul (A u) B) t (m3_mul D B).
Proof.
  intros HA. entry HA m00. entry HA m01. entry HA m02. entry HA m10. entry HA m11. entry HA m12. entry HA m20. entry HA m21. entry HA m22. clear HA.
  intros e He. cbn [In] in He. repeat (destruct He as [<-|He]); try destruct He;
    (eapply lim_ext; [intros u; unfold m3_mul; cbn [m00 m01 m02 m10 m11 m12 m20 m21 m22]; reflexivity| |
      cbn [m3_mul m00 m01 m02 m10 m11 m12 m20 m21 m22]; eapply (deriv_dot _ _ _ (fun _ => _) (fun _ => _) (fun _ => _)); try eassumption; apply lim_const]);
    unfold m3_mul; cbn; ring.
Qed.
Lemma lim_trig d : derivable_pt_lim (fun u => cos (u * d)) 0 0 /\ derivable_pt_lim (fun u => sin (u * d)) 0 d /\ derivable_pt_lim (fun u => - sin (u * d)) 0 (- d).
Proof.
  assert (L : derivable_pt_lim (fun u => u * d) 0 d) by (eapply lim_ext; [intros u; reflexivity| |apply (deriv_prod (fun v => v) (fun _ => d) 0 1 0); [apply lim_id|apply lim_const]]; ring).
  pose proof (derivable_pt_lim_comp _ cos 0 _ _ L (derivable_pt_lim_cos _)) as C. pose proof (derivable_pt_lim_comp _ sin 0 _ _ L (derivable_pt_lim_sin _)) as S. cbv beta in C, S. rewrite Rmult_0_l in C, S. rewrite sin_0 in C. rewrite cos_0 in S.
  assert (S' : derivable_pt_lim (fun u => sin (u * d)) 0 d) by (eapply lim_ext; [intros u; reflexivity| |exact S]; ring).
  split; [eapply lim_ext; [intros u; reflexivity| |exact C]; ring|]. split; [exact S'|exact (derivable_pt_lim_opp _ _ _ S')].
Qed.
Lemma rot_z_deriv d : m3_deriv (fun u => rot_z (u * d)) 0 (skew (V3 0 0 d)).
Proof.
  destruct (lim_trig d) as (C & S & O). intros e He. cbn [In] in He. unfold rot_z, skew. repeat (destruct He as [<-|He]); try destruct He; cbn [m00 m01 m02 m10 m11 m12 m20 m21 m22 vx vy vz]; rewrite ?Ropp_0;
    first [exact C|exact S|exact O|apply lim_const].
Qed.
Lemma rot_y_deriv d : m3_deriv (fun u => rot_y (u * d)) 0 (skew (V3 0 d 0)).
Proof.
  destruct (lim_trig d) as (C & S & O). intros e He. cbn [In] in He. unfold rot_y, skew. repeat (destruct He as [<-|He]); try destruct He; cbn [m00 m01 m02 m10 m11 m12 m20 m21 m22 vx vy vz]; rewrite ?Ropp_0;
    first [exact C|exact S|exact O|apply lim_const].
Qed.

(** The frame 2 turns around z, with its x axis and its z axis at a constant elevation, of cosine [c] and sine [s]. *)
Definition slope (c s : R) : mat3 := M3 c 0 s 0 1 0 (- s) 0 c.
Definition sloped (c s a : R) : mat3 := m3_mul (rot_z a) (slope c s).
Definition slope_pin (c s : R) : pin := mount_pin (sloped c s) (V3 (- s) 0 c).
Lemma slope_rotation c s : c * c + s * s = 1 -> rotation (slope c s).
Proof. intros H. split; [apply M3_ext; unfold m3_mul, m3_t, slope, m3_id; cbn; lra|unfold m3_det, slope; cbn; lra]. Qed.
Lemma sloped_0 c s : sloped c s 0 = slope c s.
Proof. unfold sloped. replace (rot_z 0) with m3_id; [apply m3_mul_id_l|]. unfold rot_z. rewrite cos_0, sin_0. apply M3_ext; cbn; ring. Qed.
Lemma sloped_hinged c s : c * c + s * s = 1 -> hinged (sloped c s) (V3 (- s) 0 c).
Proof.
  intros H. split; [intros a; apply rotation_mul; [apply rotation_z|apply slope_rotation, H]|]. intros d. rewrite sloped_0. replace (m3_vec (slope c s) _) with (V3 0 0 d).
  - exact (m3_deriv_mul_r _ 0 _ (slope c s) (rot_z_deriv d)).
  - apply V3_ext; unfold m3_vec, slope; cbn; [ring|ring|]. transitivity (d * (c * c + s * s)); [rewrite H|]; ring.
Qed.
Lemma slope_turns c s x f : c * c + s * s = 1 -> vlen x = 7%nat -> (f < 3)%nat -> turns_local (slope_pin c s) ex_model (arm_path x) x f.
Proof. intros H L Hf. apply mount_turns; [apply sloped_hinged, H|exact L|exact Hf]. Qed.
Lemma slope_yaw c s x : 0 < c -> let A := fun u => pn_frame (slope_pin c s) (arm_path x u) 0 in let B := fun u => pn_frame (slope_pin c s) (arm_path x u) 2 in
  has_yaw (A 0) (B 0) /\ yaw_of (A 0) (B 0) = 0 /\ level_part (A 0) (B 0) = c /\ derivable_pt_lim (fun u => yaw_of (A u) (B u)) 0 (vat x 6).
Proof.
  intros Hc A B. assert (E : forall u, heading (A u) (B u) = V3 (c * cos (u * vat x 6)) (c * sin (u * vat x 6)) (- s)).
  { intros u. unfold A, B. cbn [slope_pin mount_pin pn_frame Nat.eqb arm_path vat]. replace (1 / 2 + u * vat x 6 - 1 / 2) with (u * vat x 6) by ring. apply V3_ext; unfold heading, m3_vec, m3_t, frame_axis, frame_id, m3_id, sloped, slope, rot_z, m3_mul; cbn; ring. }
  unfold has_yaw, yaw_of, level_part. rewrite E. rewrite Rmult_0_l, cos_0, sin_0. cbn [vx vy vz]. split; [lra|]. split; [unfold atan2; destruct (Rlt_dec 0 _); [|lra]; replace (c * 0 / (c * 1)) with 0 by (field; lra); apply atan_0|].
  split; [replace (c * 1 * (c * 1) + c * 0 * (c * 0)) with (c * c) by ring; apply sqrt_square; lra|].
  destruct (lim_trig (vat x 6)) as (C & S & _).
  assert (C' : derivable_pt_lim (fun u => c * cos (u * vat x 6)) 0 0) by (eapply lim_ext; [intros u; reflexivity| |exact (derivable_pt_lim_scal _ c 0 _ C)]; ring).
  pose proof (derivable_pt_lim_scal _ c 0 _ S) as S'. unfold mult_real_fct in S'.
  eapply lim_ext; [| |apply (atan2_deriv _ _ 0 _ _ S' C')].
  - intros u. cbv beta. now rewrite E.
  - cbv beta. rewrite Rmult_0_l, cos_0, sin_0. field. lra.
  - cbv beta. rewrite Rmult_0_l, cos_0, sin_0. lra.
Qed.

(** The hinge is moved by 1/8. *)
Lemma slope_solved c s max : c * c + s * s = 1 -> 0 < c -> c / 8 <= max -> exists s' delta,
  let k := KYaw 0 2 max in kreachable (slope_pin c s) klog ex_sqrt 7 (push (1 / 8) k) /\ sound (slope_pin c s) klog ex_sqrt (push (1 / 8) k) ex_robot /\
  ksolve (slope_pin c s) klog ex_sqrt perfect_qr perfect_qp (push (1 / 8) k) ex_robot false = (s', ex_robot, Ok delta) /\ vlen delta = 7%nat /\ vat delta 6 = 1 / 8.
Proof.
  intros H Hc Hm. assert (Ey : exists k, yaw_constraint (slope_pin c s) 7 ex_robot 0 2 max = Ok k) by (eexists; unfold yaw_constraint; cbn; reflexivity). destruct Ey as (k & Ey).
  destruct (slope_yaw c s (pushed (1 / 8)) Hc) as (Hy & Y0 & L0 & D0).
  destruct (yaw_made (slope_pin c s) 7 ex_robot 0 2 max k (arm_path (pushed (1 / 8))) (pushed (1 / 8)) eq_refl (arm_starts _) (slope_turns c s (pushed (1 / 8)) 0%nat H eq_refl ltac:(lia)) (slope_turns c s (pushed (1 / 8)) 2%nat H eq_refl ltac:(lia)) Hy Ey) as (g & d & M & D & G0 & G1).
  pose proof (uniqueness_limite _ _ _ _ D D0) as ->. rewrite Y0, L0 in G0, G1. change (vat (pushed (1 / 8)) 6) with (1 / 8) in G0, G1.
  destruct (push_solved (slope_pin c s) (1 / 8) (KYaw 0 2 max) k 2 g) as (Rs & So & s' & delta & E & L & V).
  - unfold constraint_add. cbn [kc_kind]. rewrite Ey. reflexivity.
  - exact M.
  - lia.
  - intros i Hi. destruct i as [|[|i]]; [rewrite G0; lra|rewrite G1; lra|lia].
  - exists s', delta. cbv zeta. auto 6.
Qed.

(** The two cases: a level x axis, and one with an elevation. *)
Example C135_example : exists c s s' delta, let pn := slope_pin c s in let t := push (1 / 8) (KYaw 0 2 (1 / 10)) in let q := arm_path delta in
  kreachable pn klog ex_sqrt 7 t /\ sound pn klog ex_sqrt t ex_robot /\ ksolve pn klog ex_sqrt perfect_qr perfect_qp t ex_robot false = (s', ex_robot, Ok delta) /\ starts ex_robot q /\
  turns_local pn ex_model q delta 0 /\ turns_local pn ex_model q delta 2 /\ has_yaw (pn_frame pn (q 0) 0) (pn_frame pn (q 0) 2) /\ level_part (pn_frame pn (q 0) 0) (pn_frame pn (q 0) 2) = 3 / 5.
Proof.
  destruct (slope_solved (3 / 5) (4 / 5) (1 / 10) ltac:(lra) ltac:(lra) ltac:(lra)) as (s' & delta & Rs & So & E & L & V). exists (3 / 5), (4 / 5), s', delta. cbv zeta. destruct (slope_yaw (3 / 5) (4 / 5) delta ltac:(lra)) as (Hy & _ & L0 & _).
  split; [exact Rs|]. split; [exact So|]. split; [exact E|]. split; [apply arm_starts|]. split; [apply slope_turns; [lra|exact L|lia]|]. split; [apply slope_turns; [lra|exact L|lia]|]. split; [exact Hy|exact L0].
Qed.
Example C135_level_example : exists s' delta, let pn := slope_pin 1 0 in let t := push (1 / 8) (KYaw 0 2 (1 / 4)) in let q := arm_path delta in
  kreachable pn klog ex_sqrt 7 t /\ sound pn klog ex_sqrt t ex_robot /\ ksolve pn klog ex_sqrt perfect_qr perfect_qp t ex_robot false = (s', ex_robot, Ok delta) /\ starts ex_robot q /\
  turns_local pn ex_model q delta 0 /\ turns_local pn ex_model q delta 2 /\ has_yaw (pn_frame pn (q 0) 0) (pn_frame pn (q 0) 2) /\ v3_dot (frame_axis (fr_R (pn_frame pn (q 0) 2)) 0) (z_axis (pn_frame pn (q 0) 0)) = 0.
Proof.
  destruct (slope_solved 1 0 (1 / 4) ltac:(lra) ltac:(lra) ltac:(lra)) as (s' & delta & Rs & So & E & L & V). exists s', delta. cbv zeta. destruct (slope_yaw 1 0 delta ltac:(lra)) as (Hy & _ & L0 & _).
  split; [exact Rs|]. split; [exact So|]. split; [exact E|]. split; [apply arm_starts|]. split; [apply slope_turns; [lra|exact L|lia]|]. split; [apply slope_turns; [lra|exact L|lia]|]. split; [exact Hy|].
  unfold v3_dot. cbn. lra.
Qed.

(** The yaw can go beyond the limit, at the first order, when the x axis is not in the plane. *)
Theorem C135_refuted : ~ (forall pn log3 msqrt N s r apply qr qp s' r' delta a b max w q, kreachable pn log3 msqrt N s -> sound pn log3 msqrt s r ->
  qr_correct qr -> qp_correct qp -> ksolve pn log3 msqrt qr qp s r apply = (s', r', Ok delta) -> In (KConstraint (KYaw a b max) PHard w) (ks_cons s) ->
  m_nv (r_model r) = N -> starts r q -> turns_local pn (r_model r) q delta a -> turns_local pn (r_model r) q delta b ->
  let A := fun u => pn_frame pn (q u) a in let B := fun u => pn_frame pn (q u) b in has_yaw (A 0) (B 0) ->
  exists d, derivable_pt_lim (fun u => yaw_of (A u) (B u)) 0 d /\ Rabs (yaw_of (A 0) (B 0) + d) <= max).
Proof.
  intros F. destruct (slope_solved (3 / 5) (4 / 5) (1 / 10) ltac:(lra) ltac:(lra) ltac:(lra)) as (s' & delta & Rs & So & E & L & V). destruct (slope_yaw (3 / 5) (4 / 5) delta ltac:(lra)) as (Hy & Y0 & _ & D0).
  destruct (F (slope_pin (3 / 5) (4 / 5)) klog ex_sqrt 7%nat _ ex_robot false perfect_qr perfect_qp s' ex_robot delta 0%nat 2%nat (1 / 10) 1 (arm_path delta) Rs So perfect_qr_correct perfect_qp_correct E (or_introl eq_refl) eq_refl (arm_starts _)
      (slope_turns (3 / 5) (4 / 5) _ 0%nat ltac:(lra) L ltac:(lia)) (slope_turns (3 / 5) (4 / 5) _ 2%nat ltac:(lra) L ltac:(lia)) Hy) as (d & Dd & H). pose proof (uniqueness_limite _ _ _ _ Dd D0) as ->. cbv beta in H. rewrite Y0, V in H. rewrite Rabs_right in H by lra. lra.
Qed.
Print Assumptions C135_refuted.

(** *** Cones *)

Lemma spin_unique (M : R -> mat3) v w : rotation (M 0) -> m3_deriv M 0 (m3_mul (skew v) (M 0)) -> m3_deriv M 0 (m3_mul (skew w) (M 0)) -> v = w.
Proof.
  intros HM D1 D2. assert (E : m3_mul (skew v) (M 0) = m3_mul (skew w) (M 0)).
  { apply M3_ext; (eapply uniqueness_limite; [apply D1|apply D2]); cbn; tauto. }
  assert (E' : skew v = skew w). { rewrite <- (m3_mul_id_r (skew v)), <- (m3_mul_id_r (skew w)), <- (rotation_r _ HM), <- !m3_mul_assoc, E. reflexivity. }
  pose proof (f_equal m21 E') as E1. pose proof (f_equal m02 E') as E2. pose proof (f_equal m10 E') as E3. cbn in E1, E2, E3. apply V3_ext; assumption.
Qed.
Lemma right_deriv_lim f d : derivable_pt_lim f 0 d -> right_deriv f d.
Proof. intros H eps He. destruct (H eps He) as [dl Hd]. exists dl. split; [apply cond_pos|]. intros h Hh. specialize (Hd h ltac:(lra) ltac:(rewrite Rabs_right; lra)). now rewrite Rplus_0_l in Hd. Qed.
Lemma right_deriv_unique f d1 d2 : right_deriv f d1 -> right_deriv f d2 -> d1 = d2.
Proof.
  intros H1 H2. destruct (Req_dec d1 d2) as [|Hn]; [assumption|exfalso]. assert (He : 0 < Rabs (d1 - d2) / 2) by (pose proof (Rabs_pos_lt (d1 - d2) ltac:(lra)); lra).
  destruct (H1 _ He) as (a & Ha & A). destruct (H2 _ He) as (b & Hb & B). pose proof (Rmin_pos a b Ha Hb) as Hm. specialize (A (Rmin a b / 2) ltac:(pose proof (Rmin_l a b); lra)). specialize (B (Rmin a b / 2) ltac:(pose proof (Rmin_r a b); lra)).
  set (v := _ / _) in A, B. replace (d1 - d2) with ((v - d2) - (v - d1)) in * by ring. pose proof (Rabs_triang (v - d2) (- (v - d1))) as T. rewrite Rabs_Ropp in T. unfold Rminus at 1 in A. unfold Rminus at 1 in B. unfold Rminus in *. lra.
Qed.

Lemma le_d_ok E f : (0 < cols E)%nat -> exists c, e_le_d E f = Ok c.
Proof.
  intros H. unfold e_le_d, e_le, e_sub, e_add. assert (C : is_constant E = false) by (unfold is_constant; apply Nat.eqb_neq; lia). rewrite C, andb_false_r. cbn. eexists. reflexivity.
Qed.

(** The hinge is moved by [d], with a cone. *)
Lemma mount_cone M w d n range max : hinged M w -> (0 < n)%nat -> (forall k, (k < n)%nat -> let sl := cone_slice range n (frame_axis (M 0) 2) k in fst sl + v3_dot (snd sl) (m3_vec (M 0) (v3_scale d w)) <= max) ->
  exists s' delta, let k := KCone 0 2 max n range in let pn := mount_pin M w in kreachable pn klog ex_sqrt 7 (push d k) /\ sound pn klog ex_sqrt (push d k) ex_robot /\
  ksolve pn klog ex_sqrt perfect_qr perfect_qp (push d k) ex_robot false = (s', ex_robot, Ok delta) /\ vlen delta = 7%nat /\ vat delta 6 = d.
Proof.
  intros HM Hn H. assert (Ey : exists k, cone_constraint (mount_pin M w) 7 ex_robot 0 2 max n range = Ok k) by (unfold cone_constraint; cbn -[e_le_d cone_slice]; apply le_d_ok; cbn; lia). destruct Ey as (k & Ey).
  assert (T : forall f, (f < 3)%nat -> turns_local (mount_pin M w) ex_model (arm_path (pushed d)) (pushed d) f) by (intros f Hf; apply mount_turns; [exact HM|reflexivity|exact Hf]).
  destruct (cone_made (mount_pin M w) 7 ex_robot 0 2 max n range k (arm_path (pushed d)) (pushed d) eq_refl (arm_starts _) (T 0%nat ltac:(lia)) (T 2%nat ltac:(lia)) Ey) as (g & v & Mk & HR & D & G).
  set (P := fun u => m3_mul (m3_t (fr_R (pn_frame (mount_pin M w) (arm_path (pushed d) u) 0))) (fr_R (pn_frame (mount_pin M w) (arm_path (pushed d) u) 2))) in *.
  assert (EP : forall u, P u = M (u * d)).
  { intros u. unfold P. cbn [mount_pin pn_frame Nat.eqb frame_id fr_R]. replace (m3_t m3_id) with m3_id by reflexivity. rewrite m3_mul_id_l. f_equal. cbn. ring. }
  assert (P0 : P 0 = M 0) by (rewrite EP; f_equal; ring).
  assert (V : v = m3_vec (M 0) (v3_scale d w)).
  { apply (spin_unique P); [apply HR|exact D|]. rewrite P0. destruct HM as [_ HD]. intros e He. eapply lim_ext; [| |exact (HD d e He)]; [intros u; now rewrite EP|reflexivity]. }
  destruct (push_solved (mount_pin M w) d (KCone 0 2 max n range) k n g) as (Rs & So & s' & delta & E & L & Vd).
  - unfold constraint_add. cbn [kc_kind]. rewrite Ey. reflexivity.
  - exact Mk.
  - exact Hn.
  - intros i Hi. rewrite (G i Hi). change (m3_mul (m3_t (fr_R (pn_frame (mount_pin M w) (arm_path (pushed d) 0) 0))) (fr_R (pn_frame (mount_pin M w) (arm_path (pushed d) 0) 2))) with (P 0). rewrite P0, V. specialize (H i Hi). cbv zeta in H. lra.
  - exists s', delta. cbv zeta. auto 6.
Qed.
Lemma mount_tilt M w x u : hinged M w -> tilt_of (pn_frame (mount_pin M w) (arm_path x u) 0) (pn_frame (mount_pin M w) (arm_path x u) 2) = acos (m22 (M (u * vat x 6))).
Proof.
  intros [HM _]. unfold tilt_of, angle_between. cbn [mount_pin pn_frame Nat.eqb arm_path vat]. replace (1 / 2 + u * vat x 6 - 1 / 2) with (u * vat x 6) by ring. set (B := M _) in *. assert (HB : rotation B) by apply HM.
  pose proof (f_equal m22 (rotation_l _ HB)) as O. unfold m3_mul, m3_t, m3_id in O. cbn [m22] in O. f_equal. unfold v3_norm, v3_dot, z_axis, frame_id, m3_id. cbn [fr_R m02 m12 m22 vx vy vz].
  replace (m02 B * m02 B + m12 B * m12 B + m22 B * m22 B) with 1 by (cbn in O; lra). replace (0 * 0 + 0 * 0 + 1 * 1) with 1 by ring. rewrite sqrt_1. field.
Qed.

Lemma acos_3_5 : acos (3 / 5) = atan (4 / 3).
Proof.
  assert (C : cos (atan (4 / 3)) = 3 / 5). { rewrite cos_atan. replace (1 + (4 / 3)²) with (5 / 3 * (5 / 3)) by (unfold Rsqr; lra). rewrite sqrt_square by lra. lra. }
  pose proof (atan_bound (4 / 3)). assert (0 < atan (4 / 3)) by (rewrite <- atan_0; apply atan_increasing; lra). rewrite <- C. apply acos_cos. lra.
Qed.
Lemma slope_slice n k range : let sl := cone_slice range n (frame_axis (sloped (3 / 5) (4 / 5) 0) 2) k in
  fst sl = atan (4 / 3 * cos (2 * range * INR k / INR n - range)) /\ v3_dot (snd sl) (V3 0 0 1) = 0.
Proof.
  rewrite sloped_0. unfold cone_slice, slope, frame_axis. cbv zeta. cbn [fst snd m02 m12 m22 vx vy vz]. assert (A0 : atan2 0 (4 / 5) = 0) by (unfold atan2; destruct (Rlt_dec 0 (4 / 5)); [|lra]; replace (0 / (4 / 5)) with 0 by field; apply atan_0). rewrite A0.
  replace (0 + INR k * 2 * range / INR n - range) with (2 * range * INR k / INR n - range) by (unfold Rdiv; ring). set (f := _ - range). split; [|unfold v3_dot, rot_z; cbn; ring].
  unfold rot_z. cbn [m3_vec m3_t m00 m01 m02 m10 m11 m12 m20 m21 m22 vx vy vz]. replace (0 * (4 / 5) + 0 * 0 + 1 * (3 / 5)) with (3 / 5) by ring. unfold atan2. destruct (Rlt_dec 0 (3 / 5)); [|lra]. f_equal. field.
Qed.

(** An even number of slices. *)
Example C136_example : exists s' delta, let pn := slope_pin (3 / 5) (4 / 5) in let t := push 1 (KCone 0 2 (acos (3 / 5)) (2 * 4) (1 / 4)) in let q := arm_path delta in
  kreachable pn klog ex_sqrt 7 t /\ sound pn klog ex_sqrt t ex_robot /\ ksolve pn klog ex_sqrt perfect_qr perfect_qp t ex_robot false = (s', ex_robot, Ok delta) /\ starts ex_robot q /\
  turns_local pn ex_model q delta 0 /\ turns_local pn ex_model q delta 2 /\ v3_cross (z_axis (pn_frame pn (q 0) 0)) (z_axis (pn_frame pn (q 0) 2)) <> v3_zero /\
  tilt_of (pn_frame pn (q 0) 0) (pn_frame pn (q 0) 2) = acos (3 / 5).
Proof.
  pose proof (sloped_hinged (3 / 5) (4 / 5) ltac:(lra)) as Hg.
  destruct (mount_cone (sloped (3 / 5) (4 / 5)) (V3 (- (4 / 5)) 0 (3 / 5)) 1 (2 * 4) (1 / 4) (acos (3 / 5)) Hg ltac:(lia)) as (s' & delta & Rs & So & E & L & V).
  { intros k Hk. cbv zeta. destruct (slope_slice (2 * 4) k (1 / 4)) as [S1 S2]. rewrite S1. replace (m3_vec (sloped (3 / 5) (4 / 5) 0) _) with (V3 0 0 1) by (rewrite sloped_0; apply V3_ext; unfold m3_vec, slope; cbn; lra). rewrite S2, Rplus_0_r, acos_3_5.
    set (f := _ - 1 / 4). pose proof (COS_bound f) as [_ B]. destruct (Req_dec (cos f) 1) as [->|Hn]; [right; f_equal; lra|]. left. apply atan_increasing. lra. }
  exists s', delta. cbv zeta. split; [exact Rs|]. split; [exact So|]. split; [exact E|]. split; [apply arm_starts|]. split; [apply slope_turns; [lra|exact L|lia]|]. split; [apply slope_turns; [lra|exact L|lia]|]. split.
  - intros Z. pose proof (f_equal vy Z) as Y. cbn in Y. replace (1 / 2 + 0 * vat delta 6 - 1 / 2) with 0 in Y by ring. rewrite cos_0, sin_0 in Y. lra.
  - unfold slope_pin. rewrite (mount_tilt _ _ delta 0 Hg), Rmult_0_l, sloped_0. reflexivity.
Qed.

(** The angle of the axes stays below the maximum, at the first order on the right. *)
Definition cone_kept (odd aligned : bool) : Prop := forall pn log3 msqrt N s r apply qr qp s' r' delta a b max n range w q, kreachable pn log3 msqrt N s -> sound pn log3 msqrt s r ->
  qr_correct qr -> qp_correct qp -> ksolve pn log3 msqrt qr qp s r apply = (s', r', Ok delta) -> In (KConstraint (KCone a b max n range) PHard w) (ks_cons s) ->
  m_nv (r_model r) = N -> starts r q -> turns_local pn (r_model r) q delta a -> turns_local pn (r_model r) q delta b -> (0 < n)%nat -> (odd = false -> Nat.even n = true) ->
  let A := fun u => pn_frame pn (q u) a in let B := fun u => pn_frame pn (q u) b in (aligned = false -> v3_cross (z_axis (A 0)) (z_axis (B 0)) <> v3_zero) ->
  forall d, right_deriv (fun u => tilt_of (A u) (B u)) d -> tilt_of (A 0) (B 0) + d <= max.

(** Not with a single slice. *)
Theorem C136_odd_refuted : ~ cone_kept true false.
Proof.
  intros F. pose proof (sloped_hinged (3 / 5) (4 / 5) ltac:(lra)) as Hg. set (mx := atan (4 / 3 * cos (2 * (1 / 4) * INR 0 / INR 1 - 1 / 4))).
  destruct (mount_cone (sloped (3 / 5) (4 / 5)) (V3 (- (4 / 5)) 0 (3 / 5)) 1 1 (1 / 4) mx Hg ltac:(lia)) as (s' & delta & Rs & So & E & L & V).
  { intros k Hk. replace k with 0%nat by lia. cbv zeta. destruct (slope_slice 1 0 (1 / 4)) as [S1 S2]. rewrite S1. replace (m3_vec (sloped (3 / 5) (4 / 5) 0) _) with (V3 0 0 1) by (rewrite sloped_0; apply V3_ext; unfold m3_vec, slope; cbn; lra). rewrite S2, Rplus_0_r. right. reflexivity. }
  assert (T : forall u, tilt_of (pn_frame (mount_pin (sloped (3 / 5) (4 / 5)) (V3 (- (4 / 5)) 0 (3 / 5))) (arm_path delta u) 0) (pn_frame (mount_pin (sloped (3 / 5) (4 / 5)) (V3 (- (4 / 5)) 0 (3 / 5))) (arm_path delta u) 2) = acos (3 / 5)).
  { intros u. rewrite (mount_tilt _ _ delta u Hg). f_equal. unfold sloped, m3_mul, rot_z, slope. cbn. ring. }
  assert (K : tilt_of (pn_frame (mount_pin (sloped (3 / 5) (4 / 5)) (V3 (- (4 / 5)) 0 (3 / 5))) (arm_path delta 0) 0) (pn_frame (mount_pin (sloped (3 / 5) (4 / 5)) (V3 (- (4 / 5)) 0 (3 / 5))) (arm_path delta 0) 2) + 0 <= mx).
  { refine (F (mount_pin (sloped (3 / 5) (4 / 5)) (V3 (- (4 / 5)) 0 (3 / 5))) klog ex_sqrt 7%nat _ ex_robot false perfect_qr perfect_qp s' ex_robot delta 0%nat 2%nat mx 1%nat (1 / 4) 1 (arm_path delta) Rs So perfect_qr_correct perfect_qp_correct E
      (or_introl eq_refl) eq_refl (arm_starts _) (mount_turns _ _ _ _ Hg L _) (mount_turns _ _ _ _ Hg L _) _ _ _ 0 _); try lia; try discriminate.
    - intros _ Z. pose proof (f_equal vy Z) as Y. cbn in Y. replace (1 / 2 + 0 * vat delta 6 - 1 / 2) with 0 in Y by ring. rewrite cos_0, sin_0 in Y. lra.
    - apply right_deriv_lim. eapply lim_ext; [intros u; symmetry; apply T|reflexivity|apply lim_const]. }
  rewrite T, acos_3_5, Rplus_0_r in K. assert (mx < atan (4 / 3)); [|lra]. unfold mx. apply atan_increasing. cbn [INR]. replace (2 * (1 / 4) * 0 / 1 - 1 / 4) with (- (1 / 4)) by field. rewrite cos_neg.
  assert (cos (1 / 4) < cos 0) by (apply cos_decreasing_1; pose proof PI2_1; lra). rewrite cos_0 in H. lra.
Qed.
Print Assumptions C136_odd_refuted.

(** Nor when the axes are aligned: only the motions towards the x axis of a are limited. *)
Lemma rot_y_hinged : hinged rot_y (V3 0 1 0).
Proof.
  split; [apply rotation_y|]. intros d. assert (E : rot_y 0 = m3_id) by (unfold rot_y; rewrite cos_0, sin_0; apply M3_ext; cbn; ring). rewrite E, m3_mul_id_r, m3_vec_id.
  replace (v3_scale d (V3 0 1 0)) with (V3 0 d 0) by (apply V3_ext; cbn; ring). apply rot_y_deriv.
Qed.
Theorem C136_aligned_refuted : ~ cone_kept false true.
Proof.
  intros F. pose proof rot_y_hinged as Hg. assert (E0 : rot_y 0 = m3_id) by (unfold rot_y; rewrite cos_0, sin_0; apply M3_ext; cbn; ring).
  destruct (mount_cone rot_y (V3 0 1 0) (-1) 8 (1 / 4) (1 / 10) Hg ltac:(lia)) as (s' & delta & Rs & So & E & L & V).
  { intros k Hk. cbv zeta. rewrite E0, m3_vec_id. unfold cone_slice, frame_axis, m3_id. cbv zeta. cbn [fst snd m02 m12 m22 vx vy vz]. assert (A0 : atan2 0 0 = 0) by (unfold atan2; destruct (Rlt_dec 0 0); [lra|]; destruct (Rlt_dec 0 0); lra). rewrite A0.
    set (f := 0 + _ - _). assert (Hf : - (1 / 4) <= f <= 1 / 4).
    { unfold f. assert (0 <= INR k <= 8) by (split; [apply pos_INR|replace 8 with (INR 8) by (cbn; ring); apply le_INR; lia]). replace (INR 8) with 8 by (cbn; ring). lra. }
    assert (0 < cos f) by (apply cos_gt_0; pose proof PI2_1; lra). unfold rot_z. cbn [m3_vec m3_t m00 m01 m02 m10 m11 m12 m20 m21 m22 vx vy vz].
    assert (A1 : atan2 (cos f * 0 + sin f * 0 + 0 * 1) (0 * 0 + 0 * 0 + 1 * 1) = 0) by (unfold atan2; destruct (Rlt_dec 0 _); [|lra]; replace (_ / _) with 0 by field; apply atan_0). rewrite A1. unfold v3_dot, v3_scale. cbn [vx vy vz]. lra. }
  assert (T : forall u, 0 <= u <= 1 -> tilt_of (pn_frame (mount_pin rot_y (V3 0 1 0)) (arm_path delta u) 0) (pn_frame (mount_pin rot_y (V3 0 1 0)) (arm_path delta u) 2) = u).
  { intros u Hu. rewrite (mount_tilt _ _ delta u Hg), V. unfold rot_y. cbn [m22]. replace (u * -1) with (- u) by ring. rewrite cos_neg. apply acos_cos. pose proof PI2_1. lra. }
  assert (K : tilt_of (pn_frame (mount_pin rot_y (V3 0 1 0)) (arm_path delta 0) 0) (pn_frame (mount_pin rot_y (V3 0 1 0)) (arm_path delta 0) 2) + 1 <= 1 / 10).
  { refine (F (mount_pin rot_y (V3 0 1 0)) klog ex_sqrt 7%nat _ ex_robot false perfect_qr perfect_qp s' ex_robot delta 0%nat 2%nat (1 / 10) 8%nat (1 / 4) 1 (arm_path delta) Rs So perfect_qr_correct perfect_qp_correct E
      (or_introl eq_refl) eq_refl (arm_starts _) (mount_turns _ _ _ _ Hg L _) (mount_turns _ _ _ _ Hg L _) _ _ _ 1 _); try lia; try discriminate; try reflexivity.
    intros eps He. exists 1. split; [lra|]. intros h Hh. rewrite !T by lra. replace ((h - 0) / h - 1) with 0 by (field; lra). rewrite Rabs_R0. exact He. }
  rewrite T in K by lra. lra.
Qed.
Print Assumptions C136_aligned_refuted.

(** The partial theorem, in the same form. *)
Theorem C136_kept_partial : cone_kept false false.
Proof.
  intros pn log3 msqrt N s r apply qr qp s' r' delta a b max n range w q Rh So Hqr Hqp E Hc HN Hq Ta Tb Hn Hev A B Hx d Hd. specialize (Hev eq_refl). specialize (Hx eq_refl). apply Nat.even_spec in Hev. destruct Hev as [h ->].
  destruct (C136_partial pn log3 msqrt N s r apply qr qp s' r' delta a b max h range w q Rh So Hqr Hqp E Hc HN Hq Ta Tb ltac:(lia) Hx) as (d' & D & H). rewrite (right_deriv_unique _ _ _ Hd (right_deriv_lim _ _ D)). exact H.
Qed.
Print Assumptions C136_kept_partial.
