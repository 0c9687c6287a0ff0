From Coq Require Import Reals List ZArith Bool String Lra Lia.
From Verif Require Import Base Linalg Angle Geom3 Tools_model Geometry_model Geometry_proofs Expression_model Problem_model Problem_spec Problem_props Polynom_model Robot_model
  Robot_spec Robot_proofs Robot_props KinTasks_model Kin_model Kin_spec Kin_proofs Kin_proofs2 Kin_proofs5 Kin_proofs6 Kin_props DynTasks_model DynTasks_proofs Tasks_spec Tasks_proofs
  KinTasks_spec KinTasks_proofs Backends_proofs KinTasks_example.
Import ListNotations.
Open Scope R_scope.

(** ** C130 The errors of the position, center of mass, relative position and distance tasks *)

(** When the robot moves with the displacement that the solver returned as its velocity, each error of a hard task decreases by itself per unit of
    time, and each error of a scaled task by the part of it in scale. *)
Theorem C130_imposed pn log3 msqrt N s r apply qr qp s' r' delta t part q n error : kreachable pn log3 msqrt N s -> sound pn log3 msqrt s r ->
  qr_correct qr -> qp_correct qp -> ksolve pn log3 msqrt qr qp s r apply = (s', r', Ok delta) -> In t (ks_tasks s) -> imposed s' t part ->
  m_nv (r_model r) = N -> starts r q -> task_motion pn (r_model r) q delta (kt_kind t) -> task_errors pn (q 0) (kt_kind t) = Some (n, error) ->
  forall k, (k < n)%nat -> reduced part (fun u => error k (q u)).
Proof.
  intros Rh So Hqr Hqp E Ht Hi HN Hq Hm He k Hk.
  destruct (imposed_rows pn log3 msqrt N s r apply qr qp s' r' delta t part Rh So Hqr Hqp E Ht Hi) as (e & Hu & C & L & H).
  destruct (task_measures pn log3 msqrt N (ks_dt s) r (kt_kind t) e q delta n error (eq_sym HN) Hq Hm He Hu) as [Rn M]. destruct (M k Hk) as [Hb D]. unfold reduced.
  rewrite <- Hb. rewrite <- (H k) by (rewrite Rn; exact Hk). exact D.
Qed.
Print Assumptions C130_imposed.

(** The penalty of a soft task, for a displacement [x]: half its weight times the sum of the squares of the errors that are left after a unit of time
    at the velocity [x], at the first order. *)
Theorem C130_soft pn log3 msqrt N s r apply qr qp s' r' delta t (x : vec) q n error : kreachable pn log3 msqrt N s -> sound pn log3 msqrt s r ->
  ksolve pn log3 msqrt qr qp s r apply = (s', r', Ok delta) -> In t (ks_tasks s) -> kt_priority t = PSoft ->
  m_nv (r_model r) = N -> starts r q -> task_motion pn (r_model r) q x (kt_kind t) -> task_errors pn (q 0) (kt_kind t) = Some (n, error) ->
  exists derror, (forall k, (k < n)%nat -> derivable_pt_lim (fun u => error k (q u)) 0 (derror k)) /\
    task_penalty pn log3 msqrt s r t (vat x) = kt_weight t / 2 * Rsum n (fun k => Rsqr (error k (q 0) + derror k)).
Proof.
  intros Rh So E Ht Hp HN Hq Hm He. destruct (solved_updates pn log3 msqrt N s r apply qr qp s' r' delta t Rh So E Ht) as (_ & e & Hu).
  destruct (task_measures pn log3 msqrt N (ks_dt s) r (kt_kind t) e q x n error (eq_sym HN) Hq Hm He Hu) as [Rn M].
  exists (fun k => - Rsum (mcols (fst e)) (fun j => mat_at (fst e) k j * vat x j)). split; [intros k Hk; apply (M k Hk)|].
  unfold task_penalty. pose proof (proj1 (reachable_knows _ _ _ _ _ Rh)) as EN. rewrite Hp, EN, Hu, Rn. f_equal. apply Rsum_ext. intros k Hk. unfold Kin_spec.residual. destruct (M k Hk) as [Hb _]. rewrite Hb.
  unfold Rsqr. ring.
Qed.
Print Assumptions C130_soft.

Definition k_y : axises_mask := Mask identity3 identity3 [1%nat] TaskFrame.
Definition k_z : axises_mask := Mask identity3 identity3 [2%nat] TaskFrame.
Definition k_tasks : list task_kind :=
  [KPosition 2 (V3 7 (9 / 10) 8) k_y; KCom (V3 7 (9 / 10) 8) k_y; KRelativePosition 1 2 (V3 7 (9 / 10) 8) k_y; KDistance 1 2 3].

Lemma arm_answers k : In k k_tasks -> exists e, task_update arm_pin klog ex_sqrt 7 1 ex_robot k = Ok e /\ shaped 7 e /\ mrows (fst e) = 1%nat /\ mat_at (fst e) 0 6 <> 0.
Proof.
  destruct sin_cos_half as [S C]. intros [<-|[<-|[<-|[<-|[]]]]]; (eexists; split; [cbn; reflexivity|split; [split; reflexivity|split; [reflexivity|]]]); cbn; try lra.
  set (n := v3_normalize _). assert (N : n = v3_scale (/ v3_norm (V3 (cos (1 / 2) - 2) (sin (1 / 2) - 0) (0 - 0))) (V3 (cos (1 / 2) - 2) (sin (1 / 2) - 0) (0 - 0))).
  { unfold n. apply normalize_scale. intros F. pose proof (f_equal vy F) as G. cbn in G. lra. }
  rewrite N. assert (P : 0 < v3_norm (V3 (cos (1 / 2) - 2) (sin (1 / 2) - 0) (0 - 0))) by (apply norm_pos; intros F; pose proof (f_equal vy F) as G; cbn in G; lra).
  apply Rinv_0_lt_compat in P. set (i := / v3_norm _) in *. cbn. match goal with |- ?t <> 0 => replace t with (2 * (i * sin (1 / 2))) by ring end. apply Rgt_not_eq. pose proof (Rmult_lt_0_compat _ _ P S). lra.
Qed.

(** Each of these tasks, alone and hard, has a solution, and every displacement is the velocity of a motion of the arm. *)
Example C130_example k : In k k_tasks -> exists s' delta q n error,
  let t := KTask k PHard 1 in let s := one_task 1 true t [] in
  kreachable arm_pin klog ex_sqrt 7 s /\ sound arm_pin klog ex_sqrt s ex_robot /\ ksolve arm_pin klog ex_sqrt perfect_qr perfect_qp s ex_robot false = (s', ex_robot, Ok delta) /\
  imposed s' t 1 /\ starts ex_robot q /\ task_motion arm_pin ex_model q delta k /\ task_errors arm_pin (q 0) k = Some (n, error) /\ (0 < n)%nat.
Proof.
  intros Hk. destruct (arm_answers k Hk) as (e & Hu & Hs & H1 & H6).
  destruct (one_row_solved arm_pin klog ex_sqrt 1 (KTask k PHard 1) e Hu Hs eq_refl H1 H6) as (So & s' & delta & E & L). destruct (arm_contracts delta L) as (Cj & Ct & Cm).
  destruct (sin_cos_half) as [S _]. destruct Hk as [<-|[<-|[<-|[<-|[]]]]].
  all: exists s', delta, (arm_path delta); eexists; eexists; cbv zeta.
  all: split; [apply one_reachable|]; split; [exact So|]; split; [exact E|]; split; [left; split; reflexivity|]; split; [apply arm_starts|].
  - split; [apply Cj; lia|]. split; [reflexivity|cbn; lia].
  - split; [apply Cm|]. split; [reflexivity|cbn; lia].
  - split; [split; apply Cj; lia|]. split; [reflexivity|cbn; lia].
  - split; [split; [apply Cj; lia|split; [apply Cj; lia|]]|split; [reflexivity|lia]]. intros F. pose proof (f_equal vy F) as G. cbn in G. replace (1 / 2 + 0 * vat delta 6) with (1 / 2) in G by ring. lra.
Qed.

(** The same for the soft ones. *)
Example C130_soft_example k : In k k_tasks -> exists s' delta q n error,
  let t := KTask k PSoft 5 in let s := one_task 1 true t [] in
  kreachable arm_pin klog ex_sqrt 7 s /\ sound arm_pin klog ex_sqrt s ex_robot /\ ksolve arm_pin klog ex_sqrt perfect_qr perfect_qp s ex_robot false = (s', ex_robot, Ok delta) /\
  starts ex_robot q /\ task_motion arm_pin ex_model q delta k /\ task_errors arm_pin (q 0) k = Some (n, error) /\ (0 < n)%nat.
Proof.
  intros Hk. destruct (arm_answers k Hk) as (e & Hu & Hs & _ & _).
  destruct (one_soft_solved arm_pin klog ex_sqrt 1 (KTask k PSoft 5) e Hu Hs eq_refl ltac:(cbn; lra)) as (So & s' & delta & E & L). destruct (arm_contracts delta L) as (Cj & Ct & Cm).
  destruct (sin_cos_half) as [S _]. destruct Hk as [<-|[<-|[<-|[<-|[]]]]].
  all: exists s', delta, (arm_path delta); eexists; eexists; cbv zeta.
  all: split; [apply one_reachable|]; split; [exact So|]; split; [exact E|]; split; [apply arm_starts|].
  - split; [apply Cj; lia|]. split; [reflexivity|cbn; lia].
  - split; [apply Cm|]. split; [reflexivity|cbn; lia].
  - split; [split; apply Cj; lia|]. split; [reflexivity|cbn; lia].
  - split; [split; [apply Cj; lia|split; [apply Cj; lia|]]|split; [reflexivity|lia]]. intros F. pose proof (f_equal vy F) as G. cbn in G. replace (1 / 2 + 0 * vat delta 6) with (1 / 2) in G by ring. lra.
Qed.

(** With the three axes of the world, the whole position of the frame goes towards the target. *)
Corollary C130_position pn log3 msqrt N s r apply qr qp s' r' delta t part q f target m : kreachable pn log3 msqrt N s -> sound pn log3 msqrt s r ->
  qr_correct qr -> qp_correct qp -> ksolve pn log3 msqrt qr qp s r apply = (s', r', Ok delta) -> In t (ks_tasks s) -> imposed s' t part ->
  m_nv (r_model r) = N -> starts r q -> jacobian_of pn (r_model r) q 0 delta f -> kt_kind t = KPosition f target m -> m_indices m = [0; 1; 2]%nat -> m_frame m = TaskFrame ->
  v3_deriv (fun u => fr_t (pn_frame pn (q u) f)) 0 (v3_scale part (v3_sub target (fr_t (pn_frame pn (q 0) f)))).
Proof.
  intros Rh So Hqr Hqp E Ht Hi HN Hq Hm Hk Hx Hf.
  pose proof (C130_imposed pn log3 msqrt N s r apply qr qp s' r' delta t part q _ _ Rh So Hqr Hqp E Ht Hi HN Hq ltac:(rewrite Hk; exact Hm) ltac:(rewrite Hk; reflexivity)) as H. rewrite Hx in H. unfold mask_axis in H.
  rewrite Hf, Hx in H. cbn [List.length nth world_axis] in H.
  assert (X : forall (c : R) (g : R -> R), derivable_pt_lim (fun u => c - g u) 0 (- (part * (c - g 0))) -> derivable_pt_lim g 0 (part * (c - g 0))).
  { intros c g Hg. eapply lim_ext; [| |exact (deriv_minus c _ _ _ Hg)]; [intros u; cbn; ring|ring]. }
  split; [|split]; cbn [v3_scale v3_sub vx vy vz]; apply X.
  - eapply lim_ext; [| |exact (H 0%nat ltac:(lia))]; [intros u|]; unfold v3_dot, v3_sub; cbn; ring.
  - eapply lim_ext; [| |exact (H 1%nat ltac:(lia))]; [intros u|]; unfold v3_dot, v3_sub; cbn; ring.
  - eapply lim_ext; [| |exact (H 2%nat ltac:(lia))]; [intros u|]; unfold v3_dot, v3_sub; cbn; ring.
Qed.
Print Assumptions C130_position.

(** ** C131 The orientation, relative orientation and axis align tasks *)

(** The displacement turns the frame, along each axis of the mask, at the angular velocity that log3 gives between its orientation and the target. *)
Theorem C131_orientation pn log3 msqrt N s r apply qr qp s' r' delta t part q f target m : kreachable pn log3 msqrt N s -> sound pn log3 msqrt s r ->
  qr_correct qr -> qp_correct qp -> ksolve pn log3 msqrt qr qp s r apply = (s', r', Ok delta) -> In t (ks_tasks s) -> imposed s' t part ->
  m_nv (r_model r) = N -> starts r q -> turns pn (r_model r) q delta f -> kt_kind t = KOrientation f target m ->
  exists w, spins pn q f w /\ forall k, (k < List.length (m_indices m))%nat ->
    v3_dot (mask_axis m (frame_axis target) k) w = part * v3_dot (mask_axis m (frame_axis target) k) (log3 (m3_mul target (m3_t (fr_R (pn_frame pn (q 0) f))))).
Proof.
  intros Rh So Hqr Hqp E Ht Hi HN Hq Hm Hk.
  destruct (imposed_rows pn log3 msqrt N s r apply qr qp s' r' delta t part Rh So Hqr Hqp E Ht Hi) as (e & Hu & C & L & H). rewrite Hk in Hu. cbn in Hu.
  destruct (orientation_rows pn log3 N r f target m e q delta (eq_sym HN) Hq Hm Hu) as [Rn M]. exists (rows3 (pn_jac pn (q 0) f World) 3 delta). split; [apply Hm|].
  intros k Hl. destruct (M k Hl) as [Hb Hr]. rewrite <- Hr, <- Hb. apply H. rewrite Rn. exact Hl.
Qed.
Print Assumptions C131_orientation.

(** With the three axes of the world, a hard task asks for the rotation that leads to the target. *)
Corollary C131_reached pn log3 msqrt N s r apply qr qp s' r' delta t q f target m : kreachable pn log3 msqrt N s -> sound pn log3 msqrt s r ->
  qr_correct qr -> qp_correct qp -> ksolve pn log3 msqrt qr qp s r apply = (s', r', Ok delta) -> In t (ks_tasks s) -> kt_priority t = PHard ->
  m_nv (r_model r) = N -> starts r q -> turns pn (r_model r) q delta f -> kt_kind t = KOrientation f target m -> m_indices m = [0; 1; 2]%nat -> m_frame m = TaskFrame ->
  rotation target -> log3_inverts log3 -> exists w, spins pn q f w /\ m3_mul (exp3 w) (fr_R (pn_frame pn (q 0) f)) = target.
Proof.
  intros Rh So Hqr Hqp E Ht Hp HN Hq Hm Hk Hx Hf Hrot Hlog.
  destruct (C131_orientation pn log3 msqrt N s r apply qr qp s' r' delta t 1 q f target m Rh So Hqr Hqp E Ht (or_introl (conj Hp eq_refl)) HN Hq Hm Hk) as (w & Hw & H). exists w. split; [exact Hw|].
  assert (Er : rotation (fr_R (pn_frame pn (q 0) f))) by apply Hm. set (R0 := fr_R (pn_frame pn (q 0) f)) in *. set (l := log3 (m3_mul target (m3_t R0))) in *.
  assert (Hwl : w = l).
  { unfold mask_axis in H. rewrite Hx, Hf in H. cbn [List.length nth world_axis] in H. pose proof (H 0%nat ltac:(lia)) as X. pose proof (H 1%nat ltac:(lia)) as Y. pose proof (H 2%nat ltac:(lia)) as Z.
    unfold v3_dot in X, Y, Z. cbn in X, Y, Z. apply V3_ext; lra. }
  rewrite Hwl. unfold l. rewrite Hlog by (apply rotation_mul; [exact Hrot|apply rotation_t; exact Er]). rewrite m3_mul_assoc, (rotation_l _ Er). apply m3_mul_id_r.
Qed.
Print Assumptions C131_reached.

(** The same for the orientation of [b] in [a]. The axes of the mask are those of [a], unless it is local: R_local_world is never set. *)
Theorem C131_relative_orientation pn log3 msqrt N s r apply qr qp s' r' delta t part q a b target m : kreachable pn log3 msqrt N s -> sound pn log3 msqrt s r ->
  qr_correct qr -> qp_correct qp -> ksolve pn log3 msqrt qr qp s r apply = (s', r', Ok delta) -> In t (ks_tasks s) -> imposed s' t part ->
  m_nv (r_model r) = N -> starts r q -> turns pn (r_model r) q delta a -> turns pn (r_model r) q delta b -> kt_kind t = KRelativeOrientation a b target m ->
  let rel u := m3_mul (m3_t (fr_R (pn_frame pn (q u) a))) (fr_R (pn_frame pn (q u) b)) in
  exists w, m3_deriv rel 0 (m3_mul (skew w) (rel 0)) /\ forall k, (k < List.length (m_indices m))%nat ->
    v3_dot (mask_axis m (row3 (m_R_local m)) k) w = part * v3_dot (mask_axis m (row3 (m_R_local m)) k) (log3 (m3_mul target (m3_t (rel 0)))).
Proof.
  intros Rh So Hqr Hqp E Ht Hi HN Hq Ha Hb Hk rel.
  destruct (imposed_rows pn log3 msqrt N s r apply qr qp s' r' delta t part Rh So Hqr Hqp E Ht Hi) as (e & Hu & C & L & H). rewrite Hk in Hu. cbn in Hu.
  destruct (relative_orientation_rows pn log3 N r a b target m e q delta (eq_sym HN) Hq Ha Hb Hu) as [Rn M]. eexists. split.
  - unfold rel. apply (relative_rotation_deriv (fun u => fr_R (pn_frame pn (q u) a)) (fun u => fr_R (pn_frame pn (q u) b))); [apply Ha|apply Ha|apply Hb].
  - intros k Hl. destruct (M k Hl) as [Hb' Hr]. cbv beta. rewrite <- Hr. unfold rel. rewrite <- Hb'. apply H. rewrite Rn. exact Hl.
Qed.
Print Assumptions C131_relative_orientation.

(** The hinge turns the end of the arm; the frame 1 does not turn. *)
Definition k_turns : list task_kind := [KOrientation 2 (rot_z 1) k_z; KRelativeOrientation 1 2 (rot_z 1) k_z].
Example C131_example k : In k k_turns -> exists s' delta q,
  let t := KTask k PHard 1 in let s := one_task 1 true t [] in
  kreachable arm_pin klog ex_sqrt 7 s /\ sound arm_pin klog ex_sqrt s ex_robot /\ ksolve arm_pin klog ex_sqrt perfect_qr perfect_qp s ex_robot false = (s', ex_robot, Ok delta) /\
  imposed s' t 1 /\ starts ex_robot q /\ turns arm_pin ex_model q delta 1 /\ turns arm_pin ex_model q delta 2 /\ log3_inverts klog.
Proof.
  intros Hk. assert (X : exists e, task_update arm_pin klog ex_sqrt 7 1 ex_robot k = Ok e /\ shaped 7 e /\ mrows (fst e) = 1%nat /\ mat_at (fst e) 0 6 <> 0).
  { destruct Hk as [<-|[<-|[]]]; (eexists; split; [unfold task_update, orientation_update, relative_orientation_update, get_T_world_frame; cbn -[klog]; reflexivity|split; [split; reflexivity|split; [reflexivity|]]]); cbn; lra. }
  destruct X as (e & Hu & Hs & H1 & H6).
  destruct (one_row_solved arm_pin klog ex_sqrt 1 (KTask k PHard 1) e Hu Hs eq_refl H1 H6) as (So & s' & delta & E & L). destruct (arm_contracts delta L) as (Cj & Ct & Cm).
  exists s', delta, (arm_path delta). cbv zeta. split; [apply one_reachable|]. split; [exact So|]. split; [exact E|]. split; [left; split; reflexivity|]. split; [apply arm_starts|].
  split; [apply Ct; lia|]. split; [apply Ct; lia|apply klog_inverts].
Qed.

(** A task with three axes, on the robot with a ball joint. *)
Definition k_xyz : axises_mask := Mask identity3 identity3 [0; 1; 2]%nat TaskFrame.
Example C131_reached_example : exists s' delta q,
  let t := KTask (KOrientation 2 (m3_mul (rot_x (1 / 10)) (rot_y (1 / 10))) k_xyz) PHard 1 in let s := one_task 1 false t [] in
  kreachable ball_pin klog ex_sqrt 7 s /\ sound ball_pin klog ex_sqrt s ex_robot /\ ksolve ball_pin klog ex_sqrt perfect_qr perfect_qp s ex_robot false = (s', ex_robot, Ok delta) /\
  starts ex_robot q /\ turns ball_pin ex_model q delta 2 /\ rotation (m3_mul (rot_x (1 / 10)) (rot_y (1 / 10))).
Proof.
  set (t := KTask (KOrientation 2 (m3_mul (rot_x (1 / 10)) (rot_y (1 / 10))) k_xyz) PHard 1).
  assert (X : exists e, task_update ball_pin klog ex_sqrt 7 1 ex_robot (kt_kind t) = Ok e /\ shaped 7 e /\ mrows (fst e) = 3%nat /\ forall i j, mat_at (fst e) i j = ball_jac (3 + nth i [0; 1; 2]%nat 0%nat) j).
  { eexists; split; [unfold t, task_update, orientation_update, get_T_world_frame; cbn -[klog nth]; reflexivity|split; [split; reflexivity|split; [reflexivity|intros; reflexivity]]]. }
  destruct X as (e & Hu & Hs & H3 & HJ).
  destruct (one_solved ball_pin klog ex_sqrt 1 false t e (fun j => match j with 3%nat => vat (snd e) 0 | 4%nat => vat (snd e) 1 | 6%nat => vat (snd e) 2 | _ => 0 end) Hu Hs eq_refl) as (So & s' & delta & E & L).
  - rewrite H3. intros mu H k Hk. cbn in Hk. pose proof (H 3%nat ltac:(lia)) as A. pose proof (H 4%nat ltac:(lia)) as B. pose proof (H 6%nat ltac:(lia)) as C. cbn [seq map app List.length nth Rsum Nat.ltb Nat.leb] in A, B, C.
    rewrite !HJ in A, B, C. cbn in A, B, C. destruct k as [|[|[|k]]]; [lra|lra|lra|lia].
  - intros k Hk. rewrite H3 in Hk. unfold Kin_spec.residual. rewrite (proj1 Hs). rewrite (Rsum_ext 7 _ (fun j => ball_jac (3 + nth k [0; 1; 2]%nat 0%nat) j * match j with 3%nat => vat (snd e) 0 | 4%nat => vat (snd e) 1 | 6%nat => vat (snd e) 2 | _ => 0 end)) by (intros j _; rewrite HJ; reflexivity).
    destruct k as [|[|[|k]]]; [cbn; ring|cbn; ring|cbn; ring|lia].
  - discriminate.
  - exists s', delta, (ball_path delta). cbv zeta. split; [apply one_reachable|]. split; [exact So|]. split; [exact E|]. split; [apply ball_starts|]. split; [apply ball_turns; exact L|].
    apply rotation_mul; [apply rotation_x|apply rotation_y].
Qed.

(** The angle between the axis of the frame and the target decreases in the same way, and the axis moves in the plane of both; the theorem is partial
    because the axis must not be aligned with the target, or opposed to it. *)
Theorem C131_axis_align_partial pn log3 msqrt N s r apply qr qp s' r' delta t part q f axis target : kreachable pn log3 msqrt N s -> sound pn log3 msqrt s r ->
  qr_correct qr -> qp_correct qp -> ksolve pn log3 msqrt qr qp s r apply = (s', r', Ok delta) -> In t (ks_tasks s) -> imposed s' t part ->
  m_nv (r_model r) = N -> starts r q -> turns pn (r_model r) q delta f -> always_rigid pn q f -> kt_kind t = KAxisAlign f axis target ->
  let v u := m3_vec (fr_R (pn_frame pn (q u) f)) axis in v3_cross (v 0) target <> v3_zero ->
  reduced part (fun u => angle_between (v u) target) /\ exists dv, v3_deriv v 0 dv /\ v3_dot (v3_cross (v 0) target) dv = 0.
Proof.
  intros Rh So Hqr Hqp E Ht Hi HN Hq Hm Hr Hk v Hne.
  destruct (imposed_rows pn log3 msqrt N s r apply qr qp s' r' delta t part Rh So Hqr Hqp E Ht Hi) as (e & Hu & C & L & H). rewrite Hk in Hu. cbn in Hu. bind Hu o Eo.
  destruct (axis_align_rows pn N r f axis target o q delta (eq_sym HN) Hq Hm Hne Eo) as (A & b & -> & RA & B0 & B1 & H0 & H1). injection Hu as <-. cbn [fst snd] in *.
  pose proof (H 0%nat ltac:(lia)) as X0. pose proof (H 1%nat ltac:(lia)) as X1. rewrite H0, B0 in X0. rewrite H1, B1 in X1. clear H H0 H1. set (w := rows3 (pn_jac pn (q 0) f World) 3 delta) in *.
  assert (D : m3_deriv (fun u => fr_R (pn_frame pn (q u) f)) 0 (m3_mul (skew w) (fr_R (pn_frame pn (q 0) f)))) by apply Hm. change (m3_vec (fr_R (pn_frame pn (q 0) f)) axis) with (v 0) in *. split.
  - unfold reduced. rewrite <- X1. exact (angle_deriv (fun u => fr_R (pn_frame pn (q u) f)) axis target w Hr D Hne).
  - exists (v3_cross w (v 0)). split; [exact (vector_deriv (fun u => fr_R (pn_frame pn (q u) f)) 0 w axis D)|].
    assert (Hv : v 0 <> v3_zero) by (intros F; apply Hne; rewrite F; apply cross_zero_l). assert (Htg : target <> v3_zero) by (intros F; apply Hne; rewrite F; apply cross_zero_r).
    pose proof (norm_pos _ Hv) as Pv. pose proof (norm_pos _ Htg) as Pt.
    assert (Hc : v3_cross (v3_normalize (v 0)) (v3_normalize target) <> v3_zero).
    { rewrite cross_normalized by assumption. apply scale_nonzero; [|exact Hne]. apply Rinv_neq_0_compat. nra. }
    pose proof (norm_pos _ Hc) as Pc. rewrite (normalize_scale _ Hc) in X0. set (n := v3_norm (v3_cross (v3_normalize (v 0)) (v3_normalize target))) in *.
    rewrite (cross_normalized (v 0) target Hv Htg), (normalize_scale (v 0) Hv) in X0.
    assert (Y : v3_dot (v3_cross (v 0) target) (v3_cross w (v 0)) * (/ n * (/ (v3_norm (v 0) * v3_norm target) * / v3_norm (v 0))) = 0).
    { transitivity (- (part * 0)); [|ring]. rewrite <- X0. unfold v3_dot, v3_cross, v3_scale. cbn. ring. }
    apply Rmult_integral in Y. destruct Y as [Y|Y]; [exact Y|exfalso]. revert Y. apply Rgt_not_eq. pose proof (Rinv_0_lt_compat _ Pc). pose proof (Rinv_0_lt_compat _ Pv).
    assert (0 < / (v3_norm (v 0) * v3_norm target)) by (apply Rinv_0_lt_compat; nra). apply Rmult_lt_0_compat; [assumption|]. now apply Rmult_lt_0_compat.
Qed.
Print Assumptions C131_axis_align_partial.

(** When the axis is aligned with the target, or opposed to it, the matrix of the task is not finite. *)
Theorem C131_axis_aligned_behaviour pn log3 msqrt N dt r f axis target J : up_to_date r -> (f < List.length (m_frames (r_model r)))%nat ->
  block (frame_jacobian pn r f World) 3 0 3 N = Ok J -> m3_vec (fr_R (pn_frame pn (st_q (r_state r)) f)) axis <> v3_zero -> target <> v3_zero ->
  v3_cross (m3_vec (fr_R (pn_frame pn (st_q (r_state r)) f)) axis) target = v3_zero -> task_update pn log3 msqrt N dt r (KAxisAlign f axis target) = UB.
Proof.
  intros Se Hf EJ Hv Ht Hc. cbn [task_update]. unfold axis_align_update, get_T_world_frame, guard. apply Nat.ltb_lt in Hf. rewrite Hf, Se. cbn [fst obind]. rewrite EJ. cbn [obind].
  unfold axis_frame. set (v := m3_vec (fr_R (pn_frame pn (st_q (r_state r)) f)) axis) in *. rewrite (cross_normalized v target Hv Ht). rewrite Hc.
  assert (Z : v3_normalize (v3_scale (/ (v3_norm v * v3_norm target)) v3_zero) = v3_zero).
  { replace (v3_scale (/ (v3_norm v * v3_norm target)) v3_zero) with v3_zero by (apply V3_ext; cbn; ring). unfold v3_normalize. destruct (Rlt_dec _ _) as [l|]; [|reflexivity]. unfold v3_dot in l. cbn in l. lra. }
  rewrite Z, cross_zero_l. unfold m3_inverse. destruct (Req_EM_T _ 0) as [_|n]; [reflexivity|]. exfalso. apply n. unfold m3_det, columns. cbn. ring.
Qed.
Print Assumptions C131_axis_aligned_behaviour.

Lemma normalize_unit v : v3_dot v v = 1 -> v3_normalize v = v.
Proof.
  intros H. assert (v <> v3_zero) by (intros ->; unfold v3_dot in H; cbn in H; lra). rewrite normalize_scale by assumption. unfold v3_norm. rewrite H, sqrt_1. apply V3_ext; cbn; field.
Qed.
Lemma rot_z_inverse a : m3_inverse (rot_z a) = Some (m3_t (rot_z a)).
Proof.
  pose proof (sin2_cos2 a) as S. unfold Rsqr in S. unfold m3_inverse. assert (D : m3_det (rot_z a) = 1) by (unfold m3_det, rot_z; cbn; lra). rewrite D. destruct (Req_EM_T 1 0); [lra|]. f_equal. rewrite Rinv_1.
  apply M3_ext; unfold m3_scale, m3_adj, m3_t, rot_z; cbn; lra.
Qed.

(** The ball joint turns the axis x of the frame, which is not along y. *)
Example C131_axis_align_example : exists s' delta q,
  let t := KTask (KAxisAlign 2 (V3 1 0 0) (V3 0 1 0)) PHard 1 in let s := one_task 1 false t [] in
  kreachable ball_pin klog ex_sqrt 7 s /\ sound ball_pin klog ex_sqrt s ex_robot /\ ksolve ball_pin klog ex_sqrt perfect_qr perfect_qp s ex_robot false = (s', ex_robot, Ok delta) /\
  starts ex_robot q /\ turns ball_pin ex_model q delta 2 /\ always_rigid ball_pin q 2 /\ v3_cross (m3_vec (fr_R (pn_frame ball_pin (q 0) 2)) (V3 1 0 0)) (V3 0 1 0) <> v3_zero.
Proof.
  set (t := KTask (KAxisAlign 2 (V3 1 0 0) (V3 0 1 0)) PHard 1). destruct sin_cos_half as [S C]. pose proof (sin2_cos2 (1 / 2)) as SC. unfold Rsqr in SC.
  assert (F : axis_frame (ball_at ex_q) (V3 1 0 0) (v3_normalize (V3 0 1 0)) = rot_z (1 / 2)).
  { rewrite (normalize_unit (V3 0 1 0)) by (unfold v3_dot; cbn; lra). unfold axis_frame.
    assert (X : m3_vec (fr_R (ball_at ex_q)) (V3 1 0 0) = V3 (cos (1 / 2)) (sin (1 / 2)) 0).
    { unfold ball_at, ex_q. cbn. unfold rot_x, rot_y, rot_z. rewrite cos_0, sin_0. apply V3_ext; cbn; ring. }
    rewrite X, (normalize_unit (V3 (cos (1 / 2)) (sin (1 / 2)) 0)) by (unfold v3_dot; cbn; lra).
    assert (Z : v3_normalize (v3_cross (V3 (cos (1 / 2)) (sin (1 / 2)) 0) (V3 0 1 0)) = V3 0 0 1).
    { replace (v3_cross (V3 (cos (1 / 2)) (sin (1 / 2)) 0) (V3 0 1 0)) with (V3 0 0 (cos (1 / 2))) by (apply V3_ext; cbn; ring).
      rewrite normalize_scale by (intros G; pose proof (f_equal vz G) as G'; cbn in G'; lra). unfold v3_norm, v3_dot. cbn. replace (0 * 0 + 0 * 0 + cos (1 / 2) * cos (1 / 2)) with (Rsqr (cos (1 / 2))) by (unfold Rsqr; ring).
      rewrite sqrt_Rsqr by lra. apply V3_ext; cbn; field; lra. }
    cbv zeta. rewrite Z. unfold columns, rot_z. apply M3_ext; cbn; ring. }
  assert (X : exists e, task_update ball_pin klog ex_sqrt 7 1 ex_robot (kt_kind t) = Ok e /\ shaped 7 e /\ mrows (fst e) = 2%nat /\
      mat_at (fst e) 0 3 = - sin (1 / 2) /\ (forall j, (j < 7)%nat -> mat_at (fst e) 1 j = if Nat.eqb j 6 then 1 else 0) /\ mat_at (fst e) 0 6 = 0 /\ vat (snd e) 0 = 0).
  { unfold t. cbn [task_update kt_kind]. unfold axis_align_update, get_T_world_frame, frame_jacobian, guard. cbn [ex_robot r_model m_frames ex_model List.length Nat.ltb Nat.leb r_seen fst ball_pin pn_frame Nat.eqb obind].
    change (st_q _) with ex_q. rewrite F, rot_z_inverse. eexists. split; [cbn; reflexivity|]. split; [split; reflexivity|]. split; [reflexivity|]. split; [cbn; ring|]. split; [|split; [cbn; ring|reflexivity]].
    intros j Hj. do 7 (destruct j as [|j]; [cbn; ring|]). lia. }
  destruct X as (e & Hu & Hs & H2 & A03 & A1 & A06 & B0).
  destruct (one_solved ball_pin klog ex_sqrt 1 false t e (fun j => if Nat.eqb j 6 then vat (snd e) 1 else 0) Hu Hs eq_refl) as (So & s' & delta & E & L).
  - rewrite H2. intros mu H k Hk. cbn in Hk. pose proof (H 3%nat ltac:(lia)) as A. pose proof (H 6%nat ltac:(lia)) as B. cbn [seq map app List.length nth Rsum Nat.ltb Nat.leb] in A, B.
    rewrite !A1 in A, B by lia. rewrite A03 in A. rewrite A06 in B. cbn in A, B.
    assert (M : mu 0%nat * sin (1 / 2) = 0) by lra. apply Rmult_integral in M. destruct k as [|[|k]]; [destruct M; lra|lra|lia].
  - intros k Hk. rewrite H2 in Hk. unfold Kin_spec.residual. rewrite (proj1 Hs), (Rsum_delta 7 6); [|lia|intros j _ Hj; apply Nat.eqb_neq in Hj; rewrite Hj; ring].
    cbn [Nat.eqb]. destruct k as [|[|k]]; [rewrite A06, B0; ring|rewrite A1 by lia; cbn; ring|lia].
  - discriminate.
  - exists s', delta, (ball_path delta). cbv zeta. split; [apply one_reachable|]. split; [exact So|]. split; [exact E|]. split; [apply ball_starts|]. split; [apply ball_turns; exact L|]. split; [apply ball_rigid|].
    intros G. pose proof (f_equal vz G) as G'. cbn in G'. rewrite !Rmult_0_l, ?Rplus_0_r, cos_0, sin_0 in G'. lra.
Qed.

(** An axis that has reached its target, in a state of the solver that can be reached: the program does not give a displacement. *)
Theorem C131_axis_align_refuted : exists pn log3 msqrt N s r t f axis target, kreachable pn log3 msqrt N s /\ In t (ks_tasks s) /\ kt_kind t = KAxisAlign f axis target /\ up_to_date r /\
  rigid (pn_frame pn (st_q (r_state r)) f) /\ angle_between (m3_vec (fr_R (pn_frame pn (st_q (r_state r)) f)) axis) target = 0 /\
  forall qr qp apply, snd (ksolve pn log3 msqrt qr qp s r apply) = UB.
Proof.
  set (t := KTask (KAxisAlign 2 (V3 0 0 1) (V3 0 0 1)) PSoft 1).
  exists arm_pin, klog, ex_sqrt, 7%nat, (one_task 1 true t []), ex_robot, t, 2%nat, (V3 0 0 1), (V3 0 0 1).
  assert (X : m3_vec (fr_R (pn_frame arm_pin (st_q (r_state ex_robot)) 2)) (V3 0 0 1) = V3 0 0 1) by (apply V3_ext; cbn; ring).
  assert (H1 : v3_norm (V3 0 0 1) = 1) by (unfold v3_norm, v3_dot; cbn; transitivity (sqrt 1); [f_equal; ring|apply sqrt_1]).
  split; [apply one_reachable|]. split; [now left|]. split; [reflexivity|]. split; [reflexivity|]. split; [apply rotation_z|]. split.
  - rewrite X. unfold angle_between. rewrite H1. unfold v3_dot. cbn. replace ((0 * 0 + 0 * 0 + 1 * 1) / (1 * 1)) with 1 by field. apply acos_1.
  - intros qr qp ap.
    assert (U : task_update arm_pin klog ex_sqrt 7 1 ex_robot (KAxisAlign 2 (V3 0 0 1) (V3 0 0 1)) = UB).
    { eapply C131_axis_aligned_behaviour; [reflexivity|cbn; lia|reflexivity| | |]; rewrite ?X; [intros G; pose proof (f_equal vz G) as G'; cbn in G'; lra|intros G; pose proof (f_equal vz G) as G'; cbn in G'; lra|apply V3_ext; cbn; ring]. }
    unfold ksolve. cbn [one_task with_settings new_ksolver ensure_qd ks_qd kset_vars kset_problem kset_scale ks_tasks add_tasks_to_problem]. unfold add_task_to_problem. cbn [ks_N ks_dt kset_vars kset_problem kset_scale kt_kind t].
    match goal with |- context[task_update _ _ _ ?n ?d ?r ?k] => change (task_update arm_pin klog ex_sqrt n d r k) with (task_update arm_pin klog ex_sqrt 7 1 ex_robot (KAxisAlign 2 (V3 0 0 1) (V3 0 0 1))) end.
    rewrite U. reflexivity.
Qed.
Print Assumptions C131_axis_align_refuted.
