From Coq Require Import Reals List ZArith Bool String Lra Lia Classical.
From Verif Require Import Base Linalg Angle Geom3 Tools_model Geometry_model Geometry_proofs Expression_model Problem_model Problem_spec Problem_props Polynom_model Polynom_spec Robot_model
  Robot_spec Robot_proofs Robot_props KinTasks_model Kin_model Kin_spec Kin_proofs Kin_proofs2 Kin_proofs5 Kin_proofs6 Kin_proofs7 Kin_props DynTasks_model DynTasks_proofs Tasks_spec Tasks_proofs
  KinTasks_spec KinTasks_proofs Backends_proofs KinTasks_example KinCons_spec KinCons_proofs KinReg_spec KinReg_proofs.
Import ListNotations.
Open Scope R_scope.

(** ** C133 Regularization, kinetic energy and angular momentum *)

(** The penalty of a soft regularization task, whatever was done with the task before: half its weight times the weighted sum of the squares of the
    displacements of the joints, each with the last weight it was given. The base has no penalty. *)
Theorem C133_regularization pn log3 msqrt N s r apply qr qp s' r' delta t l g (x : vec) W : kreachable pn log3 msqrt N s -> sound pn log3 msqrt s r ->
  ksolve pn log3 msqrt qr qp s r apply = (s', r', Ok delta) -> In t (ks_tasks s) -> kt_priority t = PSoft -> well_formed (r_model r) ->
  kt_kind t = KRegularization g -> reg_after N r l = Ok g -> no_negative l -> (forall j, (6 <= j < N)%nat -> dof_weight r l j (W j)) ->
  task_penalty pn log3 msqrt s r t (vat x) = kt_weight t / 2 * Rsum (N - 6) (fun i => W (6 + i)%nat * Rsqr (vat x (6 + i)%nat)).
Proof.
  intros Rh So E Ht Hp Wf Hk Hg Hn HW. destruct (solved_updates pn log3 msqrt N s r apply qr qp s' r' delta t Rh So E Ht) as (_ & e & Hu).
  unfold task_penalty. rewrite Hp, (proj1 (reachable_knows _ _ _ _ _ Rh)), Hu. f_equal. rewrite Hk in Hu. exact (reg_cost N r l g e (vat x) W Wf Hg Hu Hn HW).
Qed.
Print Assumptions C133_regularization.
(** Every degree of freedom has exactly one weight. *)
Theorem C133_weights r l j : well_formed (r_model r) -> exists! w, dof_weight r l j w.
Proof.
  intros Wf. assert (U : forall n n', dof_of r n j -> dof_of r n' j -> n = n').
  { intros n n' (a & Ha & Hn & Hj) (b & Hb & Hn' & Hj'). destruct (String.string_dec n n') as [|Hne]; [assumption|]. destruct Wf as (_ & _ & _ & Wf & _).
    destruct (Wf a b Ha Hb ltac:(congruence)) as [_ Ap]. unfold apart in Ap. lia. }
  destruct (classic (exists name w, dof_of r name j /\ joint_weight l name = Some w)) as [(name & w & Hd & Hw)|H].
  - exists w. split; [left; eauto|]. intros w' [(n' & Hd' & Hw')|[Hno _]].
    + rewrite (U n' name Hd' Hd) in Hw'. congruence.
    + rewrite (Hno name Hd) in Hw. discriminate.
  - exists (default_weight l). split.
    + right. split; [|reflexivity]. intros name Hd. destruct (joint_weight l name) as [w|] eqn:E; [|reflexivity]. exfalso. apply H. eauto.
    + intros w' [(n' & Hd' & Hw')|[_ ->]]; [exfalso; apply H; eauto|reflexivity].
Qed.
Print Assumptions C133_weights.

(** The penalty of a soft kinetic energy task: half its weight times the kinetic energy of the robot, moving with the displacement in dt. *)
Theorem C133_kinetic pn log3 msqrt N s r apply qr qp s' r' delta t M (x : vec) : kreachable pn log3 msqrt N s -> sound pn log3 msqrt s r ->
  ksolve pn log3 msqrt qr qp s r apply = (s', r', Ok delta) -> In t (ks_tasks s) -> kt_priority t = PSoft -> kt_kind t = KKinetic ->
  mass_matrix pn r = Ok M -> mrows M = N -> square_root M (msqrt M) ->
  ks_dt s <> 0 /\ task_penalty pn log3 msqrt s r t (vat x) = kt_weight t / 2 * kinetic_energy M (fun j => vat x j / ks_dt s).
Proof.
  intros Rh So E Ht Hp Hk HM HN HS. destruct (solved_updates pn log3 msqrt N s r apply qr qp s' r' delta t Rh So E Ht) as (_ & e & Hu).
  assert (Hu' := Hu). rewrite Hk in Hu'. destruct (kinetic_cost pn msqrt N (ks_dt s) r M e (vat x) HM HS Hu' HN) as [Hd C]. split; [exact Hd|].
  unfold task_penalty. rewrite Hp, (proj1 (reachable_knows _ _ _ _ _ Rh)), Hu. f_equal. exact C.
Qed.
Print Assumptions C133_kinetic.

(** The centroidal angular momentum of the robot, moving with the displacement in dt, is the target of a hard task along each axis of its mask, and a part
    of it for a scaled task. *)
Theorem C133_momentum pn log3 msqrt N s r apply qr qp s' r' delta t part L m : kreachable pn log3 msqrt N s -> sound pn log3 msqrt s r ->
  qr_correct qr -> qp_correct qp -> ksolve pn log3 msqrt qr qp s r apply = (s', r', Ok delta) -> In t (ks_tasks s) -> imposed s' t part ->
  up_to_date r -> kt_kind t = KCentroidal L m -> mcols (pn_centroidal pn (st_q (r_state r))) = N ->
  ks_dt s <> 0 /\ forall k, (k < List.length (m_indices m))%nat -> let axis := mask_axis m (row3 (m_R_local m)) k in
    v3_dot axis (rows3 (pn_centroidal pn (st_q (r_state r))) 3 (vec_scale (/ ks_dt s) delta)) = part * v3_dot axis L.
Proof.
  intros Rh So Hqr Hqp E Ht Hi Hs Hk HC.
  destruct (imposed_rows pn log3 msqrt N s r apply qr qp s' r' delta t part Rh So Hqr Hqp E Ht Hi) as (e & Hu & C & Ld & H). rewrite Hk in Hu. cbn in Hu.
  destruct (centroidal_rows pn N (ks_dt s) r L m e _ delta Hs eq_refl HC Ld Hu) as (Hd & HR & X). split; [exact Hd|]. intros k Hl axis. destruct (X k Hl) as [X1 X2]. unfold axis. rewrite <- X1, <- X2.
  apply H. rewrite HR. exact Hl.
Qed.
Print Assumptions C133_momentum.
(** The penalty of a soft one: half its weight times the square of the distance to the target, along the axes of the mask. *)
Theorem C133_momentum_soft pn log3 msqrt N s r apply qr qp s' r' delta t L m (x : vec) : kreachable pn log3 msqrt N s -> sound pn log3 msqrt s r ->
  ksolve pn log3 msqrt qr qp s r apply = (s', r', Ok delta) -> In t (ks_tasks s) -> kt_priority t = PSoft ->
  up_to_date r -> kt_kind t = KCentroidal L m -> mcols (pn_centroidal pn (st_q (r_state r))) = N -> vlen x = N ->
  task_penalty pn log3 msqrt s r t (vat x) = kt_weight t / 2 * Rsum (List.length (m_indices m)) (fun k =>
    Rsqr (v3_dot (mask_axis m (row3 (m_R_local m)) k) (v3_sub (rows3 (pn_centroidal pn (st_q (r_state r))) 3 (vec_scale (/ ks_dt s) x)) L))).
Proof.
  intros Rh So E Ht Hp Hs Hk HC Lx. destruct (solved_updates pn log3 msqrt N s r apply qr qp s' r' delta t Rh So E Ht) as (_ & e & Hu).
  unfold task_penalty. rewrite Hp, (proj1 (reachable_knows _ _ _ _ _ Rh)), Hu. f_equal. rewrite Hk in Hu. cbn in Hu.
  destruct (centroidal_rows pn N (ks_dt s) r L m e _ x Hs eq_refl HC Lx Hu) as (Hd & HR & X). rewrite HR. apply Rsum_ext. intros k Hl. destruct (X k Hl) as [X1 X2]. unfold Kin_spec.residual. rewrite X1, X2.
  f_equal. unfold v3_dot, v3_sub. cbn [vx vy vz]. ring.
Qed.
Print Assumptions C133_momentum_soft.

(** *** Examples *)

(** All the joints have the weight 9, then the hinge has the weight 4; the task has been used in between. *)
Definition r_calls : list reg_call := [RUpdate; RJoint "head" 4; RUpdate; RWeight 9].
Example C133_example_regularization : exists g s' delta W,
  let t := KTask (KRegularization g) PSoft (1 / 1000) in let s := one_task 1 true t [] in
  reg_after 7 ex_robot r_calls = Ok g /\ no_negative r_calls /\ rg_W g <> None /\ well_formed (r_model ex_robot) /\
  kreachable arm_pin klog ex_sqrt 7 s /\ sound arm_pin klog ex_sqrt s ex_robot /\ ksolve arm_pin klog ex_sqrt perfect_qr perfect_qp s ex_robot false = (s', ex_robot, Ok delta) /\
  (forall j, (6 <= j < 7)%nat -> dof_weight ex_robot r_calls j (W j)) /\ W 6%nat = 4.
Proof.
  eexists. destruct (one_soft_solved arm_pin klog ex_sqrt 1 (KTask (KRegularization (Regularization [("head"%string, 4)] 9
    (Some (Mat 7 7 (fun i j => if Nat.eqb i j then (if Nat.leb 6 i && Nat.ltb i 7 then sqrt 4 else sqrt 9) else 0))))) PSoft (1 / 1000))
    (Mat 1 7 (fun i j => if Nat.eqb (6 + i) j then (if Nat.leb 6 (6 + i) && Nat.ltb (6 + i) 7 then sqrt 4 else sqrt 9) else 0), zeros 1)) as (So & s' & delta & E & L); [reflexivity|split; reflexivity|reflexivity|cbn; lra|].
  exists s', delta, (fun _ => 4). cbv zeta. split; [reflexivity|]. split.
  { intros c Hc. cbn in Hc. repeat (destruct Hc as [<-|Hc]); try destruct Hc; cbn; try exact I; lra. }
  split; [discriminate|]. split; [apply ex_well_formed|]. split; [apply one_reachable|]. split; [exact So|]. split; [exact E|]. split; [|reflexivity].
  intros j Hj. left. exists "head"%string. split; [|reflexivity]. exists (Joint "head" 7 1 6 1). split; [cbn; auto|]. split; [reflexivity|cbn; lia].
Qed.

(** A robot with a diagonal mass matrix. *)
Definition diag_sqrt (M : mat) : mat := Mat (mrows M) (mcols M) (fun i j => if Nat.eqb i j then sqrt (mat_at M i i) else 0).
Definition diag_pin : pin := Pin (pn_frame arm_pin) (pn_jac arm_pin) (pn_djac arm_pin) (pn_integrate arm_pin) (pn_difference arm_pin) (pn_neutral arm_pin) (pn_com arm_pin) (pn_comjac arm_pin)
  (pn_dcomjac arm_pin) (pn_centroidal arm_pin) (fun _ => Mat 7 7 (fun i j => if Nat.eqb i j then 6 else 0)) (pn_gravity arm_pin) (pn_nle arm_pin) (pn_joint_jac arm_pin) (pn_joint_djac arm_pin).
Example C133_example_kinetic : exists M s' delta,
  let t := KTask KKinetic PSoft 2 in let s := one_task (1 / 10) true t [] in
  kreachable diag_pin klog diag_sqrt 7 s /\ sound diag_pin klog diag_sqrt s ex_robot /\ ksolve diag_pin klog diag_sqrt perfect_qr perfect_qp s ex_robot false = (s', ex_robot, Ok delta) /\
  mass_matrix diag_pin ex_robot = Ok M /\ mrows M = 7%nat /\ square_root M (diag_sqrt M) /\ mat_at M 0 0 = 6 /\ mat_at M 6 6 = 16.
Proof.
  assert (EM : mass_matrix diag_pin ex_robot = Ok (Mat 7 7 (fun i j => (if Nat.ltb j i then (if Nat.eqb j i then 6 else 0) else (if Nat.eqb i j then 6 else 0)) + (if Nat.eqb i j then 10 * 10 * (if Nat.eqb i 6 then 1/10 else 0) else 0)))) by reflexivity.
  destruct (one_soft_solved diag_pin klog diag_sqrt (1 / 10) (KTask KKinetic PSoft 2) (match kinetic_update diag_pin diag_sqrt 7 (1 / 10) ex_robot with Ok e => e | _ => (Mat 0 0 (fun _ _ => 0), zeros 0) end)) as (So & s' & delta & E & L).
  - cbn [kt_kind task_update]. unfold kinetic_update. rewrite EM. cbn [obind]. destruct (Req_EM_T (1 / 10) 0); [lra|reflexivity].
  - unfold kinetic_update. rewrite EM. cbn [obind]. destruct (Req_EM_T (1 / 10) 0); [lra|]. split; reflexivity.
  - reflexivity.
  - cbn. lra.
  - eexists. exists s', delta. cbv zeta. split; [apply one_reachable|]. split; [exact So|]. split; [exact E|]. split; [exact EM|]. split; [reflexivity|]. split.
    + set (M := Mat 7 7 _). assert (O : forall i j, i <> j -> mat_at M i j = 0).
      { intros i j Hn. unfold M. cbn [mat_at]. apply Nat.eqb_neq in Hn. rewrite (Nat.eqb_sym j i), Hn. destruct (Nat.ltb j i); ring. }
      assert (P : forall i, 0 <= mat_at M i i). { intros i. unfold M. cbn [mat_at]. rewrite Nat.eqb_refl, Nat.ltb_irrefl. destruct (Nat.eqb i 6); lra. }
      assert (M1 : mrows M = 7%nat /\ mcols M = 7%nat) by (split; reflexivity). clearbody M. destruct M1 as [M1 M2]. split; [congruence|]. split; [reflexivity|]. split; [cbn; congruence|]. split.
      * intros i j _ _. cbn [diag_sqrt mat_at]. rewrite (Nat.eqb_sym j i). destruct (Nat.eqb_spec i j) as [->|]; reflexivity.
      * intros i j Hi Hj. rewrite (Rsum_delta (mrows M) i); [|exact Hi|].
        -- cbn [diag_sqrt mat_at]. rewrite Nat.eqb_refl. destruct (Nat.eqb_spec i j) as [<-|Hn]; [apply sqrt_sqrt, P|rewrite (O i j Hn); ring].
        -- intros k _ Hk. cbn [diag_sqrt mat_at]. destruct (Nat.eqb_spec i k); [congruence|ring].
    + cbn. split; lra.
Qed.

Example C133_example_momentum p : (p = PHard \/ p = PSoft) -> exists s' delta,
  let t := KTask (KCentroidal (V3 7 8 6) (Mask identity3 identity3 [2%nat] TaskFrame)) p 1 in let s := one_task (1 / 10) true t [] in
  kreachable arm_pin klog ex_sqrt 7 s /\ sound arm_pin klog ex_sqrt s ex_robot /\ ksolve arm_pin klog ex_sqrt perfect_qr perfect_qp s ex_robot false = (s', ex_robot, Ok delta) /\
  (p = PHard -> imposed s' t 1) /\ up_to_date ex_robot /\ mcols (pn_centroidal arm_pin (st_q (r_state ex_robot))) = 7%nat.
Proof.
  assert (Hu : exists e, task_update arm_pin klog ex_sqrt 7 (1 / 10) ex_robot (KCentroidal (V3 7 8 6) (Mask identity3 identity3 [2%nat] TaskFrame)) = Ok e /\ shaped 7 e /\ mrows (fst e) = 1%nat /\ mat_at (fst e) 0 6 <> 0).
  { eexists. split; [|split; [|split]].
    - cbn [task_update]. unfold centroidal_update. cbn [obind block centroidal_map]. destruct (Req_EM_T (1 / 10) 0); [lra|]. cbn. reflexivity.
    - split; reflexivity.
    - reflexivity.
    - cbn. lra. }
  destruct Hu as (e & Hu & Hs & H1 & H6). intros [-> | ->].
  - destruct (one_row_solved arm_pin klog ex_sqrt (1 / 10) (KTask (KCentroidal (V3 7 8 6) (Mask identity3 identity3 [2%nat] TaskFrame)) PHard 1) e Hu Hs eq_refl H1 H6) as (So & s' & delta & E & L).
    exists s', delta. cbv zeta. split; [apply one_reachable|]. split; [exact So|]. split; [exact E|]. split; [intros _; left; split; reflexivity|]. split; reflexivity.
  - destruct (one_soft_solved arm_pin klog ex_sqrt (1 / 10) (KTask (KCentroidal (V3 7 8 6) (Mask identity3 identity3 [2%nat] TaskFrame)) PSoft 1) e Hu Hs eq_refl ltac:(cbn; lra)) as (So & s' & delta & E & L).
    exists s', delta. cbv zeta. split; [apply one_reachable|]. split; [exact So|]. split; [exact E|]. split; [discriminate|]. split; reflexivity.
Qed.

(** ** C134 Wheels *)

(** A hard wheel task, when the axis of the wheel is not the vertical of the surface: the point of the wheel that is the closest to the surface does not slide
    on it, and goes to it; an omniwheel can slide along its axis. *)
Theorem C134_no_slip pn log3 msqrt N s r apply qr qp s' r' delta t part q S joint radius omni T : kreachable pn log3 msqrt N s -> sound pn log3 msqrt s r ->
  qr_correct qr -> qp_correct qp -> ksolve pn log3 msqrt qr qp s r apply = (s', r', Ok delta) -> In t (ks_tasks s) -> imposed s' t part ->
  starts r q -> kt_kind t = KWheel S joint radius omni -> wheel_moves pn r q delta joint T -> rigid S -> v3_cross (z_axis (T 0)) (z_axis S) <> v3_zero -> 0 <= radius ->
  exists p v, wheel_contact_point S (T 0) radius p /\ v3_deriv (carried T p) 0 v /\ v3_dot v (z_axis S) = - (part * height S p) /\
    forall d, v3_dot d (z_axis S) = 0 -> (omni = true -> v3_dot d (z_axis (T 0)) = 0) -> v3_dot v d = 0.
Proof.
  intros Rh So Hqr Hqp E Ht Hi Hq Hk Hm HS Hx Hr.
  destruct (imposed_rows pn log3 msqrt N s r apply qr qp s' r' delta t part Rh So Hqr Hqp E Ht Hi) as (e & Hu & C & Ld & H). rewrite Hk in Hu. cbn in Hu.
  destruct (wheel_rows pn r S joint radius omni e q delta T Hq Hm HS Hx Hr Hu) as (p & v & Q & Hc & Hv & HQ & Hz & H0 & HR & X). exists p, v. split; [exact Hc|]. split; [exact Hv|].
  assert (V0 : v3_dot (frame_axis Q 0) v = 0).
  { destruct (X 0%nat ltac:(rewrite HR; destruct omni; lia)) as [X1 X2]. pose proof (H 0%nat ltac:(rewrite HR; destruct omni; lia)) as X3. rewrite X1, X2 in X3. destruct omni; cbn [Nat.eqb coord vx] in X3; rewrite X3; ring. }
  assert (V2 : v3_dot (frame_axis Q 2) v = - (part * height S p)).
  { destruct omni.
    - destruct (X 1%nat ltac:(rewrite HR; lia)) as [X1 X2]. pose proof (H 1%nat ltac:(rewrite HR; lia)) as X3. rewrite X1, X2 in X3. cbn [Nat.eqb coord vz] in X3. rewrite X3. ring.
    - destruct (X 2%nat ltac:(rewrite HR; lia)) as [X1 X2]. pose proof (H 2%nat ltac:(rewrite HR; lia)) as X3. rewrite X1, X2 in X3. cbn [coord vz] in X3. rewrite X3. ring. }
  split; [rewrite <- V2, Hz; unfold v3_dot; ring|]. intros d Hd Ho. rewrite (in_axes Q v d HQ), V0, V2, Hz. replace (v3_dot (z_axis S) d) with 0 by (rewrite <- Hd; unfold v3_dot; ring).
  destruct omni.
  - specialize (Ho eq_refl). rewrite (in_axes Q d (z_axis (T 0)) HQ), H0, Hz in Ho. replace (v3_dot (z_axis S) d) with 0 in Ho by (rewrite <- Hd; unfold v3_dot; ring).
    destruct (Req_dec (v3_dot (frame_axis Q 1) (z_axis (T 0))) 0) as [Z|Z].
    + exfalso. apply Hx. set (a := z_axis (T 0)) in *. set (z := z_axis S) in *.
      assert (Ea : forall u, v3_dot u (v3_cross a z) = 0).
      { intros u. rewrite (in_axes Q u (v3_cross a z) HQ). 
        assert (Y0 : v3_dot (frame_axis Q 0) (v3_cross a z) = v3_dot (frame_axis Q 1) a).
        { rewrite <- Hz. pose proof (rotation_cross_t Q a (frame_axis Q 2) HQ) as RC. pose proof (f_equal vx RC) as RX. 
          assert (F2 : m3_vec (m3_t Q) (frame_axis Q 2) = V3 0 0 1). { replace (frame_axis Q 2) with (m3_vec Q (V3 0 0 1)) by (destruct Q; apply V3_ext; unfold m3_vec; cbn; ring). rewrite <- m3_vec_mul, (rotation_l _ HQ). apply m3_vec_id. }
          rewrite F2 in RX. unfold v3_cross at 2 in RX. cbn [vx vy vz] in RX. unfold v3_dot, frame_axis. unfold m3_vec, m3_t in RX. cbn in RX |- *. lra. }
        assert (Y1 : v3_dot (frame_axis Q 1) (v3_cross a z) = - v3_dot (frame_axis Q 0) a).
        { rewrite <- Hz. pose proof (rotation_cross_t Q a (frame_axis Q 2) HQ) as RC. pose proof (f_equal vy RC) as RX. 
          assert (F2 : m3_vec (m3_t Q) (frame_axis Q 2) = V3 0 0 1). { replace (frame_axis Q 2) with (m3_vec Q (V3 0 0 1)) by (destruct Q; apply V3_ext; unfold m3_vec; cbn; ring). rewrite <- m3_vec_mul, (rotation_l _ HQ). apply m3_vec_id. }
          rewrite F2 in RX. unfold v3_cross at 2 in RX. cbn [vx vy vz] in RX. unfold v3_dot, frame_axis. unfold m3_vec, m3_t in RX. cbn in RX |- *. lra. }
        assert (Y2 : v3_dot (frame_axis Q 2) (v3_cross a z) = 0) by (rewrite Hz; unfold v3_dot, v3_cross; cbn; ring).
        rewrite Y0, Y1, Y2, Z, H0. ring. }
      apply V3_ext; [generalize (Ea (V3 1 0 0))|generalize (Ea (V3 0 1 0))|generalize (Ea (V3 0 0 1))]; unfold v3_dot; cbn [vx vy vz]; cbn; lra.
    + assert (v3_dot (frame_axis Q 1) d = 0) as ->; [|ring]. apply Rmult_eq_reg_r with (v3_dot (frame_axis Q 1) (z_axis (T 0))); [lra|exact Z].
  - destruct (X 1%nat ltac:(rewrite HR; lia)) as [X1 X2]. pose proof (H 1%nat ltac:(rewrite HR; lia)) as X3. rewrite X1, X2 in X3. cbn [coord vy] in X3. rewrite X3. ring.
Qed.
Print Assumptions C134_no_slip.

(** The center of a wheel that touches the surface then has the velocity of a wheel that rolls: its angular velocity times the vector from the contact. *)
Corollary C134_rolling pn log3 msqrt N s r apply qr qp s' r' delta t part q S joint radius T : kreachable pn log3 msqrt N s -> sound pn log3 msqrt s r ->
  qr_correct qr -> qp_correct qp -> ksolve pn log3 msqrt qr qp s r apply = (s', r', Ok delta) -> In t (ks_tasks s) -> imposed s' t part ->
  starts r q -> kt_kind t = KWheel S joint radius false -> wheel_moves pn r q delta joint T -> rigid S -> v3_cross (z_axis (T 0)) (z_axis S) <> v3_zero -> 0 <= radius ->
  exists p, wheel_contact_point S (T 0) radius p /\ (height S p = 0 -> exists w, moves T 0 (v3_cross w (v3_sub (fr_t (T 0)) p)) w).
Proof.
  intros Rh So Hqr Hqp E Ht Hi Hq Hk Hm HS Hx Hr.
  destruct (C134_no_slip pn log3 msqrt N s r apply qr qp s' r' delta t part q S joint radius false T Rh So Hqr Hqp E Ht Hi Hq Hk Hm HS Hx Hr) as (p & v & Hc & Hv & Hz & Hd).
  exists p. split; [exact Hc|]. intros H0. rewrite H0 in Hz. destruct Hm as (f & j & _ & _ & _ & HR & _ & _ & _ & Hm). set (w := m3_vec (fr_R (T 0)) (rows3 (pn_joint_jac pn (q 0) j Local) 3 delta)) in Hm. exists w.
  assert (V : v = v3_zero).
  { assert (Z : forall u, v3_dot v u = 0).
    { intros u. set (z := z_axis S) in *. assert (Uz : v3_dot z z = 1) by (unfold z; rewrite z_axis_vec, (orthogonal_dot _ _ _ (proj1 HS)); unfold v3_dot, ez; cbn; ring).
      assert (Y1 : v3_dot (v3_sub u (v3_scale (v3_dot u z) z)) z = v3_dot u z * (1 - v3_dot z z)) by (unfold v3_dot; cbn; ring).
      assert (Y2 : v3_dot v u = v3_dot v (v3_sub u (v3_scale (v3_dot u z) z)) + v3_dot u z * v3_dot v z) by (unfold v3_dot; cbn; ring).
      rewrite Y2, Hz, Hd by (try discriminate; rewrite Y1, Uz; ring). ring. }
    apply V3_ext; [generalize (Z (V3 1 0 0))|generalize (Z (V3 0 1 0))|generalize (Z (V3 0 0 1))]; unfold v3_dot; cbn; lra. }
  assert (Hv' := carried_deriv T _ _ p (HR 0) Hm). fold w in Hv'. set (vt := m3_vec (fr_R (T 0)) (rows3 (pn_joint_jac pn (q 0) j Local) 0 delta)) in *.
  assert (U : v3_add vt (v3_cross w (v3_sub p (fr_t (T 0)))) = v3_zero).
  { rewrite <- V. destruct Hv as (A1 & A2 & A3), Hv' as (B1 & B2 & B3). apply V3_ext; [exact (uniqueness_limite _ _ _ _ B1 A1)|exact (uniqueness_limite _ _ _ _ B2 A2)|exact (uniqueness_limite _ _ _ _ B3 A3)]. }
  replace (v3_cross w (v3_sub (fr_t (T 0)) p)) with vt; [exact Hm|].
  pose proof (f_equal vx U) as U1. pose proof (f_equal vy U) as U2. pose proof (f_equal vz U) as U3. cbn in U1, U2, U3. apply V3_ext; unfold v3_cross, v3_sub; cbn; lra.
Qed.
Print Assumptions C134_rolling.

(** A soft wheel task costs half its weight times the squares of the sliding velocity and of the difference between the vertical velocity and the one that leads to the surface. *)
Theorem C134_soft pn log3 msqrt N s r apply qr qp s' r' delta t (x : vec) q S joint radius T : kreachable pn log3 msqrt N s -> sound pn log3 msqrt s r ->
  ksolve pn log3 msqrt qr qp s r apply = (s', r', Ok delta) -> In t (ks_tasks s) -> kt_priority t = PSoft ->
  starts r q -> kt_kind t = KWheel S joint radius false -> wheel_moves pn r q x joint T -> rigid S -> v3_cross (z_axis (T 0)) (z_axis S) <> v3_zero -> 0 <= radius ->
  exists p v, wheel_contact_point S (T 0) radius p /\ v3_deriv (carried T p) 0 v /\
    task_penalty pn log3 msqrt s r t (vat x) = kt_weight t / 2 * Rsqr (v3_norm (v3_add v (v3_scale (height S p) (z_axis S)))).
Proof.
  intros Rh So E Ht Hp Hq Hk Hm HS Hx Hr. destruct (solved_updates pn log3 msqrt N s r apply qr qp s' r' delta t Rh So E Ht) as (_ & e & Hu).
  assert (Hu' := Hu). rewrite Hk in Hu'. cbn in Hu'.
  destruct (wheel_rows pn r S joint radius false e q x T Hq Hm HS Hx Hr Hu') as (p & v & Q & Hc & Hv & HQ & Hz & H0 & HR & X). exists p, v. split; [exact Hc|]. split; [exact Hv|].
  unfold task_penalty. rewrite Hp, (proj1 (reachable_knows _ _ _ _ _ Rh)), Hu. f_equal. unfold v3_norm. rewrite Rsqr_sqrt by (unfold v3_dot; nra). rewrite (in_axes Q _ _ HQ), HR.
  destruct (X 0%nat ltac:(rewrite HR; lia)) as [A0 B0]. destruct (X 1%nat ltac:(rewrite HR; lia)) as [A1 B1]. destruct (X 2%nat ltac:(rewrite HR; lia)) as [A2 B2]. cbn zeta in *. 
  assert (Z0 : v3_dot (frame_axis Q 0) (z_axis S) = 0 /\ v3_dot (frame_axis Q 1) (z_axis S) = 0 /\ v3_dot (frame_axis Q 2) (z_axis S) = 1).
  { rewrite <- Hz. pose proof (rotation_l _ HQ) as O. pose proof (f_equal m02 O) as O1. pose proof (f_equal m12 O) as O2. pose proof (f_equal m22 O) as O3. unfold m3_mul, m3_t, m3_id in O1, O2, O3. cbn in O1, O2, O3. unfold v3_dot, frame_axis. cbn. split; [|split]; lra. }
  destruct Z0 as (Z0 & Z1 & Z2). assert (Lin : forall a h, v3_dot a (v3_add v (v3_scale h (z_axis S))) = v3_dot a v + h * v3_dot a (z_axis S)) by (intros; unfold v3_dot; cbn; ring).
  rewrite !Lin, Z0, Z1, Z2. cbn [Rsum]. unfold Kin_spec.residual. rewrite B0, B1, B2, A0, A1, A2. cbn [coord vx vy vz]. unfold Rsqr. ring.
Qed.
Print Assumptions C134_soft.

(** *** Example: a wheel of radius 1/2, of axis z, that the base translates, on the surface that has x for its vertical *)

Definition cart_frame (q : vec) (f : nat) : frame := Frame (rot_z (vat q 7 - 1 / 2)) (V3 (vat q 0) (vat q 1) (vat q 2)).
Definition cart_jac (q : vec) (i j : nat) : R := if Nat.eqb j 6 then (if Nat.eqb i 5 then 1 else 0) else if Nat.ltb i 3 && Nat.ltb j 3 then mat_at (mat_of3 (m3_t (rot_z (vat q 7 - 1 / 2)))) i j else 0.
Definition cart_pin : pin := Pin cart_frame (pn_jac ex_pin) (pn_djac ex_pin) (pn_integrate ex_pin3) (pn_difference ex_pin) (pn_neutral ex_pin) (pn_com ex_pin) (pn_comjac ex_pin)
  (pn_dcomjac ex_pin) (pn_centroidal ex_pin) (pn_crba ex_pin) (pn_gravity ex_pin) (pn_nle ex_pin) (fun q _ _ => Mat 6 7 (cart_jac q)) (pn_joint_djac ex_pin).
Definition cart_path (x : vec) (u : R) : vec := Vec 8 (fun k => if Nat.eqb k 7 then 1 / 2 + u * vat x 6 else if Nat.ltb k 3 then vat ex_q k + u * vat x k else vat ex_q k).
Definition wall : frame := Frame (M3 0 0 1 1 0 0 0 1 0) (V3 (1 / 3) 0 0).

Lemma cart_starts x : starts ex_robot (cart_path x).
Proof.
  split; [reflexivity|]. unfold cart_path, ex_robot. cbn [r_state st_q]. unfold ex_q. f_equal. apply FunctionalExtensionality.functional_extensionality. intros k.
  do 8 (destruct k as [|k]; [cbn; lra|]). reflexivity.
Qed.
Lemma rot_z_0 : rot_z (1 / 2 - 1 / 2) = m3_id.
Proof. replace (1 / 2 - 1 / 2) with 0 by lra. unfold rot_z. rewrite cos_0, sin_0. apply M3_ext; cbn; ring. Qed.
Lemma cart_here : cart_frame (Vec 8 (fun k => nth k [1; 2; 0; 0; 0; 0; 1; 1 / 2] 0)) 2 = Frame m3_id (V3 1 2 0).
Proof. unfold cart_frame. cbn [vat nth]. rewrite rot_z_0. reflexivity. Qed.
Lemma cart_moves x : vlen x = 7%nat -> wheel_moves cart_pin ex_robot (cart_path x) x "head" (fun u => cart_frame (cart_path x u) 2).
Proof.
  intros L. exists 2%nat, 2%nat. split; [reflexivity|]. split; [reflexivity|]. split; [reflexivity|]. split; [intros u; apply rotation_z|]. split; [reflexivity|]. split; [reflexivity|]. split; [exact L|].
  assert (E0 : vat (cart_path x 0) 7 - 1 / 2 = 0) by (cbn; lra). cbn [cart_pin pn_joint_jac]. unfold cart_frame. cbn [fr_R]. rewrite E0.
  assert (W0 : rows3 (Mat 6 7 (cart_jac (cart_path x 0))) 0 x = V3 (vat x 0) (vat x 1) (vat x 2)).
  { unfold rows3, row_of. cbn [mcols mat_at Rsum]. unfold cart_jac. cbn [Nat.eqb Nat.ltb Nat.leb andb]. rewrite E0. unfold rot_z, m3_t, mat_of3. rewrite cos_0, sin_0. cbn. f_equal; ring. }
  assert (W3 : rows3 (Mat 6 7 (cart_jac (cart_path x 0))) 3 x = V3 0 0 (vat x 6)).
  { unfold rows3, row_of. cbn [mcols mat_at Rsum]. unfold cart_jac. cbn [Nat.eqb Nat.ltb Nat.leb andb]. f_equal; cbn; ring. }
  rewrite W0, W3. replace (rot_z 0) with m3_id by (rewrite <- rot_z_0; f_equal; lra). rewrite !m3_vec_id.
  assert (Lin : forall a b, derivable_pt_lim (fun u => a + u * b) 0 b).
  { intros a b. eapply lim_ext; [intros v; reflexivity| |apply (derivable_pt_lim_plus (fun _ => a) (fun v => v * b)); [apply lim_const|apply (deriv_prod (fun v => v) (fun _ => b) 0 1 0); [apply lim_id|apply lim_const]]]. ring. }
  split; [split; [|split]; cbn; apply Lin|].
  assert (T : derivable_pt_lim (fun u => 1 / 2 + u * vat x 6 - 1 / 2) 0 (vat x 6)).
  { apply (lim_ext (fun u => 1 / 2 - 1 / 2 + u * vat x 6) _ 0 (vat x 6)); [intros v; ring|reflexivity|apply Lin]. }
  set (th := fun u => 1 / 2 + u * vat x 6 - 1 / 2) in *. assert (T0 : th 0 = 0) by (unfold th; lra).
  pose proof (derivable_pt_lim_comp th cos 0 _ _ T (derivable_pt_lim_cos (th 0))) as C. pose proof (derivable_pt_lim_comp th sin 0 _ _ T (derivable_pt_lim_sin (th 0))) as S.
  rewrite T0, sin_0 in C. rewrite T0, cos_0 in S.
  pose proof (derivable_pt_lim_opp _ _ _ S) as O.
  intros e He. cbn [In] in He. repeat (destruct He as [<-|He]); try destruct He; unfold rot_z; cbn [fr_R m00 m01 m02 m10 m11 m12 m20 m21 m22];
    change (vat (cart_path x 0) 7 - 1 / 2) with (th 0); rewrite ?T0, ?cos_0, ?sin_0;
    first [solve [eapply lim_ext; [| |exact C]; [intros u; reflexivity|unfold m3_mul, skew; cbn; ring]]
          |solve [eapply lim_ext; [| |exact S]; [intros u; reflexivity|unfold m3_mul, skew; cbn; ring]]
          |solve [eapply lim_ext; [| |exact O]; [intros u; reflexivity|unfold m3_mul, skew; cbn; ring]]
          |eapply lim_ext; [| |apply lim_const]; [intros u; reflexivity|unfold m3_mul, skew; cbn; ring]].
Qed.
Lemma cart_contact : wheel_contact (Frame (M3 0 1 0 0 0 1 1 0 0) (V3 2 0 (2 / 3))) (1 / 2) = Frame m3_id (V3 2 0 (1 / 6)).
Proof.
  unfold wheel_contact. cbn [fr_R fr_t m20 m21 m02 m12 m22].
  assert (N1 : v3_normalize (V3 (Ropp 1) (Ropp 0) 0) = V3 (-1) 0 0).
  { unfold v3_normalize, v3_norm. destruct (Rlt_dec _ _) as [_|n]; [|exfalso; apply n; unfold v3_dot; cbn; lra]. replace (v3_dot _ _) with 1 by (unfold v3_dot; cbn; ring). rewrite sqrt_1. apply V3_ext; cbn; field. }
  assert (N2 : v3_normalize (v3_cross (V3 0 1 0) (V3 0 0 1)) = V3 1 0 0).
  { unfold v3_normalize, v3_norm. destruct (Rlt_dec _ _) as [_|n]; [|exfalso; apply n; unfold v3_dot; cbn; lra]. replace (v3_dot _ _) with 1 by (unfold v3_dot; cbn; ring). rewrite sqrt_1. apply V3_ext; cbn; field. }
  rewrite N1, N2. cbn zeta. f_equal; [apply M3_ext; cbn; ring|apply V3_ext; cbn; lra].
Qed.
Definition cart_row (k : nat) (j : nat) : R := match k, j with 0%nat, 1%nat => 1 | 0%nat, 6%nat => - (1 / 2) | 1%nat, 2%nat => 1 | 2%nat, 0%nat => 1 | _, _ => 0 end.

Lemma cart_equation (omni : bool) : exists e, wheel_update cart_pin ex_robot wall "head" (1 / 2) omni = Ok e /\ shaped 7 e /\ mrows (fst e) = (if omni then 2 else 3)%nat /\
  forall k, (k < mrows (fst e))%nat -> let i := if omni then (if Nat.eqb k 0 then 0 else 2)%nat else k in
    (forall j, (j < 7)%nat -> mat_at (fst e) k j = cart_row i j) /\ vat (snd e) k = if Nat.eqb i 2 then - (1 / 6) else 0.
Proof.
  unfold wheel_update. replace (get_T_world_frame_name cart_pin ex_robot "head") with (Ok (cart_frame (Vec 8 (fun k => nth k [1; 2; 0; 0; 0; 0; 1; 1 / 2] 0)) 2)) by reflexivity.
  cbn [obind]. rewrite cart_here. replace (frame_mul (frame_inv wall) (Frame m3_id (V3 1 2 0))) with (Frame (M3 0 1 0 0 0 1 1 0 0) (V3 2 0 (2 / 3))).
  2: { unfold frame_mul, frame_inv, wall. cbn [fr_R fr_t]. f_equal; [apply M3_ext; unfold m3_mul, m3_t, m3_id; cbn; ring|apply V3_ext; unfold m3_vec, m3_t; cbn; lra]. }
  rewrite cart_contact. replace (frame_mul _ _) with (Frame (M3 0 1 0 0 0 1 1 0 0) (V3 0 0 (1 / 2))).
  2: { unfold frame_mul, frame_inv. cbn [fr_R fr_t]. f_equal; [apply M3_ext; unfold m3_mul, m3_t, m3_id; cbn; ring|apply V3_ext; unfold m3_vec, m3_t, m3_id; cbn; lra]. }
  replace (joint_jacobian_name cart_pin ex_robot "head" "local") with (Ok (Mat 6 7 (cart_jac (Vec 8 (fun k => nth k [1; 2; 0; 0; 0; 0; 1; 1 / 2] 0))))) by reflexivity. cbn [obind].
  eexists. split; [reflexivity|]. split; [destruct omni; split; reflexivity|]. split; [destruct omni; reflexivity|]. intros k Hk. set (i := if omni then (if Nat.eqb k 0 then 0 else 2)%nat else k).
  assert (Hi : (i < 3)%nat) by (unfold i; destruct omni; cbn in Hk; [destruct (Nat.eqb k 0)|]; lia). split.
  - intros j Hj. transitivity (Rsum 6 (fun l => mat_at (action_matrix (Frame (M3 0 1 0 0 0 1 1 0 0) (V3 0 0 (1 / 2)))) i l * cart_jac (Vec 8 (fun k => nth k [1; 2; 0; 0; 0; 0; 1; 1 / 2] 0)) l j)).
    + unfold i. destruct omni; reflexivity.
    + unfold cart_jac. cbn [vat nth]. rewrite rot_z_0. clearbody i. clear Hk.
      do 3 (destruct i as [|i]; [do 7 (destruct j as [|j]; [cbn; lra|]); lia|]). lia.
  - unfold i in *. destruct omni; cbn in Hk.
    + do 2 (destruct k as [|k]; [cbn; lra|]). lia.
    + do 3 (destruct k as [|k]; [cbn; lra|]). lia.
Qed.

Example C134_example (omni : bool) : exists s' delta,
  let t := KTask (KWheel wall "head" (1 / 2) omni) PHard 1 in let s := one_task 1 false t [] in let T := fun u => cart_frame (cart_path delta u) 2 in
  kreachable cart_pin klog ex_sqrt 7 s /\ sound cart_pin klog ex_sqrt s ex_robot /\ ksolve cart_pin klog ex_sqrt perfect_qr perfect_qp s ex_robot false = (s', ex_robot, Ok delta) /\ imposed s' t 1 /\
  starts ex_robot (cart_path delta) /\ wheel_moves cart_pin ex_robot (cart_path delta) delta "head" T /\ rigid wall /\ v3_cross (z_axis (T 0)) (z_axis wall) <> v3_zero.
Proof.
  destruct (cart_equation omni) as (e & Hu & Hs & HR & He).
  destruct (one_solved cart_pin klog ex_sqrt 1 false (KTask (KWheel wall "head" (1 / 2) omni) PHard 1) e (fun j => if Nat.eqb j 0 then - (1 / 6) else 0) Hu Hs eq_refl) as (So & s' & delta & E & L).
  - rewrite app_nil_r, HR. intros mu H k Hk. rewrite map_length, seq_length in Hk.
    assert (X : forall j, (j < 7)%nat -> Rsum (if omni then 2 else 3) (fun k => mu k * cart_row (if omni then (if Nat.eqb k 0 then 0 else 2)%nat else k) j) = 0).
    { intros j Hj. specialize (H j ltac:(lia)). rewrite map_length, seq_length in H. rewrite <- H. apply Rsum_ext. intros l Hl. f_equal.
      rewrite (nth_indep _ _ ((fun k (j : nat) => if Nat.ltb j 7 then mat_at (fst e) k j else 0) 0%nat)) by (rewrite map_length, seq_length; exact Hl).
      rewrite (map_nth (fun k (j : nat) => if Nat.ltb j 7 then mat_at (fst e) k j else 0) (seq 0 _) 0%nat), seq_nth by exact Hl. destruct (Nat.ltb_spec j 7); [|lia]. rewrite Nat.add_0_l. symmetry. apply (He l); [rewrite HR; exact Hl|exact Hj]. }
    pose proof (X 0%nat ltac:(lia)) as X0. pose proof (X 1%nat ltac:(lia)) as X1. pose proof (X 2%nat ltac:(lia)) as X2. destruct omni; cbn in X0, X1, X2.
    + do 2 (destruct k as [|k]; [lra|]). lia.
    + do 3 (destruct k as [|k]; [lra|]). lia.
  - intros k Hk. destruct (He k Hk) as [Hr Hb]. unfold Kin_spec.residual. rewrite Hb, (proj1 Hs). rewrite (Rsum_ext 7 _ (fun j => cart_row (if omni then (if Nat.eqb k 0 then 0 else 2)%nat else k) j * (if Nat.eqb j 0 then - (1 / 6) else 0))) by (intros j Hj; rewrite (Hr j Hj); reflexivity).
    rewrite HR in Hk. destruct omni; [do 2 (destruct k as [|k]; [cbn; lra|])|do 3 (destruct k as [|k]; [cbn; lra|])]; lia.
  - discriminate.
  - exists s', delta. cbv zeta. split; [apply one_reachable|]. split; [exact So|]. split; [exact E|]. split; [left; split; reflexivity|]. split; [apply cart_starts|]. split; [apply cart_moves; exact L|].
    split; [split; [apply M3_ext; unfold m3_mul, m3_t, wall, m3_id; cbn; ring|unfold m3_det, wall; cbn; ring]|].
    intros Z. pose proof (f_equal vy Z) as Y. cbn in Y. lra.
Qed.

Example C134_soft_example : exists s' delta,
  let t := KTask (KWheel wall "head" (1 / 2) false) PSoft 3 in let s := one_task 1 true t [] in let T := fun u => cart_frame (cart_path delta u) 2 in
  kreachable cart_pin klog ex_sqrt 7 s /\ sound cart_pin klog ex_sqrt s ex_robot /\ ksolve cart_pin klog ex_sqrt perfect_qr perfect_qp s ex_robot false = (s', ex_robot, Ok delta) /\
  starts ex_robot (cart_path delta) /\ wheel_moves cart_pin ex_robot (cart_path delta) delta "head" T /\ rigid wall /\ v3_cross (z_axis (T 0)) (z_axis wall) <> v3_zero.
Proof.
  destruct (cart_equation false) as (e & Hu & Hs & HR & He).
  destruct (one_soft_solved cart_pin klog ex_sqrt 1 (KTask (KWheel wall "head" (1 / 2) false) PSoft 3) e Hu Hs eq_refl ltac:(cbn; lra)) as (So & s' & delta & E & L).
  exists s', delta. cbv zeta. split; [apply one_reachable|]. split; [exact So|]. split; [exact E|]. split; [apply cart_starts|]. split; [apply cart_moves; exact L|].
  split; [split; [apply M3_ext; unfold m3_mul, m3_t, wall, m3_id; cbn; ring|unfold m3_det, wall; cbn; ring]|].
  intros Z. pose proof (f_equal vy Z) as Y. cbn in Y. lra.
Qed.
