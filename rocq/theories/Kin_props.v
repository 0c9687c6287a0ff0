(** Properties of the kinematics solver (C62 to C65, C115 to C119). *)
From Coq Require Import Reals List ZArith Bool Lia Lra String Permutation.
From Verif Require Import Base Linalg Geom3 Tools_model Geometry_model Expression_model Problem_model Problem_spec Polynom_model Backends_proofs
  Robot_model Robot_spec Robot_proofs Robot_props KinTasks_model Kin_model Kin_spec Kin_proofs Kin_proofs2 Kin_proofs3 Kin_proofs4 Kin_proofs5 Kin_proofs6
  Kin_proofs7.
Import ListNotations.
Open Scope R_scope.

(** In the theorems below, [pn] is pinocchio, [log3] its logarithm of rotations, [msqrt] the square root of a matrix, [qr] and [qp] the two back-ends
    of the problem; [s] is a solver reached by any history of changes of settings and of solves. *)

(** ** C62 Masks and limits *)

(** The hypothesis [sound] of the theorems below is met by every solver of the robot, as soon as its custom tasks and constraints, if any, have the
    sizes of the robot. *)
Theorem C62_built_in_tasks_are_sound pn log3 msqrt s r : pin_sized pn msqrt (ks_N s) -> m_nv (r_model r) = ks_N s ->
  custom_sound s r -> caches_sized s -> sound pn log3 msqrt s r.
Proof. apply built_in_sound. Qed.
Print Assumptions C62_built_in_tasks_are_sound.

Theorem C62_masks pn log3 msqrt N s r apply qr qp s' r' delta : kreachable pn log3 msqrt N s -> sound pn log3 msqrt s r -> qr_correct qr -> qp_correct qp ->
  ksolve pn log3 msqrt qr qp s r apply = (s', r', Ok delta) ->
  vlen delta = N /\ (forall j, In j (ks_masked s) -> (j < N)%nat /\ vat delta j = 0) /\
  (ks_masked_fbase s = true -> (6 <= N)%nat /\ forall j, (j < 6)%nat -> vat delta j = 0).
Proof.
  intros R So Hqr Hqp E. apply reachable_knows in R. destruct (ksolve_allowed pn log3 msqrt N s r apply qr qp s' r' delta R So Hqr Hqp E) as [L A].
  destruct (ksolve_solved pn log3 msqrt N s r apply qr qp s' r' delta R) as (s2 & pb' & Sv); [rewrite <- (proj1 R); apply So|exact E|].
  pose proof (so_prepared _ _ _ _ _ _ _ _ _ _ _ _ _ _ Sv) as P. split; [exact L|]. split.
  - intros j Hj. pose proof (pr_masked _ _ _ _ _ _ _ P j Hj) as Hlt. split; [exact Hlt|]. pose proof (al_masked _ _ _ _ _ _ A j Hj) as H.
    unfold extended in H. rewrite L in H. apply Nat.ltb_lt in Hlt. now rewrite Hlt in H.
  - intros Hf. pose proof (pr_fbase _ _ _ _ _ _ _ P Hf) as H6. split; [exact H6|]. intros j Hj. pose proof (al_fbase _ _ _ _ _ _ A Hf j Hj) as H.
    unfold extended in H. rewrite L in H. assert (Hlt : Nat.ltb j N = true) by (apply Nat.ltb_lt; lia). now rewrite Hlt in H.
Qed.
Print Assumptions C62_masks.

(** mask_dof masks exactly the degrees of freedom of the joint, and changes nothing else; unmask_dof unmasks exactly those. *)
Theorem C62_mask_dof r s name : well_formed (r_model r) -> has_joint r name ->
  exists s', mask_dof r s name = Ok s' /\ (forall k, In k (ks_masked s') <-> In k (ks_masked s) \/ dof_of r name k) /\
    exists l, s' = kset_masked s l.
Proof. apply mask_dof_ok. Qed.
Print Assumptions C62_mask_dof.
Theorem C62_unmask_dof r s name : well_formed (r_model r) -> has_joint r name ->
  exists s', unmask_dof r s name = Ok s' /\ (forall k, In k (ks_masked s') <-> In k (ks_masked s) /\ ~ dof_of r name k) /\
    exists l, s' = kset_masked s l.
Proof. apply unmask_dof_ok. Qed.
Print Assumptions C62_unmask_dof.

(** The joint limits, for the robots of which every joint (the base excepted) has one number in q and one in v. Missing: the other robots, for which
    the property is false (below). *)
Theorem C62_joint_limits_partial pn log3 msqrt N s r apply qr qp s' r' delta name : kreachable pn log3 msqrt N s -> sound pn log3 msqrt s r ->
  qr_correct qr -> qp_correct qp -> ksolve pn log3 msqrt qr qp s r apply = (s', r', Ok delta) ->
  well_formed_robot r -> m_nv (r_model r) = N -> simple_joints (r_model r) -> ks_joint_limits s = true -> has_joint r name -> name <> "root_joint"%string ->
  exists q lower upper k, get_joint r name = Ok q /\ get_joint_limits r name = Ok (lower, upper) /\ get_joint_v_offset r name = Ok k /\
    lower <= q + vat delta k <= upper /\
    (apply = true -> integrates pn (r_model r) -> exists q', get_joint r' name = Ok q' /\ get_joint_limits r' name = Ok (lower, upper) /\ lower <= q' <= upper).
Proof.
  intros R So Hqr Hqp E W EN [Snq Sj] Hl Hn Hroot. apply reachable_knows in R. destruct (ksolve_allowed pn log3 msqrt N s r apply qr qp s' r' delta R So Hqr Hqp E) as [L A].
  destruct (ksolve_solved pn log3 msqrt N s r apply qr qp s' r' delta R) as (s2 & pb' & Sv); [rewrite <- (proj1 R); apply So|exact E|].
  destruct (offsets r name W Hn) as (j & Hj & En & Eq & Ev & Hq & Hv). destruct (Sj j Hj ltac:(congruence)) as (N1 & N2 & N3 & N4).
  pose proof W as ((Wn & _ & _ & _ & Wl & Wu & _) & Wq & _). pose proof (proj1 R) as HN.
  exists (vat (st_q (r_state r)) (jt_idx_q j)), (vat (m_lower (r_model r)) (jt_idx_q j)), (vat (m_upper (r_model r)) (jt_idx_q j)), (jt_idx_v j).
  assert (G : forall r0, r_model r0 = r_model r -> get_joint_offset r0 name = Ok (jt_idx_q j)) by (intros r0 Er; unfold get_joint_offset in *; rewrite Er; exact Eq).
  assert (GL : forall r0, r_model r0 = r_model r -> get_joint_limits r0 name = Ok (vat (m_lower (r_model r)) (jt_idx_q j), vat (m_upper (r_model r)) (jt_idx_q j))).
  { intros r0 Er. unfold get_joint_limits. rewrite (G r0 Er). cbn [obind]. rewrite Er. rewrite !vec_get_ok by lia. reflexivity. }
  assert (B : vat (m_lower (r_model r)) (jt_idx_q j) <= vat (st_q (r_state r)) (jt_idx_q j) + vat delta (jt_idx_v j) <= vat (m_upper (r_model r)) (jt_idx_q j)).
  { pose proof (al_limits _ _ _ _ _ _ A Hl (jt_idx_v j - 6)%nat ltac:(lia)) as H. cbv beta zeta in H. unfold extended in H. rewrite Wq, Wl, Wu, Snq, EN, HN, L in H.
    replace (S N - (N - 6) + (jt_idx_v j - 6))%nat with (jt_idx_q j) in H by lia. replace (6 + (jt_idx_v j - 6))%nat with (jt_idx_v j) in H by lia.
    assert (Hlt : Nat.ltb (jt_idx_v j) N = true) by (apply Nat.ltb_lt; lia). now rewrite Hlt in H. }
  split; [unfold get_joint; rewrite Eq; apply vec_get_ok; lia|]. split; [now apply GL|]. split; [exact Ev|]. split; [exact B|].
  intros -> Hi. pose proof (so_apply _ _ _ _ _ _ _ _ _ _ _ _ _ _ Sv) as Ha. cbn in Ha.
  assert (Er : r_model r' = r_model r /\ st_q (r_state r') = pn_integrate pn (st_q (r_state r)) delta).
  { unfold apply_delta in Ha. destruct (Rlt_dec 0 (ks_dt s)).
    - destruct (vec_sub _ _); cbn [obind] in Ha; [injection Ha as <-; split; reflexivity|discriminate|discriminate].
    - injection Ha as <-. split; reflexivity. }
  destruct Er as [Er1 Er2]. destruct (Hi (st_q (r_state r)) delta Wq ltac:(lia)) as [Hi1 Hi2]. specialize (Hi2 j Hj N1 N2).
  exists (vat (st_q (r_state r)) (jt_idx_q j) + vat delta (jt_idx_v j)). split; [|split; [now apply GL|exact B]].
  unfold get_joint. rewrite (G r' Er1). cbn [obind]. rewrite Er2, vec_get_ok by lia. now rewrite Hi2.
Qed.
Print Assumptions C62_joint_limits_partial.

(** The velocity limits, for every joint after the floating base. *)
Theorem C62_velocity_limits pn log3 msqrt N s r apply qr qp s' r' delta name k limit : kreachable pn log3 msqrt N s -> sound pn log3 msqrt s r ->
  qr_correct qr -> qp_correct qp -> ksolve pn log3 msqrt qr qp s r apply = (s', r', Ok delta) ->
  well_formed_robot r -> m_nv (r_model r) = N -> ks_velocity_limits s = true ->
  get_joint_v_offset r name = Ok k -> (6 <= k)%nat -> velocity_limit_of r name = Ok limit ->
  ks_dt s <> 0 /\ - (ks_dt s * limit) <= vat delta k <= ks_dt s * limit.
Proof.
  intros R So Hqr Hqp E W EN Hl Ek H6 El. apply reachable_knows in R. destruct (ksolve_allowed pn log3 msqrt N s r apply qr qp s' r' delta R So Hqr Hqp E) as [L A].
  destruct (ksolve_solved pn log3 msqrt N s r apply qr qp s' r' delta R) as (s2 & pb' & Sv); [rewrite <- (proj1 R); apply So|exact E|].
  unfold velocity_limit_of in El. rewrite Ek in El. cbn [obind] in El. unfold vec_get in El. apply guard_inv in El. destruct El as [Hk El]. injection El as <-. apply Nat.ltb_lt in Hk.
  pose proof W as ((_ & _ & _ & _ & _ & _ & Wv & _) & _). pose proof (proj1 R) as HN. rewrite Wv, EN in Hk.
  split; [exact (pr_velocity _ _ _ _ _ _ _ (so_prepared _ _ _ _ _ _ _ _ _ _ _ _ _ _ Sv) Hl)|].
  pose proof (al_velocity _ _ _ _ _ _ A Hl (k - 6)%nat ltac:(lia)) as H. cbv beta zeta in H. unfold extended in H. rewrite Wv, EN, HN, L in H.
  replace (N - (N - 6) + (k - 6))%nat with k in H by lia. replace (6 + (k - 6))%nat with k in H by lia.
  assert (Hlt : Nat.ltb k N = true) by (apply Nat.ltb_lt; lia). now rewrite Hlt in H.
Qed.
Print Assumptions C62_velocity_limits.

(** A solver for which a solution exists, with back-ends that never fail. *)
Lemma perfect_ksolve pn log3 msqrt N s r : kreachable pn log3 msqrt N s -> answerable pn log3 msqrt s r -> p_rewrite (ks_problem s) = true ->
  0 < p_reg (ks_problem s) -> independent_rows (S N) (hard_rows pn log3 msqrt s r) -> (exists x, allowed pn log3 msqrt s r x) ->
  (exists s' r' delta, ksolve pn log3 msqrt perfect_qr perfect_qp s r false = (s', r', Ok delta)) /\
  ((forall d, vlen d = N -> exists r', apply_delta pn (ks_dt s) r d = Ok r') ->
   exists s' r' delta, ksolve pn log3 msqrt perfect_qr perfect_qp s r true = (s', r', Ok delta)).
Proof.
  intros R An Hw Hr Hi Hx. apply reachable_knows in R.
  destruct (ksolve_complete pn log3 msqrt N s r perfect_qr perfect_qp R An perfect_qr_correct perfect_qp_correct Hw Hr Hi Hx) as [H|[H|H]].
  - split.
    + destruct (H false) as (s' & r' & delta & o & E & _ & ->). exists s', r', delta. exact E.
    + intros Ha. destruct (H true) as (s' & r' & delta & o & E & L & ->). destruct (Ha delta L) as (r2 & Er). rewrite Er in E. exists s', r', delta. exact E.
  - destruct (perfect_qr_never_fails H).
  - destruct (perfect_qp_never_fails H).
Qed.

(** The robot of C74: a base and a head, which is at 1/2 and has the limits -1 and 2. *)
Definition ex_log (_ : mat3) : vec3 := v3_zero.
Definition ex_sqrt (M : mat) : mat := M.
Definition ex_solver (dt : R) (masked : list nat) (fbase vl : bool) (tasks : list ktask) : ksolver :=
  with_settings (new_ksolver ex_robot) dt masked fbase true vl tasks [] 1 false true.
Lemma ex_solver_reachable dt masked fbase vl tasks : kreachable ex_pin3 ex_log ex_sqrt 7 (ex_solver dt masked fbase vl tasks).
Proof. apply kr_settings, kr_new. reflexivity. Qed.

(** The head is asked to go to 1: at the speed 3, it cannot in 1/10. *)
Definition ex_scaled : ksolver := ex_solver (1 / 10) [] true true [KTask (KJoints [("head"%string, 1)]) PScaled 1].
Lemma ex_scaled_answerable : answerable ex_pin3 ex_log ex_sqrt ex_scaled ex_robot.
Proof.
  split; cbn [ex_scaled ex_solver with_settings ks_tasks ks_masked ks_masked_fbase ks_joint_limits ks_velocity_limits ks_cons ks_N ks_dt new_ksolver].
  - intros t [<-|[]]. eexists. split; [split; [now left|reflexivity]|split; reflexivity].
  - intros t [<-|[]]. discriminate.
  - intros j [].
  - cbn. lia.
  - intros _. cbn. lia.
  - intros _. split; [cbn; lia|]. split; [cbn; lia|lra].
  - intros c [].
Qed.
Lemma ex_scaled_independent : independent_rows 8 (hard_rows ex_pin3 ex_log ex_sqrt ex_scaled ex_robot).
Proof.
  intros mu H. assert (H0 := H 0%nat ltac:(lia)). assert (H1 := H 1%nat ltac:(lia)). assert (H2 := H 2%nat ltac:(lia)). assert (H3 := H 3%nat ltac:(lia)).
  assert (H4 := H 4%nat ltac:(lia)). assert (H5 := H 5%nat ltac:(lia)). assert (H6 := H 6%nat ltac:(lia)). clear H. cbn in H0, H1, H2, H3, H4, H5, H6.
  intros k Hk. cbn in Hk. do 7 (destruct k as [|k]; [lra|]). lia.
Qed.
Lemma ex_scaled_allowed : allowed ex_pin3 ex_log ex_sqrt ex_scaled ex_robot (fun j => if Nat.eqb j 6 then 1 / 4 else if Nat.eqb j 7 then 1 / 2 else 0).
Proof.
  split; unfold asks_for; cbn [ex_scaled ex_solver with_settings ks_tasks ks_masked ks_masked_fbase ks_joint_limits ks_velocity_limits ks_cons ks_N ks_dt new_ksolver].
  - intros t e [[<-|[]] _]. discriminate.
  - intros t e [[<-|[]] E] _. cbn in E. injection E as <-. intros k Hk. cbn in Hk. destruct k as [|k]; [|lia]. unfold residual. cbn. lra.
  - cbn. lra.
  - intros j [].
  - intros _ j Hj. do 6 (destruct j as [|j]; [reflexivity|]). lia.
  - intros _ k Hk. cbn in Hk. destruct k as [|k]; [|lia]. cbn. lra.
  - intros _ k Hk. cbn in Hk. destruct k as [|k]; [|lia]. cbn. lra.
  - intros c cs [].
Qed.

Example C62_example : kreachable ex_pin3 ex_log ex_sqrt 7 ex_scaled /\ sound ex_pin3 ex_log ex_sqrt ex_scaled ex_robot /\ qr_correct perfect_qr /\
  qp_correct perfect_qp /\ well_formed_robot ex_robot /\ simple_joints (r_model ex_robot) /\ integrates ex_pin3 (r_model ex_robot) /\
  has_joint ex_robot "head" /\ velocity_limit_of ex_robot "head" = Ok 3 /\
  (exists s' r' delta, ksolve ex_pin3 ex_log ex_sqrt perfect_qr perfect_qp ex_scaled ex_robot true = (s', r', Ok delta)) /\
  exists s', mask_dof ex_robot ex_scaled "head" = Ok s' /\ ks_masked s' = [6%nat].
Proof.
  split; [apply ex_solver_reachable|]. split; [apply answerable_sound, ex_scaled_answerable|]. split; [exact perfect_qr_correct|]. split; [exact perfect_qp_correct|].
  split; [exact ex_well_formed|]. split; [|split; [apply C113_example|split; [cbn; auto|split; [reflexivity|split]]]].
  - split; [reflexivity|]. intros j [<-|[<-|[]]]; cbn; [congruence|]. intros _. lia.
  - apply (perfect_ksolve ex_pin3 ex_log ex_sqrt 7 ex_scaled ex_robot (ex_solver_reachable _ _ _ _ _) ex_scaled_answerable eq_refl ltac:(cbn; lra) ex_scaled_independent).
    + eexists. apply ex_scaled_allowed.
    + intros d Hd. unfold apply_delta. destruct (Rlt_dec _ _); eexists; reflexivity.
  - eexists. split; reflexivity.
Qed.

(** A robot with a continuous joint ("wheel", two numbers in q: the cosine and the sine of its angle) placed after a hinge with the limits -1/2 and 1/2.
    The limits of the hinge are not enforced: those of the cosine are enforced on the hinge instead. The hinge, at 0, is asked to go to 1, and does. *)
Definition wheel_model : rmodel := RModel 10 8 [Joint "root_joint" 0 7 0 6; Joint "hinge" 7 1 6 1; Joint "wheel" 8 2 7 1] ["universe"; "base"]%string
  frame_id (Vec 10 (fun k => if Nat.eqb k 7 then - (1 / 2) else if Nat.leb 8 k then - (101 / 100) else -1000))
  (Vec 10 (fun k => if Nat.eqb k 7 then 1 / 2 else if Nat.leb 8 k then 101 / 100 else 1000))
  (zeros 8) (zeros 8) (zeros 8) (zeros 8) [].
Definition wheel_q (c s : R) : vec := Vec 10 (fun k => nth k [0; 0; 0; 0; 0; 0; 1; 0; c; s] 0).
Definition wheel_robot (c s : R) : robot := Robot wheel_model (State (wheel_q c s) (zeros 8) (zeros 8)) (wheel_q c s, zeros 8).
Lemma wheel_well_formed c s : well_formed_robot (wheel_robot c s).
Proof.
  split; [|split; [reflexivity|split; reflexivity]]. split; [|split; [|split; [|split]]].
  - cbn. repeat constructor; cbn; intuition discriminate.
  - cbn. intuition discriminate.
  - intros j [<-|[<-|[<-|[]]]]; cbn; lia.
  - intros j k [<-|[<-|[<-|[]]]] [<-|[<-|[<-|[]]]]; cbn; try congruence; unfold apart; cbn; lia.
  - repeat split.
Qed.
Definition wheel_solver (c s target : R) : ksolver :=
  with_settings (new_ksolver (wheel_robot c s)) 0 [] true true false [KTask (KJoints [("hinge"%string, target)]) PHard 1] [] 1 false true.

Theorem C62_continuous_joint_refuted pn log3 msqrt : exists s' r' delta,
  kreachable pn log3 msqrt 8 (wheel_solver 0 1 1) /\ well_formed_robot (wheel_robot 0 1) /\ ks_joint_limits (wheel_solver 0 1 1) = true /\
  sound pn log3 msqrt (wheel_solver 0 1 1) (wheel_robot 0 1) /\ qr_correct perfect_qr /\ qp_correct perfect_qp /\
  ksolve pn log3 msqrt perfect_qr perfect_qp (wheel_solver 0 1 1) (wheel_robot 0 1) false = (s', r', Ok delta) /\
  get_joint (wheel_robot 0 1) "hinge" = Ok 0 /\ get_joint_limits (wheel_robot 0 1) "hinge" = Ok (- (1 / 2), 1 / 2) /\
  get_joint_v_offset (wheel_robot 0 1) "hinge" = Ok 6%nat /\ 1 / 2 < 0 + vat delta 6.
Proof.
  set (s := wheel_solver 0 1 1). set (r := wheel_robot 0 1).
  assert (Re : kreachable pn log3 msqrt 8 s) by (apply kr_settings, kr_new; reflexivity).
  assert (An : answerable pn log3 msqrt s r).
  { split; cbn [s wheel_solver with_settings ks_tasks ks_masked ks_masked_fbase ks_joint_limits ks_velocity_limits ks_cons ks_N ks_dt new_ksolver].
    - intros t [<-|[]]. eexists. split; [split; [now left|reflexivity]|split; reflexivity].
    - intros t [<-|[]]. discriminate.
    - intros j [].
    - cbn. lia.
    - intros _. cbn. lia.
    - discriminate.
    - intros c []. }
  assert (In8 : independent_rows 9 (hard_rows pn log3 msqrt s r)).
  { intros mu H. assert (H0 := H 0%nat ltac:(lia)). assert (H1 := H 1%nat ltac:(lia)). assert (H2 := H 2%nat ltac:(lia)). assert (H3 := H 3%nat ltac:(lia)).
    assert (H4 := H 4%nat ltac:(lia)). assert (H5 := H 5%nat ltac:(lia)). assert (H6 := H 6%nat ltac:(lia)). clear H. cbn in H0, H1, H2, H3, H4, H5, H6.
    intros k Hk. cbn in Hk. do 7 (destruct k as [|k]; [lra|]). lia. }
  assert (Al : allowed pn log3 msqrt s r (fun j => if Nat.eqb j 6 then 1 else 0)).
  { split; unfold asks_for, scaling; cbn [s wheel_solver with_settings ks_tasks ks_masked ks_masked_fbase ks_joint_limits ks_velocity_limits ks_cons ks_N ks_dt new_ksolver].
    - intros t e [[<-|[]] E] _. cbn in E. injection E as <-. intros k Hk. cbn in Hk. destruct k as [|k]; [|lia]. unfold residual. cbn. lra.
    - intros t e [[<-|[]] E]. discriminate.
    - intros (t & e & [[<-|[]] _] & H & _). discriminate.
    - intros j [].
    - intros _ j Hj. do 6 (destruct j as [|j]; [reflexivity|]). lia.
    - intros _ k Hk. cbn in Hk. destruct k as [|[|k]]; [| |lia]; cbn; lra.
    - discriminate.
    - intros c cs []. }
  destruct (perfect_ksolve pn log3 msqrt 8 s r Re An eq_refl ltac:(cbn; lra) In8 (ex_intro _ _ Al)) as [(s' & r' & delta & E) _].
  exists s', r', delta. split; [exact Re|]. split; [apply wheel_well_formed|]. split; [reflexivity|]. split; [apply answerable_sound, An|].
  split; [exact perfect_qr_correct|]. split; [exact perfect_qp_correct|]. split; [exact E|]. do 3 (split; [reflexivity|]).
  destruct (ksolve_allowed pn log3 msqrt 8 s r false _ _ s' r' delta (reachable_knows _ _ _ _ _ Re) (answerable_sound _ _ _ _ _ An) perfect_qr_correct perfect_qp_correct E) as [L A].
  assert (Ta : exists e, asks_for pn log3 msqrt s r (KTask (KJoints [("hinge"%string, 1)]) PHard 1) e /\ e = (Mat 1 8 (fun k j => if Nat.eqb j (fst (nth k [(6%nat, 1 - 0)] (0%nat, 0))) then 1 else 0), Vec 1 (fun k => snd (nth k [(6%nat, 1 - 0)] (0%nat, 0))))).
  { eexists. split; [split; [now left|reflexivity]|reflexivity]. }
  destruct Ta as (e & Ta & ->). pose proof (al_hard _ _ _ _ _ _ A _ _ Ta eq_refl 0%nat ltac:(cbn; lia)) as F. unfold residual, extended in F. cbn in F. rewrite L in F. cbn in F. lra.
Qed.
Print Assumptions C62_continuous_joint_refuted.

(** The same robot with the wheel at the angle 0: the hinge cannot be moved to 1/4, which is within its limits, whatever the back-ends. *)
Theorem C62_continuous_joint_stuck_refuted pn log3 msqrt qr qp apply s' r' delta : qr_correct qr -> qp_correct qp ->
  get_joint (wheel_robot 1 0) "hinge" = Ok 0 /\ get_joint_limits (wheel_robot 1 0) "hinge" = Ok (- (1 / 2), 1 / 2) /\
  ksolve pn log3 msqrt qr qp (wheel_solver 1 0 (1 / 4)) (wheel_robot 1 0) apply <> (s', r', Ok delta).
Proof.
  intros Hqr Hqp. split; [reflexivity|]. split; [reflexivity|]. intros E. set (s := wheel_solver 1 0 (1 / 4)) in *. set (r := wheel_robot 1 0) in *.
  assert (Re : kreachable pn log3 msqrt 8 s) by (apply kr_settings, kr_new; reflexivity).
  assert (So : sound pn log3 msqrt s r).
  { split; [|intros c cs c' []]. intros t e [[<-|[]] Et]. cbn in Et. injection Et as <-. split; reflexivity. }
  destruct (ksolve_allowed pn log3 msqrt 8 s r apply _ _ s' r' delta (reachable_knows _ _ _ _ _ Re) So Hqr Hqp E) as [L A].
  assert (Ta : exists e, asks_for pn log3 msqrt s r (KTask (KJoints [("hinge"%string, 1 / 4)]) PHard 1) e /\ e = (Mat 1 8 (fun k j => if Nat.eqb j (fst (nth k [(6%nat, 1 / 4 - 0)] (0%nat, 0))) then 1 else 0), Vec 1 (fun k => snd (nth k [(6%nat, 1 / 4 - 0)] (0%nat, 0))))).
  { eexists. split; [split; [now left|reflexivity]|reflexivity]. }
  destruct Ta as (e & Ta & ->). pose proof (al_hard _ _ _ _ _ _ A _ _ Ta eq_refl 0%nat ltac:(cbn; lia)) as F.
  pose proof (al_limits _ _ _ _ _ _ A eq_refl 0%nat ltac:(cbn; lia)) as B. unfold residual, extended in F, B. cbn in F, B. rewrite L in F, B. cbn in F, B. lra.
Qed.
Print Assumptions C62_continuous_joint_stuck_refuted.

(** ** C63 Hard and scaled tasks *)

Lemma extended_sum N delta scale f : vlen delta = N -> Rsum N (fun j => f j * extended delta scale j) = Rsum N (fun j => f j * vat delta j).
Proof. intros L. apply Rsum_ext. intros j Hj. unfold extended. rewrite L. apply Nat.ltb_lt in Hj. now rewrite Hj. Qed.
Lemma extended_scale N delta scale : vlen delta = N -> extended delta scale N = scale.
Proof. intros L. unfold extended. now rewrite L, Nat.ltb_irrefl. Qed.

Theorem C63_hard_tasks pn log3 msqrt N s r apply qr qp s' r' delta t A b : kreachable pn log3 msqrt N s -> sound pn log3 msqrt s r ->
  qr_correct qr -> qp_correct qp -> ksolve pn log3 msqrt qr qp s r apply = (s', r', Ok delta) ->
  In t (ks_tasks s) -> kt_priority t = PHard -> task_update pn log3 msqrt N (ks_dt s) r (kt_kind t) = Ok (A, b) ->
  mcols A = N /\ forall k, (k < mrows A)%nat -> Rsum N (fun j => mat_at A k j * vat delta j) = vat b k.
Proof.
  intros R So Hqr Hqp E Ht Hp Et. apply reachable_knows in R. destruct (ksolve_allowed pn log3 msqrt N s r apply qr qp s' r' delta R So Hqr Hqp E) as [L Al].
  rewrite <- (proj1 R) in Et. pose proof (proj1 (proj1 So t (A, b) (conj Ht Et))) as C. cbn [fst] in C. rewrite (proj1 R) in C. split; [exact C|]. intros k Hk.
  pose proof (al_hard _ _ _ _ _ _ Al t (A, b) (conj Ht Et) Hp k Hk) as H. unfold residual in H. cbn [fst snd] in H. rewrite C, (extended_sum N delta) in H by exact L. lra.
Qed.
Print Assumptions C63_hard_tasks.

Theorem C63_scaled_tasks pn log3 msqrt N s r apply qr qp s' r' delta : kreachable pn log3 msqrt N s -> sound pn log3 msqrt s r ->
  qr_correct qr -> qp_correct qp -> ksolve pn log3 msqrt qr qp s r apply = (s', r', Ok delta) ->
  forall t A b, In t (ks_tasks s) -> kt_priority t = PScaled -> task_update pn log3 msqrt N (ks_dt s) r (kt_kind t) = Ok (A, b) -> (0 < mrows A)%nat ->
  0 <= ks_scale s' <= 1 /\ mcols A = N /\ forall k, (k < mrows A)%nat -> Rsum N (fun j => mat_at A k j * vat delta j) = ks_scale s' * vat b k.
Proof.
  intros R So Hqr Hqp E t A b Ht Hp Et Hr. apply reachable_knows in R. destruct (ksolve_allowed pn log3 msqrt N s r apply qr qp s' r' delta R So Hqr Hqp E) as [L Al].
  rewrite <- (proj1 R) in Et. pose proof (proj1 (proj1 So t (A, b) (conj Ht Et))) as C. cbn [fst] in C. rewrite (proj1 R) in C. split; [|split; [exact C|]].
  - pose proof (al_scale _ _ _ _ _ _ Al) as H. rewrite (proj1 R), (extended_scale N) in H by exact L. apply H. exists t, (A, b). split; [split; assumption|split; assumption].
  - intros k Hk. pose proof (al_scaled _ _ _ _ _ _ Al t (A, b) (conj Ht Et) Hp k Hk) as H. unfold residual in H. cbn [fst snd] in H.
    rewrite C, (extended_sum N delta), (proj1 R), (extended_scale N) in H by exact L. lra.
Qed.
Print Assumptions C63_scaled_tasks.

(** Without scaled tasks, solver.scale is not written: it still has the value of an earlier solve. *)
Theorem C63_stale_scale_behaviour pn log3 msqrt N s r apply qr qp s' r' delta : kreachable pn log3 msqrt N s -> sound pn log3 msqrt s r ->
  ksolve pn log3 msqrt qr qp s r apply = (s', r', Ok delta) -> ~ scaling pn log3 msqrt s r -> ks_scale s' = ks_scale s.
Proof. intros R So. exact (ksolve_scale pn log3 msqrt N s r apply qr qp s' r' delta (reachable_knows _ _ _ _ _ R) So). Qed.
Print Assumptions C63_stale_scale_behaviour.

(** In C62_example the scaled task of ex_scaled has one row; the scale it gets is not 1. *)
Example C63_example : exists s' r' delta A b, ksolve ex_pin3 ex_log ex_sqrt perfect_qr perfect_qp ex_scaled ex_robot true = (s', r', Ok delta) /\
  task_update ex_pin3 ex_log ex_sqrt 7 (1 / 10) ex_robot (KJoints [("head"%string, 1)]) = Ok (A, b) /\ mrows A = 1%nat /\ vat b 0 = 1 / 2 /\ ks_scale s' <= 3 / 5.
Proof.
  destruct C62_example as (R & So & Hqr & Hqp & W & _ & _ & Hh & Hv & (s' & r' & delta & E) & _). eexists s', r', delta, _, _.
  split; [exact E|]. split; [reflexivity|]. split; [reflexivity|]. split; [cbn; lra|].
  destruct (C63_scaled_tasks _ _ _ _ _ _ _ _ _ _ _ _ R So Hqr Hqp E _ _ _ (or_introl eq_refl) eq_refl eq_refl ltac:(cbn; lia)) as (_ & _ & H). specialize (H 0%nat ltac:(cbn; lia)).
  destruct (C62_velocity_limits _ _ _ _ _ _ _ _ _ _ _ _ "head"%string 6%nat 3 R So Hqr Hqp E W eq_refl eq_refl eq_refl ltac:(lia) eq_refl) as (_ & B). cbn in H, B. lra.
Qed.

(** ** C64 Failures and application *)

Theorem C64_failure pn log3 msqrt qr qp s r apply s' r' e : ksolve pn log3 msqrt qr qp s r apply = (s', r', Throw e) -> r' = r.
Proof. intros E. apply (ksolve_failed pn log3 msqrt qr qp s r apply s' r' (Throw e) E). intros d. discriminate. Qed.
Print Assumptions C64_failure.

Theorem C64_no_apply pn log3 msqrt qr qp s r s' r' o : ksolve pn log3 msqrt qr qp s r false = (s', r', o) -> r' = r.
Proof.
  intros E. destruct o as [d|e|].
  - unfold ksolve in E. destruct (add_tasks_to_problem _ _ _ _ _ _) as [s1 [[]|e|]]; try discriminate. destruct (after_tasks pn r s1) as [cs|e|]; try discriminate.
    cbv zeta in E. destruct (solve _ qr qp) as [pb' [[]|e|]]; try discriminate. destruct (var_at pb' _) as [v|e|]; try discriminate.
    match type of E with match ?x with Ok _ => _ | Throw _ => _ | UB => _ end = _ => destruct x as [s3|e|]; try discriminate end. congruence.
  - exact (C64_failure _ _ _ _ _ _ _ _ _ _ _ E).
  - apply (ksolve_failed pn log3 msqrt qr qp s r false s' r' UB E). intros d. discriminate.
Qed.
Print Assumptions C64_no_apply.

(** With apply: the same displacement as without, then q is its integration; when dt > 0 the velocity and the acceleration are the finite
    differences; nothing else of the robot changes. *)
Theorem C64_applied pn log3 msqrt qr qp s r s' r' delta : ksolve pn log3 msqrt qr qp s r true = (s', r', Ok delta) ->
  ksolve pn log3 msqrt qr qp s r false = (s', r, Ok delta) /\
  st_q (r_state r') = pn_integrate pn (st_q (r_state r)) delta /\ r_model r' = r_model r /\ r_seen r' = r_seen r /\
  (0 < ks_dt s -> let n := vlen (st_qd (r_state r)) in
     vlen (st_qd (r_state r')) = n /\ vlen (st_qdd (r_state r')) = n /\ vlen (pn_difference pn (st_q (r_state r)) (st_q (r_state r'))) = n /\
     forall k, (k < n)%nat -> ks_dt s * vat (st_qd (r_state r')) k = vat (pn_difference pn (st_q (r_state r)) (st_q (r_state r'))) k /\
       ks_dt s * vat (st_qdd (r_state r')) k = vat (st_qd (r_state r')) k - vat (st_qd (r_state r)) k) /\
  (~ 0 < ks_dt s -> st_qd (r_state r') = st_qd (r_state r) /\ st_qdd (r_state r') = st_qdd (r_state r)).
Proof.
  rewrite ksolve_true. destruct (ksolve pn log3 msqrt qr qp s r false) as [[s1 r1] [d|e|]] eqn:E; [|discriminate|discriminate].
  pose proof (C64_no_apply _ _ _ _ _ _ _ _ _ _ E) as ->. rewrite (ksolve_dt _ _ _ _ _ _ _ _ _ _ _ E). unfold apply_delta. destruct (Rlt_dec 0 (ks_dt s)) as [Hd|Hd].
  - unfold vec_sub, guard. destruct (Nat.eqb_spec (vlen (vec_scale (/ ks_dt s) (pn_difference pn (st_q (r_state r)) (pn_integrate pn (st_q (r_state r)) d)))) (vlen (st_qd (r_state r)))) as [Hl|Hl];
      cbn [obind]; [|discriminate]. cbn [vec_scale vlen] in Hl. intros [= <- <- <-]. cbn [set_state r_state r_model r_seen st_q st_qd st_qdd vec_scale vlen vat].
    repeat split; try assumption; try contradiction; field; lra.
  - intros [= <- <- <-]. cbn. repeat split; try contradiction.
Qed.
Print Assumptions C64_applied.


(** ** C65 Joints and gears *)

(** The targets of a joints task: set_joint writes the one of its joint only. *)
Theorem C65_set_joint l joint target name :
  joints_get (joints_set l joint target) name = if String.eqb name joint then Ok target else joints_get l name.
Proof.
  unfold joints_get, joints_set. induction l as [|[a u] l IH]; cbn [name_put name_find].
  - destruct (String.eqb_spec name joint); reflexivity.
  - destruct (String.eqb_spec joint a) as [->|].
    + cbn [name_find]. destruct (String.eqb name a); reflexivity.
    + cbn [name_find]. destruct (String.eqb_spec name a) as [->|]; [|exact IH]. destruct (String.eqb_spec a joint); [congruence|reflexivity].
Qed.
Print Assumptions C65_set_joint.
Lemma joints_get_in l name target : joints_get l name = Ok target -> In (name, target) l.
Proof.
  unfold joints_get. induction l as [|[a u] l IH]; cbn [name_find]; [discriminate|]. destruct (String.eqb_spec name a) as [->|]; [intros [= ->]; now left|right; auto].
Qed.

(** A displacement satisfies a joints task exactly when it brings every joint of the task to its target. *)
Theorem C65_joints_exact N r l e x : joints_update N r l = Ok e ->
  (follows e x 1 <-> forall name target, In (name, target) l -> forall k q, get_joint_v_offset r name = Ok k -> get_joint r name = Ok q -> q + x k = target).
Proof. apply joints_follows. Qed.
Print Assumptions C65_joints_exact.

Lemma applied_q pn log3 msqrt N s r apply qr qp s' r' delta : kreachable pn log3 msqrt N s -> sound pn log3 msqrt s r -> apply = true ->
  ksolve pn log3 msqrt qr qp s r apply = (s', r', Ok delta) -> well_formed_robot r -> m_nv (r_model r) = N -> integrates pn (r_model r) -> vlen delta = N ->
  r_model r' = r_model r /\ (vlen (st_q (r_state r')) = m_nq (r_model r)) /\
  forall j, In j (m_joints (r_model r)) -> jt_nq j = 1%nat -> jt_nv j = 1%nat -> vat (st_q (r_state r')) (jt_idx_q j) = vat (st_q (r_state r)) (jt_idx_q j) + vat delta (jt_idx_v j).
Proof.
  intros R So -> E W EN Hi L. destruct (C64_applied _ _ _ _ _ _ _ _ _ _ E) as (_ & Eq & Em & _). destruct (Hi (st_q (r_state r)) delta (proj1 (proj2 W)) ltac:(congruence)) as [H1 H2].
  rewrite Eq. auto.
Qed.

Theorem C65_hard_joints pn log3 msqrt N s r apply qr qp s' r' delta t l name target : kreachable pn log3 msqrt N s -> sound pn log3 msqrt s r ->
  qr_correct qr -> qp_correct qp -> ksolve pn log3 msqrt qr qp s r apply = (s', r', Ok delta) ->
  In t (ks_tasks s) -> kt_kind t = KJoints l -> kt_priority t = PHard -> joints_get l name = Ok target ->
  exists q k, get_joint r name = Ok q /\ get_joint_v_offset r name = Ok k /\ q + vat delta k = target /\
    (apply = true -> well_formed_robot r -> m_nv (r_model r) = N -> integrates pn (r_model r) -> get_joint_size r name = Ok 1%nat -> get_joint_v_size r name = Ok 1%nat ->
     get_joint r' name = Ok target).
Proof.
  intros R So Hqr Hqp E Ht Ek Hp Hin. apply joints_get_in in Hin. pose proof (reachable_knows _ _ _ _ _ R) as K.
  destruct (ksolve_allowed pn log3 msqrt N s r apply qr qp s' r' delta K So Hqr Hqp E) as [L Al].
  destruct (ksolve_solved pn log3 msqrt N s r apply qr qp s' r' delta K) as (s2 & pb' & Sv); [rewrite <- (proj1 K); apply So|exact E|].
  destruct (pr_tasks _ _ _ _ _ _ _ (so_prepared _ _ _ _ _ _ _ _ _ _ _ _ _ _ Sv) t Ht) as (e & He). pose proof He as [_ Eu]. rewrite Ek, (proj1 K) in Eu. cbn [task_update] in Eu.
  pose proof (al_hard _ _ _ _ _ _ Al t e He Hp) as F. rewrite (joints_follows N r l e _ Eu) in F. specialize (F name target Hin).
  unfold joints_update in Eu. bindall Eu. destruct (joints_rows_spec _ _ _ _ E0) as [_ S]. apply In_nth_error in Hin. destruct Hin as (i & Hi).
  destruct (S i name target Hi) as (k & q & Hk & Hlt & Hq & _). exists q, k. specialize (F k q Hk Hq). unfold extended in F. rewrite L in F. apply Nat.ltb_lt in Hlt. rewrite Hlt in F.
  split; [exact Hq|]. split; [exact Hk|]. split; [exact F|]. intros Ha W EN Hint S1 S2.
  destruct (applied_q pn log3 msqrt N s r apply qr qp s' r' delta R So Ha E W EN Hint L) as (Em & Lq & Hj). clear - Hk Hq F W Em Lq Hj S1 S2.
  destruct (v_offset_ok r name k (proj1 W) Hk) as (j & Hin & Hn & Hv & Ejo). unfold get_joint_size in S1. unfold get_joint_v_size in S2. rewrite Ejo in S1, S2. cbn in S1, S2. injection S1 as S1. injection S2 as S2.
  destruct (joint_of_in _ name (proj1 W) ltac:(rewrite <- Hn; now apply in_map)) as (j' & Ejo' & _ & _ & Ex). assert (j' = j) by congruence. subst j'.
  pose proof (proj1 (proj2 (proj2 (proj1 W))) j Hin) as (B & B' & _). specialize (Hj j Hin S1 S2).
  unfold get_joint, get_joint_offset in *. rewrite Em, Ex, Ejo. rewrite Ex, Ejo in Hq. cbn [negb obind] in *. rewrite vec_get_ok in Hq by (rewrite (proj1 (proj2 W)); lia). injection Hq as <-.
  rewrite vec_get_ok by lia. rewrite Hj, Hv. now rewrite F.
Qed.
Print Assumptions C65_hard_joints.

(** add_gear writes the ratio of its own pair of joints only; set_gear replaces the sources of its own target only. *)
Theorem C65_add_gear r g a b x g' : add_gear r g a b x = Ok g' -> exists t s, get_joint_v_offset r a = Ok t /\ get_joint_v_offset r b = Ok s /\
  forall t' s', ratio_of g' t' s' = if Nat.eqb t' t && Nat.eqb s' s then Some x else ratio_of g t' s'.
Proof. apply add_gear_ratio. Qed.
Print Assumptions C65_add_gear.
Theorem C65_set_gear r g a b x g' : set_gear r g a b x = Ok g' -> exists t s, get_joint_v_offset r a = Ok t /\ get_joint_v_offset r b = Ok s /\
  forall t' s', ratio_of g' t' s' = if Nat.eqb t' t then (if Nat.eqb s' s then Some x else None) else ratio_of g t' s'.
Proof. apply set_gear_ratio. Qed.
Print Assumptions C65_set_gear.

(** A displacement satisfies a gear task exactly when, for every gear, the target is moved to the position its sources ask for. But when the target is
    one of its own sources, the position of the target before the displacement is used instead. *)
Theorem C65_gears_behaviour N r g e x : gears_made r g -> gear_update N r g = Ok e ->
  (follows e x 1 <-> forall t l, map_find t g = Some l ->
     let q s := vat (st_q (r_state r)) (s + 1) in
     q t + (if existsb (Nat.eqb t) (map fst l) then 0 else x t) = driven l (fun s => q s + x s)).
Proof. intros G. apply gear_follows, (gears_made_sorted r g G). Qed.
Print Assumptions C65_gears_behaviour.

(** A hard gear task, when no joint is a source of itself. Missing: such joints, for which the property is false (below), and the robots with joints that do not have
    one number in q and one in v, of which the wrong entries of q are read. *)
Theorem C65_hard_gears_partial pn log3 msqrt N s r qr qp s' r' delta t g : kreachable pn log3 msqrt N s -> sound pn log3 msqrt s r ->
  qr_correct qr -> qp_correct qp -> ksolve pn log3 msqrt qr qp s r true = (s', r', Ok delta) ->
  well_formed_robot r -> m_nv (r_model r) = N -> simple_joints (r_model r) -> integrates pn (r_model r) ->
  In t (ks_tasks s) -> kt_kind t = KGear g -> kt_priority t = PHard -> gears_made r g ->
  exists position, (forall name k, has_joint r name -> name <> "root_joint"%string -> get_joint_v_offset r name = Ok k -> get_joint r' name = Ok (position k)) /\
    forall target sources, map_find target g = Some sources -> joint_at r target -> (forall k, In k (map fst sources) -> joint_at r k /\ k <> target) ->
      position target = driven sources position.
Proof.
  intros R So Hqr Hqp E W EN [Snq Sj] Hint Ht Ek Hp G. pose proof (reachable_knows _ _ _ _ _ R) as K.
  destruct (ksolve_allowed pn log3 msqrt N s r true qr qp s' r' delta K So Hqr Hqp E) as [L Al].
  destruct (ksolve_solved pn log3 msqrt N s r true qr qp s' r' delta K) as (s2 & pb' & Sv); [rewrite <- (proj1 K); apply So|exact E|].
  destruct (pr_tasks _ _ _ _ _ _ _ (so_prepared _ _ _ _ _ _ _ _ _ _ _ _ _ _ Sv) t Ht) as (e & He). pose proof He as [_ Eu]. rewrite Ek, (proj1 K) in Eu. cbn [task_update] in Eu.
  pose proof (al_hard _ _ _ _ _ _ Al t e He Hp) as F. rewrite (C65_gears_behaviour N r g e _ G Eu) in F.
  destruct (applied_q pn log3 msqrt N s r true qr qp s' r' delta R So eq_refl E W EN Hint L) as (Em & Lq & Hj).
  exists (fun k => vat (st_q (r_state r')) (k + 1)).
  assert (J : forall name k, has_joint r name -> name <> "root_joint"%string -> get_joint_v_offset r name = Ok k ->
    (k < N)%nat /\ get_joint_offset r name = Ok (k + 1)%nat /\ vat (st_q (r_state r')) (k + 1) = vat (st_q (r_state r)) (k + 1) + vat delta k).
  { intros name k Hn Hr Hk. destruct (offsets r name W Hn) as (j & Hin & Nn & Oq & Ov & Bq & Bv). rewrite Ov in Hk. injection Hk as <-. destruct (Sj j Hin ltac:(congruence)) as (A & B & C & D).
    split; [lia|]. rewrite Oq. split; [f_equal; lia|]. replace (jt_idx_v j + 1)%nat with (jt_idx_q j) by lia. now apply Hj. }
  assert (Jk : forall k, joint_at r k -> vat (st_q (r_state r')) (k + 1) = vat (st_q (r_state r)) (k + 1) + extended delta (ks_scale s') k).
  { intros k (name & A & B & C). destruct (J name k A B C) as (D & _ & ->). unfold extended. rewrite L. apply Nat.ltb_lt in D. now rewrite D. }
  split.
  - intros name k Hn Hr Hk. destruct (J name k Hn Hr Hk) as (B & Oq & _). unfold get_joint. unfold get_joint_offset in *. rewrite Em, Oq. cbn [obind]. apply vec_get_ok. rewrite Lq, Snq. lia.
  - intros target sources Hf Jt Js. specialize (F target sources Hf). cbv beta zeta in F.
    replace (existsb (Nat.eqb target) (map fst sources)) with false in F.
    2:{ symmetry. destruct (existsb _ _) eqn:Ex; [|reflexivity]. apply existsb_exists in Ex. destruct Ex as (u & Hu & Eu'). apply Nat.eqb_eq in Eu'. subst u. destruct (Js target Hu) as [_ C]. congruence. }
    cbv beta. rewrite (Jk target Jt), F. apply driven_ext. intros k Hk. symmetry. apply Jk. now apply Js.
Qed.
Print Assumptions C65_hard_gears_partial.

(** A robot with two joints: the elbow is at 1/4, the wrist at 0, both with the limits -10 and 10. *)
Definition arm_model : rmodel := RModel 9 8 [Joint "root_joint" 0 7 0 6; Joint "elbow" 7 1 6 1; Joint "wrist" 8 1 7 1] ["universe"; "base"]%string
  frame_id (Vec 9 (fun _ => -10)) (Vec 9 (fun _ => 10)) (Vec 8 (fun _ => 1)) (zeros 8) (zeros 8) (zeros 8) [].
Definition arm_q : vec := Vec 9 (fun k => nth k [0; 0; 0; 0; 0; 0; 1; 1 / 4; 0] 0).
Definition arm_pin : pin := Pin (fun _ _ => frame_id) (fun _ _ _ => Mat 6 8 (fun _ _ => 0)) (fun _ _ _ _ => Mat 6 8 (fun _ _ => 0))
  (fun q v => Vec (vlen q) (fun k => if Nat.ltb k 7 then vat q k else vat q k + vat v (k - 1))) (fun _ _ => zeros 8)
  arm_q (fun _ => v3_zero) (fun _ => Mat 3 8 (fun _ _ => 0)) (fun _ _ => Mat 3 8 (fun _ _ => 0)) (fun _ => Mat 6 8 (fun _ _ => 0))
  (fun _ => Mat 8 8 (fun _ _ => 0)) (fun _ => zeros 8) (fun _ _ => zeros 8) (fun _ _ _ => Mat 6 8 (fun _ _ => 0)) (fun _ _ _ _ => Mat 6 8 (fun _ _ => 0)).
Definition arm : robot := Robot arm_model (State arm_q (zeros 8) (zeros 8)) (arm_q, zeros 8).
Lemma arm_well_formed : well_formed_robot arm.
Proof.
  split; [|split; [reflexivity|split; reflexivity]]. split; [|split; [|split; [|split]]].
  - cbn. repeat constructor; cbn; intuition discriminate.
  - cbn. intuition discriminate.
  - intros j [<-|[<-|[<-|[]]]]; cbn; lia.
  - intros j k [<-|[<-|[<-|[]]]] [<-|[<-|[<-|[]]]]; cbn; try congruence; unfold apart; cbn; lia.
  - repeat split.
Qed.
Lemma arm_simple : simple_joints arm_model.
Proof. split; [reflexivity|]. intros j [<-|[<-|[<-|[]]]]; cbn; [congruence| |]; intros _; lia. Qed.
Lemma arm_integrates : integrates arm_pin arm_model.
Proof.
  intros q v Eq Ev. split; [exact Eq|]. intros j [<-|[<-|[<-|[]]]]; cbn; [discriminate| |]; intros _ _; reflexivity.
Qed.
Lemma arm_sized : pin_sized arm_pin ex_sqrt 8.
Proof. repeat split. Qed.
Definition arm_solver (dt : R) (fbase vl : bool) (tasks : list ktask) : ksolver :=
  with_settings (new_ksolver arm) dt [] fbase true vl tasks [] 1 false true.
Lemma arm_reachable dt fbase vl tasks : kreachable arm_pin ex_log ex_sqrt 8 (arm_solver dt fbase vl tasks).
Proof. apply kr_settings, kr_new. reflexivity. Qed.
Lemma arm_applies dt d : exists r', apply_delta arm_pin dt arm d = Ok r'.
Proof. unfold apply_delta. destruct (Rlt_dec 0 dt); eexists; reflexivity. Qed.

(** The wrist turns twice as much as the elbow. *)
Definition arm_gears : gears := [(7%nat, [(6%nat, 2)])].
Lemma arm_gears_made : gears_made arm arm_gears.
Proof.
  apply (gm_set _ [(7%nat, [(7%nat, 5)])] "wrist" "elbow" 2); [|reflexivity]. apply (gm_add _ [] "wrist" "wrist" 5); [constructor|reflexivity].
Qed.
Definition arm_geared : ksolver := arm_solver 0 true false [KTask (KGear arm_gears) PHard 1; KTask (KJoints [("elbow"%string, 1)]) PHard 1].

Example C65_example : kreachable arm_pin ex_log ex_sqrt 8 arm_geared /\ sound arm_pin ex_log ex_sqrt arm_geared arm /\ well_formed_robot arm /\ simple_joints (r_model arm) /\
  integrates arm_pin (r_model arm) /\ gears_made arm arm_gears /\ joint_at arm 7 /\ joint_at arm 6 /\ joints_get [("elbow"%string, 1)] "elbow" = Ok 1 /\
  exists s' r' delta, ksolve arm_pin ex_log ex_sqrt perfect_qr perfect_qp arm_geared arm true = (s', r', Ok delta) /\
    get_joint r' "elbow" = Ok 1 /\ get_joint r' "wrist" = Ok 2.
Proof.
  assert (An : answerable arm_pin ex_log ex_sqrt arm_geared arm).
  { split; cbn [arm_geared arm_solver with_settings ks_tasks ks_masked ks_masked_fbase ks_joint_limits ks_velocity_limits ks_cons ks_N ks_dt new_ksolver].
    - intros t [<-|[<-|[]]]; (eexists; split; [split; [cbn; auto|reflexivity]|split; reflexivity]).
    - intros t [<-|[<-|[]]]; discriminate.
    - intros j [].
    - cbn. lia.
    - intros _. cbn. lia.
    - discriminate.
    - intros c []. }
  assert (Ind : independent_rows 9 (hard_rows arm_pin ex_log ex_sqrt arm_geared arm)).
  { intros mu H. assert (H0 := H 0%nat ltac:(lia)). assert (H1 := H 1%nat ltac:(lia)). assert (H2 := H 2%nat ltac:(lia)). assert (H3 := H 3%nat ltac:(lia)).
    assert (H4 := H 4%nat ltac:(lia)). assert (H5 := H 5%nat ltac:(lia)). assert (H6 := H 6%nat ltac:(lia)). assert (H7 := H 7%nat ltac:(lia)). clear H. cbn in H0, H1, H2, H3, H4, H5, H6, H7.
    intros k Hk. cbn in Hk. do 8 (destruct k as [|k]; [lra|]). lia. }
  assert (Al : allowed arm_pin ex_log ex_sqrt arm_geared arm (fun j => if Nat.eqb j 6 then 3 / 4 else if Nat.eqb j 7 then 2 else 0)).
  { split; unfold asks_for, scaling; cbn [arm_geared arm_solver with_settings ks_tasks ks_masked ks_masked_fbase ks_joint_limits ks_velocity_limits ks_cons ks_N ks_dt new_ksolver].
    - intros t e [[<-|[<-|[]]] E] _; cbn in E; injection E as <-; intros k Hk; cbn in Hk; (destruct k as [|k]; [|lia]); unfold residual; cbn; lra.
    - intros t e [[<-|[<-|[]]] E]; discriminate.
    - intros (t & e & [[<-|[<-|[]]] _] & H & _); discriminate.
    - intros j [].
    - intros _ j Hj. do 6 (destruct j as [|j]; [reflexivity|]). lia.
    - intros _ k Hk. cbn in Hk. destruct k as [|[|k]]; [| |lia]; cbn; lra.
    - discriminate.
    - intros c cs []. }
  pose proof (arm_reachable 0 true false [KTask (KGear arm_gears) PHard 1; KTask (KJoints [("elbow"%string, 1)]) PHard 1]) as R. fold arm_geared in R.
  pose proof (answerable_sound _ _ _ _ _ An) as So.
  destruct (proj2 (perfect_ksolve _ _ _ 8 arm_geared arm R An eq_refl ltac:(cbn; lra) Ind (ex_intro _ _ Al))) as (s' & r' & delta & E); [intros d _; apply arm_applies|].
  assert (J7 : joint_at arm 7) by (exists "wrist"%string; cbn; repeat split; auto; discriminate).
  assert (J6 : joint_at arm 6) by (exists "elbow"%string; cbn; repeat split; auto; discriminate).
  split; [exact R|]. split; [exact So|]. split; [exact arm_well_formed|]. split; [exact arm_simple|]. split; [exact arm_integrates|]. split; [exact arm_gears_made|].
  split; [exact J7|]. split; [exact J6|]. split; [reflexivity|]. exists s', r', delta. split; [exact E|].
  destruct (C65_hard_joints _ _ _ _ _ _ _ _ _ _ _ _ _ _ "elbow"%string 1 R So perfect_qr_correct perfect_qp_correct E (or_intror (or_introl eq_refl)) eq_refl eq_refl eq_refl) as (q & k & Hq & Hk & Hd & Ha).
  specialize (Ha eq_refl arm_well_formed eq_refl arm_integrates eq_refl eq_refl). split; [exact Ha|].
  destruct (C65_hard_gears_partial _ _ _ _ _ _ _ _ _ _ _ _ _ R So perfect_qr_correct perfect_qp_correct E arm_well_formed eq_refl arm_simple arm_integrates (or_introl eq_refl) eq_refl eq_refl arm_gears_made) as (p & Hp & Hg).
  assert (H6 := Hp "elbow"%string 6%nat ltac:(cbn; auto) ltac:(discriminate) eq_refl). assert (H7 := Hp "wrist"%string 7%nat ltac:(cbn; auto) ltac:(discriminate) eq_refl).
  rewrite H7, (Hg 7%nat [(6%nat, 2)] eq_refl J7) by (intros j [<-|[]]; split; [exact J6|discriminate]). rewrite Ha in H6. injection H6 as H6. cbn [driven]. rewrite <- H6. f_equal. ring.
Qed.

(** A joint that is its own source, with the ratio 1/2: it should be at 0 after the step, and is at 1/2. *)
Theorem C65_self_gear_refuted : exists g s s' r' delta, gears_made arm g /\ ratio_of g 6 6 = Some (1 / 2) /\ kreachable arm_pin ex_log ex_sqrt 8 s /\
  In (KTask (KGear g) PHard 1) (ks_tasks s) /\ qr_correct perfect_qr /\ qp_correct perfect_qp /\
  ksolve arm_pin ex_log ex_sqrt perfect_qr perfect_qp s arm true = (s', r', Ok delta) /\ get_joint r' "elbow" = Ok (1 / 2) /\ 1 / 2 <> 1 / 2 * (1 / 2).
Proof.
  set (g := [(6%nat, [(6%nat, 1 / 2)])]). set (s := arm_solver 0 true false [KTask (KGear g) PHard 1]).
  assert (G : gears_made arm g) by (apply (gm_set _ [] "elbow" "elbow" (1 / 2)); [constructor|reflexivity]).
  assert (An : answerable arm_pin ex_log ex_sqrt s arm).
  { split; cbn [s arm_solver with_settings ks_tasks ks_masked ks_masked_fbase ks_joint_limits ks_velocity_limits ks_cons ks_N ks_dt new_ksolver].
    - intros t [<-|[]]. eexists. split; [split; [cbn; auto|reflexivity]|split; reflexivity].
    - intros t [<-|[]]; discriminate.
    - intros j [].
    - cbn. lia.
    - intros _. cbn. lia.
    - discriminate.
    - intros c []. }
  assert (Ind : independent_rows 9 (hard_rows arm_pin ex_log ex_sqrt s arm)).
  { intros mu H. assert (H0 := H 0%nat ltac:(lia)). assert (H1 := H 1%nat ltac:(lia)). assert (H2 := H 2%nat ltac:(lia)). assert (H3 := H 3%nat ltac:(lia)).
    assert (H4 := H 4%nat ltac:(lia)). assert (H5 := H 5%nat ltac:(lia)). assert (H6 := H 6%nat ltac:(lia)). clear H. cbn in H0, H1, H2, H3, H4, H5, H6.
    intros k Hk. cbn in Hk. do 7 (destruct k as [|k]; [lra|]). lia. }
  assert (Al : allowed arm_pin ex_log ex_sqrt s arm (fun j => if Nat.eqb j 6 then 1 / 4 else 0)).
  { split; unfold asks_for, scaling; cbn [s arm_solver with_settings ks_tasks ks_masked ks_masked_fbase ks_joint_limits ks_velocity_limits ks_cons ks_N ks_dt new_ksolver].
    - intros t e [[<-|[]] E] _. cbn in E. injection E as <-. intros k Hk. cbn in Hk. destruct k as [|k]; [|lia]. unfold residual. cbn. lra.
    - intros t e [[<-|[]] E]; discriminate.
    - intros (t & e & [[<-|[]] _] & H & _); discriminate.
    - intros j [].
    - intros _ j Hj. do 6 (destruct j as [|j]; [reflexivity|]). lia.
    - intros _ k Hk. cbn in Hk. destruct k as [|[|k]]; [| |lia]; cbn; lra.
    - discriminate.
    - intros c cs []. }
  pose proof (arm_reachable 0 true false [KTask (KGear g) PHard 1]) as R. fold s in R. pose proof (answerable_sound _ _ _ _ _ An) as So.
  destruct (proj2 (perfect_ksolve _ _ _ 8 s arm R An eq_refl ltac:(cbn; lra) Ind (ex_intro _ _ Al))) as (s' & r' & delta & E); [intros d _; apply arm_applies|].
  exists g, s, s', r', delta. split; [exact G|]. split; [reflexivity|]. split; [exact R|]. split; [now left|]. split; [exact perfect_qr_correct|]. split; [exact perfect_qp_correct|]. split; [exact E|].
  split; [|lra]. assert (D : vat delta 6 = 1 / 4).
  { assert (Et : exists A b, task_update arm_pin ex_log ex_sqrt 8 0 arm (KGear g) = Ok (A, b) /\ mrows A = 1%nat /\ (forall j, mat_at A 0 j = if Nat.eqb j 6 then 1 / 2 else 0) /\ vat b 0 = 1 / 8).
    { eexists _, _. split; [reflexivity|]. split; [reflexivity|]. cbn. split; [intros j; destruct (Nat.eqb j 6); reflexivity|lra]. }
    destruct Et as (A & b & Et & A1 & A2 & A3).
    destruct (C63_hard_tasks _ _ _ _ _ _ _ _ _ _ _ _ _ A b R So perfect_qr_correct perfect_qp_correct E (or_introl eq_refl) eq_refl Et) as (_ & H). specialize (H 0%nat ltac:(lia)).
    rewrite (Rsum_delta 8 6) in H; [|lia|intros j Hj Hne; rewrite A2; destruct (Nat.eqb_spec j 6); [contradiction|ring]]. rewrite A2, A3 in H. cbn in H. lra. }
  destruct (C64_applied _ _ _ _ _ _ _ _ _ _ E) as (_ & Eq & Em & _). unfold get_joint, get_joint_offset. rewrite Em, Eq. cbn -[Rplus]. rewrite D. f_equal. lra.
Qed.
Print Assumptions C65_self_gear_refuted.
