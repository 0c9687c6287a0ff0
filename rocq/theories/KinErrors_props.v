(** Properties of the errors the kinematics tasks report (C177). *)
From Coq Require Import Reals List Arith Bool String Lra Lia.
From Verif Require Import Base Linalg Geom3 Tools_model Geometry_model Geometry_proofs Expression_model Problem_model Problem_spec Problem_props Backends_proofs Robot_model Robot_spec Robot_props
  KinTasks_model Kin_model Kin_spec Kin_proofs Kin_proofs6 Kin_proofs7 Kin_props KinErrors_model KinErrors_spec KinErrors_proofs.
Import ListNotations.
Open Scope R_scope.

(** At any point of any program, the error of a task is the one that was computed by the last solve or dump_status that succeeded, for the robot and the target
    of that moment, before the step was applied; a task for which there was none has an empty error. *)
Theorem C177_history_behaviour pn log3 msqrt qr qp r l b k v : bench_run pn log3 msqrt qr qp (new_bench r) l = Some b -> task_error b k = Some v ->
  last_computed pn log3 msqrt qr qp (new_bench r) l k v \/ (vlen v = 0%nat /\ never_computed pn log3 msqrt qr qp (new_bench r) l k).
Proof. apply history. Qed.
Print Assumptions C177_history_behaviour.

(** What can be relied on: right after dump_status, the error is that of the moment, and neither the solver nor the robot changed. *)
Theorem C177_dump_partial pn log3 msqrt qr qp r l b b' : bench_run pn log3 msqrt qr qp (new_bench r) l = Some b -> bench_step pn log3 msqrt qr qp b BDump = (b', Ok tt) ->
  be_solver b' = be_solver b /\ be_robot b' = be_robot b /\
  forall k, (k < List.length (ks_tasks (be_solver b)))%nat -> exists v, task_error b' k = Some v /\ current_error pn log3 msqrt b' k v.
Proof.
  intros H Hs. pose proof (run_paired _ _ _ _ _ _ _ _ H) as P. cbn [bench_step] in Hs.
  pose proof (errors_dump_all pn log3 msqrt (be_solver b) (be_robot b) (ks_tasks (be_solver b)) (be_errors b)) as D.
  destruct (errors_in_dump pn log3 msqrt (be_solver b) (be_robot b) (ks_tasks (be_solver b)) (be_errors b)) as [m o]. injection Hs as <- ->. cbn [fst snd] in D.
  split; [reflexivity|]. split; [reflexivity|]. intros k Hk. destruct (nth_error (ks_tasks (be_solver b)) k) as [t|] eqn:E; [|apply nth_error_None in E; lia].
  destruct (D k t P eq_refl E) as (A & v & D1 & D2). exists v. unfold task_error. cbn [be_errors]. rewrite D2. split; [reflexivity|]. exists t, A. auto.
Qed.
Print Assumptions C177_dump_partial.

(** Right after a solve, it is that of the state the solve started from, whether or not the step was applied. *)
Theorem C177_solve_behaviour pn log3 msqrt qr qp r l b b' apply : bench_run pn log3 msqrt qr qp (new_bench r) l = Some b ->
  bench_step pn log3 msqrt qr qp b (BSolve apply) = (b', Ok tt) ->
  forall k, (k < List.length (ks_tasks (be_solver b)))%nat -> exists v, task_error b' k = Some v /\ current_error pn log3 msqrt b k v.
Proof.
  intros H Hs k Hk. pose proof (run_paired _ _ _ _ _ _ _ _ H) as P. cbn [bench_step] in Hs.
  destruct (ksolve pn log3 msqrt qr qp (be_solver b) (be_robot b) apply) as [[s' r'] o] eqn:E. injection Hs as <- Ho.
  destruct o as [x|x|]; try discriminate. destruct (ksolve_tasks _ _ _ _ _ _ _ _ _ _ _ E) as [_ T]. specialize (T x eq_refl).
  destruct (nth_error (ks_tasks (be_solver b)) k) as [t|] eqn:Et; [|apply nth_error_None in Et; lia].
  destruct (errors_solve_all pn log3 msqrt (be_robot b) _ _ (be_errors b) k t P T Et) as (A & v & D1 & D2). destruct (before_frozen (be_solver b)) as (F1 & F2 & _).
  rewrite F1, F2 in D1. exists v. unfold task_error. cbn [be_errors]. rewrite D2. split; [reflexivity|]. exists t, A. auto.
Qed.
Print Assumptions C177_solve_behaviour.

(** What the norm of a computed error means. *)
Lemma column_norm_0 b : column_norm b = 0 <-> forall k, (k < vlen b)%nat -> vat b k = 0.
Proof.
  unfold column_norm. assert (P : 0 <= Rsum (vlen b) (fun k => Rsqr (vat b k))) by (apply Rsum_nonneg; intros; apply Rle_0_sqr). split.
  - intros H k Hk. apply sqrt_eq_0 in H; [|exact P]. apply Rsqr_0_uniq. apply (Rsum_zero_all _ _ H); [intros; apply Rle_0_sqr|exact Hk].
  - intros H. rewrite Rsum_zero_ext, sqrt_0; [reflexivity|]. intros k Hk. rewrite H by exact Hk. apply Rsqr_0.
Qed.
Lemma mask_norm m v b : mask_v m v = Ok b -> m_frame m = TaskFrame -> m_indices m = [0; 1; 2]%nat -> column_norm b = v3_norm v.
Proof.
  unfold mask_v, apply_mask. intros H F X. rewrite F, X in H. cbn in H. injection H as <-. unfold column_norm, v3_norm, v3_dot, Rsqr. cbn. f_equal. ring.
Qed.

(** A position task, or a center of mass task, on all the axes: the distance to the target, zero when and only when it is reached. *)
Theorem C177_position pn log3 msqrt N dt r f target m A b : m_frame m = TaskFrame -> m_indices m = [0; 1; 2]%nat ->
  task_update pn log3 msqrt N dt r (KPosition f target m) = Ok (A, b) ->
  exists T, get_T_world_frame pn r f = Ok T /\
    column_norm b = sqrt (Rsqr (vx target - vx (fr_t T)) + Rsqr (vy target - vy (fr_t T)) + Rsqr (vz target - vz (fr_t T))) /\ (column_norm b = 0 <-> fr_t T = target).
Proof.
  intros F X H. cbn [task_update] in H. unfold position_update in H. bind H T ET. bind H J EJ. bind H A' EA. bind H b' Eb. injection H as <- <-.
  exists T. split; [reflexivity|]. rewrite (mask_norm _ _ _ Eb F X). split; [reflexivity|]. rewrite v3_norm_0. destruct target as [a1 a2 a3], (fr_t T) as [b1 b2 b3]. unfold v3_sub, v3_zero. cbn. split.
  - intros E. injection E as E1 E2 E3. f_equal; lra.
  - intros E. injection E as -> -> ->. f_equal; ring.
Qed.
Print Assumptions C177_position.
Theorem C177_com pn log3 msqrt N dt r target m A b : m_frame m = TaskFrame -> m_indices m = [0; 1; 2]%nat ->
  task_update pn log3 msqrt N dt r (KCom target m) = Ok (A, b) ->
  let c := com_world pn r in
  column_norm b = sqrt (Rsqr (vx target - vx c) + Rsqr (vy target - vy c) + Rsqr (vz target - vz c)) /\ (column_norm b = 0 <-> c = target).
Proof.
  intros F X H. cbn [task_update] in H. unfold com_update in H. bind H A' EA. bind H b' Eb. injection H as <- <-.
  cbv zeta. rewrite (mask_norm _ _ _ Eb F X). split; [reflexivity|]. rewrite v3_norm_0. destruct target as [a1 a2 a3], (com_world pn r) as [b1 b2 b3]. unfold v3_sub, v3_zero. cbn. split.
  - intros E. injection E as E1 E2 E3. f_equal; lra.
  - intros E. injection E as -> -> ->. f_equal; ring.
Qed.
Print Assumptions C177_com.
(** A joints task: zero when and only when every joint is at its target. *)
Theorem C177_joints pn log3 msqrt N dt r l A b : task_update pn log3 msqrt N dt r (KJoints l) = Ok (A, b) ->
  (column_norm b = 0 <-> forall name target, In (name, target) l -> get_joint r name = Ok target).
Proof.
  cbn [task_update]. unfold joints_update. intros H. bind H rs E. injection H as <- <-. destruct (joints_rows_spec _ _ _ _ E) as [L S0]. rewrite column_norm_0. cbn [vlen vat]. split.
  - intros H name target Hin. apply In_nth_error in Hin. destruct Hin as (k & Hk). assert (Lk : (k < List.length l)%nat) by (apply nth_error_Some; congruence).
    specialize (H k Lk). destruct (S0 k name target Hk) as (off & q & _ & _ & Hq & Er). rewrite Er in H. cbn in H. rewrite Hq. f_equal. lra.
  - intros H k Lk. destruct (nth_error l k) as [[name target]|] eqn:Ek; [|apply nth_error_None in Ek; lia].
    destruct (S0 k name target Ek) as (off & q & _ & _ & Hq & ->). rewrite (H name target (nth_error_In _ _ Ek)) in Hq. injection Hq as <-. cbn. lra.
Qed.
Print Assumptions C177_joints.

(** A new task, wherever its target is, has an error of zero (a distance task excepted, of which the error is then unspecified). *)
Theorem C177_new_refuted pn log3 msqrt qr qp b t : List.length (be_errors b) = List.length (ks_tasks (be_solver b)) ->
  let b' := fst (bench_step pn log3 msqrt qr qp b (BAdd t)) in let k := List.length (ks_tasks (be_solver b)) in
  nth_error (ks_tasks (be_solver b')) k = Some t /\
  match kt_kind t with KDistance _ _ _ => task_error_norm b' k = None | _ => task_error_norm b' k = Some 0 end.
Proof.
  intros P. cbn [bench_step fst be_solver be_errors with_tasks ks_tasks]. cbv zeta. split; [rewrite nth_error_app2, Nat.sub_diag by lia; reflexivity|].
  unfold task_error_norm, task_error. cbn [be_errors]. rewrite nth_error_app2, P, Nat.sub_diag by lia. cbn [nth_error].
  destruct (kt_kind t); cbn [new_error]; try reflexivity; f_equal; apply column_norm_0; intros k Hk; inversion Hk.
Qed.
Print Assumptions C177_new_refuted.

(** After a solve that brings a joint to its target, the error of the task that asked for it is not zero. *)
Theorem C177_stale_refuted pn log3 msqrt N qr qp r l b b' k name target w : bench_run pn log3 msqrt qr qp (new_bench r) l = Some b ->
  kreachable pn log3 msqrt N (be_solver b) -> sound pn log3 msqrt (be_solver b) (be_robot b) -> qr_correct qr -> qp_correct qp ->
  well_formed_robot (be_robot b) -> m_nv (r_model (be_robot b)) = N -> integrates pn (r_model (be_robot b)) ->
  get_joint_size (be_robot b) name = Ok 1%nat -> get_joint_v_size (be_robot b) name = Ok 1%nat ->
  nth_error (ks_tasks (be_solver b)) k = Some (KTask (KJoints [(name, target)]) PHard w) -> get_joint (be_robot b) name <> Ok target ->
  bench_step pn log3 msqrt qr qp b (BSolve true) = (b', Ok tt) ->
  get_joint (be_robot b') name = Ok target /\ exists x, task_error_norm b' k = Some x /\ x <> 0.
Proof.
  intros H R So Hqr Hqp W EN Hi S1 S2 Hk Hne Hs. pose proof Hs as Hs'. cbn [bench_step] in Hs'.
  destruct (ksolve pn log3 msqrt qr qp (be_solver b) (be_robot b) true) as [[s' r'] o] eqn:E. injection Hs' as Eb Ho. destruct o as [x|x|]; try discriminate.
  destruct (C65_hard_joints _ _ _ _ _ _ _ _ _ _ _ _ _ _ name target R So Hqr Hqp E (nth_error_In _ _ Hk) eq_refl eq_refl) as (q & j & _ & _ & _ & Ha).
  { unfold joints_get. cbn. rewrite String.eqb_refl. reflexivity. }
  split; [rewrite <- Eb; exact (Ha eq_refl W EN Hi S1 S2)|].
  destruct (C177_solve_behaviour _ _ _ _ _ _ _ _ _ _ H Hs k) as (v & V1 & t & A & V2 & V3); [apply nth_error_Some; congruence|].
  rewrite Hk in V2. injection V2 as <-. cbn [kt_kind] in V3. unfold task_error_norm. rewrite V1. eexists. split; [reflexivity|]. intros Z.
  apply Hne. apply (proj1 (C177_joints _ _ _ _ _ _ _ _ _ V3) Z). now left.
Qed.
Print Assumptions C177_stale_refuted.

(** The arm of C65: its tasks are added one after the other, then the solver is asked for a step. *)
Definition bench_program : list bench_call := [BOther (arm_solver 0 true false []); BAdd (KTask (KGear arm_gears) PHard 1); BAdd (KTask (KJoints [("elbow"%string, 1)]) PHard 1)].
Example C177_example : exists b b', bench_run arm_pin ex_log ex_sqrt perfect_qr perfect_qp (new_bench arm) bench_program = Some b /\ be_solver b = arm_geared /\ be_robot b = arm /\
  kreachable arm_pin ex_log ex_sqrt 8 (be_solver b) /\ sound arm_pin ex_log ex_sqrt (be_solver b) (be_robot b) /\
  task_error_norm b 1 = Some 0 /\ get_joint arm "elbow" <> Ok 1 /\
  bench_step arm_pin ex_log ex_sqrt perfect_qr perfect_qp b (BSolve true) = (b', Ok tt) /\
  get_joint (be_robot b') "elbow" = Ok 1 /\ (exists x, task_error_norm b' 1 = Some x /\ x <> 0) /\
  exists b2, bench_step arm_pin ex_log ex_sqrt perfect_qr perfect_qp b BDump = (b2, Ok tt).
Proof.
  destruct C65_example as (R & So & W & _ & Hi & _ & _ & _ & _ & s' & r' & delta & E & Ej & _).
  set (b := Bench arm_geared arm [Some (Vec 0 (fun _ => 0)); Some (Vec 0 (fun _ => 0))]).
  assert (Eb : bench_run arm_pin ex_log ex_sqrt perfect_qr perfect_qp (new_bench arm) bench_program = Some b) by reflexivity.
  assert (Ne : get_joint arm "elbow" <> Ok 1) by (cbn; intros X; injection X as X; lra).
  destruct (bench_step arm_pin ex_log ex_sqrt perfect_qr perfect_qp b (BSolve true)) as [b' o] eqn:Es.
  assert (Eo : o = Ok tt) by (cbn [bench_step be_solver be_robot b] in Es; rewrite E in Es; injection Es as _ <-; reflexivity). subst o.
  exists b, b'. split; [exact Eb|]. split; [reflexivity|]. split; [reflexivity|]. split; [exact R|]. split; [exact So|]. split.
  - unfold task_error_norm. cbn. f_equal. apply column_norm_0. intros k Hk. inversion Hk.
  - split; [exact Ne|]. split; [exact Es|]. destruct (C177_stale_refuted _ _ _ 8 _ _ _ _ _ _ 1 "elbow" 1 1 Eb R So perfect_qr_correct perfect_qp_correct W eq_refl Hi eq_refl eq_refl eq_refl Ne Es) as [X Y].
    split; [exact X|]. split; [exact Y|]. eexists. reflexivity.
Qed.
