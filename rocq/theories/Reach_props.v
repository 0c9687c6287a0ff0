(** C184: reach_initial_pose brings the robot to a pose within its limits; what it leaves. *)
From Coq Require Import Reals List ZArith Bool Lia Lra String.
From Verif Require Import Base Linalg Geom3 Tools_model Geometry_model Expression_model Problem_model Problem_spec Backends_proofs Robot_model Robot_spec Robot_proofs Robot_props
  KinTasks_model Kin_model Kin_spec Kin_proofs Kin_proofs2 Kin_proofs5 Kin_proofs7 Kin_props Kin_props2 Reach_model Reach_spec Reach_proofs.
Import ListNotations.
Open Scope R_scope.

Section WithRobot.
Variable pn : pin.
Variable log3 : mat3 -> vec3.
Variable msqrt : mat -> mat.

(** What stays true at each iteration. *)
Record going (N : nat) (s0 : ksolver) (m : rmodel) (s : ksolver) (r : robot) : Prop := Going {
  go_reach : kreachable pn log3 msqrt N s; go_same : same_settings s0 s; go_model : r_model r = m; go_sizes : well_formed_robot r }.

(** The robot of an iteration when solve is called. *)
Definition prepared_robot (huge : R) (q : vec) (i : nat) (r : robot) : robot :=
  update_kinematics (if Nat.leb i 10 then add_q_noise huge q r (1 / 100) else r).

Lemma prepared_going huge q i N s0 m s r : going N s0 m s r -> going N s0 m s (prepared_robot huge q i r).
Proof. intros [A B C D]. unfold prepared_robot. destruct (Nat.leb i 10); split; assumption. Qed.

Lemma prepared_limits huge q i r : well_formed_robot r -> random_in (r_model r) q -> in_limits r -> in_limits (prepared_robot huge q i r).
Proof.
  intros W Hq Hl. unfold prepared_robot. destruct (Nat.leb i 10); [|exact Hl]. pose proof (noise_in_limits huge q r W Hq Hl) as H. exact H.
Qed.

Lemma step_going huge draw qr qp N s0 m i s r s' r' delta : m_nv m = N -> simple_joints m -> integrates pn m ->
  (forall r, r_model r = m -> well_formed_robot r -> answerable pn log3 msqrt s0 r) -> (forall i, qr_correct (qr i) /\ qp_correct (qp i)) ->
  going N s0 m s r -> reach_step pn log3 msqrt huge draw qr qp i s r = (s', r', Ok delta) ->
  going N s0 m s' r' /\ (ks_joint_limits s0 = true -> in_limits r').
Proof.
  intros EN Sj Hi An Hb G E. unfold reach_step in E. fold (prepared_robot huge (draw i) i r) in E.
  pose proof (prepared_going huge (draw i) i N s0 m s r G) as [A B C D]. set (r1 := prepared_robot huge (draw i) i r) in *.
  destruct (Hb i) as [Hqr Hqp].
  assert (An1 : answerable pn log3 msqrt s r1) by (apply (answerable_settings pn log3 msqrt s0 s r1 B), An; assumption).
  destruct (solved_in_limits pn log3 msqrt N s r1 (qr i) (qp i) s' r' delta) as (E1 & E2 & E3 & E4); try assumption; try (rewrite C; assumption).
  { apply answerable_sound. exact An1. }
  split.
  - split; [|apply (same_settings_trans _ _ _ B); apply (ksolve_settings pn log3 msqrt N s r1 (qr i) (qp i) true s' r' (Ok delta));
      [exact (reachable_knows _ _ _ _ _ A)|exact E|discriminate]|congruence|exact E2].
    apply (kr_solve pn log3 msqrt N s (qr i) (qp i) r1 true s' r' (Ok delta)); [exact A|rewrite C; exact EN|exact E|discriminate].
  - intros Hl. apply E4. destruct B as (_ & _ & _ & _ & B & _). congruence.
Qed.

(** Whatever the starting pose and the noise, when the joint limits are on and the call returns, every joint is within its limits. *)
Theorem C184_limits_partial huge draw qr qp N s r s' r' : kreachable pn log3 msqrt N s -> well_formed_robot r -> m_nv (r_model r) = N -> simple_joints (r_model r) ->
  integrates pn (r_model r) -> (forall r1, r_model r1 = r_model r -> well_formed_robot r1 -> answerable pn log3 msqrt s r1) ->
  (forall i, qr_correct (qr i) /\ qp_correct (qp i)) -> ks_joint_limits s = true ->
  reach_pose pn log3 msqrt huge draw qr qp s r = (s', r', Ok tt) -> in_limits r'.
Proof.
  intros R W EN Sj Hi An Hb Hl. unfold reach_pose.
  assert (L : forall n i s1 r1, (0 < n)%nat -> going N s (r_model r) s1 r1 -> reach_loop pn log3 msqrt huge draw qr qp n i s1 r1 = (s', r', Ok tt) -> in_limits r').
  { induction n as [|n IH]; intros i s1 r1 Hn G E; [lia|]. cbn [reach_loop] in E.
    destruct (reach_step pn log3 msqrt huge draw qr qp i s1 r1) as [[s2 r2] [d|e|]] eqn:Es; [|discriminate|discriminate].
    destruct (step_going huge draw qr qp N s (r_model r) i s1 r1 s2 r2 d EN Sj Hi An Hb G Es) as [G2 L2].
    destruct n as [|n]; [|apply (IH (S i) s2 r2); [lia|exact G2|exact E]].
    cbn [reach_loop] in E. injection E as _ <-. exact (L2 Hl). }
  apply (L 100%nat 0%nat s r); [lia|]. split; [exact R|apply same_settings_refl|reflexivity|exact W].
Qed.

(** With soft tasks only, from a pose within the limits, the call returns. *)
Theorem C184_returns huge draw qr qp N s r : kreachable pn log3 msqrt N s -> well_formed_robot r -> m_nv (r_model r) = N -> simple_joints (r_model r) -> covered (r_model r) ->
  integrates pn (r_model r) -> (forall q q', vlen (pn_difference pn q q') = N) ->
  (forall r1, r_model r1 = r_model r -> well_formed_robot r1 -> answerable pn log3 msqrt s r1) -> only_wishes s -> can_stay s (r_model r) ->
  p_rewrite (ks_problem s) = true -> 0 < p_reg (ks_problem s) -> (forall i, good_backends (qr i) (qp i)) -> (forall i, random_in (r_model r) (draw i)) ->
  (ks_joint_limits s = true -> in_limits r) ->
  exists s' r', reach_pose pn log3 msqrt huge draw qr qp s r = (s', r', Ok tt).
Proof.
  intros R W EN Sj Cv Hi Hd An Ow Cs Hw Hr Hb Hq Hl. unfold reach_pose.
  assert (Hb' : forall i, qr_correct (qr i) /\ qp_correct (qp i)) by (intros i; destruct (Hb i) as (A & B & _); auto).
  assert (L : forall n i s1 r1, going N s (r_model r) s1 r1 -> (ks_joint_limits s = true -> in_limits r1) ->
    exists s' r', reach_loop pn log3 msqrt huge draw qr qp n i s1 r1 = (s', r', Ok tt)).
  { induction n as [|n IH]; intros i s1 r1 G L1; [cbn [reach_loop]; eauto|]. cbn [reach_loop].
    assert (St : exists s2 r2 d, reach_step pn log3 msqrt huge draw qr qp i s1 r1 = (s2, r2, Ok d)).
    { unfold reach_step. fold (prepared_robot huge (draw i) i r1).
      assert (L2 : ks_joint_limits s = true -> in_limits (prepared_robot huge (draw i) i r1)).
      { intros H. apply prepared_limits; [apply G|rewrite (go_model _ _ _ _ _ G); apply Hq|exact (L1 H)]. }
      pose proof (prepared_going huge (draw i) i N s (r_model r) s1 r1 G) as [A B C D]. set (r2 := prepared_robot huge (draw i) i r1) in *.
      assert (An1 : answerable pn log3 msqrt s1 r2) by (apply (answerable_settings pn log3 msqrt s s1 r2 B), An; assumption).
      assert (Ow1 : only_wishes s1) by exact (only_wishes_settings s s1 B Ow).
      destruct B as (BN & Bd & _ & _ & Bl & Bv & _ & _ & Breg & _ & Brw).
      destruct (Hb i) as (Gqr & Gqp & Fqr & Fqp).
      assert (Al : exists x, allowed pn log3 msqrt s1 r2 x).
      { exists (fun _ => 0). apply (stay_allowed pn log3 msqrt N s1 r2); try (rewrite C; assumption); try assumption.
        - rewrite BN. exact (proj1 (reachable_knows _ _ _ _ _ R)).
        - unfold can_stay. rewrite Bv, Bd, C. exact Cs.
        - rewrite Bl. exact L2. }
      assert (Ind : independent_rows (S N) (hard_rows pn log3 msqrt s1 r2)).
      { intros mu _ k Hk. rewrite (hard_rows_none pn log3 msqrt s1 r2 Ow1) in Hk. cbn in Hk. lia. }
      destruct (C118_compatible_requests pn log3 msqrt N s1 r2 (qr i) (qp i) A An1 Gqr Gqp ltac:(congruence) ltac:(rewrite Breg; exact Hr) Ind Al) as [H|[H|H]];
        [|destruct (Fqr H)|destruct (Fqp H)].
      destruct (H true) as (s2 & r3 & d & o & E & Ld & ->). exists s2, r3, d. rewrite E. f_equal.
      destruct (C118_apply pn (ks_dt s1) r2 d) as [r4 Er]; [|rewrite Er; reflexivity].
      intros q q'. rewrite Hd. destruct D as (_ & _ & D & _). rewrite D, C. symmetry. exact EN. }
    destruct St as (s2 & r2 & d & Es). rewrite Es.
    destruct (step_going huge draw qr qp N s (r_model r) i s1 r1 s2 r2 d EN Sj Hi An Hb' G Es) as [G2 L2]. apply (IH (S i) s2 r2 G2 L2). }
  apply (L 100%nat 0%nat s r); [|exact Hl]. split; [exact R|apply same_settings_refl|reflexivity|exact W].
Qed.

(** An exception of a solve ends the call; what the robot reports is then its configuration, the one for which the solve failed. *)
Theorem C184_failure huge draw qr qp s r s' r' e : reach_pose pn log3 msqrt huge draw qr qp s r = (s', r', Throw e) -> up_to_date pn r' /\ r_model r' = r_model r.
Proof.
  unfold reach_pose.
  enough (L : forall n s r i, reach_loop pn log3 msqrt huge draw qr qp n i s r = (s', r', Throw e) -> up_to_date pn r' /\ r_model r' = r_model r) by apply L.
  clear s r. induction n as [|n IH]; intros s r i E; cbn [reach_loop] in E; [discriminate E|].
  destruct (reach_step pn log3 msqrt huge draw qr qp i s r) as [[s1 r1] [d|e1|]] eqn:Es; [| |discriminate].
  - destruct (IH _ _ _ E) as [A B]. split; [exact A|]. rewrite B. unfold reach_step in Es. fold (prepared_robot huge (draw i) i r) in Es.
    destruct (C64_applied _ _ _ _ _ _ _ _ _ _ Es) as (_ & _ & Em & _). rewrite Em. unfold prepared_robot. destruct (Nat.leb i 10); reflexivity.
  - injection E as <- <- <-. unfold reach_step in Es. fold (prepared_robot huge (draw i) i r) in Es. apply C64_failure in Es. subst r1.
    split; [|unfold prepared_robot; destruct (Nat.leb i 10); reflexivity].
    intros f T. unfold get_T_world_frame, guard. destruct (Nat.ltb f _); [|discriminate]. intros [= <-]. reflexivity.
Qed.

(** When the call returns, what the robot reports is its configuration before the displacement of the last solve. *)
Theorem C184_reported_behaviour huge draw qr qp s r s' r' : reach_pose pn log3 msqrt huge draw qr qp s r = (s', r', Ok tt) ->
  exists s1 r1 delta, ksolve pn log3 msqrt (qr 99%nat) (qp 99%nat) s1 r1 false = (s', r1, Ok delta) /\ r_model r1 = r_model r /\ up_to_date pn r1 /\
    st_q (r_state r') = pn_integrate pn (st_q (r_state r1)) delta /\
    forall f T, get_T_world_frame pn r' f = Ok T -> T = pn_frame pn (st_q (r_state r1)) f.
Proof.
  unfold reach_pose.
  assert (L : forall n i s r, (0 < n)%nat -> reach_loop pn log3 msqrt huge draw qr qp n i s r = (s', r', Ok tt) ->
    exists s1 r1 delta, ksolve pn log3 msqrt (qr (i + n - 1)%nat) (qp (i + n - 1)%nat) s1 r1 false = (s', r1, Ok delta) /\ r_model r1 = r_model r /\ up_to_date pn r1 /\
    st_q (r_state r') = pn_integrate pn (st_q (r_state r1)) delta /\
    forall f T, get_T_world_frame pn r' f = Ok T -> T = pn_frame pn (st_q (r_state r1)) f).
  { clear s r. induction n as [|n IH]; intros i s r Hn E; [lia|]. cbn [reach_loop] in E.
    destruct (reach_step pn log3 msqrt huge draw qr qp i s r) as [[s1 r1] [d|e1|]] eqn:Es; [|discriminate|discriminate].
    unfold reach_step in Es. fold (prepared_robot huge (draw i) i r) in Es. destruct (C64_applied _ _ _ _ _ _ _ _ _ _ Es) as (E1 & E2 & E3 & E4 & _).
    assert (Em : r_model (prepared_robot huge (draw i) i r) = r_model r) by (unfold prepared_robot; destruct (Nat.leb i 10); reflexivity).
    destruct n as [|n].
    - cbn [reach_loop] in E. injection E as <- <-. exists s, (prepared_robot huge (draw i) i r), d. replace (i + 1 - 1)%nat with i by lia.
      split; [exact E1|]. split; [exact Em|]. split; [|split; [exact E2|]].
      + intros f T. unfold get_T_world_frame, guard. destruct (Nat.ltb f _); [|discriminate]. intros [= <-]. reflexivity.
      + intros f T. unfold get_T_world_frame, guard. rewrite E3, E4. destruct (Nat.ltb f _); [|discriminate]. intros [= <-]. reflexivity.
    - destruct (IH (S i) s1 r1 ltac:(lia) E) as (s2 & r2 & d2 & H1 & H2 & H3). exists s2, r2, d2.
      replace (i + S (S n) - 1)%nat with (S i + S n - 1)%nat by lia. split; [exact H1|]. split; [|exact H3]. rewrite H2, E3. exact Em. }
  intros E. exact (L 100%nat 0%nat s r ltac:(lia) E).
Qed.
End WithRobot.
Print Assumptions C184_limits_partial.
Print Assumptions C184_returns.
Print Assumptions C184_failure.
Print Assumptions C184_reported_behaviour.

(** ** A robot with a head, which is asked to go from 1/2 to 1 *)

Definition reach_ex : ksolver := ex_solver 0 [] false false [KTask (KJoints [("head"%string, 1)]) PSoft 1].
Definition reach_draw (_ : nat) : vec := Vec 8 (fun _ => 0).

Lemma reach_ex_answerable r : r_model r = ex_model -> well_formed_robot r -> answerable ex_pin3 ex_log ex_sqrt reach_ex r.
Proof.
  intros Em (_ & Wq & _). rewrite Em in Wq. cbn in Wq.
  split; cbn [reach_ex ex_solver with_settings ks_tasks ks_masked ks_masked_fbase ks_joint_limits ks_velocity_limits ks_cons ks_N ks_dt new_ksolver].
  - intros t [<-|[]]. unfold asks_for. cbn [kt_kind reach_ex ex_solver with_settings ks_tasks ks_dt ks_N new_ksolver task_update].
    unfold joints_update. cbn [joints_rows]. unfold get_joint, get_joint_offset, get_joint_v_offset, exist_joint_name, joint_of, find_joint. rewrite Em. cbn.
    unfold vec_get, guard. rewrite Wq. cbn. eexists. split; [split; [now left|reflexivity]|split; reflexivity].
  - intros t [<-|[]] _. cbn. lra.
  - intros j [].
  - discriminate.
  - intros _. rewrite Em. cbn. lia.
  - discriminate.
  - intros c [].
Qed.

Lemma reach_ex_hypotheses : kreachable ex_pin3 ex_log ex_sqrt 7 reach_ex /\ well_formed_robot ex_robot /\ simple_joints ex_model /\ covered ex_model /\ integrates ex_pin3 ex_model /\
  (forall q q', vlen (pn_difference ex_pin3 q q') = 7%nat) /\ only_wishes reach_ex /\ can_stay reach_ex ex_model /\ in_limits ex_robot /\ (forall i, random_in ex_model (reach_draw i)).
Proof.
  split; [apply ex_solver_reachable|]. split; [exact ex_well_formed|].
  split; [split; [reflexivity|]; intros j [<-|[<-|[]]]; cbn; [congruence|]; intros _; lia|].
  split; [intros k Hk; cbn in Hk; exists (Joint "head" 7 1 6 1); split; [right; left; reflexivity|]; split; [discriminate|cbn; lia]|].
  split; [apply C113_example|]. split; [reflexivity|].
  split; [split; [intros t [<-|[]]; reflexivity|split; [reflexivity|split; reflexivity]]|].
  split; [discriminate|]. split.
  - intros name q lower upper Hn. unfold get_joint, get_joint_limits, get_joint_offset, exist_joint_name, joint_of, find_joint. cbn [ex_robot r_model ex_model m_joints find jt_name].
    destruct (String.eqb name "universe"); cbn [orb negb]; [discriminate|].
    destruct (String.eqb_spec "root_joint" name); [congruence|]. destruct (String.eqb "head" name); cbn; [|discriminate].
    intros [= <-] [= <- <-]. lra.
  - intros i k Hk. cbn in Hk |- *. destruct (Nat.eqb k 7); lra.
Qed.

Lemma reach_ex_delta s r qr qp s' r' delta : kreachable ex_pin3 ex_log ex_sqrt 7 s -> same_settings reach_ex s -> r_model r = ex_model -> well_formed_robot r ->
  qr_correct qr -> qp_correct qp -> -1 <= vat (st_q (r_state r)) 7 < 1 ->
  ksolve ex_pin3 ex_log ex_sqrt qr qp s r true = (s', r', Ok delta) -> vat delta 6 = (1 - vat (st_q (r_state r)) 7) / 2.
Proof.
  intros R Sm Em W Hqr Hqp Hq E. set (q := vat (st_q (r_state r)) 7) in *.
  assert (An : answerable ex_pin3 ex_log ex_sqrt s r) by (apply (answerable_settings _ _ _ reach_ex s r Sm), reach_ex_answerable; assumption).
  pose proof Sm as (EN & Ed & Eam & Eaf & El & Ev & Et & Ec & Ereg & Esp & Erw). cbn in EN, Ed, Eam, Eaf, El, Ev, Et, Ec, Ereg, Esp, Erw.
  destruct (C115_optimum ex_pin3 ex_log ex_sqrt 7 s r true qr qp s' r' delta R An Hqr Hqp ltac:(rewrite Ereg; lra) Esp E) as (Al & scaled & Hsc & Opt). cbv zeta in Opt.
  assert (scaled = false). { destruct scaled; [|reflexivity]. destruct (proj1 Hsc eq_refl) as (t & e & [Hi _] & Hp & _). rewrite Et in Hi. destruct Hi as [<-|[]]. discriminate. }
  subst scaled. cbv iota in Opt.
  assert (Ld : vlen delta = 7%nat) by (apply (ksolve_allowed ex_pin3 ex_log ex_sqrt 7 s r true qr qp s' r' delta (reachable_knows _ _ _ _ _ R) (answerable_sound _ _ _ _ _ An) Hqr Hqp E)).
  set (x := extended delta (ks_scale s')) in *. set (y := fun j => if Nat.eqb j 6 then (1 - q) / 2 else x j).
  pose proof W as (_ & Wq & _). rewrite Em in Wq. cbn in Wq.
  assert (Ay : allowed ex_pin3 ex_log ex_sqrt s r y).
  { split.
    - intros t e [Hi _] Hp. rewrite Et in Hi. destruct Hi as [<-|[]]. discriminate.
    - intros t e [Hi _] Hp. rewrite Et in Hi. destruct Hi as [<-|[]]. discriminate.
    - intros (t & e & [Hi _] & Hp & _). rewrite Et in Hi. destruct Hi as [<-|[]]. discriminate.
    - intros j Hj. rewrite Eam in Hj. destruct Hj.
    - intros H. congruence.
    - intros _ k Hk. cbv zeta beta. rewrite EN in *. assert (k = 0%nat) by lia. subst k. rewrite Em, Wq. cbn [ex_model m_lower m_upper vlen vat Nat.sub Nat.add Nat.eqb].
      fold q. unfold y. cbn [Nat.eqb]. lra.
    - intros H. congruence.
    - intros c cs H. rewrite Ec in H. destruct H. }
  specialize (Opt y Ay).
  assert (P : forall z, penalties ex_pin3 ex_log ex_sqrt s r false z = / 2 * Rsqr (z 6%nat - (1 - q))).
  { intros z. unfold penalties. rewrite Et, Ec. cbn [total]. unfold task_penalty. cbn [kt_priority kt_kind kt_weight]. rewrite EN.
    cbn [task_update]. unfold joints_update. cbn [joints_rows]. unfold get_joint, get_joint_offset, get_joint_v_offset, exist_joint_name, joint_of, find_joint. rewrite Em. cbn.
    unfold vec_get, guard. rewrite Wq. cbn. fold q. unfold residual. cbn. replace (0 * z 0%nat) with 0 by ring.
    unfold Rsqr. field. }
  rewrite !P in Opt. rewrite Ereg in Opt.
  assert (Sz : forall z, Rsum 7 (fun j => Rsqr (z j)) = Rsum 6 (fun j => Rsqr (z j)) + Rsqr (z 6%nat)) by reflexivity.
  rewrite !Sz in Opt. rewrite (Rsum_ext 6 (fun j => Rsqr (y j)) (fun j => Rsqr (x j))) in Opt.
  2: { intros j Hj. unfold y. destruct (Nat.eqb_spec j 6); [lia|reflexivity]. }
  replace (y 6%nat) with ((1 - q) / 2) in Opt by reflexivity.
  assert (X6 : x 6%nat = vat delta 6) by (unfold x, extended; rewrite Ld; reflexivity). rewrite X6 in Opt.
  generalize dependent (Rsum 6 (fun j => Rsqr (x j))). intros c Opt. unfold Rsqr in Opt. clear - Opt.
  assert ((vat delta 6 - (1 - q) / 2) * (vat delta 6 - (1 - q) / 2) <= 0) by nra.
  assert (vat delta 6 - (1 - q) / 2 = 0) by nra. lra.
Qed.

(** The hypotheses of C184_limits_partial and C184_returns hold, and the call returns. *)
Example C184_example : forall huge, exists s' r',
  reach_pose ex_pin3 ex_log ex_sqrt huge reach_draw (fun _ => perfect_qr) (fun _ => perfect_qp) reach_ex ex_robot = (s', r', Ok tt) /\ in_limits r'.
Proof.
  intros huge. destruct reach_ex_hypotheses as (H1 & H2 & H3 & H4 & H5 & H6 & H7 & H8 & H9 & H10).
  assert (B : forall i : nat, good_backends perfect_qr perfect_qp).
  { intros _. exact (conj perfect_qr_correct (conj perfect_qp_correct (conj perfect_qr_never_fails perfect_qp_never_fails))). }
  destruct (C184_returns ex_pin3 ex_log ex_sqrt huge reach_draw (fun _ => perfect_qr) (fun _ => perfect_qp) 7 reach_ex ex_robot H1 H2 eq_refl H3 H4 H5 H6) as (s' & r' & E);
    try assumption; try reflexivity.
  - intros r1 Em W. apply reach_ex_answerable; assumption.
  - cbn. lra.
  - intros _. exact H9.
  - exists s', r'. split; [exact E|].
    apply (C184_limits_partial ex_pin3 ex_log ex_sqrt huge reach_draw (fun _ => perfect_qr) (fun _ => perfect_qp) 7 reach_ex ex_robot s' r' H1 H2 eq_refl H3 H5); try assumption; try reflexivity.
    + intros r1 Em W. apply reach_ex_answerable; assumption.
    + intros i. split; [exact perfect_qr_correct|exact perfect_qp_correct].
Qed.

Lemma reach_pose_loop pn log3 msqrt huge draw qr qp s r : reach_pose pn log3 msqrt huge draw qr qp s r = reach_loop pn log3 msqrt huge draw qr qp 100 0 s r.
Proof. reflexivity. Qed.

Lemma reach_ex_loop s' r' : forall n i s r, (0 < n)%nat -> going ex_pin3 ex_log ex_sqrt 7 reach_ex ex_model s r -> -1 <= vat (st_q (r_state r)) 7 < 1 ->
    (forall k, (k < 7)%nat -> vat (st_q (r_state r)) k = vat ex_q k) ->
    reach_loop ex_pin3 ex_log ex_sqrt 1000 reach_draw (fun _ => perfect_qr) (fun _ => perfect_qp) n i s r = (s', r', Ok tt) ->
    r_model r' = ex_model /\ vlen (fst (r_seen r')) = 8%nat /\ vlen (st_q (r_state r')) = 8%nat /\
    (forall k, (k < 7)%nat -> vat (fst (r_seen r')) k = vat ex_q k) /\ (forall k, (k < 7)%nat -> vat (st_q (r_state r')) k = vat ex_q k) /\
    -1 <= vat (fst (r_seen r')) 7 < 1 /\ vat (st_q (r_state r')) 7 = vat (fst (r_seen r')) 7 + (1 - vat (fst (r_seen r')) 7) / 2.
Proof.
  destruct reach_ex_hypotheses as (H1 & H2 & H3 & H4 & H5 & H6 & H7 & H8 & H9 & H10).
  induction n as [|n IH]; intros i s r Hn G Hq Hbase EL; [lia|]. cbn [reach_loop] in EL.
    destruct (reach_step ex_pin3 ex_log ex_sqrt 1000 reach_draw (fun _ => perfect_qr) (fun _ => perfect_qp) i s r) as [[s1 r1] [d|e1|]] eqn:Es; [|discriminate EL|discriminate EL].
    destruct (step_going ex_pin3 ex_log ex_sqrt 1000 reach_draw (fun _ => perfect_qr) (fun _ => perfect_qp) 7 reach_ex ex_model i s r s1 r1 d eq_refl H3 H5) as [G1 _]; try assumption.
    { intros r0 Em W. apply reach_ex_answerable; assumption. }
    { intros _. split; [exact perfect_qr_correct|exact perfect_qp_correct]. }
    unfold reach_step in Es. fold (prepared_robot 1000 (reach_draw i) i r) in Es.
    destruct (prepared_going ex_pin3 ex_log ex_sqrt 1000 (reach_draw i) i 7 reach_ex ex_model s r G) as [A B C D].
    assert (Hq2 : -1 <= vat (st_q (r_state (prepared_robot 1000 (reach_draw i) i r))) 7 < 1).
    { unfold prepared_robot. destruct (Nat.leb i 10); [|exact Hq]. cbn [update_kinematics r_state add_q_noise set_q set_state st_q vat].
      rewrite (go_model _ _ _ _ _ _ _ _ G). cbn [ex_model m_nq m_lower m_upper Nat.ltb Nat.leb orb vat Nat.eqb reach_draw].
      destruct (Req_EM_T (-1) (- (1000))); [lra|]. destruct (Req_EM_T 2 1000); [lra|]. lra. }
    assert (Hb2 : forall k, (k < 7)%nat -> vat (st_q (r_state (prepared_robot 1000 (reach_draw i) i r))) k = vat ex_q k).
    { intros k Hk. rewrite <- (Hbase k Hk). unfold prepared_robot. destruct (Nat.leb i 10); [|reflexivity]. cbn [update_kinematics r_state add_q_noise set_q set_state st_q vat].
      destruct (Nat.ltb_spec k 7); [reflexivity|lia]. }
    pose proof (reach_ex_delta s (prepared_robot 1000 (reach_draw i) i r) perfect_qr perfect_qp s1 r1 d A B C D perfect_qr_correct perfect_qp_correct Hq2 Es) as Ed.
    destruct (C64_applied _ _ _ _ _ _ _ _ _ _ Es) as (_ & Eq & Em & Eseen & _).
    assert (Eseen' : fst (r_seen r1) = st_q (r_state (prepared_robot 1000 (reach_draw i) i r))) by (rewrite Eseen; unfold prepared_robot; destruct (Nat.leb i 10); reflexivity).
    pose proof D as (_ & Wq & _). rewrite C in Wq. change (m_nq ex_model) with 8%nat in Wq.
    assert (K : vlen (st_q (r_state r1)) = 8%nat /\ (forall k, (k < 7)%nat -> vat (st_q (r_state r1)) k = vat ex_q k) /\
      vat (st_q (r_state r1)) 7 = vat (fst (r_seen r1)) 7 + (1 - vat (fst (r_seen r1)) 7) / 2).
    { rewrite Eq, Eseen'. cbn [ex_pin3 pn_integrate vlen vat Nat.eqb]. split; [exact Wq|]. split; [|rewrite Ed; reflexivity].
      intros k Hk. destruct (Nat.eqb_spec k 7); [lia|]. apply Hb2. exact Hk. }
    rewrite <- Eseen' in Hq2, Wq, Hb2. destruct K as (K1 & K2 & K3).
    destruct n as [|n].
    - cbn [reach_loop] in EL. injection EL as <- <-. split; [congruence|]. auto 10.
    - apply (IH (S i) s1 r1); [lia|exact G1| |exact K2|exact EL]. rewrite K3. lra.
Qed.

(** After the call, the frames that the robot reports are not those of its configuration. *)
Theorem C184_reported_refuted : exists s' r' T,
  reach_pose ex_pin3 ex_log ex_sqrt 1000 reach_draw (fun _ => perfect_qr) (fun _ => perfect_qp) reach_ex ex_robot = (s', r', Ok tt) /\
  get_T_world_frame_name ex_pin3 r' "head" = Ok T /\ get_T_world_frame_name ex_pin3 (update_kinematics r') "head" <> Ok T.
Proof.
  destruct (C184_example 1000) as (s' & r' & E & _). exists s', r', (pn_frame ex_pin3 (fst (r_seen r')) 2).
  destruct reach_ex_hypotheses as (H1 & H2 & H3 & H4 & H5 & H6 & H7 & H8 & H9 & H10).
  pose proof E as E0. rewrite reach_pose_loop in E0.
  destruct (reach_ex_loop s' r' 100%nat 0%nat reach_ex ex_robot) as (Em & V1 & V2 & Hk1 & Hk2 & Hq & Hd);
    [lia|split; [exact H1|apply same_settings_refl|reflexivity|exact H2]|cbn; lra|intros k _; reflexivity|exact E0|].
  split; [exact E|]. split.
  - unfold get_T_world_frame_name, get_frame_index, get_T_world_frame. rewrite Em. reflexivity.
  - assert (F : forall q, vlen q = 8%nat -> (forall k, (k < 7)%nat -> vat q k = vat ex_q k) -> m00 (fr_R (pn_frame ex_pin3 q 2)) = cos (vat q 7) /\ m10 (fr_R (pn_frame ex_pin3 q 2)) = sin (vat q 7)).
    { intros q Lq Hb. cbn [ex_pin3 ex_pin pn_frame Nat.eqb]. unfold q_base, ex_rel. rewrite Lq. cbn [Nat.eqb andb Nat.ltb Nat.leb].
      rewrite (Hb 3%nat), (Hb 4%nat), (Hb 5%nat), (Hb 6%nat) by lia. unfold frame_mul, quat_matrix, rot_z. cbn. split; field. }
    unfold get_T_world_frame_name, get_frame_index, get_T_world_frame. cbn [update_kinematics r_model r_seen fst]. rewrite Em.
    change (Ok (pn_frame ex_pin3 (st_q (r_state r')) 2) <> Ok (pn_frame ex_pin3 (fst (r_seen r')) 2)). intros K.
    assert (K' : pn_frame ex_pin3 (st_q (r_state r')) 2 = pn_frame ex_pin3 (fst (r_seen r')) 2) by congruence. clear K.
    destruct (F (st_q (r_state r')) V2 Hk2) as [F1 F2]. destruct (F (fst (r_seen r')) V1 Hk1) as [F3 F4]. rewrite K' in F1, F2. rewrite F1 in F3. rewrite F2 in F4.
    set (a := vat (fst (r_seen r')) 7) in *. set (b := vat (st_q (r_state r')) 7) in *.
    assert (Cs : cos (b - a) = 1). { rewrite cos_minus, F3, F4. pose proof (sin2_cos2 a) as H. unfold Rsqr in H. lra. }
    assert (0 < b - a <= 1) by lra. assert (cos (b - a) < cos 0) by (pose proof PI2_3_2; pose proof PI2_1; apply cos_decreasing_1; lra). rewrite cos_0 in *. lra.
Qed.
Print Assumptions C184_reported_refuted.
