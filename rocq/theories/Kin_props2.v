(** Properties of the kinematics solver (C115 to C120): optimality, independence of the history, refusals, existence. *)
From Coq Require Import Reals List ZArith Bool Lia Lra String Permutation.
From Verif Require Import Base Linalg Geom3 Tools_model Geometry_model Expression_model Expression_spec Expression_proofs Problem_model Problem_spec Problem_proofs Problem_proofs2
  Problem_proofs3 Polynom_model Backends_proofs Robot_model Robot_spec Robot_proofs Robot_props KinTasks_model Kin_model Kin_spec Kin_proofs Kin_proofs2 Kin_proofs3
  Kin_proofs4 Kin_proofs5 Kin_proofs6 Kin_proofs7 Kin_props.
Import ListNotations.
Open Scope R_scope.

(** ** C115 The best displacement *)

(** The displacement returned is allowed and, among all the allowed displacements, has the least sum of the penalties of the soft tasks and constraints (and
    of the one that brings the scale close to 1), and of the regularization. *)
Theorem C115_optimum pn log3 msqrt N s r apply qr qp s' r' delta : kreachable pn log3 msqrt N s -> answerable pn log3 msqrt s r -> qr_correct qr -> qp_correct qp ->
  0 <= p_reg (ks_problem s) -> p_sparse (ks_problem s) = false -> ksolve pn log3 msqrt qr qp s r apply = (s', r', Ok delta) ->
  allowed pn log3 msqrt s r (extended delta (ks_scale s')) /\
  exists scaled, (scaled = true <-> scaling pn log3 msqrt s r) /\
    let size x := p_reg (ks_problem s) / 2 * Rsum (if scaled then S N else N) (fun j => Rsqr (x j)) in
    forall y, allowed pn log3 msqrt s r y ->
      penalties pn log3 msqrt s r scaled (extended delta (ks_scale s')) + size (extended delta (ks_scale s')) <= penalties pn log3 msqrt s r scaled y + size y.
Proof.
  intros R An Hqr Hqp Hr Hs E. apply reachable_knows in R. split.
  - exact (proj2 (ksolve_allowed pn log3 msqrt N s r apply qr qp s' r' delta R (answerable_sound _ _ _ _ _ An) Hqr Hqp E)).
  - exact (ksolve_optimum pn log3 msqrt N s r apply qr qp s' r' delta R An Hqr Hqp Hr Hs E).
Qed.
Print Assumptions C115_optimum.

(** ex_scaled: the scale is the greatest that the velocity limit allows, up to the regularization. *)
Example C115_example : kreachable ex_pin3 ex_log ex_sqrt 7 ex_scaled /\ answerable ex_pin3 ex_log ex_sqrt ex_scaled ex_robot /\
  0 <= p_reg (ks_problem ex_scaled) /\ p_sparse (ks_problem ex_scaled) = false /\
  exists s' r' delta, ksolve ex_pin3 ex_log ex_sqrt perfect_qr perfect_qp ex_scaled ex_robot true = (s', r', Ok delta).
Proof.
  split; [apply ex_solver_reachable|]. split; [exact ex_scaled_answerable|]. split; [cbn; lra|]. split; [reflexivity|]. apply C62_example.
Qed.

(** ** C116 The result depends on the request only *)

(** Two solvers of the same robot with the same tasks, constraints and settings, in any order, give the same displacement and the same scale, whatever was done with
    each of them before, whatever back-ends they use, and whether the displacement is applied or not. *)
Theorem C116_same_request pn log3 msqrt N s1 s2 r a1 a2 qr1 qr2 qp1 qp2 s1' s2' r1 r2 d1 d2 :
  kreachable pn log3 msqrt N s1 -> kreachable pn log3 msqrt N s2 -> same_request s1 s2 -> answerable pn log3 msqrt s1 r ->
  qr_correct qr1 -> qp_correct qp1 -> qr_correct qr2 -> qp_correct qp2 ->
  0 < p_reg (ks_problem s1) -> p_sparse (ks_problem s1) = false -> p_sparse (ks_problem s2) = false ->
  ksolve pn log3 msqrt qr1 qp1 s1 r a1 = (s1', r1, Ok d1) -> ksolve pn log3 msqrt qr2 qp2 s2 r a2 = (s2', r2, Ok d2) ->
  vlen d1 = vlen d2 /\ (forall j, (j < vlen d1)%nat -> vat d1 j = vat d2 j) /\ (scaling pn log3 msqrt s1 r -> ks_scale s1' = ks_scale s2').
Proof.
  intros R1 R2. apply reachable_knows in R1, R2. exact (solved_unique pn log3 msqrt N s1 s2 r a1 a2 qr1 qr2 qp1 qp2 s1' s2' r1 r2 d1 d2 R1 R2).
Qed.
Print Assumptions C116_same_request.

(** A solver with a past: one solve with other tasks. *)
Example C116_example : exists s0 s1, kreachable ex_pin3 ex_log ex_sqrt 7 s0 /\ same_request ex_scaled s0 /\ ks_qd s0 <> ks_qd ex_scaled /\
  answerable ex_pin3 ex_log ex_sqrt ex_scaled ex_robot /\ 0 < p_reg (ks_problem ex_scaled) /\ p_sparse (ks_problem s0) = false /\
  kreachable ex_pin3 ex_log ex_sqrt 7 s1 /\ same_request ex_scaled s1 /\ s1 <> s0.
Proof.
  destruct C62_example as (R & So & Hqr & Hqp & _ & _ & _ & _ & _ & (s' & r' & delta & E) & _).
  pose proof (kr_solve ex_pin3 ex_log ex_sqrt 7 ex_scaled perfect_qr perfect_qp ex_robot true s' r' (Ok delta) R eq_refl E ltac:(discriminate)) as R'.
  pose proof (kr_settings _ _ _ _ s' (1 / 10) [] true true true [KTask (KJoints [("head"%string, 1)]) PScaled 1] [] 1 false true R') as R2.
  assert (K : ks_N s' = 7%nat) by apply (reachable_knows _ _ _ _ _ R').
  assert (Q : ks_qd s' <> None).
  { destruct (ksolve_solved ex_pin3 ex_log ex_sqrt 7 ex_scaled ex_robot true perfect_qr perfect_qp s' r' delta (reachable_knows _ _ _ _ _ R)) as (s2 & pb' & Sv); [apply So|exact E|].
    intros Hq. pose proof (reachable_knows _ _ _ _ _ R') as (_ & Kn). rewrite Hq in Kn. pose proof (so_var _ _ _ _ _ _ _ _ _ _ _ _ _ _ Sv) as V. destruct (ks_scale_var s') eqn:Ev; [exact Kn|].
    assert (Hs : scaling ex_pin3 ex_log ex_sqrt ex_scaled ex_robot).
    { eexists (KTask (KJoints [("head"%string, 1)]) PScaled 1), _. split; [split; [now left|reflexivity]|]. split; [reflexivity|cbn; lia]. }
    apply (pr_scaling _ _ _ _ _ _ _ (so_prepared _ _ _ _ _ _ _ _ _ _ _ _ _ _ Sv)) in Hs. apply (pr_var _ _ _ _ _ _ _ (so_prepared _ _ _ _ _ _ _ _ _ _ _ _ _ _ Sv)) in Hs. congruence. }
  eexists. exists ex_scaled. split; [exact R2|].
  assert (Sr : forall s, ks_N s = 7%nat -> same_request ex_scaled (with_settings s (1 / 10) [] true true true [KTask (KJoints [("head"%string, 1)]) PScaled 1] [] 1 false true)).
  { intros s Hs. repeat split; cbn; auto. }
  split; [apply Sr, K|]. split; [exact Q|]. split; [exact ex_scaled_answerable|]. split; [cbn; lra|]. split; [reflexivity|]. split; [exact R|]. split; [apply (Sr (new_ksolver ex_robot) eq_refl)|].
  intros C. apply Q. apply (f_equal ks_qd) in C. cbn in C. now symmetry.
Qed.

(** ** C117 Incompatible requests *)

(** When no displacement satisfies the masks, the limits, the hard tasks and the hard constraints, the solve fails with a QPError and the robot is left as it was. *)
Theorem C117_incompatible_requests pn log3 msqrt N s r apply qr qp s' r' o : kreachable pn log3 msqrt N s -> answerable pn log3 msqrt s r ->
  p_rewrite (ks_problem s) = true -> qr_correct qr -> qp_correct qp ->
  (forall x, ~ allowed pn log3 msqrt s r x) -> ksolve pn log3 msqrt qr qp s r apply = (s', r', o) -> o = Throw EQP /\ r' = r.
Proof.
  intros R An Hw Hqr Hqp Hx E. apply reachable_knows in R. destruct (ksolve_ends pn log3 msqrt N s r qr qp apply s' r' o R An Hw E) as [H|(d & E' & _)]; [exact H|].
  destruct (ksolve_allowed pn log3 msqrt N s r false qr qp s' r d R (answerable_sound _ _ _ _ _ An) Hqr Hqp E') as [_ Al]. destruct (Hx _ Al).
Qed.
Print Assumptions C117_incompatible_requests.

(** The head cannot go to 5, its upper limit is 2. *)
Example C117_example : let s := ex_solver 0 [] true false [KTask (KJoints [("head"%string, 5)]) PHard 1] in
  kreachable ex_pin3 ex_log ex_sqrt 7 s /\ answerable ex_pin3 ex_log ex_sqrt s ex_robot /\ p_rewrite (ks_problem s) = true /\ forall x, ~ allowed ex_pin3 ex_log ex_sqrt s ex_robot x.
Proof.
  intros s. split; [apply ex_solver_reachable|]. split; [|split; [reflexivity|]].
  - split; cbn [s ex_solver with_settings ks_tasks ks_masked ks_masked_fbase ks_joint_limits ks_velocity_limits ks_cons ks_N ks_dt new_ksolver].
    + intros t [<-|[]]. eexists. split; [split; [now left|reflexivity]|split; reflexivity].
    + intros t [<-|[]]. discriminate.
    + intros j [].
    + cbn. lia.
    + intros _. cbn. lia.
    + discriminate.
    + intros c [].
  - intros x Al. pose proof (al_limits _ _ _ _ _ _ Al eq_refl 0%nat ltac:(cbn; lia)) as B.
    assert (F : 1 / 2 + x 6%nat = 5).
    { refine (proj1 (joints_follows 7 ex_robot [("head"%string, 5)] _ x eq_refl) _ "head"%string 5 (or_introl eq_refl) 6%nat (1 / 2) eq_refl eq_refl).
      apply (al_hard _ _ _ _ _ _ Al (KTask (KJoints [("head"%string, 5)]) PHard 1)); [split; [now left|reflexivity]|reflexivity]. }
    cbn in B. lra.
Qed.

(** ** C118 Compatible requests are answered *)

(** A solve of which the tasks can be evaluated ends, without undefined behaviour: it gives a displacement, or throws a QPError. *)
Theorem C118_ends pn log3 msqrt N s r apply qr qp s' r' o : kreachable pn log3 msqrt N s -> answerable pn log3 msqrt s r -> p_rewrite (ks_problem s) = true ->
  ksolve pn log3 msqrt qr qp s r apply = (s', r', o) ->
  (o = Throw EQP /\ r' = r) \/
  exists delta, vlen delta = N /\ o = (if apply then x <- apply_delta pn (ks_dt s) r delta ;; Ok delta else Ok delta).
Proof.
  intros R An Hw E. apply reachable_knows in R. destruct (ksolve_ends pn log3 msqrt N s r qr qp apply s' r' o R An Hw E) as [H|(d & _ & L & H)]; [now left|right]. now exists d.
Qed.
Print Assumptions C118_ends.

(** Applying a displacement succeeds when pinocchio's difference has the size of the velocities. *)
Theorem C118_apply pn dt r delta : (forall q q', vlen (pn_difference pn q q') = vlen (st_qd (r_state r))) -> exists r', apply_delta pn dt r delta = Ok r'.
Proof.
  intros H. unfold apply_delta. destruct (Rlt_dec 0 dt); [|eexists; reflexivity]. unfold vec_sub, guard, vec_scale. cbn [vlen]. rewrite H, Nat.eqb_refl. eexists. reflexivity.
Qed.
Print Assumptions C118_apply.

(** When some displacement satisfies everything that is asked, and no equality asked follows from the others, the solve gives a displacement, unless one of the
    back-ends fails on a problem it should solve. *)
Theorem C118_compatible_requests pn log3 msqrt N s r qr qp : kreachable pn log3 msqrt N s -> answerable pn log3 msqrt s r -> qr_correct qr -> qp_correct qp ->
  p_rewrite (ks_problem s) = true -> 0 < p_reg (ks_problem s) -> independent_rows (S N) (hard_rows pn log3 msqrt s r) ->
  (exists x, allowed pn log3 msqrt s r x) ->
  (forall apply, exists s' r' delta o, ksolve pn log3 msqrt qr qp s r apply = (s', r', o) /\ vlen delta = N /\
     o = (if apply then x <- apply_delta pn (ks_dt s) r delta ;; Ok delta else Ok delta)) \/ qr_fails qr \/ qp_fails qp.
Proof. intros R. apply reachable_knows in R. exact (ksolve_complete pn log3 msqrt N s r qr qp R). Qed.
Print Assumptions C118_compatible_requests.

Example C118_example : kreachable ex_pin3 ex_log ex_sqrt 7 ex_scaled /\ answerable ex_pin3 ex_log ex_sqrt ex_scaled ex_robot /\ p_rewrite (ks_problem ex_scaled) = true /\
  0 < p_reg (ks_problem ex_scaled) /\ independent_rows 8 (hard_rows ex_pin3 ex_log ex_sqrt ex_scaled ex_robot) /\ exists x, allowed ex_pin3 ex_log ex_sqrt ex_scaled ex_robot x.
Proof.
  split; [apply ex_solver_reachable|]. split; [exact ex_scaled_answerable|]. split; [reflexivity|]. split; [cbn; lra|]. split; [exact ex_scaled_independent|].
  eexists. apply ex_scaled_allowed.
Qed.

(** ** C119 Redundant requests *)

(** Requests of which an equality follows from the others are always refused, even when they are compatible. *)
Theorem C119_redundant_requests_behaviour pn log3 msqrt N s r apply qr qp s' r' o : kreachable pn log3 msqrt N s -> answerable pn log3 msqrt s r ->
  p_rewrite (ks_problem s) = true -> qr_correct qr -> ~ independent_rows (S N) (hard_rows pn log3 msqrt s r) ->
  ksolve pn log3 msqrt qr qp s r apply = (s', r', o) -> o = Throw EQP /\ r' = r.
Proof.
  intros R An Hw Hqr Hx E. apply reachable_knows in R. destruct (ksolve_ends pn log3 msqrt N s r qr qp apply s' r' o R An Hw E) as [H|(d & E' & _)]; [exact H|].
  destruct Hx. exact (ksolve_independent pn log3 msqrt N s r false qr qp s' r d R An Hqr Hw E').
Qed.
Print Assumptions C119_redundant_requests_behaviour.

(** Masking the floating base and one of its degrees of freedom. *)
Theorem C119_base_masked_twice_behaviour pn log3 msqrt N s r apply qr qp s' r' o k : kreachable pn log3 msqrt N s -> answerable pn log3 msqrt s r ->
  p_rewrite (ks_problem s) = true -> qr_correct qr -> ks_masked_fbase s = true -> In k (ks_masked s) -> (k < 6)%nat ->
  ksolve pn log3 msqrt qr qp s r apply = (s', r', o) -> o = Throw EQP /\ r' = r.
Proof.
  intros R An Hw Hqr Hf Hk Hlt. apply (C119_redundant_requests_behaviour pn log3 msqrt N s r apply qr qp s' r' o R An Hw Hqr). unfold hard_rows. intros H.
  apply independent_app_r in H. rewrite Hf in H. revert H. apply (app_twice_dependent _ _ _ (unit_row k) (unit_row k)); [now apply in_map|apply in_or_app; left; apply in_map, in_seq; lia|reflexivity].
Qed.
Print Assumptions C119_base_masked_twice_behaviour.

(** Masking a joint that a hard joints task brings to a target, even to its current position. *)
Theorem C119_masked_and_asked_behaviour pn log3 msqrt N s r apply qr qp s' r' o t l name target k : kreachable pn log3 msqrt N s -> answerable pn log3 msqrt s r ->
  p_rewrite (ks_problem s) = true -> qr_correct qr -> In t (ks_tasks s) -> kt_priority t = PHard -> kt_kind t = KJoints l -> In (name, target) l ->
  get_joint_v_offset r name = Ok k -> In k (ks_masked s) ->
  ksolve pn log3 msqrt qr qp s r apply = (s', r', o) -> o = Throw EQP /\ r' = r.
Proof.
  intros R An Hw Hqr Ht Hp Hl Hin Hk Hm. apply (C119_redundant_requests_behaviour pn log3 msqrt N s r apply qr qp s' r' o R An Hw Hqr). unfold hard_rows.
  destruct (an_tasks _ _ _ _ _ An t Ht) as ([A b] & [_ Eu] & Sh). pose proof Eu as Eu'. rewrite Hl in Eu'. cbn [task_update] in Eu'. unfold joints_update in Eu'. bindall Eu'. injection Eu' as EA Eb.
  destruct (joints_rows_spec _ _ _ _ E) as [_ S]. apply In_nth_error in Hin. destruct Hin as (i & Hi). destruct (S i name target Hi) as (k' & q & Hk' & Hlt & Hq & Hn).
  assert (k' = k) by congruence. subst k'.
  apply (app_twice_dependent _ _ _ (fun j => if Nat.ltb j (ks_N s) then mat_at A i j else 0) (unit_row k)).
  - apply in_flat_map. exists t. split; [exact Ht|]. unfold task_rows. rewrite Hp, Eu. apply (in_map (fun k j => if Nat.ltb j (ks_N s) then mat_at A k j else 0)). apply in_seq.
    rewrite <- EA. cbn [mrows]. assert (i < List.length l)%nat by (apply nth_error_Some; congruence). lia.
  - apply in_or_app. left. now apply in_map.
  - intros j. rewrite <- EA. cbn [mat_at]. rewrite Hn. cbn [fst]. unfold unit_row. destruct (Nat.ltb_spec j (ks_N s)) as [Hj|Hj]; [reflexivity|].
    destruct (Nat.eqb_spec j k); [lia|reflexivity].
Qed.
Print Assumptions C119_masked_and_asked_behaviour.

(** Masking the base, which mask_fbase does, and its first degree of freedom: not moving satisfies everything, but no solve succeeds. *)
Theorem C119_redundant_requests_refuted : exists s, kreachable ex_pin3 ex_log ex_sqrt 7 s /\ answerable ex_pin3 ex_log ex_sqrt s ex_robot /\ p_rewrite (ks_problem s) = true /\
  (exists s0, mask_dof ex_robot s0 "root_joint" = Ok s) /\ ks_masked_fbase s = true /\ allowed ex_pin3 ex_log ex_sqrt s ex_robot (fun _ => 0) /\
  forall qr qp apply s' r' o, qr_correct qr -> ksolve ex_pin3 ex_log ex_sqrt qr qp s ex_robot apply = (s', r', o) -> o = Throw EQP.
Proof.
  set (s := ex_solver 0 (seq 0 6) true false []). exists s.
  assert (R : kreachable ex_pin3 ex_log ex_sqrt 7 s) by apply ex_solver_reachable.
  assert (An : answerable ex_pin3 ex_log ex_sqrt s ex_robot).
  { split; cbn [s ex_solver with_settings ks_tasks ks_masked ks_masked_fbase ks_joint_limits ks_velocity_limits ks_cons ks_N ks_dt new_ksolver].
    - intros t [].
    - intros t [].
    - intros j Hj. apply in_seq in Hj. cbn. lia.
    - cbn. lia.
    - intros _. cbn. lia.
    - discriminate.
    - intros c []. }
  split; [exact R|]. split; [exact An|]. split; [reflexivity|]. split; [exists (ex_solver 0 [] true false []); reflexivity|]. split; [reflexivity|]. split.
  - split; unfold asks_for, scaling; cbn [s ex_solver with_settings ks_tasks ks_masked ks_masked_fbase ks_joint_limits ks_velocity_limits ks_cons ks_N ks_dt new_ksolver].
    + intros t e [[] _].
    + intros t e [[] _].
    + intros (t & e & [[] _] & _).
    + reflexivity.
    + reflexivity.
    + intros _ k Hk. cbn in Hk. destruct k as [|k]; [|lia]. cbn. lra.
    + discriminate.
    + intros c cs [].
  - intros qr qp apply s' r' o Hqr E. apply (C119_base_masked_twice_behaviour ex_pin3 ex_log ex_sqrt 7 s ex_robot apply qr qp s' r' o 0%nat R An eq_refl Hqr eq_refl); [cbn; auto|lia|exact E].
Qed.
Print Assumptions C119_redundant_requests_refuted.

(** What holds: requests without redundancy are answered. Missing: the redundant but compatible ones. *)
Theorem C119_independent_requests_partial pn log3 msqrt N s r : kreachable pn log3 msqrt N s -> answerable pn log3 msqrt s r -> p_rewrite (ks_problem s) = true ->
  0 < p_reg (ks_problem s) -> independent_rows (S N) (hard_rows pn log3 msqrt s r) -> (exists x, allowed pn log3 msqrt s r x) ->
  exists s' r' delta, ksolve pn log3 msqrt perfect_qr perfect_qp s r false = (s', r', Ok delta).
Proof. intros R An Hw Hr Hi Hx. apply (proj1 (perfect_ksolve pn log3 msqrt N s r R An Hw Hr Hi Hx)). Qed.
Print Assumptions C119_independent_requests_partial.

(** ** C120 Robots without joints *)

Lemma le_v_rows e v n c : rows e = n -> vlen v = n -> (n <> 1)%nat -> e_le_v e v = Ok c -> rows (c_expr c) = n.
Proof.
  unfold e_le_v, e_le, e_sub, e_add. intros He Hv Hn H. bindall H. injection H as <-. revert E.
  assert (Hw : rows (e_scale (from_vector v) (-1)) = n) by exact Hv. unfold is_scalar. rewrite He, Hw. destruct (Nat.eqb_spec n 1); [contradiction|].
  cbn [andb]. rewrite Nat.eqb_refl. cbn [negb]. intros E. apply guard_inv in E. destruct E as [_ E]. injection E as <-. reflexivity.
Qed.

(** With a robot reduced to its floating base, no solve succeeds as long as the joint limits are enabled, as they are by default. *)
Theorem C120_base_only_behaviour pn log3 msqrt s r apply qr qp s' r' delta : kreachable pn log3 msqrt 6 s -> sound pn log3 msqrt s r -> ks_joint_limits s = true ->
  ksolve pn log3 msqrt qr qp s r apply <> (s', r', Ok delta).
Proof.
  intros R So Hl E. apply reachable_knows in R.
  destruct (ksolve_solved pn log3 msqrt 6 s r apply qr qp s' r' delta R) as (s2 & pb' & Sv); [rewrite <- (proj1 R); apply So|exact E|].
  pose proof (so_built _ _ _ _ _ _ _ _ _ _ _ _ _ _ Sv) as B. pose proof (so_solve _ _ _ _ _ _ _ _ _ _ _ _ _ _ Sv) as So'. unfold built in B.
  destruct (started_spec 6 s R) as (K0 & _). pose proof (add_tasks_kept pn log3 msqrt 6 r (ks_tasks (started s)) (started s)) as Kt.
  destruct (add_tasks_to_problem pn log3 msqrt r (started s) (ks_tasks (started s))) as [s1 [[]|e|]]; try discriminate.
  specialize (Kt s1 (Ok tt) (proj1 K0) (proj2 (proj2 K0)) eq_refl). destruct Kt as (K1 & Se1 & Q1). destruct K0 as (_ & Se0 & _).
  destruct (after_tasks pn r s1) as [cs|e|] eqn:Ea; try discriminate. injection B as <-.
  assert (Hz : exists c, In c cs /\ rows (c_expr c) = 0%nat).
  { unfold after_tasks in Ea. bindall Ea. injection Ea as <-. destruct (knows_qd 6 s1 K1 Q1) as (v & Ev & V1 & V2). rewrite Ev in E0. injection E0 as <-.
    destruct Se1 as (N1 & _ & _ & _ & J1 & _). destruct Se0 as (N0 & _ & _ & _ & J0 & _). unfold limit_constraints in E3. rewrite J1, J0, Hl, N1, N0, (proj1 R) in E3.
    destruct (_ && _); [discriminate|]. bindall E3. injection E3 as <-. clear E5. cbn [Nat.leb guard] in E0.
    bindall E0. injection E0 as <-.
    match goal with H : e_le_v ?e ?hi = Ok ?c |- _ => exists c; split; [apply in_or_app; right; apply in_or_app; right; apply in_or_app; left; apply in_or_app; left; now left|];
      assert (Hr : rows e = 0%nat); [|apply (le_v_rows e hi 0 c Hr); [|lia|exact H]] end.
    - match goal with H : var_expr v 6 (-1) = Ok ?e0, H' : v_add_e _ ?e0 = Ok ?e |- rows ?e = _ => unfold v_add_e, e_add_v in H'; apply guard_inv in H'; destruct H' as [_ H']; injection H' as <-;
        unfold var_expr in H; apply guard_inv in H; destruct H as [_ H]; injection H as <- end. unfold rows, var_size. cbn [eA mrows]. rewrite V1, V2. reflexivity.
    - match goal with H : bottom_rows (m_upper _) _ = Ok ?h |- vlen ?h = _ => unfold bottom_rows in H; apply guard_inv in H; destruct H as [_ H]; injection H as <- end. reflexivity. }
  destruct Hz as (c & Hc & Hz). unfold solve in So'. destruct (assemble _ qr) as [a|e|] eqn:Eas; [|discriminate|discriminate]. apply assemble_ok in Eas. rewrite Forall_forall in Eas.
  cbn [set_cons p_cons p_n] in Eas. specialize (Eas (reset_active c)). destruct Eas as (H1 & _).
  - apply in_map. cbn [kset_problem ks_problem]. destruct (add_constraints_spec cs (ks_problem s1)) as (_ & _ & -> & _). apply in_or_app. now right.
  - cbn in H1. lia.
Qed.
Print Assumptions C120_base_only_behaviour.

(** A box, with a floating base and no joint. It is asked nothing, and not moving is allowed, but no solve succeeds. *)
Definition box_model : rmodel := RModel 7 6 [Joint "root_joint" 0 7 0 6] ["universe"; "base"]%string
  frame_id (Vec 7 (fun _ => -1000)) (Vec 7 (fun _ => 1000)) (zeros 6) (zeros 6) (zeros 6) (zeros 6) [].
Definition box_q : vec := Vec 7 (fun k => if Nat.eqb k 6 then 1 else 0).
Definition box : robot := Robot box_model (State box_q (zeros 6) (zeros 6)) (box_q, zeros 6).
Lemma box_well_formed : well_formed_robot box.
Proof.
  split; [|split; [reflexivity|split; reflexivity]]. split; [|split; [|split; [|split]]].
  - cbn. repeat constructor; cbn; intuition discriminate.
  - cbn. intuition discriminate.
  - intros j [<-|[]]; cbn; lia.
  - intros j k [<-|[]] [<-|[]]; cbn; try congruence; unfold apart; cbn; lia.
  - repeat split.
Qed.

Theorem C120_base_only_refuted pn log3 msqrt : kreachable pn log3 msqrt 6 (new_ksolver box) /\ well_formed_robot box /\
  allowed pn log3 msqrt (new_ksolver box) box (fun _ => 0) /\
  forall qr qp apply s' r' delta, ksolve pn log3 msqrt qr qp (new_ksolver box) box apply <> (s', r', Ok delta).
Proof.
  assert (R : kreachable pn log3 msqrt 6 (new_ksolver box)) by (apply kr_new; reflexivity). split; [exact R|]. split; [exact box_well_formed|]. split.
  - split; unfold asks_for, scaling; cbn [ks_tasks ks_masked ks_masked_fbase ks_joint_limits ks_velocity_limits ks_cons ks_N ks_dt new_ksolver box r_model box_model m_nv].
    + intros t e [[] _].
    + intros t e [[] _].
    + intros (t & e & [[] _] & _).
    + reflexivity.
    + reflexivity.
    + intros _ k Hk. cbn in Hk. lia.
    + discriminate.
    + intros c cs [].
  - intros qr qp apply s' r' delta. apply C120_base_only_behaviour; [exact R| |reflexivity]. split; [intros t e [[] _]|intros c cs c' []].
Qed.
Print Assumptions C120_base_only_refuted.

(** What holds: such a robot is solved for once its limits are disabled. *)
Theorem C120_no_limits_partial pn log3 msqrt s r : kreachable pn log3 msqrt 6 s ->
  ks_joint_limits s = false -> ks_velocity_limits s = false ->
  (forall t, In t (ks_tasks s) -> exists e, asks_for pn log3 msqrt s r t e /\ shaped 6 e) -> (forall t, In t (ks_tasks s) -> kt_priority t = PSoft -> 0 <= kt_weight t) ->
  (forall j, In j (ks_masked s) -> (j < 6)%nat) -> ks_cons s = [] ->
  p_rewrite (ks_problem s) = true -> 0 < p_reg (ks_problem s) -> independent_rows 7 (hard_rows pn log3 msqrt s r) -> (exists x, allowed pn log3 msqrt s r x) ->
  exists s' r' delta, ksolve pn log3 msqrt perfect_qr perfect_qp s r false = (s', r', Ok delta).
Proof.
  intros R Hj Hv Ht Hw Hm Hc Hrw Hr Hi Hx. pose proof (proj1 (reachable_knows _ _ _ _ _ R)) as HN. apply (perfect_ksolve pn log3 msqrt 6 s r R); try assumption.
  split; try congruence; rewrite ?HN; try assumption; try (intros; lia). rewrite Hc. intros c [].
Qed.
Print Assumptions C120_no_limits_partial.

Example C120_example : let s := with_settings (new_ksolver box) 0 [2%nat] false false false [] [] 1 false true in
  kreachable ex_pin3 ex_log ex_sqrt 6 s /\ ks_joint_limits s = false /\ ks_velocity_limits s = false /\ (forall j, In j (ks_masked s) -> (j < 6)%nat) /\
  independent_rows 7 (hard_rows ex_pin3 ex_log ex_sqrt s box) /\ exists x, allowed ex_pin3 ex_log ex_sqrt s box x.
Proof.
  intros s. split; [apply kr_settings, kr_new; reflexivity|]. do 2 (split; [reflexivity|]). split; [intros j [<-|[]]; lia|]. split.
  - intros mu H. specialize (H 2%nat ltac:(lia)). cbn in H. intros k Hk. cbn in Hk. destruct k; [lra|lia].
  - exists (fun _ => 0). split; unfold asks_for, scaling; cbn [s with_settings ks_tasks ks_masked ks_masked_fbase ks_joint_limits ks_velocity_limits ks_cons ks_N ks_dt new_ksolver];
      try discriminate; try reflexivity.
    + intros t e [[] _].
    + intros t e [[] _].
    + intros (t & e & [[] _] & _).
    + intros c cs [].
Qed.
