(** Reading the solver of a WalkTasks from Python (C169). *)
From Coq Require Import Reals List Arith Bool Lia.
From Verif Require Import Base Geom3 Ownership_model Ownership_spec Ownership_proofs WalkTasks_model WalkTasks_spec WalkTasks_proofs PySolver_model.
Import ListNotations.

Lemma reachable_sound : forall w, walk_reachable w -> sound (wt_owner w).
Proof.
  intros w Hr. pose proof (reachable_wgood w Hr) as G. unfold wgood in G. destruct (wt_on w); [destruct G as (m & G)|]; apply (wi_sound _ _ G).
Qed.

(** Reading the attribute destroys every task and every constraint that the solver created, and nothing else, while the solver goes on pointing to
    all of them. *)
Theorem C169_solver_behaviour : forall w, walk_reachable w -> wt_on w = true -> exists w', mention_solver w = Ok w' /\
  w_tasks (wt_owner w') = w_tasks (wt_owner w) /\ w_constraints (wt_owner w') = w_constraints (wt_owner w) /\ wt_ptr w' = wt_ptr w /\
  forall a, h_alive (w_heap (wt_owner w')) a =
    (h_alive (w_heap (wt_owner w)) a &&
     negb (h_memory (w_heap (wt_owner w)) a && (mem_in (w_tasks (wt_owner w)) a || mem_in (w_constraints (wt_owner w)) a)))%bool.
Proof.
  intros w Hr O. pose proof (reachable_sound w Hr) as T. unfold mention_solver, read_solver. rewrite O. cbn [guard obind].
  unfold collect_solver. cbn [sc_tasks sc_constraints]. unfold sound in T. destruct (td_agrees _ _ _ T) as (A1 & A2 & A3 & A4 & A5).
  assert (Al : forall a, In a (w_tasks (wt_owner w)) \/ In a (w_constraints (wt_owner w)) -> h_alive (w_heap (wt_owner w)) a = true).
  { intros a Ha. assert (B : a < b_count (book_of (wt_owner w)) /\ b_in (book_of (wt_owner w)) a = true).
    { destruct Ha as [Ha|Ha]; [apply A3 in Ha|apply A4 in Ha]; tauto. }
    destruct B as [B1 B2]. rewrite A1 by exact B1. destruct (td_in _ _ _ T a B2) as [_ G]. rewrite G. reflexivity. }
  assert (Dis : forall a, In a (w_tasks (wt_owner w)) -> In a (w_constraints (wt_owner w)) -> False).
  { intros a H1 H2. apply A3 in H1. apply A4 in H2. destruct H1 as (_ & _ & H1), H2 as (_ & _ & H2). congruence. }
  destruct (delete_all_ok (w_tasks (wt_owner w)) (w_heap (wt_owner w))) as (h1 & E1 & _ & _ & M1 & _ & L1 & _).
  - intros a Ha. apply Al. now left.
  - apply NoDup_filter', (td_tasks _ _ _ T).
  - rewrite E1. cbn [obind].
    destruct (delete_all_ok (w_constraints (wt_owner w)) h1) as (h2 & E2 & _ & _ & _ & _ & L2 & _).
    + intros a Ha. rewrite L1, (Al a) by now right. destruct (mem_in (w_tasks (wt_owner w)) a) eqn:Mi; [|now rewrite andb_false_r].
      apply mem_in_spec in Mi. exfalso. eauto.
    + apply NoDup_filter', (td_constraints _ _ _ T).
    + rewrite E2. cbn [obind]. eexists. split; [reflexivity|]. repeat split. intros a. cbn [wt_owner w_heap]. rewrite L2, L1, M1.
      destruct (h_alive (w_heap (wt_owner w)) a), (h_memory (w_heap (wt_owner w)) a), (mem_in (w_tasks (wt_owner w)) a), (mem_in (w_constraints (wt_owner w)) a); reflexivity.
Qed.

(** Whenever the tasks of the walk are in place, the next solve after reading the attribute is undefined, and so are the next update of the walk
    and its removal. *)
Theorem C169_next_call_behaviour : forall w w', walk_reachable w -> wt_on w = true -> mention_solver w = Ok w' ->
  walk_step w' (WSolver Visit) = UB /\ walk_step w' WRemove = UB /\
  (forall po left right com trunk, walk_step w' (WUpdate po left right com trunk) = UB).
Proof.
  intros w w' Hr O E. destruct (C169_solver_behaviour w Hr O) as (w1 & E1 & T1 & K1 & P1 & L1). rewrite E in E1. injection E1 as <-.
  pose proof (reachable_wgood w Hr) as G. unfold wgood in G. rewrite O in G. destruct G as (m & G).
  assert (O' : wt_on w' = true).
  { unfold mention_solver, read_solver in E. rewrite O in E. cbn [guard obind] in E. unfold collect_solver in E.
    destruct (delete_all _ _) as [h1| |]; cbn [obind] in E; try discriminate. destruct (delete_all h1 _) as [h2| |]; cbn [obind] in E; try discriminate.
    injection E as <-. exact O. }
  assert (Dead : forall r a, roles m r = true -> wt_ptr w r = Some a -> h_alive (w_heap (wt_owner w')) a = false).
  { intros r a Pr X. destruct (wi_ptr _ _ G r Pr) as (b & X' & (_ & _ & M & _ & I) & _). rewrite X in X'. injection X' as <-.
    rewrite L1. apply mem_in_spec in I. rewrite M, I. cbn. apply andb_false_r. }
  destruct (wi_ptr _ _ G LeftPosition eq_refl) as (a & X & (_ & _ & M & _ & I) & _).
  destruct (wi_ptr _ _ G LeftOrientation eq_refl) as (b & Xb & _ & _).
  pose proof (Dead LeftPosition _ eq_refl X) as D.
  split; [|split].
  - cbn [walk_step run_op]. unfold visit_op. rewrite T1.
    assert (forallb (h_alive (w_heap (wt_owner w'))) (w_tasks (wt_owner w)) = false) as ->; [|reflexivity].
    destruct (forallb _ _) eqn:F; [|reflexivity]. rewrite forallb_forall in F. apply F in I. congruence.
  - cbn [walk_step]. unfold remove_tasks. rewrite O'. unfold remove_foot. rewrite P1, X, Xb. cbn [run_op]. unfold remove_frame_task_op, remove_task_op, delete_if_memory.
    rewrite D. reflexivity.
  - intros po left right com trunk. cbn [walk_step]. unfold update_tasks.
    destruct (update_com_task w' po) as [w1|e|] eqn:U; cbn [obind]; [|exfalso|reflexivity].
    + assert (Q : wt_ptr w1 LeftPosition = Some a /\ h_alive (w_heap (wt_owner w1)) a = false).
      { assert (Bn : a < h_count (w_heap (wt_owner w'))).
        { assert (C : h_count (w_heap (wt_owner w')) = h_count (w_heap (wt_owner w))).
          { unfold mention_solver, read_solver in E. rewrite O in E. cbn [guard obind] in E. unfold collect_solver in E.
            pose proof (td_agrees _ _ _ (wi_sound _ _ G)) as _.
            destruct (delete_all _ _) as [h1| |] eqn:Q1; cbn [obind] in E; try discriminate. destruct (delete_all h1 _) as [h2| |] eqn:Q2; cbn [obind] in E; try discriminate.
            injection E as <-. cbn [wt_owner w_heap].
            assert (Cn : forall l h h', delete_all h l = Ok h' -> h_count h' = h_count h).
            { clear. induction l as [|x l IH]; intros h h' H; cbn in H; [now injection H as <-|].
              destruct (delete_if_memory h x) as [h1| |] eqn:Q; cbn [obind] in H; try discriminate. rewrite (IH _ _ H).
              unfold delete_if_memory, solver_delete, guard in Q. destruct (h_alive h x), (h_memory h x); try discriminate; injection Q as <-; reflexivity. }
            rewrite (Cn _ _ _ Q2), (Cn _ _ _ Q1). reflexivity. }
          rewrite C. destruct (wi_ptr _ _ G LeftPosition eq_refl) as (a' & X' & (B & _) & _). rewrite X in X'. now injection X' as <-. }
        unfold update_com_task in U. rewrite O' in U. cbn [guard] in U.
        assert (S1 : forall w2 r q rot, wt_ptr w2 LeftPosition = Some a /\ h_alive (w_heap (wt_owner w2)) a = false /\ a < h_count (w_heap (wt_owner w2)) -> role_eqb LeftPosition r = false ->
          wt_ptr (add_walk_task w2 r q rot) LeftPosition = Some a /\ h_alive (w_heap (wt_owner (add_walk_task w2 r q rot))) a = false).
        { intros w2 r q rot (H1 & H2 & H3) N. unfold add_walk_task, set_ptr. cbn [wt_ptr wt_owner]. rewrite N. split; [exact H1|].
          unfold create, allocate. cbn [w_heap h_alive]. unfold upd. destruct (Nat.eqb_spec a (h_count (w_heap (wt_owner w2)))); [lia|exact H2]. }
        assert (S2 : forall w2 r, role_eqb LeftPosition r = false -> remove_if_set w' r = Ok w2 ->
          wt_ptr w2 LeftPosition = Some a /\ h_alive (w_heap (wt_owner w2)) a = false /\ a < h_count (w_heap (wt_owner w2))).
        { intros w2 r N H. unfold remove_if_set in H. destruct (wt_ptr w' r) as [c|] eqn:Pc.
          - unfold remove_walk_task in H. rewrite Pc in H. cbn [run_op] in H. unfold remove_task_op, delete_if_memory, solver_delete, guard in H.
            destruct (h_alive (w_heap (wt_owner w')) c) eqn:Ac; cbn [obind] in H; [|discriminate].
            destruct (h_memory (w_heap (wt_owner w')) c); cbn [obind] in H; injection H as <-; cbn [wt_ptr wt_owner w_heap h_alive h_count];
              unfold set_ptr; rewrite N, P1; repeat split; auto; unfold upd; destruct (Nat.eqb a c); auto.
          - injection H as <-. rewrite P1. auto. }
        destruct (wt_mode w').
        - destruct (remove_if_set w' CoM) as [w2| |] eqn:RM; cbn [obind] in U; try discriminate. pose proof (S2 w2 CoM eq_refl RM) as H.
          destruct (wt_ptr w2 TrunkPosition); injection U as <-; [tauto|]. apply S1; [exact H|reflexivity].
        - destruct (remove_if_set w' TrunkPosition) as [w2| |] eqn:RM; cbn [obind] in U; try discriminate. pose proof (S2 w2 TrunkPosition eq_refl RM) as H.
          destruct (wt_ptr w2 CoM); injection U as <-; [tauto|]. apply S1; [exact H|reflexivity]. }
      destruct Q as [Q1 Q2].
      set (v := v3_add com _). unfold write_target at 1. destruct (wt_ptr w1 (if wt_mode w' then TrunkPosition else CoM)) as [c|]; [|reflexivity].
      unfold guard. destruct (h_alive (w_heap (wt_owner w1)) c); cbn [obind]; [|reflexivity].
      unfold write_target. cbn [wt_ptr wt_owner]. rewrite Q1, Q2. reflexivity.
    + unfold update_com_task, remove_if_set, remove_walk_task, guard in U. rewrite O' in U.
      destruct (wt_mode w').
      * destruct (wt_ptr w' CoM) as [c|]; [cbn [run_op] in U; unfold remove_task_op, delete_if_memory, solver_delete, guard in U;
          destruct (h_alive (w_heap (wt_owner w')) c), (h_memory (w_heap (wt_owner w')) c); cbn [obind] in U; discriminate|discriminate].
      * destruct (wt_ptr w' TrunkPosition) as [c|]; [cbn [run_op] in U; unfold remove_task_op, delete_if_memory, solver_delete, guard in U;
          destruct (h_alive (w_heap (wt_owner w')) c), (h_memory (w_heap (wt_owner w')) c); cbn [obind] in U; discriminate|discriminate].
Qed.

(** Before initialize_tasks and after remove_tasks, reading the attribute is itself undefined. *)
Theorem C169_null_behaviour : forall w, wt_on w = false -> mention_solver w = UB.
Proof. intros w O. unfold mention_solver, read_solver. now rewrite O. Qed.

(** So reading an attribute is not harmless: there is a walk, set up and updated as intended, that breaks as soon as its solver is looked at. *)
Definition standing : walk_pose := WalkPose (Frame m3_id v3_zero) (Frame m3_id v3_zero) (Frame m3_id v3_zero) v3_zero.
Theorem C169_solver_refuted : exists w w', walk_reachable w /\ wt_on w = true /\ walk_step w (WSolver Visit) = Ok w /\
  mention_solver w = Ok w' /\ walk_step w' (WSolver Visit) = UB.
Proof.
  pose (w0 := new_walk_tasks fresh_owner). destruct (walk_step w0 (WInitialize standing)) as [w|e|] eqn:E; [|discriminate|discriminate].
  assert (Hr : walk_reachable w).
  { apply (wr_call w0 (WInitialize standing)); [|reflexivity|exact E]. apply (wr_start [] empty_book fresh_owner); [constructor|reflexivity]. }
  assert (O : wt_on w = true) by (cbn in E; injection E as <-; reflexivity).
  destruct (C169_solver_behaviour w Hr O) as (w' & E' & _). exists w, w'. split; [exact Hr|]. split; [exact O|]. split; [|split; [exact E'|]].
  - cbn in E. injection E as <-. reflexivity.
  - apply (C169_next_call_behaviour w w' Hr O E').
Qed.

(** make_solver (expose-robot-wrapper.cpp:139-140) also returns a solver by value: a new one, that holds nothing, so that destroying the temporary object it was
    copied from deletes nothing. *)
Example a_new_solver : clear_op Kinematics fresh_owner = Ok fresh_owner.
Proof. reflexivity. Qed.

Print Assumptions C169_solver_behaviour.
Print Assumptions C169_next_call_behaviour.
Print Assumptions C169_null_behaviour.
Print Assumptions C169_solver_refuted.
