(** The priorities of the tasks of a walk, over all histories. *)
From Coq Require Import Reals List Arith Bool String Lia.
From Verif Require Import Base Geom3 Ownership_model Ownership_spec Ownership_proofs WalkTasks_model WalkTasks_spec WalkTasks_proofs WalkPriority_model WalkPriority_spec.
Import ListNotations.
Open Scope nat_scope.

Definition count (w : walk_tasks) : nat := h_count (w_heap (wt_owner w)).
Definition bounded (w : walk_tasks) : Prop := forall a r, wt_role w a = Some r -> a < count w.

(** What a piece of code does to the tasks of the walk that are in the solver: the old ones are left or taken out, the new ones (of the roles
    [new]) are configured. *)
Definition evolves (new : role -> Prop) (q q' : priority_walk) : Prop :=
  bounded (pw_walk q) -> bounded (pw_walk q') /\ pw_scaled q' = pw_scaled q /\ count (pw_walk q) <= count (pw_walk q') /\
  forall r a, in_solver (pw_walk q') r a ->
    (a < count (pw_walk q) -> in_solver (pw_walk q) r a /\ pw_config q' a = pw_config q a) /\
    (count (pw_walk q) <= a -> new r /\ pw_config q' a = Config (role_name r) (pw_scaled q) 1).

Lemma evolves_trans new q1 q2 q3 : evolves new q1 q2 -> evolves new q2 q3 -> evolves new q1 q3.
Proof.
  intros A B H. destruct (A H) as (A1 & A2 & A3 & A4). destruct (B A1) as (B1 & B2 & B3 & B4).
  split; [exact B1|]. split; [congruence|]. split; [lia|]. intros r a K. destruct (B4 r a K) as (C1 & C2). split; intros La.
  - destruct C1 as (D1 & D2); [lia|]. destruct (A4 r a D1) as (E1 & _). destruct (E1 La). split; [assumption|congruence].
  - destruct (Nat.lt_ge_cases a (count (pw_walk q2))) as [L|L].
    + destruct (C1 L) as (D1 & D2). destruct (A4 r a D1) as (_ & E2). destruct (E2 La). split; [assumption|congruence].
    + destruct (C2 L) as (D1 & D2). rewrite A2 in D2. auto.
Qed.
Lemma evolves_new (new new' : role -> Prop) q q' : (forall r, new r -> new' r) -> evolves new q q' -> evolves new' q q'.
Proof.
  intros I A H. destruct (A H) as (A1 & A2 & A3 & A4). repeat (split; [assumption|]). intros r a K. destruct (A4 r a K) as (B1 & B2). split; [exact B1|].
  intros L. destruct (B2 L). auto.
Qed.

Lemma evolves_add (new : role -> Prop) q r name p m : name = role_name r -> new r -> evolves new q (add_configured q r name p m).
Proof.
  intros -> N H. unfold add_configured. cbn [pw_walk pw_scaled pw_config]. set (n := h_count (w_heap (wt_owner (pw_walk q)))).
  assert (C : count (add_walk_task (pw_walk q) r p m) = S n) by reflexivity.
  assert (RO : forall a x, wt_role (add_walk_task (pw_walk q) r p m) a = Some x -> a = n /\ x = r \/ a <> n /\ wt_role (pw_walk q) a = Some x).
  { intros a x. cbn [add_walk_task wt_role]. unfold upd. fold n. destruct (Nat.eqb_spec a n); [|auto]. intros X. injection X as <-. auto. }
  split; [|split; [reflexivity|split; [rewrite C; unfold count; fold n; lia|]]].
  - intros a x K. rewrite C. destruct (RO a x K) as [(-> & _)|(_ & K')]; [lia|]. apply H in K'. unfold count in K'. fold n in K'. lia.
  - intros x a (I1 & I2). unfold count. fold n. cbn [add_walk_task wt_owner create w_tasks] in I1. apply in_insert in I1.
    destruct (RO a x I2) as [(-> & ->)|(NE & K)].
    + split; [lia|]. intros _. split; [exact N|]. unfold upd. rewrite Nat.eqb_refl. now destruct (pw_scaled q).
    + pose proof (H a x K) as B. unfold count in B. fold n in B. split; [|lia]. intros _. split.
      * split; [|exact K]. fold n in I1. destruct I1 as [->|I1]; [congruence|exact I1].
      * unfold upd. destruct (Nat.eqb_spec a n); [congruence|reflexivity].
Qed.

(** Taking tasks out. *)
Lemma evolves_less new q w : wt_role w = wt_role (pw_walk q) -> count w = count (pw_walk q) ->
  (forall a, In a (w_tasks (wt_owner w)) -> In a (w_tasks (wt_owner (pw_walk q)))) -> evolves new q (with_walk q w).
Proof.
  intros R C I1 H. cbn [with_walk pw_walk pw_scaled pw_config]. split; [|split; [reflexivity|split; [lia|]]].
  - intros a r. rewrite R, C. apply H.
  - intros r a (J1 & J2). rewrite R in J2. pose proof (H a r J2). split; [|lia]. intros _. split; [split; auto|reflexivity].
Qed.
Lemma remove_task_op_less s a s' : remove_task_op Kinematics s a = Ok s' ->
  h_count (w_heap s') = h_count (w_heap s) /\ forall x, In x (w_tasks s') -> In x (w_tasks s).
Proof.
  unfold remove_task_op, delete_if_memory, solver_delete, guard. intros E.
  destruct (h_alive (w_heap s) a); [|discriminate]. destruct (h_memory (w_heap s) a).
  - cbn in E. injection E as <-. split; [reflexivity|]. cbn [w_tasks]. intros x X. apply in_erase in X. tauto.
  - cbn in E. injection E as <-. split; [reflexivity|]. cbn [w_tasks]. intros x X. apply in_erase in X. tauto.
Qed.
Lemma remove_less w r w' : remove_walk_task w r = Ok w' ->
  wt_role w' = wt_role w /\ count w' = count w /\ (forall a, In a (w_tasks (wt_owner w')) -> In a (w_tasks (wt_owner w))) /\
  wt_on w' = wt_on w /\ wt_mode w' = wt_mode w /\ wt_com_x w' = wt_com_x w /\ wt_com_y w' = wt_com_y w.
Proof.
  unfold remove_walk_task. destruct (wt_ptr w r) as [a|]; [|discriminate]. cbn [run_op].
  destruct (remove_task_op Kinematics (wt_owner w) a) as [s| |] eqn:E; cbn [obind]; try discriminate. intros X. injection X as <-.
  destruct (remove_task_op_less _ _ _ E) as (A & B). repeat split; auto.
Qed.
Lemma remove_if_less w r w' : remove_if_set w r = Ok w' ->
  wt_role w' = wt_role w /\ count w' = count w /\ (forall a, In a (w_tasks (wt_owner w')) -> In a (w_tasks (wt_owner w))) /\
  wt_on w' = wt_on w /\ wt_mode w' = wt_mode w /\ wt_com_x w' = wt_com_x w /\ wt_com_y w' = wt_com_y w.
Proof.
  unfold remove_if_set. destruct (wt_ptr w r) eqn:P; [apply remove_less|]. intros X. injection X as <-. repeat split; auto.
Qed.
Lemma remove_foot_less w p o w' : remove_foot w p o = Ok w' ->
  wt_role w' = wt_role w /\ count w' = count w /\ (forall a, In a (w_tasks (wt_owner w')) -> In a (w_tasks (wt_owner w))).
Proof.
  unfold remove_foot. destruct (wt_ptr w p) as [a|]; [|discriminate]. destruct (wt_ptr w o) as [b|]; [|discriminate]. cbn [run_op]. unfold remove_frame_task_op.
  destruct (remove_task_op Kinematics (wt_owner w) a) as [s| |] eqn:E; cbn [obind]; try discriminate.
  destruct (remove_task_op Kinematics s b) as [s2| |] eqn:E2; cbn [obind]; try discriminate. intros X. injection X as <-.
  destruct (remove_task_op_less _ _ _ E) as (A & B). destruct (remove_task_op_less _ _ _ E2) as (A' & B').
  split; [reflexivity|]. split; [unfold count; cbn [wt_owner]; congruence|]. cbn [wt_owner]. auto.
Qed.
Lemma remove_tasks_less w w' : remove_tasks w = Ok w' ->
  wt_role w' = wt_role w /\ count w' = count w /\ (forall a, In a (w_tasks (wt_owner w')) -> In a (w_tasks (wt_owner w))).
Proof.
  unfold remove_tasks. destruct (wt_on w); [|intros X; injection X as <-; auto]. intros E.
  destruct (remove_foot w LeftPosition LeftOrientation) as [w1| |] eqn:E1; cbn [obind] in E; try discriminate.
  destruct (remove_foot w1 RightPosition RightOrientation) as [w2| |] eqn:E2; cbn [obind] in E; try discriminate.
  destruct (remove_if_set w2 CoM) as [w3| |] eqn:E3; cbn [obind] in E; try discriminate.
  destruct (remove_if_set w3 TrunkPosition) as [w4| |] eqn:E4; cbn [obind] in E; try discriminate.
  destruct (remove_walk_task w4 TrunkOrientation) as [w5| |] eqn:E5; cbn [obind] in E; try discriminate. injection E as <-.
  apply remove_foot_less in E1, E2. apply remove_if_less in E3, E4. apply remove_less in E5.
  destruct E1 as (A1 & A2 & A3), E2 as (B1 & B2 & B3), E3 as (C1 & C2 & C3 & _), E4 as (D1 & D2 & D3 & _), E5 as (F1 & F2 & F3 & _).
  unfold count in *. cbn [wt_role wt_owner]. split; [congruence|]. split; [congruence|]. auto 10.
Qed.

(** update_com_task *)
Definition exchanged (r : role) : Prop := r = CoM \/ r = TrunkPosition.
Lemma update_com_refines q po q' : p_update_com_task q po = Ok q' ->
  update_com_task (pw_walk q) po = Ok (pw_walk q') /\ evolves exchanged q q' /\
  wt_mode (pw_walk q') = wt_mode (pw_walk q) /\ wt_com_x (pw_walk q') = wt_com_x (pw_walk q) /\ wt_com_y (pw_walk q') = wt_com_y (pw_walk q).
Proof.
  unfold p_update_com_task, update_com_task, guard. destruct (wt_on (pw_walk q)); [|discriminate].
  assert (STEP : forall out inn name p m, exchanged inn -> name = role_name inn ->
    (w1 <- remove_if_set (pw_walk q) out ;; Ok (match wt_ptr w1 inn with None => add_configured (with_walk q w1) inn name p m | Some _ => with_walk q w1 end)) = Ok q' ->
    (w1 <- remove_if_set (pw_walk q) out ;; Ok (match wt_ptr w1 inn with None => add_walk_task w1 inn p m | Some _ => w1 end)) = Ok (pw_walk q') /\
    evolves exchanged q q' /\ wt_mode (pw_walk q') = wt_mode (pw_walk q) /\ wt_com_x (pw_walk q') = wt_com_x (pw_walk q) /\ wt_com_y (pw_walk q') = wt_com_y (pw_walk q)).
  { intros out inn name p m X Hn E. destruct (remove_if_set (pw_walk q) out) as [w1| |] eqn:E1; cbn [obind] in *; try discriminate.
    apply remove_if_less in E1. destruct E1 as (A1 & A2 & A3 & _ & A4 & A5 & A6).
    destruct (wt_ptr w1 inn); injection E as <-; (split; [reflexivity|]; split; [|cbn; auto]).
    - now apply evolves_less.
    - eapply evolves_trans; [apply (evolves_less _ q w1); auto|]. apply evolves_add; auto. }
  destruct (wt_mode (pw_walk q)) eqn:M; intros E.
  - rewrite <- M. rewrite M in *. apply (STEP CoM TrunkPosition) in E; [exact E|now right|reflexivity].
  - apply (STEP TrunkPosition CoM) in E; [exact E|now left|reflexivity].
Qed.

Lemma initialize_refines q po q' : p_initialize_tasks q po = Ok q' -> initialize_tasks (pw_walk q) po = Ok (pw_walk q') /\ evolves (fun _ => True) q q'.
Proof.
  unfold p_initialize_tasks, initialize_tasks. cbv zeta. intros E. apply update_com_refines in E. destruct E as (E & V & _). split; [exact E|].
  eapply evolves_trans; [|eapply evolves_new; [|exact V]; auto]. unfold add_configured_frame.
  repeat (eapply evolves_trans; [|apply evolves_add; [reflexivity|exact Logic.I]]). apply evolves_less; auto.
Qed.

Lemma write_target_same w r p w' : write_target w r p = Ok w' ->
  wt_owner w' = wt_owner w /\ wt_role w' = wt_role w.
Proof. unfold write_target, guard. destruct (wt_ptr w r); [|discriminate]. destruct (h_alive _ _); [|discriminate]. intros X. injection X as <-. auto. Qed.
Lemma write_rot_same w r p w' : write_rot w r p = Ok w' ->
  wt_owner w' = wt_owner w /\ wt_role w' = wt_role w.
Proof. unfold write_rot, guard. destruct (wt_ptr w r); [|discriminate]. destruct (h_alive _ _); [|discriminate]. intros X. injection X as <-. auto. Qed.
Lemma write_targets_same w po l r c t w' : p_write_targets w po l r c t = Ok w' -> wt_owner w' = wt_owner w /\ wt_role w' = wt_role w.
Proof.
  unfold p_write_targets. intros E.
  match type of E with obind ?o _ = _ => destruct o as [w2| |] eqn:E2; cbn [obind] in E; try discriminate end.
  destruct (write_target w2 LeftPosition (fr_t l)) as [w3| |] eqn:E3; cbn [obind] in E; try discriminate.
  destruct (write_rot w3 LeftOrientation (fr_R l)) as [w4| |] eqn:E4; cbn [obind] in E; try discriminate.
  destruct (write_target w4 RightPosition (fr_t r)) as [w5| |] eqn:E5; cbn [obind] in E; try discriminate.
  destruct (write_rot w5 RightOrientation (fr_R r)) as [w6| |] eqn:E6; cbn [obind] in E; try discriminate.
  apply write_target_same in E2, E3, E5. apply write_rot_same in E, E4, E6. intuition congruence.
Qed.
Lemma update_refines q po l r c t q' : p_update_tasks q po l r c t = Ok q' ->
  update_tasks (pw_walk q) po l r c t = Ok (pw_walk q') /\ evolves exchanged q q'.
Proof.
  unfold p_update_tasks, update_tasks. intros E.
  destruct (p_update_com_task q po) as [q1| |] eqn:E1; cbn [obind] in E; try discriminate. apply update_com_refines in E1. destruct E1 as (E1 & V & M & X & Y).
  rewrite E1. cbn [obind]. rewrite <- M, <- X, <- Y.
  destruct (p_write_targets (pw_walk q1) po l r c t) as [w| |] eqn:E2; cbn [obind] in E; try discriminate. injection E as <-. cbn [with_walk pw_walk].
  split; [exact E2|]. eapply evolves_trans; [exact V|]. apply write_targets_same in E2. destruct E2 as (O & RO).
  apply evolves_less; [exact RO|unfold count; now rewrite O|now rewrite O].
Qed.

(** ** All histories *)

Lemma priority_refines q c q' : priority_step q (PCall c) = Ok q' -> walk_step (pw_walk q) c = Ok (pw_walk q').
Proof.
  intros E. destruct c; cbn [priority_step] in E; try (now apply initialize_refines in E); try (now apply update_com_refines in E); try (now apply update_refines in E);
    destruct (walk_step (pw_walk q) _) as [w| |]; cbn [obind] in E; try discriminate; injection E as <-; reflexivity.
Qed.
Lemma priority_walks settled q : priority_reachable settled q -> walk_reachable (pw_walk q).
Proof.
  induction 1 as [l b s C E|q c q' R IH L S E]; [now apply (wr_start l b s)|]. destruct c as [c|b].
  - eapply wr_call; [exact IH|exact L|now apply priority_refines in E].
  - cbn in E. injection E as <-. exact IH.
Qed.
Lemma wgood_bounded w : wgood w -> bounded w.
Proof. intros G a r. unfold wgood in G. destruct (wt_on w); [destruct G as (m & G)|]; apply (wi_role _ _ G). Qed.
Lemma wgood_memory w a r : wgood w -> wt_role w a = Some r -> h_memory (w_heap (wt_owner w)) a = true.
Proof. intros G. unfold wgood in G. destruct (wt_on w); [destruct G as (m & G)|]; apply (wi_mem _ _ G). Qed.
Lemma wgood_sound w : wgood w -> sound (wt_owner w).
Proof. intros G. unfold wgood in G. destruct (wt_on w); [destruct G as (m & G)|]; apply (wi_sound _ _ G). Qed.
Lemma wgood_off w r a : wgood w -> wt_on w = false -> ~ in_solver w r a.
Proof. intros G O (A & B). unfold wgood in G. rewrite O in G. destruct (wi_back _ _ G a r B (or_introl A)). discriminate. Qed.

Lemma evolves_solver q s o : wgood (pw_walk q) -> legal Kinematics (book_of (wt_owner (pw_walk q))) o -> run_op Kinematics (wt_owner (pw_walk q)) o = Ok s ->
  evolves exchanged q (with_walk q (WalkTasks s (wt_on (pw_walk q)) (wt_ptr (pw_walk q)) (wt_mode (pw_walk q)) (wt_com_x (pw_walk q)) (wt_com_y (pw_walk q))
    (wt_role (pw_walk q)) (wt_target (pw_walk q)) (wt_rot (pw_walk q)))).
Proof.
  intros G L E B. destruct (step_sound _ o (wgood_sound _ G) L) as (s1 & E1 & _ & C & _ & _ & TK). rewrite E in E1. injection E1 as <-.
  cbn [with_walk pw_walk pw_scaled pw_config]. unfold count. cbn [wt_owner wt_role]. split; [|split; [reflexivity|split; [exact C|]]].
  - intros a r K. cbn [wt_role] in K. apply B in K. unfold count in *. cbn [wt_owner]. lia.
  - intros r a (A1 & A2). cbn [wt_owner wt_role] in A1, A2. pose proof (B a r A2) as A3. unfold count in A3. split; [|lia]. intros _. split; [|reflexivity].
    split; [|exact A2]. apply TK; auto. now apply (wgood_memory _ a r).
Qed.

Lemma priority_evolves q c q' : wgood (pw_walk q) -> priority_legal q (PCall c) -> priority_step q (PCall c) = Ok q' ->
  evolves (fun r => match c with WInitialize _ => True | _ => exchanged r end) q q'.
Proof.
  intros G L E. destruct c as [po|m|x y|po|po l r c t| |o]; cbn [priority_step] in E.
  - now apply initialize_refines in E.
  - cbn in E. injection E as <-. apply evolves_less; auto.
  - cbn in E. injection E as <-. apply evolves_less; auto.
  - apply update_com_refines in E. tauto.
  - apply update_refines in E. tauto.
  - cbn [walk_step] in E. destruct (remove_tasks (pw_walk q)) as [w| |] eqn:E1; cbn [obind] in E; try discriminate. injection E as <-.
    apply remove_tasks_less in E1. apply evolves_less; tauto.
  - cbn [walk_step] in E. destruct (run_op Kinematics (wt_owner (pw_walk q)) o) as [s| |] eqn:E1; cbn [obind] in E; try discriminate. injection E as <-.
    cbn in L. now apply (evolves_solver q s o G (proj1 L)).
Qed.

(** Every call: an old task that stays keeps its configuration, a new one has that of the moment. *)
Lemma priority_kept q c q' r a : wgood (pw_walk q) -> priority_legal q c -> priority_step q c = Ok q' -> in_solver (pw_walk q') r a ->
  in_solver (pw_walk q) r a /\ pw_config q' a = pw_config q a \/
  (forall r', ~ in_solver (pw_walk q) r' a) /\ pw_config q' a = Config (role_name r) (pw_scaled q) 1 /\ pw_scaled q' = pw_scaled q /\
    match c with PCall (WInitialize _) => True | _ => exchanged r end.
Proof.
  intros G L E K. destruct c as [c|b].
  - destruct (priority_evolves q c q' G L E (wgood_bounded _ G)) as (A1 & A2 & A3 & A4). destruct (A4 r a K) as (B1 & B2).
    destruct (Nat.lt_ge_cases a (count (pw_walk q))) as [La|La]; [left; auto|right].
    split; [|destruct (B2 La) as (Z & Y); split; [exact Y|split; [exact A2|destruct c; exact Z]]].
    intros r' (_ & Z). apply (wgood_bounded _ G) in Z. lia.
  - cbn in E. injection E as <-. left. auto.
Qed.

(** Any history. *)
Lemma priority_all settled q : priority_reachable settled q ->
  (forall r a, in_solver (pw_walk q) r a -> cf_name (pw_config q a) = role_name r /\ cf_weight (pw_config q a) = 1%R) /\
  (exists b, forall r a, in_solver (pw_walk q) r a -> lasting r -> cf_scaled (pw_config q a) = b) /\
  (settled = true -> forall r a, in_solver (pw_walk q) r a -> cf_scaled (pw_config q a) = pw_scaled q).
Proof.
  intros H. induction H as [l b s C E|q c q' R IH L S E].
  - assert (N : forall r a, ~ in_solver (new_walk_tasks s) r a) by (intros r a (_ & X); discriminate).
    split; [|split; [exists true|intros _]]; intros r a X; now apply N in X.
  - destruct IH as (I1 & (b & I2) & I3). pose proof (reachable_wgood _ (priority_walks _ _ R)) as G.
    pose proof (fun r a => priority_kept q c q' r a G L E) as K. split; [|split].
    + intros r a X. destruct (K r a X) as [(K1 & K2)|(K1 & K2 & K3)]; rewrite K2; [now apply I1|auto].
    + destruct c as [[po| | | | | |]|b'].
      1: { exists (pw_scaled q). intros r a X _. destruct (K r a X) as [(K1 & K2)|(K1 & K2 & K3)]; [|now rewrite K2].
           cbn in L. now apply (wgood_off _ r a G) in L. }
      all: exists b; intros r a X (N1 & N2); destruct (K r a X) as [(K1 & K2)|(K1 & K2 & K3 & [K4|K4])]; try congruence; rewrite K2; apply (I2 r a K1); split; assumption.
    + intros T r a X. destruct (K r a X) as [(K1 & K2)|(K1 & K2 & K3 & _)]; rewrite K2; [|now rewrite K3].
      destruct c as [c|b'].
      * assert (Q : pw_scaled q' = pw_scaled q). { destruct (priority_evolves q c q' G L E (wgood_bounded _ G)) as (_ & Q & _). exact Q. }
        rewrite Q. now apply (I3 T r).
      * specialize (S T). cbn in S. now apply (wgood_off _ r a G) in S.
Qed.
