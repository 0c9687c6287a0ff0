(** C185: the priorities of the tasks of a walk. *)
From Coq Require Import Reals List Arith Bool String Lia Lra.
From Verif Require Import Base Geom3 Ownership_model Ownership_spec WalkTasks_model WalkTasks_spec WalkTasks_proofs WalkTasks_props WalkPriority_model WalkPriority_spec WalkPriority_proofs.
Import ListNotations.
Open Scope R_scope.

(** The whole property would be: at any moment, the tasks of the walk that are in the solver have the priority that the flag scaled says. It holds when the flag
    is only written while the walk has no tasks in a solver. What is missing: [C185_refuted]. *)
Theorem C185_partial : forall q r a, priority_reachable true q -> in_solver (pw_walk q) r a ->
  cf_scaled (pw_config q a) = pw_scaled q.
Proof. intros q r a R K. destruct (priority_all _ _ R) as (_ & _ & A). eauto. Qed.

(** Whenever the flag is written: every task of the walk has the name of its role and the weight 1; the five tasks that last as long as the walk all have the
    same priority. *)
Theorem C185_lasting_behaviour : forall q, priority_reachable false q ->
  (forall r a, in_solver (pw_walk q) r a -> cf_name (pw_config q a) = role_name r /\ cf_weight (pw_config q a) = 1) /\
  (forall r a r' a', in_solver (pw_walk q) r a -> in_solver (pw_walk q) r' a' -> lasting r -> lasting r' -> cf_scaled (pw_config q a) = cf_scaled (pw_config q a')).
Proof.
  intros q R. destruct (priority_all _ _ R) as (A & (b & B) & _). split; [exact A|]. intros r a r' a' K K' Lr Lr'. now rewrite (B r a K Lr), (B r' a' K' Lr').
Qed.

(** The priority of a task is that of the flag when the task is made: a call leaves the configuration of the tasks it does not make, writing the flag changes
    that of none, and the tasks a call makes have the name of their role, the priority of the flag and the weight 1. *)
Theorem C185_made_behaviour : forall q c q' r a, priority_reachable false q -> priority_legal q c -> priority_step q c = Ok q' ->
  in_solver (pw_walk q') r a ->
  in_solver (pw_walk q) r a /\ pw_config q' a = pw_config q a \/
  (forall r', ~ in_solver (pw_walk q) r' a) /\ pw_config q' a = Config (role_name r) (pw_scaled q) 1.
Proof.
  intros q c q' r a R L E K. pose proof (reachable_wgood _ (priority_walks _ _ R)) as G.
  destruct (priority_kept q c q' r a G L E K) as [X|(X & Y & _)]; auto.
Qed.

(** Histories for the examples, checked by computation. *)
Definition simply_legal_priority (q : priority_walk) (c : priority_call) : bool :=
  match c with PScaled _ => true | PCall c => simply_legal (pw_walk q) c end.
Fixpoint priority_run (q : priority_walk) (l : list priority_call) : outcome priority_walk :=
  match l with [] => Ok q | c :: r => q' <- priority_step q c ;; priority_run q' r end.
Fixpoint all_legal_priority (settled : bool) (q : priority_walk) (l : list priority_call) : bool :=
  match l with
  | [] => true
  | c :: r => simply_legal_priority q c && (negb settled || match c with PScaled _ => negb (wt_on (pw_walk q)) | _ => true end) &&
      match priority_step q c with Ok q' => all_legal_priority settled q' r | _ => false end
  end.
Lemma priority_run_reaches settled l : forall q, priority_reachable settled q -> all_legal_priority settled q l = true ->
  exists q', priority_run q l = Ok q' /\ priority_reachable settled q'.
Proof.
  induction l as [|c r IH]; intros q R L; [exists q; auto|]. cbn [all_legal_priority] in L. apply andb_prop in L. destruct L as (L & L2). apply andb_prop in L. destruct L as (L1 & L3).
  cbn [priority_run]. destruct (priority_step q c) as [q1| |] eqn:E; try discriminate. cbn [obind]. apply IH; [|exact L2].
  eapply pr_call; [exact R| | |exact E].
  - destruct c; [now apply simply_legal_legal|exact Logic.I].
  - intros ->. destruct c; [exact Logic.I|]. cbn in L3. now destruct (wt_on (pw_walk q)).
Qed.

(** Setting the flag before initialize_tasks, switching to the trunk: all is scaled. Tasks 0 to 5 are made first; the CoM task, 5, is exchanged for 6. *)
Definition settled_calls : list priority_call :=
  [PScaled true; PCall (WInitialize some_pose); PCall (WSetMode true); PCall (WUpdate some_pose frame_id frame_id v3_zero m3_id)].
Example C185_partial_example : exists q, priority_reachable true q /\ pw_scaled q = true /\
  in_solver (pw_walk q) LeftPosition 0 /\ in_solver (pw_walk q) TrunkPosition 6 /\ cf_scaled (pw_config q 6) = true.
Proof.
  assert (S0 : priority_reachable true (new_priority_walk fresh_owner)) by (eapply pr_start; [constructor|reflexivity]).
  destruct (priority_run_reaches true settled_calls _ S0) as (q & E & R); [vm_compute; reflexivity|]. exists q. split; [exact R|].
  assert (W : q = ok_or (new_priority_walk fresh_owner) (priority_run (new_priority_walk fresh_owner) settled_calls)) by now rewrite E.
  rewrite W. clear. unfold in_solver. vm_compute. tauto.
Qed.

(** Setting the flag after initialize_tasks, then switching to the trunk: the task of the trunk is scaled, those of the feet are soft. *)
Definition late_calls : list priority_call :=
  [PCall (WInitialize some_pose); PScaled true; PCall (WSetMode true); PCall (WUpdate some_pose frame_id frame_id v3_zero m3_id)].
Theorem C185_refuted : exists q, priority_reachable false q /\ pw_scaled q = true /\
  in_solver (pw_walk q) LeftPosition 0 /\ cf_scaled (pw_config q 0) = false /\
  in_solver (pw_walk q) TrunkPosition 6 /\ cf_scaled (pw_config q 6) = true.
Proof.
  assert (S0 : priority_reachable false (new_priority_walk fresh_owner)) by (eapply pr_start; [constructor|reflexivity]).
  destruct (priority_run_reaches false late_calls _ S0) as (q & E & R); [vm_compute; reflexivity|]. exists q. split; [exact R|].
  assert (W : q = ok_or (new_priority_walk fresh_owner) (priority_run (new_priority_walk fresh_owner) late_calls)) by now rewrite E.
  rewrite W. clear. unfold in_solver. vm_compute. tauto.
Qed.
Example C185_lasting_example : exists q, priority_reachable false q /\ in_solver (pw_walk q) LeftPosition 0 /\ in_solver (pw_walk q) TrunkOrientation 4 /\
  lasting LeftPosition /\ lasting TrunkOrientation /\ cf_name (pw_config q 4) = "trunk"%string.
Proof.
  assert (S0 : priority_reachable false (new_priority_walk fresh_owner)) by (eapply pr_start; [constructor|reflexivity]).
  destruct (priority_run_reaches false late_calls _ S0) as (q & E & R); [vm_compute; reflexivity|]. exists q. split; [exact R|].
  assert (W : q = ok_or (new_priority_walk fresh_owner) (priority_run (new_priority_walk fresh_owner) late_calls)) by now rewrite E.
  rewrite W. clear. assert (A : lasting LeftPosition /\ lasting TrunkOrientation) by (unfold lasting; split; split; discriminate).
  destruct A as (A1 & A2). unfold in_solver. do 2 (split; [vm_compute; tauto|]). split; [exact A1|]. split; [exact A2|]. vm_compute. reflexivity.
Qed.
Example C185_made_example : exists q c q', priority_reachable false q /\ priority_legal q c /\ priority_step q c = Ok q' /\ in_solver (pw_walk q') CoM 5 /\
  cf_name (pw_config q' 5) = "com"%string /\ cf_scaled (pw_config q' 5) = false.
Proof.
  assert (S0 : priority_reachable false (new_priority_walk fresh_owner)) by (eapply pr_start; [constructor|reflexivity]).
  destruct (priority_run_reaches false [PCall (WInitialize some_pose)] _ S0) as (q & E & _); [vm_compute; reflexivity|].
  exists (new_priority_walk fresh_owner), (PCall (WInitialize some_pose)), q. split; [exact S0|]. split; [reflexivity|].
  assert (W : q = ok_or (new_priority_walk fresh_owner) (priority_run (new_priority_walk fresh_owner) [PCall (WInitialize some_pose)])) by now rewrite E.
  split.
  - cbn [priority_run] in E. destruct (priority_step (new_priority_walk fresh_owner) (PCall (WInitialize some_pose))); cbn [obind] in E; congruence.
  - rewrite W. clear. unfold in_solver. vm_compute. tauto.
Qed.

Print Assumptions C185_partial.
Print Assumptions C185_lasting_behaviour.
Print Assumptions C185_made_behaviour.
Print Assumptions C185_refuted.
