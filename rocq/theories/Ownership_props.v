(** Ownership of tasks, constraints and contacts (C66). *)
From Coq Require Import List Arith Bool Lia.
From Verif Require Import Base Ownership_model Ownership_spec Ownership_proofs.
Import ListNotations.

(** In every history of careful calls on a kinematics solver nothing undefined happens, and the memory agrees with the book: what the solver
    created is deleted exactly once, when it is removed or cleared, what the user created is never deleted, and the solver holds
    exactly what was added and not removed. *)
Theorem C66_kinematics : forall l b, careful Kinematics l b ->
  exists s, run_ops Kinematics fresh_owner l = Ok s /\ agrees s b.
Proof.
  intros l b C. apply careful_kinematics in C. destruct C as (C & _). destruct (careful_tidy _ _ _ C) as (s & E & T).
  exists s. split; [exact E|apply T].
Qed.

(** When the solver is destroyed after any such history, everything it created has been deleted exactly once, and nothing else. *)
Theorem C66_kinematics_destroyed : forall l b, careful Kinematics l b ->
  exists s, run_ops Kinematics fresh_owner (l ++ [Clear]) = Ok s /\
    forall a, a < b_count b -> h_deletes (w_heap s) a = if b_user b a then 0 else 1.
Proof.
  intros l b C. assert (C' : careful Kinematics (l ++ [Clear]) (expected b Clear)) by (constructor; [exact C|exact I]).
  destruct (C66_kinematics _ _ C') as (s & E & A). exists s. split; [exact E|]. intros a Ha.
  destruct A as (_ & A2 & _). cbn in A2. rewrite A2 by exact Ha. clear A2.
  apply careful_kinematics in C. destruct C as (C & _). destruct (careful_tidy _ _ _ C) as (s0 & _ & T).
  destruct (b_user b a) eqn:U; cbn.
  - now rewrite andb_false_r.
  - destruct (b_in b a) eqn:I1; [reflexivity|]. destruct (b_gone b a) eqn:G; [reflexivity|].
    pose proof (td_own _ _ _ T a Ha U G). congruence.
Qed.

(** A history with objects of both kinds: a task of the user and two of the solver, a frame task, removals, a solve, a clear. *)
Definition history : list op :=
  [UserNew CTask; AddTask 0; Create CTask []; Create CTask []; Create CConstraint []; Visit; RemoveFrameTask 1 2; RemoveTask 0; AddTask 0;
   Visit; Clear; UserDelete 0].
Example history_careful : exists b, careful Kinematics history b /\ b_count b = 4 /\ b_gone b 0 = true /\ b_user b 0 = true /\ b_user b 1 = false.
Proof.
  eexists. split.
  - unfold history.
    change [UserNew CTask; AddTask 0; Create CTask []; Create CTask []; Create CConstraint []; Visit; RemoveFrameTask 1 2; RemoveTask 0; AddTask 0; Visit; Clear; UserDelete 0]
      with ((((((((((((([] ++ [UserNew CTask]) ++ [AddTask 0]) ++ [Create CTask []]) ++ [Create CTask []]) ++ [Create CConstraint []]) ++ [Visit]) ++ [RemoveFrameTask 1 2])
             ++ [RemoveTask 0]) ++ [AddTask 0]) ++ [Visit]) ++ [Clear]) ++ [UserDelete 0])).
    repeat (apply careful_nil || eapply careful_snoc);
      cbn; repeat split; auto; cbn; try lia; try discriminate; intros [|[|[|[|a]]]]; cbn; constructor.
  - repeat split.
Qed.

(** The dynamics solver: the same, in every careful history that neither asks it to remove a task of the user nor adds one of its own contacts
    a second time. Missing: these two calls, for which the property is false (below). *)
Theorem C66_dynamics_partial : forall l b,
  careful_without Dynamics (fun b o => removes_user_task b o \/ adds_own_contact_again b o) l b ->
  exists s, run_ops Dynamics fresh_owner l = Ok s /\ agrees s b.
Proof.
  intros l b C. destruct (careful_tidy Dynamics l b) as (s & E & T).
  - induction C as [|l b o C IH L N]; constructor; auto. tauto.
  - exists s. split; [exact E|apply T].
Qed.

Example dynamics_careful : exists l b, careful_without Dynamics (fun b o => removes_user_task b o \/ adds_own_contact_again b o) l b /\
  b_count b = 4 /\ b_in b 3 = true /\ b_class b 3 = CContact /\ b_refs b 3 = [0] /\ b_gone b 1 = true.
Proof.
  exists (((((((([] ++ [Create CTask []]) ++ [Create CTask []]) ++ [UserNew CContact]) ++ [Create CContact [0]]) ++ [AddContact 2]) ++ [AddContact 2]) ++ [Visit]) ++ [RemoveTask 1]).
  eexists. split.
  - repeat (apply cw_nil || eapply cw_snoc); cbn; repeat split; auto; cbn; try lia; try tauto; try discriminate; try (intuition congruence);
      try (intros [|[|[|[|a]]]]; cbn; repeat constructor; fail).
    repeat constructor; cbn; auto; lia.
  - repeat split.
Qed.

(** remove_task of the dynamics solver deletes the task, whoever owns it. *)
Theorem C66_dynamics_remove_behaviour : forall s a, h_alive (w_heap s) a = true ->
  exists s', run_op Dynamics s (RemoveTask a) = Ok s' /\ h_alive (w_heap s') a = false /\ h_deletes (w_heap s') a = S (h_deletes (w_heap s) a) /\
             ~ In a (w_tasks s').
Proof.
  intros s a H. cbn [run_op]. unfold remove_task_op, solver_delete. rewrite H. cbn [guard obind]. eexists. split; [reflexivity|].
  cbn [w_heap h_alive h_deletes w_tasks]. unfold upd. rewrite Nat.eqb_refl. repeat split; auto. rewrite in_erase. tauto.
Qed.

(** So the property fails: a user allocates a task, adds it, removes it: the solver deleted it, and the destruction by its owner is undefined. *)
Theorem C66_dynamics_remove_refuted : exists l b, careful Dynamics l b /\
  (forall s, run_ops Dynamics fresh_owner l = Ok s -> ~ agrees s b) /\ run_ops Dynamics fresh_owner (l ++ [UserDelete 0]) = UB /\
  legal Dynamics b (UserDelete 0).
Proof.
  exists ((([] ++ [UserNew CTask]) ++ [AddTask 0]) ++ [RemoveTask 0]). eexists. split; [|split; [|split]].
  - repeat (apply careful_nil || eapply careful_snoc); cbn; repeat split; auto; cbn; try lia; try discriminate.
  - intros s H. cbn in H. injection H as <-. intros (A1 & _). specialize (A1 0 ltac:(cbn; lia)). cbn in A1. discriminate.
  - reflexivity.
  - cbn. repeat split; auto.
Qed.

(** Adding again a contact that the solver created, then destroying the solver, deletes it twice. *)
Theorem C66_dynamics_contact_refuted : exists l b, careful Dynamics l b /\ run_ops Dynamics fresh_owner l = UB.
Proof.
  exists ((([] ++ [Create CContact []]) ++ [AddContact 0]) ++ [Clear]). eexists. split.
  - repeat (apply careful_nil || eapply careful_snoc); cbn; repeat split; auto; cbn; try lia; try discriminate.
  - reflexivity.
Qed.

(** Removing the task of a contact that stays in the solver leaves the contact with a dangling pointer: solve is undefined until the contact is removed. *)
Theorem C66_contact_without_task_behaviour : forall s c t, In c (w_contacts s) -> In t (h_refs (w_heap s) c) -> h_alive (w_heap s) t = true -> c <> t ->
  exists s', run_op Dynamics s (RemoveTask t) = Ok s' /\ run_op Dynamics s' Visit = UB.
Proof.
  intros s c t Hc Ht A N. cbn [run_op]. unfold remove_task_op, solver_delete. rewrite A. cbn [guard obind]. eexists. split; [reflexivity|].
  unfold visit_op. cbn [w_heap h_alive w_tasks w_constraints w_contacts h_refs].
  match goal with |- guard ?x _ = _ => destruct x eqn:E; [|reflexivity] end. exfalso.
  apply andb_prop in E. destruct E as [_ E]. rewrite forallb_forall in E. specialize (E c Hc). apply andb_prop in E. destruct E as [_ E].
  rewrite forallb_forall in E. specialize (E t Ht). unfold upd in E. rewrite Nat.eqb_refl in E. discriminate.
Qed.

Example contact_without_task : exists s, run_ops Dynamics fresh_owner [Create CTask []; Create CContact [0]] = Ok s /\ In 1 (w_contacts s) /\
  In 0 (h_refs (w_heap s) 1) /\ h_alive (w_heap s) 0 = true /\ run_ops Dynamics s [RemoveTask 0; Visit] = UB.
Proof. eexists. split; [reflexivity|]. repeat split; cbn; auto. Qed.

Print Assumptions C66_kinematics.
Print Assumptions C66_kinematics_destroyed.
Print Assumptions C66_dynamics_partial.
Print Assumptions C66_dynamics_remove_behaviour.
Print Assumptions C66_dynamics_remove_refuted.
Print Assumptions C66_dynamics_contact_refuted.
Print Assumptions C66_contact_without_task_behaviour.
