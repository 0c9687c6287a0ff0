(** The references handed out by a Problem (C168). *)
From Coq Require Import List Arith Bool Lia.
From Verif Require Import Base ProblemMemory_model ProblemMemory_spec ProblemMemory_proofs.
Import ListNotations.

(** In every history of calls that uses only valid references nothing undefined happens; the objects alive are exactly those whose reference is
    valid, and every other object handed out has been deleted exactly once. *)
Theorem C168_references : forall l, disciplined l -> exists h p, prun (empty_pheap, new_pmem) l = Ok (h, p) /\
  (forall a, ph_alive h a = true <-> valid_after l a) /\
  (forall a, ph_deletes h a = 1 <-> (a < handed l /\ ~ valid_after l a)) /\ (forall a, ph_deletes h a <= 1).
Proof.
  intros l D. destruct (disciplined_reached l D) as (h & p & E & Hr). exists h, p. split; [exact E|].
  pose proof (r_tidy _ _ _ Hr) as T. split; [|split].
  - intros a. rewrite (t_alive _ _ T). now apply holds_valid with (h := h).
  - intros a. rewrite (t_deletes _ _ T), <- (holds_valid l h p a Hr), <- (t_alive _ _ T), (r_count _ _ _ Hr).
    destruct (Nat.ltb a (handed l)) eqn:L.
    + apply Nat.ltb_lt in L. destruct (ph_alive h a); split; intros H; lia.
    + apply Nat.ltb_ge in L. split; intros H; lia.
  - intros a. rewrite (t_deletes _ _ T). destruct (Nat.ltb a (ph_count h)), (ph_alive h a); lia.
Qed.

(** When the problem is destroyed after such a history, everything it handed out has been deleted exactly once. *)
Theorem C168_destroyed : forall l, disciplined l -> exists h p h', prun (empty_pheap, new_pmem) l = Ok (h, p) /\ pdestroy h p = Ok h' /\
  (forall a, ph_alive h' a = false) /\ (forall a, ph_deletes h' a = if a <? handed l then 1 else 0).
Proof.
  intros l D. destruct (disciplined_reached l D) as (h & p & E & Hr).
  destruct (destroy_tidy h p (r_tidy _ _ _ Hr)) as (h' & E' & C & T). exists h, p, h'. split; [exact E|]. split; [exact E'|].
  assert (A : forall a, ph_alive h' a = false).
  { intros a. destruct (ph_alive h' a) eqn:Al; [|reflexivity]. apply (t_alive _ _ T) in Al. unfold holds in Al. cbn in Al. tauto. }
  split; [exact A|]. intros a. now rewrite (t_deletes _ _ T), A, C, (r_count _ _ _ Hr).
Qed.

(** A history with unknowns and constraints, clears of both kinds, a solve, uses of references. *)
Definition problem_history : list pop :=
  [PAddVariable; PAddConstraint; PUse 0; PSolve; PClearConstraints; PAddConstraint; PUse 2; PAddVariable; PSolve; PClearVariables; PUse 2].
Example problem_history_disciplined : disciplined problem_history /\ handed problem_history = 4 /\ valid_after problem_history 2 /\
  ~ valid_after problem_history 0 /\ ~ valid_after problem_history 1.
Proof.
  assert (V0 : valid_after [PAddVariable; PAddConstraint] 0).
  { left. exists [], [PAddConstraint]. repeat split. cbn. intuition discriminate. }
  assert (V2 : valid_after [PAddVariable; PAddConstraint; PUse 0; PSolve; PClearConstraints; PAddConstraint] 2).
  { right. exists [PAddVariable; PAddConstraint; PUse 0; PSolve; PClearConstraints], []. repeat split. cbn. tauto. }
  assert (V2' : valid_after [PAddVariable; PAddConstraint; PUse 0; PSolve; PClearConstraints; PAddConstraint; PUse 2; PAddVariable; PSolve; PClearVariables] 2).
  { right. exists [PAddVariable; PAddConstraint; PUse 0; PSolve; PClearConstraints], [PUse 2; PAddVariable; PSolve; PClearVariables].
    repeat split. cbn. intuition discriminate. }
  assert (D : disciplined problem_history).
  { change problem_history with (((((((((((([] ++ [PAddVariable]) ++ [PAddConstraint]) ++ [PUse 0]) ++ [PSolve]) ++ [PClearConstraints]) ++ [PAddConstraint])
      ++ [PUse 2]) ++ [PAddVariable]) ++ [PSolve]) ++ [PClearVariables]) ++ [PUse 2])).
    repeat (apply disc_nil || apply disc_snoc); cbn [app]; auto. }
  split; [exact D|]. split; [reflexivity|]. destruct (C168_references _ D) as (h & p & E & A & _).
  cbn in E. injection E as <- <-. split; [|split]; rewrite <- A; cbn; try reflexivity; discriminate.
Qed.

(** A copy of a problem copies the pointers. When the copy is destroyed, everything the original had handed out and not cleared is deleted:
    no reference is valid any more, although the original still holds them; the next solve is undefined if there is anything in it,
    and so are clearing what is held and destroying the original. *)
Theorem C168_copy_behaviour : forall l, disciplined l -> exists h p, prun (empty_pheap, new_pmem) (l ++ [PCopyDestroy]) = Ok (h, p) /\
  (forall a, ph_alive h a = false) /\ (forall a, In a (pm_vars p) <-> valid_variable l a) /\ (forall a, In a (pm_cons p) <-> valid_constraint l a) /\
  (forall a, valid_after l a -> puse h p a = UB /\ psolve h p = UB /\ pdestroy h p = UB) /\
  ((forall a, ~ valid_after l a) -> psolve h p = Ok (h, p) /\ pdestroy h p = Ok h).
Proof.
  intros l D. destruct (disciplined_reached l D) as (h & p & E & Hr).
  destruct (destroy_tidy h p (r_tidy _ _ _ Hr)) as (h' & E' & C & T). exists h', p.
  assert (A : forall a, ph_alive h' a = false).
  { intros a. destruct (ph_alive h' a) eqn:Al; [|reflexivity]. apply (t_alive _ _ T) in Al. unfold holds in Al. cbn in Al. tauto. }
  split; [|split; [exact A|split; [apply Hr|split; [apply Hr|split]]]].
  - rewrite prun_snoc, E. cbn [obind prun_op]. unfold pcopy_and_destroy. destruct p as [pv pc]. unfold pcopy. cbn [pm_vars pm_cons].
    rewrite E'. reflexivity.
  - intros a Va. apply (holds_valid l h p a Hr) in Va. split; [unfold puse; now rewrite A|]. split.
    + unfold psolve. destruct (forallb (ph_alive h') (pm_cons p) && forallb (ph_alive h') (pm_vars p))%bool eqn:F; [|reflexivity].
      apply andb_prop in F. destruct F as [F1 F2]. rewrite forallb_forall in F1, F2.
      destruct Va as [Va|Va]; [apply F2 in Va|apply F1 in Va]; rewrite A in Va; discriminate.
    + unfold pdestroy. destruct (pm_cons p) as [|c r] eqn:Ec.
      * cbn. apply pdelete_all_dead; [|exact A]. destruct Va as [Va|Va]; [intros Hn; rewrite Hn in Va; inversion Va|rewrite Ec in Va; inversion Va].
      * rewrite pdelete_all_dead by (try exact A; discriminate). reflexivity.
  - intros Hn. assert (Hc : pm_cons p = []).
    { destruct (pm_cons p) as [|c r] eqn:Ec; [reflexivity|]. exfalso. apply (Hn c), (holds_valid l h p c Hr). right. rewrite Ec. now left. }
    assert (Hv : pm_vars p = []).
    { destruct (pm_vars p) as [|c r] eqn:Ec; [reflexivity|]. exfalso. apply (Hn c), (holds_valid l h p c Hr). left. rewrite Ec. now left. }
    unfold psolve, pdestroy. rewrite Hc, Hv. split; reflexivity.
Qed.

(** So a problem does not survive the destruction of a copy of it. *)
Theorem C168_copy_refuted : exists l, disciplined l /\ valid_after l 0 /\ prun (empty_pheap, new_pmem) (l ++ [PUse 0]) <> UB /\
  prun (empty_pheap, new_pmem) (l ++ [PCopyDestroy; PUse 0]) = UB /\ prun (empty_pheap, new_pmem) (l ++ [PCopyDestroy; PSolve]) = UB.
Proof.
  exists ([] ++ [PAddVariable]). split; [repeat constructor|]. split.
  - left. exists [], []. repeat split. cbn. tauto.
  - repeat split; try reflexivity. discriminate.
Qed.

Print Assumptions C168_references.
Print Assumptions C168_destroyed.
Print Assumptions C168_copy_behaviour.
Print Assumptions C168_copy_refuted.
