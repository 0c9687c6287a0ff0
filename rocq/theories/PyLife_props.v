(** The life of objects handled from Python (C170). *)
From Coq Require Import List Arith Bool Lia.
From Verif Require Import PyLife_model PyLife_spec PyLife_proofs.
Import ListNotations.

(** In every program that keeps a name, till the end, on the owners of what it passes by reference, whatever else it drops and in whatever order,
    every object to which a name is bound can be used. Missing: programs that drop such an owner, for which this is false (below). *)
Theorem C170_durable_partial : forall durable l, well_named py_start l -> caring durable py_start l -> usable_while_bound (py_run l).
Proof. intros durable l N C. apply (wf_usable durable). now apply run_wf; [apply start_wf| |]. Qed.

(** Steps that pass nothing by reference: constructors without such arguments, methods that return an inner object (tasks, constraints, variables), getters of
    inner objects, other calls, and dropping names. *)
Definition self_contained (o : pystep) : Prop :=
  match o with New [] [] | Child _ [] [] | Inner _ _ | Use _ | Drop _ => True | _ => False end.

(** With these alone no care is needed: a variable outlives the name of its problem, a task that of its solver. *)
Theorem C170_internal : forall l, well_named py_start l -> Forall self_contained l -> usable_while_bound (py_run l).
Proof.
  intros l N F. apply (C170_durable_partial []); [exact N|]. revert N. generalize py_start. induction F as [|o l H F IH]; intros s N; [exact I|].
  destruct N as (_ & _ & N). split; [|split; [|now apply IH]].
  - intros p Hp. destruct o as [args through|h args through|h k|h k|h k|h g|h|h]; cbn in H, Hp; try contradiction;
      destruct args; try contradiction; destruct through; contradiction.
  - destruct o; auto.
Qed.

(** robot, solver = KinematicsSolver(robot), a position task, a frame task, its position, solver.robot; then the names of the task of the first and of the
    frame task are dropped. The robot and the solver are the durable ones. *)
Definition program : list pystep :=
  [New [] []; make_a_solver 0; add_inside 1; add_a_frame_task 1; part_of 3 0; robot_of 1; Use 2; Drop 2; Drop 3; Use 4; Use 5; Use 1].
Example program_cares : well_named py_start program /\ caring [0; 1] py_start program /\ ps_names (py_run program) = [5; 4; 1; 0].
Proof. cbn. repeat split; auto; intros; try tauto; try lia; intuition (subst; auto; lia). Qed.

(** problem = Problem(); v = problem.add_variable(3); del problem: v can still be used. *)
Example internal_program : let l := [New [] []; add_inside 0; Drop 0; Use 1] in
  well_named py_start l /\ Forall self_contained l /\ ps_names (py_run l) = [1] /\ follows (py_run l) (addr (py_run l) 1) 0.
Proof.
  cbn. repeat split; auto; try (intros; intuition (subst; auto)).
  - repeat constructor.
  - apply (follows_points _ _ 1); [constructor|]. now left.
Qed.

(** Names and what they keep alive exist. *)
Definition ranged (s : pystate) : Prop :=
  (forall p, In p (ps_names s) -> p < length (ps_py s)) /\ (forall p q, In q (po_keeps (py_at s p)) -> q < length (ps_py s)).

Lemma ranged_step : forall s o, ranged s -> (forall h, In h (mentions o) -> In h (ps_names s)) -> ranged (py_do s o).
Proof.
  intros s o [H1 H2] M.
  assert (BD : forall cs p, (forall q, In q (po_keeps p) -> q < length (ps_py s)) -> ranged (bind s cs p)).
  { intros cs p Hp. split; unfold bind; cbn [ps_names ps_py]; rewrite app_length; cbn [length].
    - intros q [<-|Hq]; [lia|]. apply H1 in Hq. lia.
    - intros q r. unfold py_at. cbn [ps_py]. destruct (lt_eq_lt_dec q (length (ps_py s))) as [[L| ->]|L].
      + rewrite app_nth1 by exact L. intros I. apply H2 in I. lia.
      + rewrite app_nth2, Nat.sub_diag by lia. cbn. intros I. apply Hp in I. lia.
      + rewrite nth_overflow by (rewrite app_length; cbn; lia). cbn. tauto. }
  destruct o as [args through|h args through|h k|h k|h k|h g|h|h]; cbn [py_do mentions] in *; try (apply BD; cbn; intros q Hq; try contradiction).
  - destruct Hq as [<-|Hq]; [apply H1, M; now left|eauto].
  - destruct Hq as [<-|Hq]; [apply H1, M; now left|eauto].
  - split; assumption.
  - split; assumption.
  - split; cbn; [|assumption]. intros p I. apply in_remove in I. apply H1. tauto.
Qed.

Lemma ranged_run : forall l s, ranged s -> well_named s l -> ranged (fold_left py_do l s).
Proof. induction l as [|o l IH]; intros s Hs N; cbn; [exact Hs|]. destruct N as (N1 & _ & N). apply IH; [|exact N]. now apply ranged_step. Qed.

(** After any program: x = X(); y = Y(x); del x. The name y is bound to an object that refers to a destroyed one, and no call on it is defined.
    This is KinematicsSolver(RobotWrapper(...)), FootstepsPlannerNaive(HumanoidParameters()) and the like. *)
Theorem C170_temporary_argument_behaviour : forall l, well_named py_start l ->
  let x := length (ps_py (py_run l)) in let l' := l ++ [New [] []; New [x] []; Drop x] in
  In (S x) (ps_names (py_run l')) /\ ~ defined_on (py_run l') (S x).
Proof.
  intros l N x l'. assert (Hr : ranged (py_run l)).
  { apply ranged_run; [|exact N]. split; cbn; intros; try contradiction. destruct p; contradiction. }
  destruct Hr as [R1 R2]. set (s := py_run l) in *.
  assert (E : py_run l' = PyState (ps_cpp s ++ [CObj None x []; CObj None (S x) [length (ps_cpp s)]])
                             (ps_py s ++ [PObj (length (ps_cpp s)) []; PObj (S (length (ps_cpp s))) []]) (S x :: ps_names s)).
  { unfold l', py_run. rewrite fold_left_app. change (fold_left py_do l py_start) with s. cbn [fold_left py_do].
    change (stored s [] []) with (@nil nat). set (s1 := bind s [CObj None (length (ps_py s)) []] (PObj (length (ps_cpp s)) [])).
    assert (St : stored s1 [x] [] = [length (ps_cpp s)]).
    { unfold stored. cbn [map flat_map app]. unfold addr, x, s1. now rewrite py_at_new. }
    rewrite St. unfold s1, bind. cbn [ps_cpp ps_py ps_names]. rewrite <- !app_assoc, !app_length. cbn [app length]. rewrite !Nat.add_1_r. fold x. cbn [remove].
    destruct (Nat.eq_dec x (S x)) as [F|_]; [lia|]. destruct (Nat.eq_dec x x) as [_|F]; [|congruence].
    f_equal. f_equal. apply notin_remove. intros I. apply R1 in I. unfold x in I. lia. }
  rewrite E. split; [now left|]. intros Df. specialize (Df (length (ps_cpp s))).
  assert (A : addr (PyState (ps_cpp s ++ [CObj None x []; CObj None (S x) [length (ps_cpp s)]])
                             (ps_py s ++ [PObj (length (ps_cpp s)) []; PObj (S (length (ps_cpp s))) []]) (S x :: ps_names s)) (S x) = S (length (ps_cpp s))).
  { unfold addr, py_at. cbn [ps_py]. rewrite app_nth2 by (unfold x; lia). replace (S x - length (ps_py s)) with 1 by (unfold x; lia). reflexivity. }
  rewrite A in Df.
  destruct Df as (n & I & Q).
  - apply (follows_points _ _ (S (length (ps_cpp s)))); [constructor|]. unfold cpp_at. cbn [ps_cpp]. rewrite app_nth2 by lia.
    replace (S (length (ps_cpp s)) - length (ps_cpp s)) with 1 by lia. cbn. now left.
  - unfold cpp_at, py_at in Q. cbn [ps_cpp ps_py ps_names] in I, Q. rewrite app_nth2 in Q by lia. rewrite Nat.sub_diag in Q. cbn [nth co_root] in Q.
    destruct I as [<-|I].
    + destruct Q as [Q|Q]; [lia|]. rewrite app_nth2 in Q by (unfold x; lia). replace (S x - length (ps_py s)) with 1 in Q by (unfold x; lia). cbn in Q. exact Q.
    + pose proof (R1 n I) as Ln. destruct Q as [Q|Q]; [unfold x in Q; lia|]. rewrite app_nth1 in Q by exact Ln. specialize (R2 n x). unfold py_at in R2.
      apply R2 in Q. unfold x in Q. lia.
Qed.

(** So a bound name is not enough: solver = KinematicsSolver(RobotWrapper(...)). *)
Theorem C170_refuted : exists l, well_named py_start l /\ ~ usable_while_bound (py_run l).
Proof.
  exists ([] ++ [New [] []; make_a_solver 0; Drop 0]). split.
  - cbn. repeat split; auto; intros; intuition (subst; auto).
  - intros U. destruct (C170_temporary_argument_behaviour [] I) as [B N]. apply N, U, B.
Qed.

(** A frame task does not keep its solver alive, whereas a position task does: with the robot still there, dropping the name of the solver makes the first
    unusable and leaves the second usable. *)
Theorem C170_frame_task_refuted :
  (let l := [New [] []; make_a_solver 0; add_a_frame_task 1; Drop 1] in
   well_named py_start l /\ In 2 (ps_names (py_run l)) /\ In 0 (ps_names (py_run l)) /\ ~ defined_on (py_run l) 2) /\
  (let l := [New [] []; make_a_solver 0; add_inside 1; Drop 1] in
   well_named py_start l /\ In 2 (ps_names (py_run l)) /\ In 0 (ps_names (py_run l)) /\ defined_on (py_run l) 2).
Proof.
  split; cbv zeta; (split; [cbn; repeat split; auto; intros; intuition (subst; auto)|]); (split; [cbn; auto|]); (split; [cbn; auto|]).
  - intros Df. destruct (Df 2) as (n & Hn & Q).
    + apply (follows_points _ _ 4); [constructor|]. cbn. now left.
    + cbn in Hn, Q. intuition (subst; cbn in *; try lia; try tauto).
  - apply (C170_durable_partial [0] [New [] []; make_a_solver 0; add_inside 1; Drop 1]); cbn; repeat split; auto; intros; intuition (subst; auto; lia).
Qed.

Print Assumptions C170_durable_partial.
Print Assumptions C170_internal.
Print Assumptions C170_temporary_argument_behaviour.
Print Assumptions C170_refuted.
Print Assumptions C170_frame_task_refuted.
