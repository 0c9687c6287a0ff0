From Coq Require Import Reals List Arith Bool Lia Lra.
From Verif Require Import Base Linalg Geom3 Expression_model Problem_model Robot_model Tools_model KinTasks_model Kin_model Kin_spec Kin_proofs7 KinErrors_model KinErrors_spec.
Import ListNotations.
Open Scope R_scope.

Definition frozen (s s' : ksolver) : Prop := ks_N s' = ks_N s /\ ks_dt s' = ks_dt s /\ ks_tasks s' = ks_tasks s.
Lemma frozen_refl s : frozen s s.
Proof. repeat split. Qed.
Lemma frozen_trans a b c : frozen a b -> frozen b c -> frozen a c.
Proof. intros (A & B & C) (D & E & F). repeat split; congruence. Qed.

Lemma ensure_qd_frozen s : frozen s (ensure_qd s).
Proof. unfold ensure_qd. destruct (ks_qd s); repeat split. Qed.
Lemma before_frozen s : frozen s (before_tasks s).
Proof. apply (frozen_trans _ (ensure_qd s)); [apply ensure_qd_frozen|repeat split]. Qed.
Lemma start_scaling_frozen s : frozen s (fst (start_scaling s)).
Proof.
  unfold start_scaling. destruct (ks_has_scaling s); [apply frozen_refl|].
  match goal with |- context [match ?o with Ok _ => _ | Throw _ => _ | UB => _ end] => destruct o end; cbn [fst];
    unfold ensure_scale; cbn; destruct (ks_scale_var s); repeat split.
Qed.
Lemma add_task_frozen pn log3 msqrt r s t : frozen s (fst (add_task_to_problem pn log3 msqrt r s t)).
Proof.
  unfold add_task_to_problem. destruct (task_update pn log3 msqrt (ks_N s) (ks_dt s) r (kt_kind t)) as [e|e|]; cbn [fst]; try apply frozen_refl.
  destruct (Nat.eqb (mrows (fst e)) 0); [apply frozen_refl|].
  assert (F : forall s1 o, frozen s s1 -> frozen s (fst (match o with
    | Ok _ => match task_constraint s1 t e with Ok c => (kset_problem s1 (add_constraint (ks_problem s1) c), Ok tt) | Throw e => (s1, Throw e) | UB => (s1, UB) end
    | _ => (s1, o) end))).
  { intros s1 [u|x|] H; cbn [fst]; try exact H. destruct (task_constraint s1 t e); cbn [fst]; exact H. }
  destruct (kt_priority t); try apply (F s (Ok tt)), frozen_refl.
  pose proof (start_scaling_frozen s) as H. destruct (start_scaling s) as [s1 o]. cbn [fst] in H. apply (F s1 o H).
Qed.
Lemma add_tasks_frozen pn log3 msqrt r l : forall s, frozen s (fst (add_tasks_to_problem pn log3 msqrt r s l)).
Proof.
  induction l as [|t l IH]; intros s; cbn [add_tasks_to_problem]; [apply frozen_refl|].
  pose proof (add_task_frozen pn log3 msqrt r s t) as H. destruct (add_task_to_problem pn log3 msqrt r s t) as [s1 o]. cbn [fst] in H.
  destruct o; cbn [fst]; try exact H. exact (frozen_trans _ _ _ H (IH s1)).
Qed.

(** ksolve, seen from its tasks. *)
Lemma ksolve_tasks pn log3 msqrt qr qp s r apply s' r' o : ksolve pn log3 msqrt qr qp s r apply = (s', r', o) ->
  frozen s s' /\ (forall x, o = Ok x -> snd (add_tasks_to_problem pn log3 msqrt r (before_tasks s) (ks_tasks s)) = Ok tt).
Proof.
  unfold ksolve. intros H.
  set (s1 := kset_scale (kset_problem (ensure_qd s) (clear_constraints (ks_problem (ensure_qd s)))) (ks_scale (kset_problem (ensure_qd s) (clear_constraints (ks_problem (ensure_qd s))))) false) in H.
  assert (E1 : s1 = before_tasks s) by reflexivity. assert (Et : ks_tasks s1 = ks_tasks s) by apply (before_frozen s).
  rewrite Et in H. pose proof (add_tasks_frozen pn log3 msqrt r (ks_tasks s) s1) as F. rewrite E1 in *. clear E1 Et. clearbody s1.
  pose proof (frozen_trans _ _ _ (before_frozen s) F) as F0. clear F.
  destruct (add_tasks_to_problem pn log3 msqrt r (before_tasks s) (ks_tasks s)) as [s2 o2]. cbn [fst snd] in *.
  destruct o2 as [u|x|]; [destruct u| |].
  2,3: injection H as <- <- <-; split; [exact F0|discriminate].
  destruct (after_tasks pn r s2) as [cs|x|].
  2,3: injection H as <- <- <-; split; [exact F0|discriminate].
  match type of H with context [solve ?p qr qp] => destruct (solve p qr qp) as [pb o3] end.
  split; [|auto].
  assert (G : forall w, frozen s (kset_problem (kset_problem s2 w) pb)) by (intros w; exact F0).
  destruct o3 as [u|x|]; [|injection H as <- <- <-; apply G|injection H as <- <- <-; apply G].
  match type of H with context [var_at pb ?q] => destruct (var_at pb q) as [v|x|] end; [|injection H as <- <- <-; apply G|injection H as <- <- <-; apply G].
  match type of H with match ?o with Ok _ => _ | Throw _ => _ | UB => _ end = _ => assert (Q : forall z, o = Ok z -> frozen s z); [|destruct o as [z|x|]] end.
  - intros z. match goal with |- context [if ?b then _ else _] => destruct b end; [|intros Z; injection Z as <-; apply G].
    unfold obind. match goal with |- context [var_at pb ?q] => destruct (var_at pb q) as [w|x|] end; try discriminate.
    destruct (vec_get (v_value w) 0); try discriminate. intros Z; injection Z as <-. exact (G _).
  - specialize (Q z eq_refl). destruct apply; [|injection H as <- <- <-; exact Q].
    match type of H with match ?o with Ok _ => _ | Throw _ => _ | UB => _ end = _ => destruct o end; injection H as <- <- <-; exact Q.
  - injection H as <- <- <-. apply G.
  - injection H as <- <- <-. apply G.
Qed.

Section WithRobot.
Variable pn : pin.
Variable log3 : mat3 -> vec3.
Variable msqrt : mat -> mat.
Notation errors_in_solve := (errors_in_solve pn log3 msqrt).
Notation errors_in_dump := (errors_in_dump pn log3 msqrt).
Notation task_update := (task_update pn log3 msqrt).

Lemma errors_solve_length r l : forall s mem, List.length mem = List.length l -> List.length (errors_in_solve r s l mem) = List.length l.
Proof.
  induction l as [|t l IH]; intros s [|m mem] H; try discriminate; cbn [KinErrors_model.errors_in_solve List.length] in *; [reflexivity|].
  injection H as H. destruct (task_update (ks_N s) (ks_dt s) r (kt_kind t)) as [e|e|]; cbn [List.length]; [|congruence|congruence].
  destruct (add_task_to_problem pn log3 msqrt r s t) as [s' o]. cbn [List.length]. destruct o; try congruence. rewrite IH by exact H. reflexivity.
Qed.
Lemma errors_dump_length s r l : forall mem, List.length mem = List.length l -> List.length (fst (errors_in_dump s r l mem)) = List.length l.
Proof.
  induction l as [|t l IH]; intros [|m mem] H; try discriminate; cbn [KinErrors_model.errors_in_dump List.length fst] in *; [reflexivity|].
  injection H as H. destruct (task_update (ks_N s) (ks_dt s) r (kt_kind t)) as [e|e|]; cbn [List.length fst]; [|congruence|congruence].
  specialize (IH mem H). destruct (errors_in_dump s r l mem) as [m' o]. cbn [List.length fst] in *. congruence.
Qed.

Lemma errors_solve_entry r l : forall s mem k v, List.length mem = List.length l -> nth_error (errors_in_solve r s l mem) k = Some (Some v) ->
  (exists t A, nth_error l k = Some t /\ task_update (ks_N s) (ks_dt s) r (kt_kind t) = Ok (A, v)) \/
  (nth_error mem k = Some (Some v) /\ snd (add_tasks_to_problem pn log3 msqrt r s l) <> Ok tt).
Proof.
  induction l as [|t l IH]; intros s [|m mem] k v H Hk; try discriminate; cbn [KinErrors_model.errors_in_solve List.length add_tasks_to_problem] in *; [destruct k; discriminate|].
  injection H as H. destruct (task_update (ks_N s) (ks_dt s) r (kt_kind t)) as [e|e|] eqn:E.
  - pose proof (add_task_frozen pn log3 msqrt r s t) as (F1 & F2 & _).
    destruct (add_task_to_problem pn log3 msqrt r s t) as [s' o]. cbn [fst] in *. destruct k as [|k]; cbn [nth_error] in *.
    + injection Hk as <-. left. exists t, (fst e). split; [reflexivity|]. rewrite E. destruct e; reflexivity.
    + destruct o as [u|x|].
      * destruct (IH s' mem k v H Hk) as [I1|I2]; [left|right; exact I2]. rewrite F1, F2 in I1. exact I1.
      * right. split; [exact Hk|discriminate].
      * right. split; [exact Hk|discriminate].
  - destruct k as [|k]; cbn [nth_error] in *; [discriminate|]. right. split; [exact Hk|]. unfold add_task_to_problem. rewrite E. discriminate.
  - destruct k as [|k]; cbn [nth_error] in *; [discriminate|]. right. split; [exact Hk|]. unfold add_task_to_problem. rewrite E. discriminate.
Qed.
Lemma errors_dump_entry s r l : forall mem k v, List.length mem = List.length l -> nth_error (fst (errors_in_dump s r l mem)) k = Some (Some v) ->
  (exists t A, nth_error l k = Some t /\ task_update (ks_N s) (ks_dt s) r (kt_kind t) = Ok (A, v)) \/
  (nth_error mem k = Some (Some v) /\ snd (errors_in_dump s r l mem) <> Ok tt).
Proof.
  induction l as [|t l IH]; intros [|m mem] k v H Hk; try discriminate; cbn [KinErrors_model.errors_in_dump List.length fst snd] in *; [destruct k; discriminate|].
  injection H as H. specialize (IH mem). destruct (task_update (ks_N s) (ks_dt s) r (kt_kind t)) as [e|e|] eqn:E.
  - destruct (errors_in_dump s r l mem) as [m' o]. cbn [fst snd] in *. destruct k as [|k]; cbn [nth_error] in *.
    + injection Hk as <-. left. exists t, (fst e). split; [reflexivity|]. rewrite E. destruct e; reflexivity.
    + exact (IH k v H Hk).
  - cbn [fst snd] in *. destruct k as [|k]; cbn [nth_error] in *; [discriminate|]. right. split; [exact Hk|discriminate].
  - cbn [fst snd] in *. destruct k as [|k]; cbn [nth_error] in *; [discriminate|]. right. split; [exact Hk|discriminate].
Qed.

(** When all the tasks were added, all the errors were computed. *)
Lemma errors_solve_all r l : forall s mem k t, List.length mem = List.length l -> snd (add_tasks_to_problem pn log3 msqrt r s l) = Ok tt -> nth_error l k = Some t ->
  exists A v, task_update (ks_N s) (ks_dt s) r (kt_kind t) = Ok (A, v) /\ nth_error (errors_in_solve r s l mem) k = Some (Some v).
Proof.
  induction l as [|t0 l IH]; intros s [|m mem] k t H Ho Hk; try discriminate; [destruct k; discriminate|]. cbn [KinErrors_model.errors_in_solve List.length add_tasks_to_problem] in *.
  injection H as H. destruct (task_update (ks_N s) (ks_dt s) r (kt_kind t0)) as [e|e|] eqn:E.
  - pose proof (add_task_frozen pn log3 msqrt r s t0) as (F1 & F2 & _).
    destruct (add_task_to_problem pn log3 msqrt r s t0) as [s' o]. cbn [fst] in *. destruct o as [u|x|]; try discriminate. destruct k as [|k]; cbn [nth_error] in *.
    + injection Hk as <-. exists (fst e), (snd e). rewrite E. destruct e; auto.
    + destruct (IH s' mem k t H Ho Hk) as (A & v & I1 & I2). exists A, v. rewrite F1, F2 in I1. auto.
  - unfold add_task_to_problem in Ho. rewrite E in Ho. discriminate.
  - unfold add_task_to_problem in Ho. rewrite E in Ho. discriminate.
Qed.
Lemma errors_dump_all s r l : forall mem k t, List.length mem = List.length l -> snd (errors_in_dump s r l mem) = Ok tt -> nth_error l k = Some t ->
  exists A v, task_update (ks_N s) (ks_dt s) r (kt_kind t) = Ok (A, v) /\ nth_error (fst (errors_in_dump s r l mem)) k = Some (Some v).
Proof.
  induction l as [|t0 l IH]; intros [|m mem] k t H Ho Hk; try discriminate; [destruct k; discriminate|]. cbn [KinErrors_model.errors_in_dump List.length snd fst] in *.
  injection H as H. specialize (IH mem). destruct (task_update (ks_N s) (ks_dt s) r (kt_kind t0)) as [e|e|] eqn:E; try discriminate.
  destruct (errors_in_dump s r l mem) as [m' o]. cbn [fst snd] in *. destruct k as [|k]; cbn [nth_error] in *.
  - injection Hk as <-. exists (fst e), (snd e). rewrite E. destruct e; auto.
  - exact (IH k t H Ho Hk).
Qed.

(** *** Programs *)
Variable qr : mat -> qr_result.
Variable qp : qp_problem -> qp_result.
Notation step := (bench_step pn log3 msqrt qr qp).
Notation run := (bench_run pn log3 msqrt qr qp).

Lemma run_snoc b l c : run b (l ++ [c]) = match run b l with Some b1 => let (b', o) := step b1 c in match o with UB => None | _ => Some b' end | None => None end.
Proof.
  revert b. induction l as [|c0 l IH]; intros b; cbn [app bench_run].
  - destruct (step b c) as [b' o]. destruct o; reflexivity.
  - destruct (step b c0) as [b' o]. destruct o; try apply IH. reflexivity.
Qed.

Definition paired (b : bench) : Prop := List.length (be_errors b) = List.length (ks_tasks (be_solver b)).
Lemma replace_length k kind l : List.length (replace k kind l) = List.length l.
Proof. revert k. induction l as [|t l IH]; intros [|k]; cbn; auto. Qed.
Lemma step_paired b c : paired b -> paired (fst (step b c)).
Proof.
  unfold paired. intros H. destruct c as [r|t|k kind|s|apply|]; cbn [bench_step fst].
  - exact H.
  - cbn. rewrite !app_length. cbn. lia.
  - cbn. rewrite replace_length. exact H.
  - exact H.
  - destruct (ksolve pn log3 msqrt qr qp (be_solver b) (be_robot b) apply) as [[s' r'] o] eqn:E. cbn [fst be_errors be_solver].
    destruct (ksolve_tasks _ _ _ _ _ _ _ _ _ _ _ E) as [(_ & _ & F) _]. rewrite errors_solve_length by exact H. congruence.
  - pose proof (errors_dump_length (be_solver b) (be_robot b) (ks_tasks (be_solver b)) (be_errors b) H) as L.
    destruct (errors_in_dump (be_solver b) (be_robot b) (ks_tasks (be_solver b)) (be_errors b)). exact L.
Qed.
Lemma run_paired r l b : run (new_bench r) l = Some b -> paired b.
Proof.
  revert b. induction l as [|c l IH] using rev_ind; intros b H; [injection H as <-; reflexivity|].
  rewrite run_snoc in H. destruct (run (new_bench r) l) as [b1|]; [|discriminate]. pose proof (step_paired b1 c (IH b1 eq_refl)) as P.
  destruct (step b1 c) as [b' o]. destruct o; try discriminate; injection H as <-; exact P.
Qed.

(** What a step does to the error of a task. *)
Lemma step_error b c k v : paired b -> task_error (fst (step b c)) k = Some v ->
  (computes c /\ current_error pn log3 msqrt b k v) \/
  (task_error b k = Some v /\ (computes c -> snd (step b c) <> Ok tt)) \/
  (k = List.length (ks_tasks (be_solver b)) /\ vlen v = 0%nat /\ ~ computes c).
Proof.
  intros P H. unfold task_error in *. destruct c as [r|t|j kind|s|apply|]; cbn [bench_step fst] in H.
  - right. left. split; [exact H|intros []].
  - destruct (Nat.lt_ge_cases k (List.length (be_errors b))) as [L|L].
    + cbn [be_errors] in H. rewrite nth_error_app1 in H by exact L. right. left. split; [exact H|intros []].
    + cbn [be_errors] in H. rewrite nth_error_app2 in H by exact L. right. right. unfold paired in P. destruct (k - List.length (be_errors b))%nat as [|n] eqn:D; cbn in H; [|destruct n; discriminate].
      split; [lia|]. split; [|intros []]. destruct (kt_kind t); cbn in H; try discriminate; injection H as <-; reflexivity.
  - right. left. split; [exact H|intros []].
  - right. left. split; [exact H|intros []].
  - cbn [bench_step]. destruct (ksolve pn log3 msqrt qr qp (be_solver b) (be_robot b) apply) as [[s' r'] o] eqn:E. cbn [fst snd be_errors] in *.
    destruct (ksolve_tasks _ _ _ _ _ _ _ _ _ _ _ E) as [_ T]. destruct (before_frozen (be_solver b)) as (F1 & F2 & _).
    destruct (nth_error (errors_in_solve (be_robot b) (before_tasks (be_solver b)) (ks_tasks (be_solver b)) (be_errors b)) k) as [[v'|]|] eqn:En; try discriminate. injection H as ->.
    destruct (errors_solve_entry _ _ _ _ _ _ P En) as [(t & A & I1 & I2)|[I1 I2]].
    + left. split; [exact Logic.I|]. exists t, A. rewrite F1, F2 in I2. auto.
    + right. left. rewrite I1. split; [reflexivity|]. intros _ X. destruct o as [x|x|]; cbn in X; try discriminate. apply I2. exact (T x eq_refl).
  - cbn [bench_step]. pose proof (errors_dump_entry (be_solver b) (be_robot b) (ks_tasks (be_solver b)) (be_errors b) k) as D.
    destruct (errors_in_dump (be_solver b) (be_robot b) (ks_tasks (be_solver b)) (be_errors b)) as [m o]. cbn [fst snd be_errors] in *.
    destruct (nth_error m k) as [[v'|]|]; try discriminate. injection H as ->. destruct (D v P eq_refl) as [(t & A & I1 & I2)|[I1 I2]].
    + left. split; [exact Logic.I|]. exists t, A. auto.
    + right. left. rewrite I1. auto.
Qed.

Lemma snoc_split {X} (l : list X) c l1 c1 l2 : l ++ [c] = l1 ++ c1 :: l2 -> (l2 = [] /\ l = l1 /\ c = c1) \/ exists l2', l2 = l2' ++ [c] /\ l = l1 ++ c1 :: l2'.
Proof.
  intros H. destruct l2 as [|x l2 _] using rev_ind.
  - left. apply app_inj_tail in H. tauto.
  - right. exists l2. rewrite app_comm_cons, app_assoc in H. apply app_inj_tail in H. destruct H as [-> ->]. auto.
Qed.

Lemma tasks_grow b c : (List.length (ks_tasks (be_solver b)) <= List.length (ks_tasks (be_solver (fst (step b c)))))%nat.
Proof.
  destruct c as [r|t|j kind|s|apply|]; cbn [bench_step fst be_solver]; try (cbn; lia).
  - cbn. rewrite app_length. lia.
  - cbn. rewrite replace_length. lia.
  - destruct (ksolve pn log3 msqrt qr qp (be_solver b) (be_robot b) apply) as [[s' r'] o] eqn:E. cbn [fst be_solver].
    destruct (ksolve_tasks _ _ _ _ _ _ _ _ _ _ _ E) as [(_ & _ & ->) _]. lia.
  - destruct (errors_in_dump (be_solver b) (be_robot b) (ks_tasks (be_solver b)) (be_errors b)). cbn. lia.
Qed.
Lemma tasks_grow_run b0 l1 l2 b1 b : run b0 l1 = Some b1 -> run b0 (l1 ++ l2) = Some b -> (List.length (ks_tasks (be_solver b1)) <= List.length (ks_tasks (be_solver b)))%nat.
Proof.
  intros H1. revert b. induction l2 as [|c l2 IH] using rev_ind; intros b H.
  - rewrite app_nil_r in H. assert (b1 = b) by congruence. subst. lia.
  - rewrite app_assoc, run_snoc in H. destruct (run b0 (l1 ++ l2)) as [b2|]; [|discriminate]. specialize (IH b2 eq_refl). pose proof (tasks_grow b2 c) as G.
    destruct (step b2 c) as [b' o]. cbn [fst] in G. destruct o; try discriminate; injection H as <-; lia.
Qed.

Lemma history r l b k v : run (new_bench r) l = Some b -> task_error b k = Some v ->
  last_computed pn log3 msqrt qr qp (new_bench r) l k v \/ (vlen v = 0%nat /\ never_computed pn log3 msqrt qr qp (new_bench r) l k).
Proof.
  revert b v. induction l as [|c l IH] using rev_ind; intros b v H Hv.
  - injection H as <-. unfold task_error in Hv. destruct k; discriminate.
  - rewrite run_snoc in H. destruct (run (new_bench r) l) as [b1|] eqn:E1; [|discriminate].
    pose proof (run_paired r l b1 E1) as P. pose proof (step_error b1 c k v P) as St.
    assert (Eb : b = fst (step b1 c)) by (destruct (step b1 c) as [b' o]; destruct o; try discriminate; injection H as <-; reflexivity).
    rewrite <- Eb in St. destruct (St Hv) as [[C1 C2]|[[C1 C2]|(C1 & C2 & C3)]].
    + left. exists l, c, [], b1. split; [split; [reflexivity|exact E1]|]. split; [exact C1|]. split; [exact C2|].
      intros l3 c' l4 b3 X. destruct l3; discriminate.
    + destruct (IH b1 v eq_refl C1) as [(l1 & c1 & l2 & b0 & [A1 A2] & A3 & A4 & A5)|[A1 A2]].
      * left. exists l1, c1, (l2 ++ [c]), b0. split; [split; [rewrite A1, <- app_assoc; reflexivity|exact A2]|]. split; [exact A3|]. split; [exact A4|].
        intros l3 c' l4 b3 X [Y1 Y2] Cc. destruct (snoc_split _ _ _ _ _ X) as [(-> & -> & ->)|(l4' & -> & ->)].
        -- assert (b3 = b1) as -> by (rewrite <- A1 in Y2; congruence). exact (C2 Cc).
        -- apply (A5 l3 c' l4' b3 eq_refl); [|exact Cc]. split; [rewrite A1, <- app_assoc; reflexivity|exact Y2].
      * right. split; [exact A1|]. intros l1 c1 l2 b0 [Y1 Y2] Cc Hk. destruct (snoc_split _ _ _ _ _ Y1) as [(-> & -> & ->)|(l2' & -> & ->)].
        -- assert (b0 = b1) as -> by congruence. exact (C2 Cc).
        -- apply (A2 l1 c1 l2' b0); [split; [reflexivity|exact Y2]|exact Cc|exact Hk].
    + right. split; [exact C2|]. intros l1 c1 l2 b0 [Y1 Y2] Cc Hk. destruct (snoc_split _ _ _ _ _ Y1) as [(-> & -> & ->)|(l2' & -> & ->)].
      * contradiction.
      * pose proof (tasks_grow_run _ _ _ _ _ Y2 E1). lia.
Qed.

End WithRobot.
