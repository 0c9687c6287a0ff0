(** Lemmas about what a dynamics solver leaves in its tasks and contacts. *)
From Coq Require Import Reals List Arith Bool Lia Lra.
From Verif Require Import Base Linalg Geom3 Expression_model Problem_model Robot_model DynTasks_model Dyn_model DynContacts_model DynMemory_model DynMemory_spec KinErrors_proofs Tools_model Kin_proofs.
Import ListNotations.
Open Scope R_scope.

Section WithRobot.
Variable pn : pin.
Variable log3 : mat3 -> vec3.
Variable jlog : mat3 -> mat3.
Notation update_memory := (update_memory pn log3 jlog).
Notation dtask_update := (dtask_update pn log3 jlog).

(** *** Contacts *)
Definition wrench_only (c c' : contact) : Prop := if co_active c then c' = set_wrench c (co_wrench c') else c' = c.
Definition tells (c : contact) (f : option (mat * expr)) : Prop := co_active c = match f with Some _ => true | None => false end.

Lemma add_contacts_tells N r es l : forall pb pb' fs cs, add_contacts pn N r es pb l = Ok (pb', fs, cs) -> Forall2 tells l fs.
Proof.
  induction l as [|c l IH]; intros pb pb' fs cs H; cbn [add_contacts] in H; [injection H as <- <- <-; constructor|]. destruct (co_active c) eqn:A.
  - bind H J EJ. destruct (add_variable pb (mrows J)) as [pb1 v]. bind H f Ef. bind H c1 Ec. bind H x Ex. destruct x as [[p2 fs2] rest]. injection H as <- <- <-. constructor; [exact A|eauto].
  - bind H x Ex. destruct x as [[p2 fs2] rest]. injection H as <- <- <-. constructor; [exact A|eauto].
Qed.
Lemma read_wrenches_only N x : forall l fs sum l' t, Forall2 tells l fs -> read_wrenches N x l fs sum = Ok (l', t) -> Forall2 wrench_only l l'.
Proof.
  induction l as [|c l IH]; intros fs sum l' t F H; inversion F as [|? f ? fs' Hf F']; subst; cbn [read_wrenches] in H; [injection H as <- <-; constructor|].
  destruct f as [[J f]|].
  - bind H w Ew. bind H u Eu. bind H s1 Es. bind H rest Er. destruct rest as [l1 t1]. injection H as <- <-. constructor; [|eauto]. unfold wrench_only. now rewrite Hf.
  - bind H rest Er. destruct rest as [l1 t1]. injection H as <- <-. constructor; [|eauto]. unfold wrench_only. now rewrite Hf.
Qed.

Lemma dbuild_inv s r b : dbuild pn log3 jlog s r = Ok b -> before_update s r = Ok tt /\ (exists es, update_tasks pn log3 jlog (ds_N s) r (ds_tasks s) = Ok es) /\ Forall2 tells (ds_contacts s) (db_contacts b).
Proof.
  unfold dbuild, before_update. destruct (add_variable (clear_variables (clear_constraints (ds_problem s))) (m_nv (r_model r))) as [pb v]. intros H.
  bind H qdd Eq. bind H cs0 E0. bind H es Ees. bind H tau Et. bind H x Ex. destruct x as [[p2 fs] cs1].
  bind H tau1 Et1. bind H tau2 Et2. bind H cs2 E2. bind H cs3 E3. bind H cs4 E4. bind H cs5 E5. bind H e Ee. bind H c6 E6. injection H as <-. cbn [db_contacts obind].
  split; [|split; [eauto|exact (add_contacts_tells _ _ _ _ _ _ _ _ Ex)]]. destruct (ds_masked_fbase s); [|reflexivity]. bind E0 ee Eee. bind E0 c Ec. cbn [obind]. rewrite ?Eee. cbn [obind]. rewrite ?Ec. reflexivity.
Qed.

(** A solve, seen from its contacts. *)
Lemma dsolve_contacts qr qp s r i s' r' o : dsolve pn log3 jlog qr qp s r i = (s', r', o) ->
  ds_tasks s' = ds_tasks s /\
  ((exists s1 r1 res, dsolve pn log3 jlog qr qp s r false = (s1, r1, Ok res) /\ dr_success res = true /\ ds_contacts s' = ds_contacts s1 /\ Forall2 wrench_only (ds_contacts s) (ds_contacts s')) \/
   (ds_contacts s' = ds_contacts s /\ forall s1 r1 res, dsolve pn log3 jlog qr qp s r false = (s1, r1, Ok res) -> dr_success res = false)) /\
  (forall res, o = Ok res -> before_update s r = Ok tt /\ exists es, update_tasks pn log3 jlog (ds_N s) r (ds_tasks s) = Ok es).
Proof.
  unfold dsolve. destruct (dbuild pn log3 jlog s r) as [b|e|] eqn:Eb.
  2,3: intros H; injection H as <- <- <-; split; [reflexivity|]; split; [right; split; [reflexivity|discriminate]|discriminate].
  destruct (dbuild_inv s r b Eb) as (B1 & B2 & B3). destruct (solve (db_problem b) qr qp) as [pb o1]. destruct o1 as [u|e|].
  - destruct (tau <- value (db_tau b) (p_x pb);; qdd <- value (db_qdd b) (p_x pb);; w <- read_wrenches (ds_N (dset_problem s pb)) (p_x pb) (ds_contacts (dset_problem s pb)) (db_contacts b) (zeros (ds_N (dset_problem s pb)));; Ok (w, DResult true tau qdd (snd w))) as [[w res]|e|] eqn:Ew.
    + assert (Fw : Forall2 wrench_only (ds_contacts s) (fst w) /\ dr_success res = true).
      { bind Ew tau Et. bind Ew qdd Eq. bind Ew w' Ew'. injection Ew as <- <-. destruct w' as [l' t]. split; [exact (read_wrenches_only _ _ _ _ _ _ _ B3 Ew')|reflexivity]. }
      destruct Fw as [Fw Hs]. intros H.
      assert (K : ds_tasks s' = ds_tasks s /\ ds_contacts s' = fst w).
      { destruct i; [|injection H as <- <- <-; split; reflexivity]. destruct (Req_EM_T _ 0); [injection H as <- <- <-; split; reflexivity|].
        destruct (apply_result pn _ r (dr_qdd res)); injection H as <- <- <-; split; reflexivity. }
      destruct K as [K1 K2]. split; [exact K1|]. split; [|intros; split; assumption]. left. eexists _, _, res. split; [reflexivity|]. split; [exact Hs|]. rewrite K2. split; [reflexivity|exact Fw].
    + intros H; injection H as <- <- <-. split; [reflexivity|]. split; [right; split; [reflexivity|discriminate]|discriminate].
    + intros H; injection H as <- <- <-. split; [reflexivity|]. split; [right; split; [reflexivity|discriminate]|discriminate].
  - intros H. assert (K : s' = dset_problem s pb /\ forall res, o = Ok res -> before_update s r = Ok tt /\ exists es, update_tasks pn log3 jlog (ds_N s) r (ds_tasks s) = Ok es).
    { destruct e; injection H as <- <- <-; split; try reflexivity; intros; split; assumption. }
    destruct K as [-> K]. split; [reflexivity|]. split; [|exact K]. right. split; [reflexivity|]. intros s1 r1 res E. destruct e; try discriminate. injection E as _ _ <-. reflexivity.
  - intros H; injection H as <- <- <-. split; [reflexivity|]. split; [right; split; [reflexivity|discriminate]|discriminate].
Qed.

(** *** Tasks *)
Lemma memory_length N r l : forall mem, List.length mem = List.length l -> List.length (fst (update_memory N r l mem)) = List.length l.
Proof.
  induction l as [|t l IH]; intros [|m mem] H; try discriminate; cbn [DynMemory_model.update_memory List.length fst] in *; [reflexivity|].
  injection H as H. destruct (dtask_update N r t) as [e|e|]; cbn [List.length fst]; [|congruence|congruence].
  specialize (IH mem H). destruct (update_memory N r l mem) as [m' o]. cbn [List.length fst] in *. congruence.
Qed.
Lemma memory_entry N r l : forall mem k v, List.length mem = List.length l -> nth_error (fst (update_memory N r l mem)) k = Some (Some v) ->
  (exists t e, nth_error l k = Some t /\ dtask_update N r t = Ok e /\ v = (de_error e, de_derror e)) \/ (nth_error mem k = Some (Some v) /\ snd (update_memory N r l mem) <> Ok tt).
Proof.
  induction l as [|t l IH]; intros [|m mem] k v H Hk; try discriminate; cbn [DynMemory_model.update_memory List.length fst snd] in *; [destruct k; discriminate|].
  injection H as H. specialize (IH mem). destruct (dtask_update N r t) as [e|e|] eqn:E.
  - destruct (update_memory N r l mem) as [m' o]. cbn [fst snd] in *. destruct k as [|k]; cbn [nth_error] in *.
    + injection Hk as <-. left. exists t, e. auto.
    + exact (IH k v H Hk).
  - cbn [fst snd] in *. destruct k as [|k]; cbn [nth_error] in *; [discriminate|]. right. split; [exact Hk|discriminate].
  - cbn [fst snd] in *. destruct k as [|k]; cbn [nth_error] in *; [discriminate|]. right. split; [exact Hk|discriminate].
Qed.
Lemma memory_all N r l : forall mem k t, List.length mem = List.length l -> snd (update_memory N r l mem) = Ok tt -> nth_error l k = Some t ->
  exists e, dtask_update N r t = Ok e /\ nth_error (fst (update_memory N r l mem)) k = Some (Some (de_error e, de_derror e)).
Proof.
  induction l as [|t0 l IH]; intros [|m mem] k t H Ho Hk; try discriminate; [destruct k; discriminate|]. cbn [DynMemory_model.update_memory List.length snd fst] in *.
  injection H as H. specialize (IH mem). destruct (dtask_update N r t0) as [e|e|] eqn:E; try discriminate.
  destruct (update_memory N r l mem) as [m' o]. cbn [fst snd] in *. destruct k as [|k]; cbn [nth_error] in *.
  - injection Hk as <-. exists e. auto.
  - exact (IH k t H Ho Hk).
Qed.
Lemma memory_ok N r l : forall mem es, update_tasks pn log3 jlog N r l = Ok es -> snd (update_memory N r l mem) = Ok tt.
Proof.
  induction l as [|t l IH]; intros [|m mem] es H; try reflexivity. cbn [Dyn_model.update_tasks] in H. bind H e Ee. bind H rest Er.
  cbn [DynMemory_model.update_memory]. rewrite Ee. specialize (IH mem rest eq_refl). destruct (update_memory N r l mem). exact IH.
Qed.

(** *** Programs *)
Variable qr : mat -> qr_result.
Variable qp : qp_problem -> qp_result.
Notation step := (dm_step pn log3 jlog qr qp).
Notation run := (dm_run pn log3 jlog qr qp).

Lemma run_snoc b l c : run b (l ++ [c]) = match run b l with Some b1 => let (b', o) := step b1 c in match o with UB => None | _ => Some b' end | None => None end.
Proof.
  revert b. induction l as [|c0 l IH]; intros b; cbn [app dm_run].
  - destruct (step b c) as [b' o]. destruct o; reflexivity.
  - destruct (step b c0) as [b' o]. destruct o; try apply IH. reflexivity.
Qed.
Definition paired (b : dbench) : Prop := List.length (dm_errors b) = List.length (ds_tasks (dm_solver b)).
Lemma replace_nth_length {A} k (f : A -> A) l : List.length (replace_nth k f l) = List.length l.
Proof. revert k. induction l as [|t l IH]; intros [|k]; cbn; auto. Qed.
Lemma step_paired b c : paired b -> paired (fst (step b c)).
Proof.
  unfold paired. intros H. destruct c as [r|t|k t|m|k a|s|i|]; cbn [dm_step fst]; try exact H.
  - cbn. rewrite !app_length. cbn. lia.
  - cbn. rewrite replace_nth_length. exact H.
  - destruct (dsolve pn log3 jlog qr qp (dm_solver b) (dm_robot b) i) as [[s' r'] o] eqn:E. cbn [fst dm_errors dm_solver].
    destruct (dsolve_contacts _ _ _ _ _ _ _ _ E) as (F & _). rewrite F. destruct (before_update _ _); [now apply memory_length|exact H|exact H].
  - pose proof (memory_length (ds_N (dm_solver b)) (dm_robot b) (ds_tasks (dm_solver b)) (dm_errors b) H) as L.
    destruct (update_memory (ds_N (dm_solver b)) (dm_robot b) (ds_tasks (dm_solver b)) (dm_errors b)). exact L.
Qed.
Lemma run_paired s r l b : run (new_dbench s r) l = Some b -> paired b.
Proof.
  revert b. induction l as [|c l IH] using rev_ind; intros b H; [injection H as <-; reflexivity|].
  rewrite run_snoc in H. destruct (run (new_dbench s r) l) as [b1|]; [|discriminate]. pose proof (step_paired b1 c (IH b1 eq_refl)) as P.
  destruct (step b1 c) as [b' o]. destruct o; try discriminate; injection H as <-; exact P.
Qed.

(** What a step does to the error of a task. *)
Lemma step_error b c k v : paired b -> reported (fst (step b c)) k = Some v ->
  (looks_or_throws c /\ error_now pn log3 jlog b k v) \/ (reported b k = Some v /\ ~ looks pn log3 jlog qr qp b c) \/
  (k = List.length (ds_tasks (dm_solver b)) /\ v = empty_error /\ ~ looks_or_throws c).
Proof.
  intros P H. unfold reported in *. destruct c as [r|t|j t|m|j a|s|i|]; cbn [dm_step fst] in H.
  - right. left. split; [exact H|intros []].
  - cbn [dm_errors] in H. destruct (Nat.lt_ge_cases k (List.length (dm_errors b))) as [L|L].
    + rewrite nth_error_app1 in H by exact L. right. left. split; [exact H|intros []].
    + rewrite nth_error_app2 in H by exact L. right. right. unfold paired in P. destruct (k - List.length (dm_errors b))%nat as [|n] eqn:D; cbn in H; [|destruct n; discriminate].
      split; [lia|]. injection H as <-. split; [reflexivity|intros []].
  - right. left. split; [exact H|intros []].
  - right. left. split; [exact H|intros []].
  - right. left. split; [exact H|intros []].
  - right. left. split; [exact H|intros []].
  - unfold looks. cbn [dm_step]. destruct (dsolve pn log3 jlog qr qp (dm_solver b) (dm_robot b) i) as [[s' r'] o] eqn:E. cbn [fst snd dm_errors] in *.
    destruct (dsolve_contacts _ _ _ _ _ _ _ _ E) as (_ & _ & T).
    assert (Q : forall x, (res <- o;; Ok (dr_success res)) = Ok x -> before_update (dm_solver b) (dm_robot b) = Ok tt /\ snd (update_memory (ds_N (dm_solver b)) (dm_robot b) (ds_tasks (dm_solver b)) (dm_errors b)) = Ok tt).
    { intros x X. destruct o as [res|e|]; try discriminate. destruct (T res eq_refl) as (T1 & es & T2). split; [exact T1|]. exact (memory_ok _ _ _ _ _ T2). }
    destruct (before_update (dm_solver b) (dm_robot b)) as [u|e|].
    + pose proof (memory_entry (ds_N (dm_solver b)) (dm_robot b) (ds_tasks (dm_solver b)) (dm_errors b) k) as D.
      destruct (nth_error (fst (update_memory (ds_N (dm_solver b)) (dm_robot b) (ds_tasks (dm_solver b)) (dm_errors b))) k) as [[v'|]|] eqn:En; try discriminate. injection H as ->.
      destruct (D v P eq_refl) as [(t & e & I1 & I2 & I3)|[I1 I2]].
      * left. split; [exact Logic.I|]. exists t, e. auto.
      * right. left. rewrite I1. split; [reflexivity|]. intros (x & X). apply I2. now destruct (Q x X).
    + right. left. split; [exact H|]. intros (x & X). now destruct (Q x X).
    + right. left. split; [exact H|]. intros (x & X). now destruct (Q x X).
  - unfold looks. cbn [dm_step]. pose proof (memory_entry (ds_N (dm_solver b)) (dm_robot b) (ds_tasks (dm_solver b)) (dm_errors b) k) as D.
    destruct (update_memory (ds_N (dm_solver b)) (dm_robot b) (ds_tasks (dm_solver b)) (dm_errors b)) as [m o]. cbn [fst snd dm_errors] in *.
    destruct (nth_error m k) as [[v'|]|]; try discriminate. injection H as ->. destruct (D v P eq_refl) as [(t & e & I1 & I2 & I3)|[I1 I2]].
    + left. split; [exact Logic.I|]. exists t, e. auto.
    + right. left. rewrite I1. split; [reflexivity|]. intros (x & X). apply I2. destruct o as [[]|e|]; [reflexivity|discriminate|discriminate].
Qed.

Lemma Forall2_len {A B} (P : A -> B -> Prop) l l' : Forall2 P l l' -> List.length l' = List.length l.
Proof. induction 1; cbn; congruence. Qed.
Lemma grow b c : (List.length (ds_tasks (dm_solver b)) <= List.length (ds_tasks (dm_solver (fst (step b c)))))%nat /\
  (List.length (ds_contacts (dm_solver b)) <= List.length (ds_contacts (dm_solver (fst (step b c)))))%nat.
Proof.
  destruct c as [r|t|j t|m|j a|s|i|]; cbn [dm_step fst dm_solver]; try (cbn; lia).
  - cbn. rewrite app_length. lia.
  - cbn. rewrite replace_nth_length. lia.
  - cbn. rewrite app_length. lia.
  - cbn. rewrite replace_nth_length. lia.
  - destruct (dsolve pn log3 jlog qr qp (dm_solver b) (dm_robot b) i) as [[s' r'] o] eqn:E. cbn [fst dm_solver].
    destruct (dsolve_contacts _ _ _ _ _ _ _ _ E) as (-> & [(s1 & r1 & res & _ & _ & _ & F)|[-> _]] & _); [rewrite (Forall2_len _ _ _ F)|]; lia.
  - destruct (update_memory (ds_N (dm_solver b)) (dm_robot b) (ds_tasks (dm_solver b)) (dm_errors b)). cbn. lia.
Qed.
Lemma grow_run b0 l1 l2 b1 b : run b0 l1 = Some b1 -> run b0 (l1 ++ l2) = Some b ->
  (List.length (ds_tasks (dm_solver b1)) <= List.length (ds_tasks (dm_solver b)))%nat /\ (List.length (ds_contacts (dm_solver b1)) <= List.length (ds_contacts (dm_solver b)))%nat.
Proof.
  intros H1. revert b. induction l2 as [|c l2 IH] using rev_ind; intros b H.
  - rewrite app_nil_r in H. assert (b1 = b) by congruence. subst. lia.
  - rewrite app_assoc, run_snoc in H. destruct (run b0 (l1 ++ l2)) as [b2|]; [|discriminate]. specialize (IH b2 eq_refl). pose proof (grow b2 c) as G.
    destruct (step b2 c) as [b' o]. cbn [fst] in G. destruct o; try discriminate; injection H as <-; lia.
Qed.

Lemma error_history s r l b k v : run (new_dbench s r) l = Some b -> reported b k = Some v ->
  last_looked pn log3 jlog qr qp (new_dbench s r) l k v \/ (v = empty_error /\ never_looked pn log3 jlog qr qp (new_dbench s r) l k).
Proof.
  revert b v. induction l as [|c l IH] using rev_ind; intros b v H Hv.
  - injection H as <-. unfold reported in Hv. destruct k; discriminate.
  - rewrite run_snoc in H. destruct (run (new_dbench s r) l) as [b1|] eqn:E1; [|discriminate].
    pose proof (run_paired s r l b1 E1) as P. pose proof (step_error b1 c k v P) as St.
    assert (Eb : b = fst (step b1 c)) by (destruct (step b1 c) as [b' o]; destruct o; try discriminate; injection H as <-; reflexivity).
    rewrite <- Eb in St. destruct (St Hv) as [[C1 C2]|[[C1 C2]|(C1 & C2 & C3)]].
    + left. exists l, c, [], b1. split; [split; [reflexivity|exact E1]|]. split; [exact C1|]. split; [exact C2|].
      intros l3 c' l4 b3 X. destruct l3; discriminate.
    + destruct (IH b1 v eq_refl C1) as [(l1 & c1 & l2 & b0 & [A1 A2] & A3 & A4 & A5)|[A1 A2]].
      * left. exists l1, c1, (l2 ++ [c]), b0. split; [split; [rewrite A1, <- app_assoc; reflexivity|exact A2]|]. split; [exact A3|]. split; [exact A4|].
        intros l3 c' l4 b3 X [Y1 Y2]. destruct (snoc_split _ _ _ _ _ X) as [(-> & -> & ->)|(l4' & -> & ->)].
        -- assert (b3 = b1) as -> by (rewrite <- A1 in Y2; congruence). exact C2.
        -- apply (A5 l3 c' l4' b3 eq_refl). split; [rewrite A1, <- app_assoc; reflexivity|exact Y2].
      * right. split; [exact A1|]. intros l1 c1 l2 b0 [Y1 Y2] Hk. destruct (snoc_split _ _ _ _ _ Y1) as [(-> & -> & ->)|(l2' & -> & ->)].
        -- assert (b0 = b1) as -> by congruence. exact C2.
        -- apply (A2 l1 c1 l2' b0); [split; [reflexivity|exact Y2]|exact Hk].
    + right. split; [exact C2|]. intros l1 c1 l2 b0 [Y1 Y2] Hk. destruct (snoc_split _ _ _ _ _ Y1) as [(-> & -> & ->)|(l2' & -> & ->)].
      * intros L. apply C3. clear - L. destruct c1; cbn in *; auto.
      * pose proof (grow_run _ _ _ _ _ Y2 E1). lia.
Qed.

(** What a step does to the wrench of a contact. *)
Lemma write_keeps c a : co_wrench (write_attribute c a) = co_wrench c.
Proof. destruct a; cbn; try reflexivity; destruct c as [[] ? ? ? ? ? ?]; reflexivity. Qed.
Lemma replace_wrench l a : forall j k, match nth_error (replace_nth j (fun c => write_attribute c a) l) k with Some c => Some (co_wrench c) | None => None end =
  match nth_error l k with Some c => Some (co_wrench c) | None => None end.
Proof. induction l as [|c l IH]; intros [|j] [|k]; cbn; auto. f_equal. apply write_keeps. Qed.
Lemma step_wrench b c k w : wrench_of (fst (step b c)) k = Some w ->
  (exists i, c = MSolve i /\ finds_wrench pn log3 jlog qr qp b k w) \/
  (wrench_of b k = Some w /\ forall i w', c = MSolve i -> ~ finds_wrench pn log3 jlog qr qp b k w') \/
  (k = List.length (ds_contacts (dm_solver b)) /\ vlen w = 0%nat /\ forall i, c <> MSolve i).
Proof.
  intros H. unfold wrench_of in *. destruct c as [r|t|j t|m|j a|s|i|]; cbn [dm_step fst dm_solver] in H;
    try (right; left; split; [exact H|discriminate]).
  - cbn [ds_contacts dset_contacts] in H. destruct (Nat.lt_ge_cases k (List.length (ds_contacts (dm_solver b)))) as [L|L].
    + rewrite nth_error_app1 in H by exact L. right. left. split; [exact H|discriminate].
    + rewrite nth_error_app2 in H by exact L. right. right. destruct (k - List.length (ds_contacts (dm_solver b)))%nat as [|n] eqn:D; cbn in H; [|destruct n; discriminate].
      split; [lia|]. injection H as <-. split; [reflexivity|discriminate].
  - cbn [ds_contacts dset_contacts] in H. rewrite replace_wrench in H. right. left. split; [exact H|discriminate].
  - cbn [dm_step]. destruct (dsolve pn log3 jlog qr qp (dm_solver b) (dm_robot b) i) as [[s' r'] o] eqn:E. cbn [fst dm_solver] in H.
    destruct (dsolve_contacts _ _ _ _ _ _ _ _ E) as (_ & [(s1 & r1 & res & E1 & E2 & E3 & F)|[E1 E2]] & _).
    + destruct (nth_error (ds_contacts s') k) as [c'|] eqn:Ec'; [|discriminate]. injection H as <-.
      assert (X : exists c, nth_error (ds_contacts (dm_solver b)) k = Some c /\ wrench_only c c').
      { clear - F Ec'. revert k Ec'. induction F as [|x y l l' H F IH]; intros [|k] E; try discriminate; cbn in *; [injection E as <-; eauto|eauto]. }
      destruct X as (c & Ec & Wc). unfold wrench_only in Wc. destruct (co_active c) eqn:A.
      * left. exists i. split; [reflexivity|]. exists c, s1, r1, res, c'. rewrite <- E3. auto 10.
      * right. left. rewrite Ec, Wc. split; [reflexivity|]. intros i' w' _ (c2 & s2 & r2 & res2 & c2' & X1 & X2 & _). congruence.
    + rewrite E1 in H. right. left. split; [exact H|]. intros i' w' _ (c2 & s2 & r2 & res2 & c2' & X1 & X2 & X3 & X4 & _). rewrite (E2 _ _ _ X3) in X4. discriminate.
  - right. left. destruct (update_memory (ds_N (dm_solver b)) (dm_robot b) (ds_tasks (dm_solver b)) (dm_errors b)). split; [exact H|discriminate].
Qed.

Lemma wrench_history s r l b k w : run (new_dbench s r) l = Some b -> wrench_of b k = Some w ->
  last_wrench pn log3 jlog qr qp (new_dbench s r) l k w \/ (vlen w = 0%nat /\ never_pushed pn log3 jlog qr qp (new_dbench s r) l k).
Proof.
  revert b w. induction l as [|c l IH] using rev_ind; intros b w H Hv.
  - injection H as <-. unfold wrench_of in Hv. destruct k; discriminate.
  - rewrite run_snoc in H. destruct (run (new_dbench s r) l) as [b1|] eqn:E1; [|discriminate]. pose proof (step_wrench b1 c k w) as St.
    assert (Eb : b = fst (step b1 c)) by (destruct (step b1 c) as [b' o]; destruct o; try discriminate; injection H as <-; reflexivity).
    rewrite <- Eb in St. destruct (St Hv) as [(i & C1 & C2)|[[C1 C2]|(C1 & C2 & C3)]].
    + left. subst c. exists l, i, [], b1. split; [split; [reflexivity|exact E1]|]. split; [exact C2|]. intros l3 c' l4 b3 w' X. destruct l3; discriminate.
    + destruct (IH b1 w eq_refl C1) as [(l1 & i & l2 & b0 & [A1 A2] & A3 & A5)|[A1 A2]].
      * left. exists l1, i, (l2 ++ [c]), b0. split; [split; [rewrite A1, <- app_assoc; reflexivity|exact A2]|]. split; [exact A3|].
        intros l3 i' l4 b3 w' X [Y1 Y2]. destruct (snoc_split _ _ _ _ _ X) as [(-> & -> & ->)|(l4' & -> & ->)].
        -- assert (b3 = b1) as -> by (rewrite <- A1 in Y2; congruence). exact (C2 i' w' eq_refl).
        -- apply (A5 l3 i' l4' b3 w' eq_refl). split; [rewrite A1, <- app_assoc; reflexivity|exact Y2].
      * right. split; [exact A1|]. intros l1 i l2 b0 w' [Y1 Y2]. destruct (snoc_split _ _ _ _ _ Y1) as [(-> & -> & ->)|(l2' & -> & ->)].
        -- assert (b0 = b1) as -> by congruence. exact (C2 i w' eq_refl).
        -- apply (A2 l1 i l2' b0 w'). split; [reflexivity|exact Y2].
    + right. split; [exact C2|]. intros l1 i l2 b0 w' [Y1 Y2] (c2 & s2 & r2 & res2 & c2' & X1 & _). destruct (snoc_split _ _ _ _ _ Y1) as [(-> & -> & ->)|(l2' & -> & ->)].
      * exact (C3 i eq_refl).
      * pose proof (grow_run _ _ _ _ _ Y2 E1). assert (k < List.length (ds_contacts (dm_solver b0)))%nat by (apply nth_error_Some; congruence). lia.
Qed.
End WithRobot.
