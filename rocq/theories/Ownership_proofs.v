(** The memory of the solvers agrees with the book. *)
From Coq Require Import List Arith Bool Lia.
From Verif Require Import Base Ownership_model Ownership_spec.
Import ListNotations.

Lemma in_insert a x l : In x (insert a l) <-> x = a \/ In x l.
Proof.
  unfold insert. destruct (existsb (Nat.eqb a) l) eqn:E.
  - apply existsb_exists in E. destruct E as (y & Hy & Ey). apply Nat.eqb_eq in Ey. subst y. split; [auto|]. intros [->|H]; auto.
  - rewrite in_app_iff. cbn. intuition.
Qed.
Lemma in_erase a x l : In x (erase a l) <-> x <> a /\ In x l.
Proof. unfold erase. rewrite filter_In, negb_true_iff, Nat.eqb_neq. tauto. Qed.

Lemma NoDup_insert a l : NoDup l -> NoDup (insert a l).
Proof.
  unfold insert. destruct (existsb (Nat.eqb a) l) eqn:E; [auto|]. intros N.
  assert (~ In a l).
  { intros H. assert (existsb (Nat.eqb a) l = true) by (apply existsb_exists; exists a; split; [exact H|apply Nat.eqb_refl]). congruence. }
  induction l as [|y r IH]; cbn; [constructor; auto; constructor|].
  inversion N; subst. constructor.
  - rewrite in_app_iff. cbn. intros [?|[?|[]]]; [auto|]. subst. apply H. now left.
  - apply IH; auto. { cbn in E. destruct (Nat.eqb a y); [discriminate|exact E]. } intros ?. apply H. now right.
Qed.
Lemma NoDup_filter' {A} (f : A -> bool) l : NoDup l -> NoDup (filter f l).
Proof. apply NoDup_filter. Qed.

Definition mem_in (l : list nat) (a : nat) : bool := existsb (Nat.eqb a) l.
Lemma mem_in_spec l a : mem_in l a = true <-> In a l.
Proof.
  unfold mem_in. rewrite existsb_exists. split; [intros (x & H & E); apply Nat.eqb_eq in E; now subst|]. intros H. exists a. split; [exact H|apply Nat.eqb_refl].
Qed.

(** The loop of clear on objects that are alive, those to delete appearing once. *)
Lemma delete_all_ok l : forall h, (forall a, In a l -> h_alive h a = true) -> NoDup (filter (h_memory h) l) ->
  exists h', delete_all h l = Ok h' /\ h_count h' = h_count h /\ h_class h' = h_class h /\ h_memory h' = h_memory h /\ h_refs h' = h_refs h /\
    (forall a, h_alive h' a = (h_alive h a && negb (h_memory h a && mem_in l a))%bool) /\
    (forall a, h_deletes h' a = h_deletes h a + if (h_memory h a && mem_in l a)%bool then 1 else 0).
Proof.
  induction l as [|x r IH]; intros h AL ND.
  - exists h. cbn. repeat split; auto; intros a; rewrite andb_false_r; cbn; [now rewrite andb_true_r|lia].
  - assert (AX : h_alive h x = true) by (apply AL; now left). cbn [delete_all]. unfold delete_if_memory. rewrite AX. cbn [guard].
    destruct (h_memory h x) eqn:M.
    + unfold solver_delete. rewrite AX. cbn [guard obind]. cbn [filter] in ND. rewrite M in ND. inversion ND as [|? ? NI ND']; subst.
      rewrite filter_In in NI.
      match goal with |- exists h', delete_all ?h1 r = _ /\ _ => destruct (IH h1) as (h' & E & C1 & C2 & C3 & C4 & C5 & C6) end.
      * intros a Ha. cbn [h_alive]. unfold upd. destruct (Nat.eqb_spec a x) as [->|]; [exfalso; apply NI; auto|]. apply AL. now right.
      * exact ND'.
      * exists h'. cbn [h_count h_class h_memory h_refs h_alive h_deletes] in *. rewrite C1, C2, C3, C4. repeat split; auto.
        -- intros a. rewrite C5. unfold upd, mem_in. cbn [existsb]. destruct (Nat.eqb_spec a x) as [->|]; cbn [orb].
           ++ rewrite M. cbn. now rewrite andb_false_r.
           ++ reflexivity.
        -- intros a. rewrite C6. unfold upd, mem_in. cbn [existsb]. destruct (Nat.eqb_spec a x) as [->|]; cbn [orb].
           ++ rewrite M. cbn [andb]. destruct (existsb (Nat.eqb x) r) eqn:Ex; [|lia].
              exfalso. apply NI. split; [now apply mem_in_spec|exact M].
           ++ reflexivity.
    + cbn [obind]. cbn [filter] in ND. rewrite M in ND. destruct (IH h) as (h' & E & C1 & C2 & C3 & C4 & C5 & C6); auto.
      { intros a Ha. apply AL. now right. }
      exists h'. rewrite C1, C2, C3, C4. repeat split; auto.
      * intros a. rewrite C5. unfold mem_in. cbn [existsb]. destruct (Nat.eqb_spec a x) as [->|]; cbn [orb]; [|reflexivity]. now rewrite M.
      * intros a. rewrite C6. unfold mem_in. cbn [existsb]. destruct (Nat.eqb_spec a x) as [->|]; cbn [orb]; [|reflexivity]. now rewrite M.
Qed.

(** The invariant. *)
Record tidy (k : which) (s : owner) (b : book) : Prop := {
  td_count : h_count (w_heap s) = b_count b;
  td_class : forall a, a < b_count b -> h_class (w_heap s) a = b_class b a;
  td_memory : forall a, a < b_count b -> h_memory (w_heap s) a = negb (b_user b a);
  td_refs : forall a, a < b_count b -> h_refs (w_heap s) a = b_refs b a;
  td_refs_lt : forall a, a < b_count b -> Forall (fun t => t < b_count b) (b_refs b a);
  td_fresh : forall a, b_count b <= a -> h_deletes (w_heap s) a = 0;
  td_in : forall a, b_in b a = true -> a < b_count b /\ b_gone b a = false;
  td_own : forall a, a < b_count b -> b_user b a = false -> b_gone b a = false -> b_in b a = true;
  td_kin : k = Kinematics -> forall a, a < b_count b -> b_class b a <> CContact;
  td_tasks : NoDup (w_tasks s);
  td_constraints : NoDup (w_constraints s);
  td_contacts : NoDup (filter (h_memory (w_heap s)) (w_contacts s));
  td_agrees : agrees s b }.

Lemma tidy_start k : tidy k fresh_owner empty_book.
Proof.
  split; cbn; try (intros; lia); try (intros; discriminate); try constructor; auto; cbn; try (intros; lia).
  repeat split; cbn; intros; try lia; try tauto.
Qed.

Ltac sa := unfold set_at, upd in *.

Lemma filter_ext_in' {A} (f g : A -> bool) l : (forall x, In x l -> f x = g x) -> filter f l = filter g l.
Proof. apply filter_ext_in. Qed.

(** Objects at or after the end of the book are unknown to the solver. *)
Lemma tidy_known k s b a : tidy k s b -> In a (w_tasks s) \/ In a (w_constraints s) \/ In a (w_contacts s) -> a < b_count b.
Proof. intros T. destruct (td_agrees _ _ _ T) as (_ & _ & A3 & A4 & A5). rewrite A3, A4, A5. tauto. Qed.

Lemma tidy_create k s b c refs : tidy k s b -> legal k b (Create c refs) -> tidy k (create s c refs) (expected b (Create c refs)).
Proof.
  intros T L. pose proof (td_agrees _ _ _ T) as (A1 & A2 & A3 & A4 & A5). pose proof (td_count _ _ _ T) as HC.
  assert (W : w_heap (create s c refs) = allocate (w_heap s) c true refs) by (destruct c; reflexivity).
  assert (RF : Forall (fun t => t < S (b_count b)) refs).
  { destruct c; cbn in L; [subst refs; constructor|subst refs; constructor|]. destruct L as (_ & F). eapply Forall_impl; [|exact F].
    intros t (Ht & _). cbn. lia. }
  split; cbn [expected b_count b_class b_user b_in b_gone b_refs]; rewrite ?W; cbn [allocate h_count h_class h_memory h_refs h_alive h_deletes]; rewrite ?HC; sa.
  - reflexivity.
  - intros a Ha. destruct (Nat.eqb_spec a (b_count b)); [reflexivity|]. apply (td_class _ _ _ T). lia.
  - intros a Ha. destruct (Nat.eqb_spec a (b_count b)); [reflexivity|]. apply (td_memory _ _ _ T). lia.
  - intros a Ha. destruct (Nat.eqb_spec a (b_count b)); [reflexivity|]. apply (td_refs _ _ _ T). lia.
  - intros a Ha. destruct (Nat.eqb_spec a (b_count b)); [exact RF|].
    eapply Forall_impl; [|apply (td_refs_lt _ _ _ T a); lia]. cbn. intros; lia.
  - intros a Ha. apply (td_fresh _ _ _ T). lia.
  - intros a. destruct (Nat.eqb_spec a (b_count b)); [intros; split; [lia|reflexivity]|].
    intros H. apply (td_in _ _ _ T) in H. destruct H. split; [lia|auto].
  - intros a Ha. destruct (Nat.eqb_spec a (b_count b)); [auto|]. intros. apply (td_own _ _ _ T); auto. lia.
  - intros Hk a Ha. destruct (Nat.eqb_spec a (b_count b)).
    + destruct c; try discriminate. cbn in L. destruct L. congruence.
    + apply (td_kin _ _ _ T Hk). lia.
  - destruct c; cbn [create w_tasks]; try apply (td_tasks _ _ _ T). apply NoDup_insert, (td_tasks _ _ _ T).
  - destruct c; cbn [create w_constraints]; try apply (td_constraints _ _ _ T). apply NoDup_insert, (td_constraints _ _ _ T).
  - assert (FE : filter (fun b0 => if Nat.eqb b0 (b_count b) then true else h_memory (w_heap s) b0) (w_contacts s) = filter (h_memory (w_heap s)) (w_contacts s)).
    { apply filter_ext_in. intros x Hx. destruct (Nat.eqb_spec x (b_count b)) as [->|]; [|reflexivity].
      exfalso. pose proof (tidy_known _ _ _ (b_count b) T). assert (b_count b < b_count b) by auto. lia. }
    destruct c; cbn [create w_contacts]; try (rewrite FE; apply (td_contacts _ _ _ T)).
    rewrite filter_app, FE. cbn [filter]. rewrite HC, Nat.eqb_refl.
    pose proof (NoDup_rev (td_contacts _ _ _ T)) as NR. rewrite <- (rev_involutive (filter _ _ ++ _)). apply NoDup_rev. rewrite rev_app_distr. cbn [rev app].
    constructor; [|exact NR]. rewrite <- in_rev, filter_In. intros [Hx _].
    pose proof (tidy_known _ _ _ (b_count b) T). assert (b_count b < b_count b) by auto. lia.
  - unfold agrees; cbn [expected b_count b_class b_user b_in b_gone b_refs]; rewrite ?W; cbn [allocate h_count h_class h_memory h_refs h_alive h_deletes]; rewrite ?HC; sa.
    repeat match goal with |- _ /\ _ => split end.
    + intros a Ha. destruct (Nat.eqb_spec a (b_count b)); [reflexivity|]. apply A1. lia.
    + intros a Ha. destruct (Nat.eqb_spec a (b_count b)) as [->|]; [apply (td_fresh _ _ _ T); lia|]. apply A2. lia.
    + intros a. destruct c; cbn [create w_tasks]; rewrite ?in_insert, ?HC; rewrite A3; destruct (Nat.eqb_spec a (b_count b)); intuition (try lia; try congruence).
    + intros a. destruct c; cbn [create w_constraints]; rewrite ?in_insert, ?HC; rewrite A4; destruct (Nat.eqb_spec a (b_count b)); intuition (try lia; try congruence).
    + intros a. destruct c; cbn [create w_contacts]; rewrite ?in_app_iff, ?HC; rewrite A5; cbn [In]; destruct (Nat.eqb_spec a (b_count b)); intuition (try lia; try congruence).
Qed.

Lemma tidy_user_new k s b c : tidy k s b -> legal k b (UserNew c) ->
  tidy k (Owner (allocate (w_heap s) c false []) (w_tasks s) (w_constraints s) (w_contacts s)) (expected b (UserNew c)).
Proof.
  intros T L. pose proof (td_agrees _ _ _ T) as (A1 & A2 & A3 & A4 & A5). pose proof (td_count _ _ _ T) as HC.
  split; cbn [expected b_count b_class b_user b_in b_gone b_refs w_heap w_tasks w_constraints w_contacts allocate h_count h_class h_memory h_refs h_alive h_deletes];
    rewrite ?HC; sa.
  - reflexivity.
  - intros a Ha. destruct (Nat.eqb_spec a (b_count b)); [reflexivity|]. apply (td_class _ _ _ T). lia.
  - intros a Ha. destruct (Nat.eqb_spec a (b_count b)); [reflexivity|]. apply (td_memory _ _ _ T). lia.
  - intros a Ha. destruct (Nat.eqb_spec a (b_count b)); [reflexivity|]. apply (td_refs _ _ _ T). lia.
  - intros a Ha. destruct (Nat.eqb_spec a (b_count b)); [constructor|].
    eapply Forall_impl; [|apply (td_refs_lt _ _ _ T a); lia]. cbn. intros; lia.
  - intros a Ha. apply (td_fresh _ _ _ T). lia.
  - intros a. destruct (Nat.eqb_spec a (b_count b)); [discriminate|].
    intros H. apply (td_in _ _ _ T) in H. destruct H. split; [lia|auto].
  - intros a Ha. destruct (Nat.eqb_spec a (b_count b)); [discriminate|]. intros. apply (td_own _ _ _ T); auto. lia.
  - intros Hk a Ha. destruct (Nat.eqb_spec a (b_count b)).
    + cbn in L. intros E. apply L in E. congruence.
    + apply (td_kin _ _ _ T Hk). lia.
  - apply (td_tasks _ _ _ T).
  - apply (td_constraints _ _ _ T).
  - rewrite (filter_ext_in' _ (h_memory (w_heap s))); [apply (td_contacts _ _ _ T)|].
    intros x Hx. destruct (Nat.eqb_spec x (b_count b)) as [->|]; [|reflexivity].
    exfalso. pose proof (tidy_known _ _ _ (b_count b) T). assert (b_count b < b_count b) by auto. lia.
  - unfold agrees; cbn [expected b_count b_class b_user b_in b_gone b_refs w_heap w_tasks w_constraints w_contacts allocate h_count h_class h_memory h_refs h_alive h_deletes];
      rewrite ?HC; sa.
    repeat match goal with |- _ /\ _ => split end.
    + intros a Ha. destruct (Nat.eqb_spec a (b_count b)); [reflexivity|]. apply A1. lia.
    + intros a Ha. destruct (Nat.eqb_spec a (b_count b)) as [->|]; [apply (td_fresh _ _ _ T); lia|]. apply A2. lia.
    + intros a. rewrite A3. destruct (Nat.eqb_spec a (b_count b)); intuition (try lia; try congruence).
    + intros a. rewrite A4. destruct (Nat.eqb_spec a (b_count b)); intuition (try lia; try congruence).
    + intros a. rewrite A5. destruct (Nat.eqb_spec a (b_count b)); intuition (try lia; try congruence).
Qed.

Lemma tidy_user_delete k s b a : tidy k s b -> legal k b (UserDelete a) ->
  exists s', run_op k s (UserDelete a) = Ok s' /\ tidy k s' (expected b (UserDelete a)).
Proof.
  intros T (L1 & L2 & L3 & L4). pose proof (td_agrees _ _ _ T) as (A1 & A2 & A3 & A4 & A5).
  cbn [run_op]. unfold user_delete. rewrite A1, L3 by exact L1. cbn [negb guard obind]. eexists. split; [reflexivity|].
  split; cbn [expected b_count b_class b_user b_in b_gone b_refs w_heap w_tasks w_constraints w_contacts h_count h_class h_memory h_refs h_alive h_deletes]; sa;
    try apply T.
  - intros x H. pose proof (td_in _ _ _ T x H) as [P Q]. split; [exact P|]. destruct (Nat.eqb_spec x a); [congruence|exact Q].
  - intros x Hx U. destruct (Nat.eqb_spec x a) as [->|]; [discriminate|]. apply (td_own _ _ _ T); auto.
  - unfold agrees; cbn [expected b_count b_class b_user b_in b_gone b_refs w_heap w_tasks w_constraints w_contacts h_count h_class h_memory h_refs h_alive h_deletes]; sa.
    repeat match goal with |- _ /\ _ => split end; auto.
    + intros x Hx. destruct (Nat.eqb_spec x a); [reflexivity|auto].
    + intros x Hx. destruct (Nat.eqb_spec x a) as [->|]; [|auto]. rewrite A2, L2, L3 by exact L1. reflexivity.
Qed.

(** Putting a usable object in. *)
Lemma tidy_add k s b a c : tidy k s b -> usable b c a -> (c = CContact -> b_user b a = true) ->
  let ts := match c with CTask => insert a (w_tasks s) | _ => w_tasks s end in
  let cs := match c with CConstraint => insert a (w_constraints s) | _ => w_constraints s end in
  let ks := match c with CContact => w_contacts s ++ [a] | _ => w_contacts s end in
  h_alive (w_heap s) a = true /\
  tidy k (Owner (w_heap s) ts cs ks) (Book (b_count b) (b_class b) (b_user b) (set_at (b_in b) a true) (b_gone b) (b_refs b)).
Proof.
  intros T (U1 & U2 & U3) UC. cbv zeta. pose proof (td_agrees _ _ _ T) as (A1 & A2 & A3 & A4 & A5). split.
  { rewrite A1, U3 by exact U1. reflexivity. }
  split; cbn [b_count b_class b_user b_in b_gone b_refs w_heap w_tasks w_constraints w_contacts]; sa; try apply T.
  - intros x. destruct (Nat.eqb_spec x a) as [->|]; [auto|]. apply (td_in _ _ _ T).
  - intros x Hx U G. destruct (Nat.eqb_spec x a); [reflexivity|]. now apply (td_own _ _ _ T).
  - destruct c; try apply T. apply NoDup_insert, T.
  - destruct c; try apply T. apply NoDup_insert, T.
  - destruct c; try apply T. rewrite filter_app. cbn [filter]. rewrite (td_memory _ _ _ T a U1), UC by reflexivity. cbn [negb].
    rewrite app_nil_r. apply T.
  - unfold agrees; cbn [b_count b_class b_user b_in b_gone b_refs w_heap w_tasks w_constraints w_contacts]; sa.
    repeat match goal with |- _ /\ _ => split end; auto.
    + intros x. destruct c; rewrite ?in_insert, ?A3; destruct (Nat.eqb_spec x a) as [->|]; intuition (try congruence).
    + intros x. destruct c; rewrite ?in_insert, ?A4; destruct (Nat.eqb_spec x a) as [->|]; intuition (try congruence).
    + intros x. destruct c; rewrite ?in_app_iff, ?A5; cbn [In]; destruct (Nat.eqb_spec x a) as [->|]; intuition (try congruence).
Qed.

Lemma erase_out a l : ~ In a l -> erase a l = l.
Proof.
  intros H. unfold erase. rewrite (filter_ext_in' _ (fun _ => true)).
  - clear H. induction l as [|x r IH]; cbn; [reflexivity|now rewrite IH].
  - intros x Hx. apply negb_true_iff, Nat.eqb_neq. intros ->. now apply H.
Qed.

(** Taking a usable object out: the flag decides. *)
Lemma tidy_remove k s b a c : tidy k s b -> usable b c a ->
  exists h, delete_if_memory (w_heap s) a = Ok h /\
  (b_user b a = false -> solver_delete (w_heap s) a = Ok h) /\
  tidy k (Owner h (match c with CTask => erase a (w_tasks s) | _ => w_tasks s end)
                  (match c with CConstraint => erase a (w_constraints s) | _ => w_constraints s end)
                  (match c with CContact => erase a (w_contacts s) | _ => w_contacts s end)) (take_out b a).
Proof.
  intros T (U1 & U2 & U3). pose proof (td_agrees _ _ _ T) as (A1 & A2 & A3 & A4 & A5).
  assert (AL : h_alive (w_heap s) a = true) by (rewrite A1, U3 by exact U1; reflexivity).
  pose proof (td_memory _ _ _ T a U1) as MM.
  assert (E1 : match c with CTask => erase a (w_tasks s) | _ => w_tasks s end = erase a (w_tasks s)).
  { destruct c; auto; symmetry; apply erase_out; rewrite A3; intuition congruence. }
  assert (E2 : match c with CConstraint => erase a (w_constraints s) | _ => w_constraints s end = erase a (w_constraints s)).
  { destruct c; auto; symmetry; apply erase_out; rewrite A4; intuition congruence. }
  assert (E3 : match c with CContact => erase a (w_contacts s) | _ => w_contacts s end = erase a (w_contacts s)).
  { destruct c; auto; symmetry; apply erase_out; rewrite A5; intuition congruence. }
  rewrite E1, E2, E3. clear E1 E2 E3.
  assert (TK : forall h, h_count h = h_count (w_heap s) -> h_class h = h_class (w_heap s) -> h_memory h = h_memory (w_heap s) -> h_refs h = h_refs (w_heap s) ->
     (forall x, h_alive h x = if Nat.eqb x a then b_user b a else h_alive (w_heap s) x) ->
     (forall x, h_deletes h x = if Nat.eqb x a then (if b_user b a then 0 else 1) else h_deletes (w_heap s) x) ->
     tidy k (Owner h (erase a (w_tasks s)) (erase a (w_constraints s)) (erase a (w_contacts s))) (take_out b a)).
  { intros h H1 H2 H3 H4 H5 H6. unfold take_out.
    split; cbn [b_count b_class b_user b_in b_gone b_refs w_heap w_tasks w_constraints w_contacts]; rewrite ?H1, ?H2, ?H3, ?H4; sa; try apply T.
    - intros x Hx. rewrite H6. destruct (Nat.eqb_spec x a); [subst; lia|]. now apply (td_fresh _ _ _ T).
    - intros x. destruct (Nat.eqb_spec x a); [discriminate|]. apply (td_in _ _ _ T).
    - intros x Hx U. destruct (Nat.eqb_spec x a) as [->|]; [rewrite U; discriminate|]. now apply (td_own _ _ _ T).
    - apply NoDup_filter, T.
    - apply NoDup_filter, T.
    - assert (EQ : filter (h_memory (w_heap s)) (erase a (w_contacts s)) = erase a (filter (h_memory (w_heap s)) (w_contacts s))).
      { unfold erase. clear. induction (w_contacts s) as [|x r IH]; cbn; [reflexivity|].
        destruct (h_memory (w_heap s) x) eqn:M; cbn; destruct (Nat.eqb x a); cbn; rewrite ?M, IH; reflexivity. }
      rewrite EQ. apply NoDup_filter, T.
    - unfold agrees; cbn [b_count b_class b_user b_in b_gone b_refs w_heap w_tasks w_constraints w_contacts]; sa.
      repeat match goal with |- _ /\ _ => split end.
      + intros x Hx. rewrite H5. destruct (Nat.eqb_spec x a); [now rewrite negb_involutive|]. now apply A1.
      + intros x Hx. rewrite H6. destruct (Nat.eqb_spec x a) as [->|]; [destruct (b_user b a); reflexivity|]. now apply A2.
      + intros x. rewrite in_erase, A3. destruct (Nat.eqb_spec x a); intuition congruence.
      + intros x. rewrite in_erase, A4. destruct (Nat.eqb_spec x a); intuition congruence.
      + intros x. rewrite in_erase, A5. destruct (Nat.eqb_spec x a); intuition congruence. }
  unfold delete_if_memory, solver_delete. rewrite AL, MM. cbn [guard]. destruct (b_user b a) eqn:UA; cbn [negb].
  - exists (w_heap s). split; [reflexivity|]. split; [discriminate|]. apply TK; auto.
    + intros x. destruct (Nat.eqb_spec x a) as [->|]; auto.
    + intros x. destruct (Nat.eqb_spec x a) as [->|]; auto. rewrite A2, UA, U3 by exact U1. reflexivity.
  - eexists. split; [reflexivity|]. split; [reflexivity|]. apply TK; cbn [h_count h_class h_memory h_refs h_alive h_deletes]; auto.
    intros x. sa. destruct (Nat.eqb_spec x a) as [->|]; auto. rewrite A2, UA, U3 by exact U1. reflexivity.
Qed.

Lemma tidy_clear k s b : tidy k s b -> exists s', clear_op k s = Ok s' /\ tidy k s' (expected b Clear).
Proof.
  intros T. pose proof (td_agrees _ _ _ T) as (A1 & A2 & A3 & A4 & A5).
  assert (AL : forall a, b_in b a = true -> h_alive (w_heap s) a = true).
  { intros a H. pose proof (td_in _ _ _ T a H) as [P Q]. rewrite A1, Q by exact P. reflexivity. }
  unfold clear_op.
  destruct (delete_all_ok (w_tasks s) (w_heap s)) as (h1 & E1 & B1 & B2 & B3 & B4 & B5 & B6).
  { intros a Ha. apply AL. now apply A3. } { apply NoDup_filter, T. }
  rewrite E1. cbn [obind].
  assert (NT1 : forall a, b_class b a <> CTask -> mem_in (w_tasks s) a = false).
  { intros a H. destruct (mem_in (w_tasks s) a) eqn:M; [|reflexivity]. apply mem_in_spec, A3 in M. intuition congruence. }
  assert (NT2 : forall a, b_class b a <> CConstraint -> mem_in (w_constraints s) a = false).
  { intros a H. destruct (mem_in (w_constraints s) a) eqn:M; [|reflexivity]. apply mem_in_spec, A4 in M. intuition congruence. }
  assert (NT3 : forall a, b_class b a <> CContact -> mem_in (w_contacts s) a = false).
  { intros a H. destruct (mem_in (w_contacts s) a) eqn:M; [|reflexivity]. apply mem_in_spec, A5 in M. intuition congruence. }
  destruct (delete_all_ok (w_constraints s) h1) as (h2 & E2 & C1 & C2 & C3 & C4 & C5 & C6).
  { intros a Ha. apply A4 in Ha. destruct Ha as (P & Q & X). rewrite B5, AL, NT1 by (auto; congruence). now rewrite andb_false_r. }
  { apply NoDup_filter, T. }
  rewrite E2. cbn [obind].
  assert (TH : exists h3, match k with Kinematics => Ok h2 | Dynamics => delete_all h2 (w_contacts s) end = Ok h3 /\
     h_count h3 = h_count (w_heap s) /\ h_class h3 = h_class (w_heap s) /\ h_memory h3 = h_memory (w_heap s) /\ h_refs h3 = h_refs (w_heap s) /\
     (forall a, a < b_count b -> h_alive h3 a = (h_alive (w_heap s) a && negb (h_memory (w_heap s) a && b_in b a))%bool) /\
     (forall a, a < b_count b -> h_deletes h3 a = h_deletes (w_heap s) a + if (h_memory (w_heap s) a && b_in b a)%bool then 1 else 0) /\
     (forall a, b_count b <= a -> h_deletes h3 a = 0)).
  { assert (IN : forall a, a < b_count b -> b_in b a = match b_class b a with CTask => mem_in (w_tasks s) a | CConstraint => mem_in (w_constraints s) a | CContact => mem_in (w_contacts s) a end).
    { intros a Ha. destruct (b_class b a) eqn:X; symmetry; apply eq_true_iff_eq; rewrite mem_in_spec, ?A3, ?A4, ?A5; intuition. }
    assert (OUT : forall a, b_count b <= a -> mem_in (w_tasks s) a = false /\ mem_in (w_constraints s) a = false /\ mem_in (w_contacts s) a = false).
    { intros a Ha. repeat split; match goal with |- ?m = false => destruct m eqn:M; [|reflexivity] end; apply mem_in_spec in M;
        [apply A3 in M|apply A4 in M|apply A5 in M]; lia. }
    destruct k.
    - exists h2. split; [reflexivity|]. rewrite C1, C2, C3, C4, B1, B2, B3, B4. repeat split.
      + intros a Ha. rewrite C5, B5, B3, IN by exact Ha. pose proof (td_kin _ _ _ T eq_refl a Ha).
        destruct (b_class b a) eqn:X; [|  |congruence]; rewrite ?NT1, ?NT2 by congruence;
          destruct (h_alive (w_heap s) a), (h_memory (w_heap s) a); cbn; rewrite ?andb_true_r; reflexivity.
      + intros a Ha. rewrite C6, B6, B3, IN by exact Ha. pose proof (td_kin _ _ _ T eq_refl a Ha).
        destruct (b_class b a) eqn:X; [|  |congruence]; rewrite ?NT1, ?NT2 by congruence; rewrite ?andb_false_r; cbn; lia.
      + intros a Ha. destruct (OUT a Ha) as (O1 & O2 & O3). rewrite C6, B6, O1, O2, !andb_false_r, (td_fresh _ _ _ T) by exact Ha. reflexivity.
    - destruct (delete_all_ok (w_contacts s) h2) as (h3 & E3 & D1 & D2 & D3 & D4 & D5 & D6).
      { intros a Ha. apply A5 in Ha. destruct Ha as (P & Q & X). rewrite C5, B5, AL, NT1, NT2 by (auto; congruence). now rewrite !andb_false_r. }
      { rewrite C3, B3. apply T. }
      exists h3. split; [exact E3|]. rewrite D1, D2, D3, D4, C1, C2, C3, C4, B1, B2, B3, B4. repeat split.
      + intros a Ha. rewrite D5, C5, B5, C3, B3, IN by exact Ha.
        destruct (b_class b a) eqn:X; rewrite ?NT1, ?NT2, ?NT3 by congruence;
          destruct (h_alive (w_heap s) a), (h_memory (w_heap s) a); cbn; rewrite ?andb_true_r; reflexivity.
      + intros a Ha. rewrite D6, C6, B6, C3, B3, IN by exact Ha.
        destruct (b_class b a) eqn:X; rewrite ?NT1, ?NT2, ?NT3 by congruence; rewrite ?andb_false_r; cbn; lia.
      + intros a Ha. destruct (OUT a Ha) as (O1 & O2 & O3). rewrite D6, C6, B6, O1, O2, O3, !andb_false_r, (td_fresh _ _ _ T) by exact Ha. reflexivity. }
  destruct TH as (h3 & E3 & D1 & D2 & D3 & D4 & D5 & D6 & D7). rewrite E3. cbn [obind]. eexists. split; [reflexivity|].
  assert (NC : match k with Kinematics => w_contacts s | Dynamics => [] end = []).
  { destruct k; [|reflexivity]. destruct (w_contacts s) as [|x r] eqn:X; [reflexivity|]. exfalso.
    assert (H : In x (w_contacts s)) by (rewrite X; now left). clear - H T X A5.
    specialize (A5 x). destruct A5 as [A5 _]. destruct A5 as (P & Q & C); [now left|]. now apply (td_kin _ _ _ T eq_refl x P). }
  rewrite NC.
  split; cbn [expected b_count b_class b_user b_in b_gone b_refs w_heap w_tasks w_constraints w_contacts]; rewrite ?D1, ?D2, ?D3, ?D4; try apply T; try constructor; try discriminate.
  - intros a Ha. now apply D7.
  - intros a Ha U. destruct (b_in b a) eqn:I1; [rewrite U; discriminate|]. intros G. exfalso.
    pose proof (td_own _ _ _ T a Ha U G). congruence.
  - cbn. intros a Ha. rewrite D5, A1 by exact Ha. rewrite (td_memory _ _ _ T a Ha). destruct (b_in b a) eqn:I1.
    + pose proof (td_in _ _ _ T a I1) as [_ ->]. cbn. now destruct (b_user b a).
    + rewrite andb_false_r. cbn. now rewrite andb_true_r.
  - cbn. repeat split; cbn; try tauto; try (intros; intuition discriminate).
    intros a Ha. rewrite D6, A2 by exact Ha. rewrite (td_memory _ _ _ T a Ha). destruct (b_in b a) eqn:I1.
    + pose proof (td_in _ _ _ T a I1) as [_ ->]. cbn. now destruct (b_user b a).
    + rewrite andb_false_r. lia.
Qed.

Lemma tidy_visit k s b : tidy k s b -> legal k b Visit -> visit_op s = Ok s.
Proof.
  intros T L. pose proof (td_agrees _ _ _ T) as (A1 & A2 & A3 & A4 & A5). cbn in L.
  assert (AL : forall a, b_in b a = true -> h_alive (w_heap s) a = true).
  { intros a H. pose proof (td_in _ _ _ T a H) as [P Q]. rewrite A1, Q by exact P. reflexivity. }
  unfold visit_op.
  assert (E1 : forallb (h_alive (w_heap s)) (w_tasks s) = true) by (apply forallb_forall; intros a Ha; apply AL; now apply A3).
  assert (E2 : forallb (h_alive (w_heap s)) (w_constraints s) = true) by (apply forallb_forall; intros a Ha; apply AL; now apply A4).
  rewrite E1, E2. cbn [andb].
  match goal with |- guard ?c _ = _ => assert (E3 : c = true) end.
  { apply forallb_forall. intros a Ha. apply A5 in Ha. destruct Ha as (P & Q & _). rewrite AL by exact Q. cbn [andb].
    apply forallb_forall. intros t Ht. rewrite (td_refs _ _ _ T a P) in Ht. pose proof (td_refs_lt _ _ _ T a P) as F. rewrite Forall_forall in F.
    specialize (L a Q). rewrite Forall_forall in L. rewrite A1 by now apply F. now rewrite L. }
  now rewrite E3.
Qed.

(** One careful call. *)
Lemma tidy_step k s b o : tidy k s b -> legal k b o -> (k = Dynamics -> ~ removes_user_task b o) -> ~ adds_own_contact_again b o ->
  exists s', run_op k s o = Ok s' /\ tidy k s' (expected b o).
Proof.
  intros T L N1 N2. destruct o as [c refs|c|a|a|a|a|a|a a'|a|a| |]; cbn [run_op].
  - eexists. split; [reflexivity|]. now apply tidy_create.
  - eexists. split; [reflexivity|]. now apply tidy_user_new.
  - now apply tidy_user_delete.
  - destruct (tidy_add k s b a CTask T L) as (P & Q); [discriminate|]. unfold add_task_op. rewrite P. cbn [guard]. eexists. split; [reflexivity|exact Q].
  - destruct (tidy_add k s b a CConstraint T L) as (P & Q); [discriminate|]. unfold add_constraint_op. rewrite P. cbn [guard]. eexists. split; [reflexivity|exact Q].
  - destruct (tidy_add k s b a CContact T L) as (P & Q).
    { intros _. cbn in N2. destruct (b_user b a); [reflexivity|]. exfalso. now apply N2. }
    unfold add_contact_op. rewrite P. cbn [guard]. eexists. split; [reflexivity|exact Q].
  - destruct (tidy_remove k s b a CTask T L) as (h & P & P' & Q). unfold remove_task_op.
    assert (E : match k with Kinematics => delete_if_memory (w_heap s) a | Dynamics => solver_delete (w_heap s) a end = Ok h).
    { destruct k; [exact P|]. apply P'. cbn in N1. destruct (b_user b a); [exfalso; now apply N1|reflexivity]. }
    rewrite E. cbn [obind]. eexists. split; [reflexivity|exact Q].
  - destruct L as (L1 & L2 & L3). destruct (tidy_remove k s b a CTask T L1) as (h & P & P' & Q). unfold remove_frame_task_op, remove_task_op.
    cbn in N1.
    assert (E : match k with Kinematics => delete_if_memory (w_heap s) a | Dynamics => solver_delete (w_heap s) a end = Ok h).
    { destruct k; [exact P|]. apply P'. destruct (b_user b a); [exfalso; apply N1; auto|reflexivity]. }
    rewrite E. cbn [obind].
    assert (L2' : usable (take_out b a) CTask a').
    { destruct L2 as (X & Y & Z). repeat split; auto. cbn. unfold set_at. destruct (Nat.eqb_spec a' a); [congruence|exact Z]. }
    destruct (tidy_remove k _ _ a' CTask Q L2') as (h' & R & R' & W).
    cbn [w_heap w_tasks w_constraints w_contacts] in *.
    assert (E' : match k with Kinematics => delete_if_memory h a' | Dynamics => solver_delete h a' end = Ok h').
    { destruct k; [exact R|]. apply R'. cbn. destruct (b_user b a'); [exfalso; apply N1; auto|reflexivity]. }
    rewrite E'. cbn [obind]. eexists. split; [reflexivity|exact W].
  - destruct (tidy_remove k s b a CConstraint T L) as (h & P & _ & Q). unfold remove_constraint_op. rewrite P. cbn [obind]. eexists. split; [reflexivity|exact Q].
  - destruct (tidy_remove k s b a CContact T L) as (h & P & _ & Q). unfold remove_contact_op. rewrite P. cbn [obind]. eexists. split; [reflexivity|exact Q].
  - now apply tidy_clear.
  - exists s. split; [now apply tidy_visit with (k := k) (b := b)|exact T].
Qed.

Lemma run_ops_app k l1 : forall s l2, run_ops k s (l1 ++ l2) = obind (run_ops k s l1) (fun s' => run_ops k s' l2).
Proof. induction l1 as [|o r IH]; intros s l2; cbn; [reflexivity|]. destruct (run_op k s o); cbn; auto. Qed.

Lemma careful_tidy k l b : careful_without k (fun b o => (k = Dynamics /\ removes_user_task b o) \/ adds_own_contact_again b o) l b ->
  exists s, run_ops k fresh_owner l = Ok s /\ tidy k s b.
Proof.
  induction 1 as [|l b o C (s & E & T) L N].
  - exists fresh_owner. split; [reflexivity|apply tidy_start].
  - destruct (tidy_step k s b o T L) as (s' & E' & T'); [intros -> H; apply N; auto|intros H; apply N; auto|].
    exists s'. split; [|exact T']. rewrite run_ops_app, E. cbn [obind run_ops]. now rewrite E'.
Qed.

Lemma careful_kinematics l b : careful Kinematics l b ->
  careful_without Kinematics (fun b o => (Kinematics = Dynamics /\ removes_user_task b o) \/ adds_own_contact_again b o) l b /\
  (forall a, a < b_count b -> b_class b a <> CContact).
Proof.
  induction 1 as [|l b o C (IH & K) L]; [split; [constructor|cbn; intros; lia]|].
  assert (IHs := IH). apply careful_tidy in IHs. destruct IHs as (s & _ & T).
  assert (NA : ~ adds_own_contact_again b o).
  { destruct o; cbn; auto. intros _. destruct L as (P & Q & _). now apply (K a). }
  assert (CW : careful_without Kinematics (fun b o => (Kinematics = Dynamics /\ removes_user_task b o) \/ adds_own_contact_again b o) (l ++ [o]) (expected b o)).
  { constructor; auto. intros [[H _]|H]; [discriminate|auto]. }
  split; [exact CW|]. destruct (careful_tidy _ _ _ CW) as (s' & _ & T'). exact (td_kin _ _ _ T' eq_refl).
Qed.
