(** The tasks of the walk: invariant over all histories. *)
From Coq Require Import Reals List Arith Bool String Lia.
From Verif Require Import Base Geom3 Ownership_model Ownership_spec Ownership_proofs WalkTasks_model WalkTasks_spec.
Import ListNotations.
Open Scope nat_scope.

Lemma role_eqb_spec a b : reflect (a = b) (role_eqb a b).
Proof. destruct a, b; cbn; constructor; congruence. Qed.

(** ** The memory as a book *)

Lemma tidy_book_of k s b : tidy k s b -> tidy k s (book_of s).
Proof.
  intros T. pose proof (td_agrees _ _ _ T) as (A1 & A2 & A3 & A4 & A5). pose proof (td_count _ _ _ T) as HC.
  assert (IN : forall a, b_in (book_of s) a = true <-> In a (w_tasks s) \/ In a (w_constraints s) \/ In a (w_contacts s)).
  { intros a. cbn. rewrite !orb_true_iff. change (existsb (Nat.eqb a) (w_tasks s)) with (mem_in (w_tasks s) a).
    change (existsb (Nat.eqb a) (w_constraints s)) with (mem_in (w_constraints s) a).
    change (existsb (Nat.eqb a) (w_contacts s)) with (mem_in (w_contacts s) a). rewrite !mem_in_spec. tauto. }
  assert (IN' : forall a, a < b_count b -> b_in (book_of s) a = b_in b a).
  { intros a Ha. apply eq_true_iff_eq. rewrite IN, A3, A4, A5. destruct (b_class b a); intuition. }
  assert (US : forall a, a < b_count b -> b_user (book_of s) a = b_user b a).
  { intros a Ha. cbn. rewrite (td_memory _ _ _ T a Ha). apply negb_involutive. }
  assert (GO : forall a, a < b_count b -> b_gone (book_of s) a = b_gone b a).
  { intros a Ha. cbn. rewrite A1 by exact Ha. apply negb_involutive. }
  assert (CL : forall a, a < b_count b -> b_class (book_of s) a = b_class b a) by (intros a Ha; apply (td_class _ _ _ T a Ha)).
  assert (LT : forall a, b_in (book_of s) a = true -> a < b_count b).
  { intros a H. apply IN in H. now apply (tidy_known k s b). }
  assert (HB : b_count (book_of s) = b_count b) by exact HC.
  split; rewrite ?HB; try apply T; auto.
  - intros a Ha. cbn. now rewrite negb_involutive.
  - intros a Ha. cbn. rewrite (td_refs _ _ _ T a Ha). now apply (td_refs_lt _ _ _ T).
  - intros a H. pose proof (LT a H) as Ha. split; [exact Ha|]. rewrite IN' in H by exact Ha. rewrite GO by exact Ha. now apply (td_in _ _ _ T).
  - intros a Ha. rewrite US, GO, IN' by exact Ha. now apply (td_own _ _ _ T).
  - intros K a Ha. rewrite CL by exact Ha. now apply (td_kin _ _ _ T).
  - unfold agrees. rewrite HB. repeat match goal with |- _ /\ _ => split end.
    + intros a Ha. now rewrite GO, A1.
    + intros a Ha. now rewrite GO, US, A2.
    + intros a. rewrite A3. split; intros (P & Q & X); repeat split; auto; rewrite ?IN', ?CL in * by auto; auto.
    + intros a. rewrite A4. split; intros (P & Q & X); repeat split; auto; rewrite ?IN', ?CL in * by auto; auto.
    + intros a. rewrite A5. split; intros (P & Q & X); repeat split; auto; rewrite ?IN', ?CL in * by auto; auto.
Qed.

Definition sound (s : owner) : Prop := tidy Kinematics s (book_of s).

(** A solver's task that is still there. *)
Definition there (s : owner) (a : nat) : Prop :=
  a < h_count (w_heap s) /\ h_class (w_heap s) a = CTask /\ h_memory (w_heap s) a = true /\ h_alive (w_heap s) a = true /\ In a (w_tasks s).

Lemma there_usable s a : there s a -> usable (book_of s) CTask a.
Proof. intros (A & B & C & D & E). repeat split; auto. cbn. now rewrite D. Qed.

(** What a careful call does to such a task. *)
Lemma step_there s s' o a : sound s -> legal Kinematics (book_of s) o -> run_op Kinematics s o = Ok s' -> ~ takes_out o a -> there s a -> there s' a.
Proof.
  intros T L E N H.
  assert (NA : ~ adds_own_contact_again (book_of s) o).
  { destruct o; cbn; auto. intros _. destruct L as (P & Q & _). now apply (td_kin _ _ _ T eq_refl a0). }
  destruct (tidy_step Kinematics s (book_of s) o T L) as (s1 & E1 & T1); [discriminate|exact NA|].
  rewrite E in E1. injection E1 as <-. destruct H as (A & B & C & D & F). pose proof (td_agrees _ _ _ T) as (A1 & A2 & A3 & _).
  apply A3 in F. destruct F as (F1 & F2 & F3).
  assert (X : a < b_count (expected (book_of s) o) /\ b_class (expected (book_of s) o) a = CTask /\ b_user (expected (book_of s) o) a = false /\
              b_in (expected (book_of s) o) a = true /\ b_gone (expected (book_of s) o) a = false).
  { assert (G : b_gone (book_of s) a = false) by (cbn; now rewrite D). assert (U : b_user (book_of s) a = false) by (cbn; now rewrite C).
    destruct o; cbn [expected take_out b_count b_class b_user b_in b_gone] in *; unfold set_at;
      repeat match goal with |- context [Nat.eqb a ?x] => destruct (Nat.eqb_spec a x) end; subst; repeat split; auto; try lia; try (exfalso; cbn in N; tauto).
    - exfalso. destruct L as (_ & L & _). cbn in L. rewrite C in L. discriminate. }
  destruct X as (X1 & X2 & X3 & X4 & X5). pose proof (td_agrees _ _ _ T1) as (B1 & B2 & B3 & _).
  repeat split.
  - rewrite (td_count _ _ _ T1). exact X1.
  - rewrite (td_class _ _ _ T1) by exact X1. exact X2.
  - rewrite (td_memory _ _ _ T1), X3 by exact X1. reflexivity.
  - rewrite B1, X5 by exact X1. reflexivity.
  - apply B3. auto.
Qed.

Lemma step_sound s o : sound s -> legal Kinematics (book_of s) o -> exists s', run_op Kinematics s o = Ok s' /\ sound s' /\
  h_count (w_heap s) <= h_count (w_heap s') /\
  (forall a, a < h_count (w_heap s) -> h_alive (w_heap s') a = true -> h_alive (w_heap s) a = true) /\
  (forall a, takes_out o a -> a < h_count (w_heap s) -> h_memory (w_heap s) a = true -> In a (w_tasks s) -> h_alive (w_heap s') a = false /\ ~ In a (w_tasks s')) /\
  (forall a, a < h_count (w_heap s) -> In a (w_tasks s') -> h_memory (w_heap s) a = true -> In a (w_tasks s)).
Proof.
  intros T L.
  assert (NA : ~ adds_own_contact_again (book_of s) o).
  { destruct o; cbn; auto. intros _. destruct L as (P & Q & _). now apply (td_kin _ _ _ T eq_refl a). }
  destruct (tidy_step Kinematics s (book_of s) o T L) as (s1 & E1 & T1); [discriminate|exact NA|].
  exists s1. split; [exact E1|]. split; [now apply tidy_book_of with (b := expected (book_of s) o)|].
  pose proof (td_agrees _ _ _ T) as (A1 & A2 & A3 & _). pose proof (td_agrees _ _ _ T1) as (B1 & B2 & B3 & _).
  assert (CT : h_count (w_heap s) <= b_count (expected (book_of s) o)) by (destruct o; cbn; lia).
  split; [rewrite (td_count _ _ _ T1); exact CT|]. split; [|split].
  - intros a Ha Hl. rewrite B1 in Hl by lia. apply negb_true_iff in Hl. destruct (h_alive (w_heap s) a) eqn:AL; [reflexivity|]. exfalso.
    assert (G : b_gone (book_of s) a = true) by (cbn; now rewrite AL).
    destruct o; cbn [expected take_out b_count b_class b_user b_in b_gone] in *; unfold set_at in *;
      repeat match goal with H : context [Nat.eqb a ?x] |- _ => destruct (Nat.eqb_spec a x) end; subst; try congruence; try lia;
      try (destruct L as (_ & _ & L); congruence); try (change (b_count (book_of s)) with (h_count (w_heap s)) in *; lia).
    + destruct L as ((_ & _ & L) & (_ & _ & L') & _). congruence.
    + destruct L as ((_ & _ & L) & (_ & _ & L') & _). congruence.
    + destruct (b_in (book_of s) a) eqn:I1; [|congruence]. pose proof (td_in _ _ _ T a I1) as [_ Q]. congruence.
  - intros a Ho Ha Hm Hi. apply A3 in Hi. destruct Hi as (_ & I1 & I2).
    assert (U : b_user (book_of s) a = false) by (cbn; now rewrite Hm).
    assert (X : b_gone (expected (book_of s) o) a = true /\ b_in (expected (book_of s) o) a = false).
    { destruct o; cbn in Ho; try contradiction; subst; cbn [expected take_out b_count b_class b_user b_in b_gone] in *; unfold set_at;
        repeat match goal with |- context [Nat.eqb ?y ?x] => destruct (Nat.eqb_spec y x) end; subst; rewrite ?U, ?I1; auto; try congruence.
      destruct Ho; congruence. }
    destruct X as (X1 & X2). split; [rewrite B1, X1 by lia; reflexivity|]. rewrite B3, X2. intros (_ & Y & _). discriminate.
  - intros a Ha Hi Hm. apply B3 in Hi. destruct Hi as (_ & I1 & I2). apply A3.
    assert (U : b_user (book_of s) a = false) by (cbn; now rewrite Hm).
    assert (X : b_class (book_of s) a = CTask) by (destruct o; cbn [expected take_out b_class] in I2; unfold set_at in I2; try exact I2;
      destruct (Nat.eqb_spec a (b_count (book_of s))); auto; cbn in *; lia).
    split; [exact Ha|]. split; [|exact X]. destruct (b_gone (book_of s) a) eqn:G.
    + exfalso. pose proof (td_in _ _ _ T1 a I1) as [_ Q].
      destruct o; cbn [expected take_out b_count b_class b_user b_in b_gone] in *; unfold set_at in *;
        repeat match goal with H : context [Nat.eqb a ?x] |- _ => destruct (Nat.eqb_spec a x) end; subst; try congruence; try lia;
        try (cbn in *; lia).
    + apply (td_own _ _ _ T); auto.
Qed.

(** ** The invariant of the walk *)

Definition five (r : role) : bool := match r with CoM | TrunkPosition => false | _ => true end.

(** [P r]: the pointer of this role is set. *)
Record winv (P : role -> bool) (w : walk_tasks) : Prop := {
  wi_sound : sound (wt_owner w);
  wi_ptr : forall r, P r = true -> exists a, wt_ptr w r = Some a /\ there (wt_owner w) a /\ wt_role w a = Some r;
  wi_off : forall r, P r = false -> five r = false -> wt_ptr w r = None;
  wi_role : forall a r, wt_role w a = Some r -> a < h_count (w_heap (wt_owner w));
  wi_mem : forall a r, wt_role w a = Some r -> h_memory (w_heap (wt_owner w)) a = true;
  wi_back : forall a r, wt_role w a = Some r -> In a (w_tasks (wt_owner w)) \/ h_alive (w_heap (wt_owner w)) a = true -> P r = true /\ wt_ptr w r = Some a }.

(** Which roles are there, when the tasks are there. *)
Definition roles (trunk : bool) (r : role) : bool := match r with CoM => negb trunk | TrunkPosition => trunk | _ => true end.
Definition none (r : role) : bool := false.

Lemma sound_new s : sound s -> winv none (new_walk_tasks s).
Proof. intros T. split; cbn; auto; try discriminate. Qed.

Lemma memory_keeps s s' o a : sound s -> legal Kinematics (book_of s) o -> run_op Kinematics s o = Ok s' -> a < h_count (w_heap s) ->
  h_memory (w_heap s') a = h_memory (w_heap s) a.
Proof.
  intros T L E Ha.
  assert (NA : ~ adds_own_contact_again (book_of s) o).
  { destruct o; cbn; auto. intros _. destruct L as (P & Q & _). now apply (td_kin _ _ _ T eq_refl a0). }
  destruct (tidy_step Kinematics s (book_of s) o T L) as (s1 & E1 & T1); [discriminate|exact NA|].
  rewrite E in E1. injection E1 as <-.
  assert (CT : h_count (w_heap s) <= b_count (expected (book_of s) o)) by (destruct o; cbn; lia).
  rewrite (td_memory _ _ _ T1) by lia.
  assert (U : b_user (expected (book_of s) o) a = b_user (book_of s) a).
  { destruct o; cbn [expected take_out b_user]; unfold set_at; auto; change (b_count (book_of s)) with (h_count (w_heap s));
      destruct (Nat.eqb_spec a (h_count (w_heap s))); auto; lia. }
  rewrite U. cbn. apply negb_involutive.
Qed.

(** Calls on the solver that leave the tasks of the walk. *)
Lemma winv_solver P w o : winv P w -> legal Kinematics (book_of (wt_owner w)) o -> (forall a, takes_out o a -> wt_role w a = None) ->
  exists s, run_op Kinematics (wt_owner w) o = Ok s /\
    winv P (WalkTasks s (wt_on w) (wt_ptr w) (wt_mode w) (wt_com_x w) (wt_com_y w) (wt_role w) (wt_target w) (wt_rot w)).
Proof.
  intros [H1 H2 H3 H4 H5 H6] L N. destruct (step_sound _ o H1 L) as (s & E & S & C & AL & _ & TK). exists s. split; [exact E|].
  split; cbn [wt_owner wt_on wt_ptr wt_role]; auto.
  - intros r Hr. destruct (H2 r Hr) as (a & X & Y & Z). exists a. split; [exact X|]. split; [|exact Z].
    apply (step_there (wt_owner w) s o a H1 L E); auto. intros K. rewrite (N a K) in Z. discriminate.
  - intros a r Hr. apply H4 in Hr. lia.
  - intros a r Hr. rewrite (memory_keeps _ s o a H1 L E (H4 a r Hr)). eauto.
  - intros a r Hr [K|K]; apply (H6 a r Hr); [left|right].
    + apply TK; eauto.
    + apply AL; eauto.
Qed.

(** Creating a task of the walk. *)
Lemma winv_add P w r p m : winv P w -> P r = false ->
  winv (fun x => if role_eqb x r then true else P x) (add_walk_task w r p m).
Proof.
  intros [H1 H2 H3 H4 H5 H6] Pr. pose (n := h_count (w_heap (wt_owner w))).
  destruct (winv_solver P w (Create CTask []) (Build_winv _ _ H1 H2 H3 H4 H5 H6)) as (s & E & K); [reflexivity|intros a []|].
  cbn [run_op] in E. injection E as <-. destruct K as [K1 K2 K3 K4 K5 K6]. cbn [wt_owner wt_ptr wt_role] in *.
  assert (RN : wt_role w n = None).
  { destruct (wt_role w n) eqn:X; [|reflexivity]. apply H4 in X. unfold n in X. lia. }
  unfold add_walk_task. fold n. split; cbn [wt_owner wt_on wt_ptr wt_role]; auto.
  - intros x Hx. unfold set_ptr, upd. destruct (role_eqb_spec x r) as [EX|NE].
    + subst x. exists n. rewrite Nat.eqb_refl. repeat split; auto; cbn [create w_heap allocate h_count h_class h_memory h_alive w_tasks]; unfold upd; fold n; rewrite ?Nat.eqb_refl; auto.
      rewrite in_insert. now left.
    + destruct (K2 x Hx) as (a & X & Y & Z). exists a. split; [exact X|]. split; [exact Y|].
      destruct (Nat.eqb_spec a n) as [->|]; [congruence|exact Z].
  - intros x. unfold set_ptr. destruct (role_eqb_spec x r); [discriminate|]. intros Hx Fx. now apply K3.
  - intros a x. unfold upd. destruct (Nat.eqb_spec a n) as [->|]; [intros _; cbn [create w_heap allocate h_count]; fold n; lia|]. intros Hx. eapply K4; eauto.
  - intros a x. unfold upd. destruct (Nat.eqb_spec a n) as [->|].
    + intros _. cbn [create w_heap allocate h_memory]. unfold upd. fold n. now rewrite Nat.eqb_refl.
    + intros Hx. eapply K5; eauto.
  - intros a x. unfold upd, set_ptr. destruct (Nat.eqb_spec a n) as [->|].
    + intros X. injection X as <-. intros _. destruct (role_eqb_spec r r); [auto|congruence].
    + intros Hx Hy. destruct (K6 a x Hx Hy) as (Q1 & Q2). destruct (role_eqb_spec x r) as [->|]; [congruence|auto].
Qed.

(** Removing one. *)
Lemma winv_remove P w r : winv P w -> P r = true ->
  exists w', remove_walk_task w r = Ok w' /\ winv (fun x => if role_eqb x r then false else P x) w' /\ wt_ptr w' = set_ptr (wt_ptr w) r None /\
    wt_on w' = wt_on w /\ wt_mode w' = wt_mode w /\ wt_role w' = wt_role w /\ wt_com_x w' = wt_com_x w /\ wt_com_y w' = wt_com_y w.
Proof.
  intros [H1 H2 H3 H4 H5 H6] Pr. destruct (H2 r Pr) as (a & X & Y & Z). unfold remove_walk_task. rewrite X.
  assert (L : legal Kinematics (book_of (wt_owner w)) (RemoveTask a)) by (apply there_usable; exact Y).
  destruct (step_sound _ _ H1 L) as (s & E & S & C & AL & TO & TK). rewrite E. cbn [obind]. eexists. split; [reflexivity|].
  destruct Y as (Y1 & Y2 & Y3 & Y4 & Y5). destruct (TO a eq_refl Y1 Y3 Y5) as (G1 & G2). split; [|repeat split].
  split; cbn [wt_owner wt_on wt_ptr wt_role]; auto.
  - intros x. unfold set_ptr. destruct (role_eqb_spec x r) as [->|NE]; [discriminate|]. intros Hx. destruct (H2 x Hx) as (c & X' & Y' & Z').
    exists c. split; [exact X'|]. split; [|exact Z']. apply (step_there (wt_owner w) s (RemoveTask a) c H1 L E); auto. cbn. intros ->. congruence.
  - intros x. unfold set_ptr. destruct (role_eqb_spec x r) as [->|NE]; [reflexivity|]. apply H3.
  - intros c x Hx. apply H4 in Hx. lia.
  - intros c x Hx. rewrite (memory_keeps _ s _ c H1 L E (H4 c x Hx)). eauto.
  - intros c x Hx Hy. assert (Q : P x = true /\ wt_ptr w x = Some c).
    { apply (H6 c x Hx). destruct Hy as [K|K]; [left; apply TK; eauto|right; apply AL; eauto]. }
    unfold set_ptr. destruct (role_eqb_spec x r) as [->|NE]; [|exact Q]. exfalso. destruct Q as (_ & Q). rewrite X in Q. injection Q as <-.
    destruct Hy as [K|K]; [exact (G2 K)|congruence].
Qed.

Lemma winv_ext P Q w : (forall r, P r = Q r) -> winv P w -> winv Q w.
Proof.
  intros E [H1 H2 H3 H4 H5 H6]. split; auto.
  - intros r. rewrite <- E. auto.
  - intros r. rewrite <- E. auto.
  - intros a r. rewrite <- E. auto.
Qed.

Lemma winv_set P s on ptr m m' x y x' y' role t t' rt rt' :
  winv P (WalkTasks s on ptr m x y role t rt) -> winv P (WalkTasks s on ptr m' x' y' role t' rt').
Proof. intros [H1 H2 H3 H4 H5 H6]. split; auto. Qed.
Lemma winv_set' P w on m x y t rt : winv P w -> winv P (WalkTasks (wt_owner w) on (wt_ptr w) m x y (wt_role w) t rt).
Proof. intros [H1 H2 H3 H4 H5 H6]. split; auto. Qed.

(** update_com_task, from any of the two situations, or from the five tasks alone. *)
Lemma winv_update_com P w po : winv P w -> wt_on w = true -> (forall r, five r = true -> P r = true) ->
  (P CoM = false \/ P TrunkPosition = false) ->
  exists w', update_com_task w po = Ok w' /\ winv (roles (wt_mode w)) w' /\ wt_on w' = true /\ wt_mode w' = wt_mode w /\
    wt_com_x w' = wt_com_x w /\ wt_com_y w' = wt_com_y w.
Proof.
  intros W ON F EX. unfold update_com_task. rewrite ON. cbn [guard].
  assert (STEP : forall out inn, (out = CoM /\ inn = TrunkPosition \/ out = TrunkPosition /\ inn = CoM) -> forall tp tm,
     exists w', (w1 <- remove_if_set w out ;; Ok (match wt_ptr w1 inn with None => add_walk_task w1 inn tp tm | Some _ => w1 end)) = Ok w' /\
       winv (fun x => if role_eqb x inn then true else if role_eqb x out then false else P x) w' /\ wt_on w' = true /\ wt_mode w' = wt_mode w /\
       wt_com_x w' = wt_com_x w /\ wt_com_y w' = wt_com_y w).
  { intros out inn OI tp tm.
    assert (R1 : exists w1, remove_if_set w out = Ok w1 /\ winv (fun x => if role_eqb x out then false else P x) w1 /\ wt_on w1 = true /\ wt_mode w1 = wt_mode w /\
       wt_com_x w1 = wt_com_x w /\ wt_com_y w1 = wt_com_y w).
    { unfold remove_if_set. destruct (P out) eqn:PO.
      - destruct (winv_remove P w out W PO) as (w1 & E & K & K0 & K1 & K2 & K3 & K4 & K5). destruct (wi_ptr _ _ W out PO) as (a & X & _). rewrite X, E.
        exists w1. rewrite K1, K2, K4, K5. split; [reflexivity|]. split; [exact K|]. auto.
      - rewrite (wi_off _ _ W out PO) by (destruct OI as [[-> _]|[-> _]]; reflexivity).
        exists w. split; [reflexivity|]. split; [|auto]. eapply winv_ext; [|exact W]. intros r. cbn. destruct (role_eqb_spec r out) as [->|]; auto. }
    destruct R1 as (w1 & E1 & K1 & K2 & K3 & K4 & K5). rewrite E1. cbn [obind].
    destruct (P inn) eqn:PI.
    - destruct (wi_ptr _ _ K1 inn) as (a & X & _). { destruct (role_eqb_spec inn out) as [e|]; [destruct OI as [[A B]|[A B]]; congruence|exact PI]. }
      rewrite X. exists w1. split; [reflexivity|]. split; [|auto]. eapply winv_ext; [|exact K1]. intros r. cbn.
      destruct (role_eqb_spec r inn) as [->|]; [|reflexivity]. destruct (role_eqb_spec inn out) as [e|]; [destruct OI as [[A B]|[A B]]; congruence|exact PI].
    - assert (PN : (if role_eqb inn out then false else P inn) = false) by (destruct (role_eqb inn out); auto).
      rewrite (wi_off _ _ K1 inn) by (auto; destruct OI as [[_ ->]|[_ ->]]; reflexivity).
      eexists. split; [reflexivity|]. split; [|cbn; auto].
      apply (winv_add (fun x => if role_eqb x out then false else P x) w1 inn tp tm K1 PN). }
  destruct (wt_mode w) eqn:MO.
  - destruct (STEP CoM TrunkPosition (or_introl (conj eq_refl eq_refl)) (fr_t (po_trunk po)) m3_id) as (w' & E & K & K'). exists w'. split; [exact E|].
    split; [|exact K']. eapply winv_ext; [|exact K]. intros [| | | | | |]; cbn; auto; apply F; reflexivity.
  - destruct (STEP TrunkPosition CoM (or_intror (conj eq_refl eq_refl)) (po_com po) m3_id) as (w' & E & K & K'). exists w'. split; [exact E|].
    split; [|exact K']. eapply winv_ext; [|exact K]. intros [| | | | | |]; cbn; auto; apply F; reflexivity.
Qed.

Lemma winv_initialize w po : winv none w -> exists w', initialize_tasks w po = Ok w' /\ winv (roles (wt_mode w)) w' /\ wt_on w' = true /\ wt_mode w' = wt_mode w.
Proof.
  intros W. unfold initialize_tasks. cbv zeta.
  match goal with |- exists w', update_com_task ?w5 po = _ /\ _ => set (W5 := w5) end.
  assert (K : winv five W5).
  { subst W5. eapply winv_ext; cycle 1.
    - eapply winv_add; [eapply winv_add; [eapply winv_add; [eapply winv_add; [eapply winv_add; [apply winv_set'; exact W|]|]|]|]|]; reflexivity.
    - intros [| | | | | |]; reflexivity. }
  destruct (winv_update_com five W5 po K) as (w' & E & K' & O & M & _); [reflexivity|auto|now left|].
  exists w'. split; [exact E|]. split; [exact K'|]. split; [exact O|exact M].
Qed.

Lemma winv_write P w r : winv P w -> P r = true -> exists a, wt_ptr w r = Some a /\ h_alive (w_heap (wt_owner w)) a = true /\ wt_role w a = Some r.
Proof. intros W Pr. destruct (wi_ptr _ _ W r Pr) as (a & X & (_ & _ & _ & Y & _) & Z). eauto. Qed.

(** The effect of update_tasks. *)
Lemma winv_update P w po l r c t : winv P w -> wt_on w = true -> (forall r, five r = true -> P r = true) -> (P CoM = false \/ P TrunkPosition = false) ->
  exists w', update_tasks w po l r c t = Ok w' /\ winv (roles (wt_mode w)) w' /\ wt_on w' = true /\ wt_mode w' = wt_mode w /\
    (forall a, wt_ptr w' (if wt_mode w then TrunkPosition else CoM) = Some a ->
       wt_target w' a = v3_add c (m3_vec (fr_R (po_trunk po)) (V3 (wt_com_x w) (wt_com_y w) 0))) /\
    (forall a, wt_ptr w' LeftPosition = Some a -> wt_target w' a = fr_t l) /\
    (forall a, wt_ptr w' LeftOrientation = Some a -> wt_rot w' a = fr_R l) /\
    (forall a, wt_ptr w' RightPosition = Some a -> wt_target w' a = fr_t r) /\
    (forall a, wt_ptr w' RightOrientation = Some a -> wt_rot w' a = fr_R r) /\
    (forall a, wt_ptr w' TrunkOrientation = Some a -> wt_rot w' a = t).
Proof.
  intros W ON F EX. destruct (winv_update_com P w po W ON F EX) as (w1 & E & K & O & M & CX & CY). unfold update_tasks. rewrite E. cbn [obind].
  set (q := if wt_mode w then TrunkPosition else CoM).
  assert (PQ : roles (wt_mode w) q = true) by (unfold q; destruct (wt_mode w); reflexivity).
  destruct (winv_write _ _ q K PQ) as (aq & Q1 & Q2 & Q3).
  destruct (winv_write _ _ LeftPosition K eq_refl) as (alp & A1 & A2 & A3).
  destruct (winv_write _ _ LeftOrientation K eq_refl) as (alo & B1 & B2 & B3).
  destruct (winv_write _ _ RightPosition K eq_refl) as (arp & C1 & C2 & C3).
  destruct (winv_write _ _ RightOrientation K eq_refl) as (aro & D1 & D2 & D3).
  destruct (winv_write _ _ TrunkOrientation K eq_refl) as (ato & G1 & G2 & G3).
  unfold write_target at 1. rewrite Q1, Q2. cbn [guard obind].
  unfold write_target at 1. cbn [wt_ptr wt_owner]. rewrite A1, A2. cbn [guard obind].
  unfold write_rot at 1. cbn [wt_ptr wt_owner]. rewrite B1, B2. cbn [guard obind].
  unfold write_target at 1. cbn [wt_ptr wt_owner]. rewrite C1, C2. cbn [guard obind].
  unfold write_rot at 1. cbn [wt_ptr wt_owner]. rewrite D1, D2. cbn [guard obind].
  unfold write_rot at 1. cbn [wt_ptr wt_owner]. rewrite G1, G2. cbn [guard obind].
  eexists. split; [reflexivity|]. cbn [wt_on wt_mode wt_ptr wt_target wt_rot wt_owner wt_role wt_com_x wt_com_y].
  split; [apply winv_set'; exact K|]. split; [exact O|]. split; [exact M|].
  assert (NQ : wt_role w1 aq <> wt_role w1 alp /\ wt_role w1 aq <> wt_role w1 arp) by (rewrite Q3, A3, C3; unfold q; destruct (wt_mode w); split; discriminate).
  assert (N1 : wt_role w1 alp <> wt_role w1 arp) by (rewrite A3, C3; discriminate).
  assert (N2 : wt_role w1 alo <> wt_role w1 aro /\ wt_role w1 alo <> wt_role w1 ato /\ wt_role w1 aro <> wt_role w1 ato) by (rewrite B3, D3, G3; repeat split; discriminate).
  destruct NQ as (NQ1 & NQ2), N2 as (N21 & N22 & N23).
  rewrite ?Q1, ?A1, ?B1, ?C1, ?D1, ?G1. repeat split; intros a X; injection X as <-; unfold upd;
    repeat match goal with |- context [Nat.eqb ?x ?y] => destruct (Nat.eqb_spec x y) as [e|]; [try (rewrite e in *; congruence)|] end; congruence.
Qed.

Lemma winv_remove_foot P w p o : winv P w -> P p = true -> P o = true -> p <> o ->
  exists w', remove_foot w p o = Ok w' /\ winv (fun x => if role_eqb x o then false else if role_eqb x p then false else P x) w' /\
    wt_on w' = wt_on w /\ wt_mode w' = wt_mode w /\ wt_role w' = wt_role w.
Proof.
  intros W Pp Po NE. destruct (winv_remove P w p W Pp) as (w1 & E1 & K1 & K2 & K3 & K4 & K5 & K6 & K7).
  destruct (winv_remove _ w1 o K1) as (w2 & E2 & L1 & L2 & L3 & L4 & L5 & L6 & L7). { destruct (role_eqb_spec o p); [congruence|exact Po]. }
  exists w2. split; [|rewrite L3, L4, L5; auto].
  unfold remove_walk_task in E1, E2. unfold remove_foot. destruct (wt_ptr w p) as [a|] eqn:X; [|discriminate].
  cbn [run_op] in E1. destruct (remove_task_op Kinematics (wt_owner w) a) as [s1| |] eqn:R1; cbn [obind] in E1; try discriminate. injection E1 as <-.
  cbn [wt_owner wt_ptr wt_on wt_mode wt_com_x wt_com_y wt_role wt_target wt_rot] in *.
  unfold set_ptr at 1 in E2. destruct (role_eqb_spec o p) as [|_]; [congruence|].
  destruct (wt_ptr w o) as [b|] eqn:X2; [|discriminate].
  cbn [run_op] in E2. destruct (remove_task_op Kinematics s1 b) as [s2| |] eqn:R2; cbn [obind] in E2; try discriminate. injection E2 as <-.
  cbn [run_op]. unfold remove_frame_task_op. rewrite R1. cbn [obind]. rewrite R2. cbn [obind]. reflexivity.
Qed.

Lemma winv_remove_if P w r : winv P w -> five r = false -> exists w', remove_if_set w r = Ok w' /\ winv (fun x => if role_eqb x r then false else P x) w' /\
  wt_on w' = wt_on w /\ wt_mode w' = wt_mode w /\ wt_role w' = wt_role w.
Proof.
  intros W F. unfold remove_if_set. destruct (P r) eqn:PO.
  - destruct (winv_remove P w r W PO) as (w1 & E & K & K0 & K1 & K2 & K3 & _). destruct (wi_ptr _ _ W r PO) as (a & X & _). rewrite X, E. exists w1. auto.
  - rewrite (wi_off _ _ W r PO F). exists w. split; [reflexivity|]. split; [|auto]. eapply winv_ext; [|exact W]. intros x. destruct (role_eqb_spec x r) as [->|]; auto.
Qed.

Lemma winv_remove_tasks m w : winv (roles m) w -> wt_on w = true ->
  exists w', remove_tasks w = Ok w' /\ winv none w' /\ wt_on w' = false /\ wt_mode w' = wt_mode w /\ wt_role w' = wt_role w.
Proof.
  intros W ON. unfold remove_tasks. rewrite ON.
  destruct (winv_remove_foot _ w LeftPosition LeftOrientation W) as (w1 & E1 & K1 & _ & M1 & R1); [reflexivity|reflexivity|discriminate|]. rewrite E1. cbn [obind].
  destruct (winv_remove_foot _ w1 RightPosition RightOrientation K1) as (w2 & E2 & K2 & _ & M2 & R2); [reflexivity|reflexivity|discriminate|]. rewrite E2. cbn [obind].
  destruct (winv_remove_if _ w2 CoM K2 eq_refl) as (w3 & E3 & K3 & _ & M3 & R3). rewrite E3. cbn [obind].
  destruct (winv_remove_if _ w3 TrunkPosition K3 eq_refl) as (w4 & E4 & K4 & _ & M4 & R4). rewrite E4. cbn [obind].
  destruct (winv_remove _ w4 TrunkOrientation K4 eq_refl) as (w5 & E5 & K5 & _ & _ & M5 & R5 & _). rewrite E5. cbn [obind].
  eexists. split; [reflexivity|]. cbn [wt_on wt_mode wt_role]. split; [|repeat split; congruence].
  apply winv_set'. eapply winv_ext; [|exact K5]. intros [| | | | | |]; reflexivity.
Qed.

(** ** All histories *)

Definition wgood (w : walk_tasks) : Prop := if wt_on w then exists m, winv (roles m) w else winv none w.

Lemma wgood_start l b s : careful Kinematics l b -> run_ops Kinematics fresh_owner l = Ok s -> wgood (new_walk_tasks s).
Proof.
  intros C E. apply careful_kinematics in C. destruct C as (C & _). destruct (careful_tidy _ _ _ C) as (s' & E' & T).
  rewrite E in E'. injection E' as <-. cbn. apply sound_new. now apply tidy_book_of with (b := b).
Qed.

Lemma wgood_step w c : wgood w -> walk_legal w c -> exists w', walk_step w c = Ok w' /\ wgood w' /\
  (match c with WInitialize _ | WUpdateCom _ | WUpdate _ _ _ _ _ => wt_on w' = true /\ wt_mode w' = wt_mode w /\ winv (roles (wt_mode w')) w'
   | WRemove => wt_on w' = false | _ => True end).
Proof.
  intros G L. unfold wgood in *. destruct c as [po|m|x y|po|po l r c t| |o]; cbn [walk_step walk_legal] in *.
  - rewrite L in G. destruct (winv_initialize w po G) as (w' & E & K & O & M). exists w'. split; [exact E|]. rewrite O, M. split; [eauto|auto].
  - eexists. split; [reflexivity|]. cbn [wt_on]. split; [|exact I]. destruct (wt_on w); [destruct G as (m' & G); exists m'|]; apply winv_set'; exact G.
  - eexists. split; [reflexivity|]. cbn [wt_on]. split; [|exact I]. destruct (wt_on w); [destruct G as (m' & G); exists m'|]; apply winv_set'; exact G.
  - rewrite L in G. destruct G as (m & G). destruct (winv_update_com (roles m) w po G L) as (w' & E & K & O & M & _).
    + intros [| | | | | |]; cbn; auto; discriminate.
    + destruct m; auto.
    + exists w'. split; [exact E|]. rewrite O, M. split; [eauto|auto].
  - rewrite L in G. destruct G as (m & G). destruct (winv_update (roles m) w po l r c t G L) as (w' & E & K & O & M & _).
    + intros [| | | | | |]; cbn; auto; discriminate.
    + destruct m; auto.
    + exists w'. split; [exact E|]. rewrite O, M. split; [eauto|auto].
  - destruct (wt_on w) eqn:ON.
    + destruct G as (m & G). destruct (winv_remove_tasks m w G ON) as (w' & E & K & O & M & R). exists w'. rewrite O. auto.
    + unfold remove_tasks. rewrite ON. exists w. rewrite ON. auto.
  - destruct L as (L1 & L2). destruct (wt_on w) eqn:ON.
    + destruct G as (m & G). destruct (winv_solver _ w o G L1 L2) as (s & E & K). rewrite E. cbn [obind]. eexists. split; [reflexivity|]. cbn [wt_on]. split; [|exact I].
      exists m. rewrite ON in K. exact K.
    + destruct (winv_solver _ w o G L1 L2) as (s & E & K). rewrite E. cbn [obind]. eexists. split; [reflexivity|]. cbn [wt_on]. split; [|exact I].
      rewrite ON in K. exact K.
Qed.

Lemma reachable_wgood w : walk_reachable w -> wgood w.
Proof.
  induction 1 as [l b s C E|w c w' R IH L E]; [eapply wgood_start; eauto|].
  destruct (wgood_step w c IH L) as (w1 & E1 & G & _). rewrite E in E1. injection E1 as <-. exact G.
Qed.
