(** Proofs about the life of objects handled from Python. *)
From Coq Require Import List Arith Bool Lia.
From Verif Require Import PyLife_model PyLife_spec.
Import ListNotations.

Section Durable.
Variable D : list nat.

Record wf (s : pystate) : Prop := Wf {
  wf_addr : forall p, p < length (ps_py s) -> addr s p < length (ps_cpp s);
  wf_names : forall p, In p (ps_names s) -> p < length (ps_py s);
  wf_root : forall a, a < length (ps_cpp s) -> co_root (cpp_at s a) < length (ps_py s);
  wf_points : forall a b, a < length (ps_cpp s) -> In b (co_points (cpp_at s a)) -> b < length (ps_cpp s);
  wf_parent : forall a b, a < length (ps_cpp s) -> co_parent (cpp_at s a) = Some b -> b < length (ps_cpp s) /\ co_root (cpp_at s a) = co_root (cpp_at s b);
  wf_own : forall p, p < length (ps_py s) -> let r := co_root (cpp_at s (addr s p)) in r = p \/ In r (po_keeps (py_at s p)) \/ In r D;
  wf_borrow : forall a b, a < length (ps_cpp s) -> In b (co_points (cpp_at s a)) ->
    co_root (cpp_at s b) = co_root (cpp_at s a) \/ In (co_root (cpp_at s b)) D;
  wf_durable : forall d, In d D -> d < length (ps_py s) -> In d (ps_names s) }.

Lemma follows_lt : forall s a b, wf s -> a < length (ps_cpp s) -> follows s a b -> b < length (ps_cpp s).
Proof.
  intros s a b W Ha F. induction F as [|b c F IH I|b c F IH L P]; auto. eapply wf_points; eauto.
Qed.

Lemma follows_root : forall s a b, wf s -> a < length (ps_cpp s) -> follows s a b ->
  co_root (cpp_at s b) = co_root (cpp_at s a) \/ In (co_root (cpp_at s b)) D.
Proof.
  intros s a b W Ha F. induction F as [|b c F IH I|b c F IH L P]; auto.
  - pose proof (follows_lt s a b W Ha F) as Lb. destruct (wf_borrow s W b c Lb I) as [->|H]; auto.
  - destruct (wf_parent s W c b L P) as [_ ->]. exact IH.
Qed.

Lemma wf_usable : forall s, wf s -> usable_while_bound s.
Proof.
  intros s W h Hh b F. pose proof (wf_names s W h Hh) as Lh. pose proof (wf_addr s W h Lh) as La.
  pose proof (follows_lt s _ b W La F) as Lb. unfold cpp_alive.
  assert (Q : In (co_root (cpp_at s b)) D -> py_alive s (co_root (cpp_at s b))).
  { intros H. exists (co_root (cpp_at s b)). split; [|auto]. apply (wf_durable s W _ H). now apply (wf_root s W). }
  destruct (follows_root s _ b W La F) as [E|H]; [|auto]. rewrite E in *.
  destruct (wf_own s W h Lh) as [H|[H|H]]; [| |auto].
  - rewrite H. exists h. auto.
  - exists h. auto.
Qed.

(** Old objects are not changed by [bind]. *)
Lemma cpp_at_bind : forall s cs p a, a < length (ps_cpp s) -> cpp_at (bind s cs p) a = cpp_at s a.
Proof. intros. unfold cpp_at, bind. cbn. now rewrite app_nth1. Qed.

Lemma py_at_bind : forall s cs p q, q < length (ps_py s) -> py_at (bind s cs p) q = py_at s q.
Proof. intros. unfold py_at, bind. cbn. now rewrite app_nth1. Qed.

Lemma py_at_new : forall s cs p, py_at (bind s cs p) (length (ps_py s)) = p.
Proof. intros. unfold py_at, bind. cbn. rewrite app_nth2 by lia. now rewrite Nat.sub_diag. Qed.

Lemma cpp_at_new : forall s cs p k, cpp_at (bind s cs p) (length (ps_cpp s) + k) = nth k cs (CObj None 0 []).
Proof. intros. unfold cpp_at, bind. cbn. rewrite app_nth2 by lia. f_equal. lia. Qed.

Lemma cpp_at_new0 : forall s c cs p, cpp_at (bind s (c :: cs) p) (length (ps_cpp s)) = c.
Proof. intros. rewrite <- (Nat.add_0_r (length (ps_cpp s))). now rewrite cpp_at_new. Qed.

(** Adding objects [cs] and a Python object [p] that designates one of them or an old one. *)
Lemma bind_wf : forall s cs p, wf s ->
  po_addr p < length (ps_cpp s) + length cs ->
  (forall c, In c cs -> co_root c <= length (ps_py s)) ->
  (forall c b, In c cs -> In b (co_points c) -> b < length (ps_cpp s) + length cs) ->
  (forall c b, In c cs -> co_parent c = Some b -> b < length (ps_cpp s) /\ co_root c = co_root (cpp_at s b)) ->
  (let r := co_root (cpp_at (bind s cs p) (po_addr p)) in r = length (ps_py s) \/ In r (po_keeps p) \/ In r D) ->
  (forall c b, In c cs -> In b (co_points c) -> co_root (cpp_at (bind s cs p) b) = co_root c \/ In (co_root (cpp_at (bind s cs p) b)) D) ->
  wf (bind s cs p).
Proof.
  intros s cs p W H1 H2 H3 H4 H5 H6.
  assert (LP : length (ps_py (bind s cs p)) = S (length (ps_py s))) by (unfold bind; cbn; rewrite app_length; cbn; lia).
  assert (LC : length (ps_cpp (bind s cs p)) = length (ps_cpp s) + length cs) by (unfold bind; cbn; now rewrite app_length).
  assert (AD : forall q, q < length (ps_py s) -> addr (bind s cs p) q = addr s q) by (intros; unfold addr; now rewrite py_at_bind).
  assert (AN : addr (bind s cs p) (length (ps_py s)) = po_addr p) by (unfold addr; now rewrite py_at_new).
  assert (CN : forall a, length (ps_cpp s) <= a -> a < length (ps_cpp s) + length cs -> In (cpp_at (bind s cs p) a) cs).
  { intros a G L. replace a with (length (ps_cpp s) + (a - length (ps_cpp s))) by lia. rewrite cpp_at_new. apply nth_In. lia. }
  constructor; rewrite ?LP, ?LC.
  - intros q Hq. destruct (Nat.eq_dec q (length (ps_py s))) as [->|N]; [now rewrite AN|].
    rewrite AD by lia. pose proof (wf_addr s W q ltac:(lia)). lia.
  - intros q [<-|Hq]; [lia|]. apply (wf_names s W) in Hq. lia.
  - intros a Ha. destruct (le_lt_dec (length (ps_cpp s)) a) as [G|L].
    + specialize (H2 _ (CN a G Ha)). lia.
    + rewrite cpp_at_bind by exact L. pose proof (wf_root s W a L). lia.
  - intros a b Ha I. destruct (le_lt_dec (length (ps_cpp s)) a) as [G|L].
    + eapply H3; [apply (CN a G Ha)|exact I].
    + rewrite cpp_at_bind in I by exact L. pose proof (wf_points s W a b L I). lia.
  - intros a b Ha P. destruct (le_lt_dec (length (ps_cpp s)) a) as [G|L].
    + destruct (H4 _ b (CN a G Ha) P) as [Lb E]. split; [lia|]. rewrite E. now rewrite cpp_at_bind.
    + rewrite cpp_at_bind in P by exact L. destruct (wf_parent s W a b L P) as [Lb E]. split; [lia|]. now rewrite !cpp_at_bind.
  - intros q Hq. destruct (Nat.eq_dec q (length (ps_py s))) as [->|N].
    + cbv zeta. rewrite AN, py_at_new. exact H5.
    + cbv zeta. rewrite AD, py_at_bind by lia. rewrite cpp_at_bind by (apply (wf_addr s W); lia). apply (wf_own s W). lia.
  - intros a b Ha I. destruct (le_lt_dec (length (ps_cpp s)) a) as [G|L].
    + apply H6; [now apply CN|exact I].
    + rewrite cpp_at_bind in I by exact L. rewrite !cpp_at_bind by (try exact L; eapply wf_points; eauto). now apply (wf_borrow s W).
  - intros d Hd Ld. destruct (Nat.eq_dec d (length (ps_py s))) as [->|N]; [now left|]. right. apply (wf_durable s W d Hd). lia.
Qed.

Lemma stored_points : forall s args through b, In b (stored s args through) ->
  (exists g, In g args /\ b = addr s g) \/ (exists g, In g through /\ In b (co_points (cpp_at s (addr s g)))).
Proof.
  intros s args through b I. unfold stored in I. apply in_app_or in I. destruct I as [I|I].
  - apply in_map_iff in I. destruct I as (g & <- & Hg). eauto.
  - apply in_flat_map in I. destruct I as (g & Hg & I). eauto.
Qed.

Lemma set_points_length : forall l a b, length (set_points l a b) = length l.
Proof.
  intros l a b. unfold set_points. rewrite !app_length, firstn_length, skipn_length. destruct (nth_error l a) eqn:E.
  - assert (a < length l) by (apply nth_error_Some; congruence). cbn [length]. lia.
  - apply nth_error_None in E. cbn [length]. lia.
Qed.

Lemma set_points_nth : forall l a b c d, a < length l ->
  nth c (set_points l a b) d = if Nat.eqb c a then CObj (co_parent (nth a l d)) (co_root (nth a l d)) (co_points (nth a l d) ++ [b]) else nth c l d.
Proof.
  intros l a b c d Ha. unfold set_points. destruct (nth_error l a) as [o|] eqn:E; [|apply nth_error_None in E; lia].
  pose proof (nth_error_nth _ _ d E) as En. destruct (Nat.eqb_spec c a) as [->|N].
  - rewrite app_nth2; rewrite firstn_length_le by lia; [|lia]. rewrite Nat.sub_diag. cbn. now rewrite En.
  - destruct (le_lt_dec a c) as [G|L].
    + rewrite app_nth2; rewrite firstn_length_le by lia; [|lia]. destruct (c - a) as [|k] eqn:K; [lia|]. cbn [app nth].
      rewrite <- (firstn_skipn (S a) l) at 2. rewrite app_nth2; rewrite firstn_length_le by lia; [|lia]. f_equal. lia.
    + rewrite app_nth1 by (rewrite firstn_length_le; lia). rewrite <- (firstn_skipn a l) at 2. rewrite app_nth1; [reflexivity|]. rewrite firstn_length_le; lia.
Qed.

Lemma step_wf : forall s o, wf s -> (forall h, In h (mentions o) -> In h (ps_names s)) ->
  match o with Inner h k | Outer h k => k < length (co_points (cpp_at s (addr s h))) | _ => True end ->
  (forall p, In p (borrows s o) -> In p D) -> match o with Drop h => ~ In h D | _ => True end -> wf (py_do s o).
Proof.
  intros s o W M K B C.
  assert (LA : forall h, In h (mentions o) -> addr s h < length (ps_cpp s)).
  { intros h Hh. apply (wf_addr s W), (wf_names s W). auto. }
  assert (ST : forall args through b, (forall h, In h args -> In h (mentions o)) -> (forall h, In h through -> In h (mentions o)) ->
    In b (stored s args through) -> b < length (ps_cpp s)).
  { intros args through b Ma Mt I. destruct (stored_points s args through b I) as [(g & Hg & ->)|(g & Hg & I')]; auto.
    eapply (wf_points s W); [|exact I']. auto. }
  destruct o as [args through|h args through|h k|h k|h k|h g|h|h]; cbn [py_do mentions borrows] in *.
  - apply bind_wf; cbn [length po_addr po_keeps]; auto; try lia.
    + intros c [<-|[]]. cbn. lia.
    + intros c b [<-|[]]; cbn. intros I. pose proof (ST args through b) as Q. assert (b < length (ps_cpp s)); [|lia].
      apply Q; auto; intros; apply in_or_app; auto.
    + intros c b [<-|[]]. cbn. discriminate.
    + left. now rewrite cpp_at_new0.
    + intros c b [<-|[]]. cbn [co_points co_root]. intros I. right.
      assert (b < length (ps_cpp s)) by (apply (ST args through b); auto; intros; apply in_or_app; auto).
      rewrite cpp_at_bind by assumption. apply B. destruct (stored_points s args through b I) as [(g & Hg & ->)|(g & Hg & I')]; apply in_or_app.
      * left. apply in_map_iff. exists g. auto.
      * right. apply in_flat_map. exists g. split; [exact Hg|]. apply in_map_iff. eauto.
  - pose proof (LA h ltac:(now left)) as Lh. pose proof (wf_names s W h (M h ltac:(now left))) as Lp.
    assert (ST' : forall b, In b (stored s args through) -> b < length (ps_cpp s)).
    { intros b I. apply (ST args through b); auto; intros; right; apply in_or_app; auto. }
    apply bind_wf; cbn [length po_addr po_keeps]; auto; try lia.
    + intros c [<-|[]]. cbn. pose proof (wf_root s W _ Lh). lia.
    + intros c b [<-|[]]. cbn. intros [<-|I]; [lia|]. apply ST' in I. lia.
    + intros c b [<-|[]]. cbn. intros E. injection E as <-. auto.
    + rewrite cpp_at_new0. cbn [co_root].
      destruct (wf_own s W h Lp) as [E|[E|E]]; right; cbn [In]; [left; left; now symmetry|auto|auto].
    + intros c b [<-|[]]. cbn [co_points co_root]. intros [<-|I].
      * left. now rewrite cpp_at_bind.
      * right. rewrite cpp_at_bind by auto. apply B. destruct (stored_points s args through b I) as [(g & Hg & ->)|(g & Hg & I')]; apply in_or_app.
        -- left. apply in_map_iff. exists g. auto.
        -- right. apply in_flat_map. exists g. split; [exact Hg|]. apply in_map_iff. eauto.
  - pose proof (LA h ltac:(now left)) as Lh. pose proof (B (owner_of s h) ltac:(now left)) as Bh. unfold owner_of in Bh.
    set (child := CObj (Some (addr s h)) (co_root (cpp_at s (addr s h))) [addr s h]).
    assert (CS : forall c, In c (repeat child k ++ [CObj None (length (ps_py s)) (seq (length (ps_cpp s)) k)]) ->
      c = child \/ c = CObj None (length (ps_py s)) (seq (length (ps_cpp s)) k)).
    { intros c I. apply in_app_or in I. destruct I as [I|[<-|[]]]; [left; now apply repeat_spec in I|auto]. }
    apply bind_wf; rewrite ?app_length, ?repeat_length; cbn [length po_addr po_keeps]; auto; try lia.
    + intros c I. destruct (CS c I) as [->| ->]; cbn; [pose proof (wf_root s W _ Lh)|]; lia.
    + intros c b I. destruct (CS c I) as [->| ->]; cbn.
      * intros [<-|[]]. lia.
      * intros J. apply in_seq in J. lia.
    + intros c b I. destruct (CS c I) as [->| ->]; cbn; [|discriminate]. intros E. injection E as <-. auto.
    + left. rewrite cpp_at_new, app_nth2; rewrite repeat_length; [|lia]. now rewrite Nat.sub_diag.
    + intros c b I. destruct (CS c I) as [->| ->]; cbn [co_points co_root child].
      * intros [<-|[]]. left. now rewrite cpp_at_bind.
      * intros J. right. apply in_seq in J. replace b with (length (ps_cpp s) + (b - length (ps_cpp s))) by lia. rewrite cpp_at_new.
        rewrite app_nth1 by (rewrite repeat_length; lia). rewrite (nth_indep _ _ child) by (rewrite repeat_length; lia). rewrite nth_repeat. exact Bh.
  - pose proof (LA h ltac:(now left)) as Lh. pose proof (wf_names s W h (M h ltac:(now left))) as Lp.
    assert (Ib : In (nth k (co_points (cpp_at s (addr s h))) 0) (co_points (cpp_at s (addr s h)))) by (apply nth_In; exact K).
    pose proof (wf_points s W _ _ Lh Ib) as Lb.
    apply bind_wf; [exact W|cbn [length po_addr]; lia|intros c []|intros c b []|intros c b []| |intros c b []]. cbn [po_addr po_keeps].
    rewrite cpp_at_bind by exact Lb. right. destruct (wf_borrow s W _ _ Lh Ib) as [E|E]; [|auto]. rewrite E.
    destruct (wf_own s W h Lp) as [E'|[E'|E']]; cbn; auto.
  - pose proof (LA h ltac:(now left)) as Lh.
    assert (Ib : In (nth k (co_points (cpp_at s (addr s h))) 0) (co_points (cpp_at s (addr s h)))) by (apply nth_In; exact K).
    pose proof (wf_points s W _ _ Lh Ib) as Lb.
    apply bind_wf; [exact W|cbn [length po_addr]; lia|intros c []|intros c b []|intros c b []| |intros c b []]. cbn [po_addr po_keeps].
    rewrite cpp_at_bind by exact Lb. right. right. apply B. now left.
  - pose proof (LA h ltac:(now left)) as Lh. pose proof (LA g ltac:(right; now left)) as Lg. pose proof (B (owner_of s g) ltac:(now left)) as Bg. unfold owner_of in Bg.
    set (s' := PyState (set_points (ps_cpp s) (addr s h) (addr s g)) (ps_py s) (ps_names s)).
    assert (LC : length (ps_cpp s') = length (ps_cpp s)) by apply set_points_length.
    assert (RT : forall a, co_root (cpp_at s' a) = co_root (cpp_at s a)).
    { intros a. unfold cpp_at, s'. cbn. rewrite set_points_nth by exact Lh. destruct (Nat.eqb_spec a (addr s h)) as [->|]; reflexivity. }
    assert (PT : forall a, co_parent (cpp_at s' a) = co_parent (cpp_at s a)).
    { intros a. unfold cpp_at, s'. cbn. rewrite set_points_nth by exact Lh. destruct (Nat.eqb_spec a (addr s h)) as [->|]; reflexivity. }
    assert (PO : forall a b, In b (co_points (cpp_at s' a)) -> In b (co_points (cpp_at s a)) \/ b = addr s g).
    { intros a b. unfold cpp_at, s'. cbn. rewrite set_points_nth by exact Lh. destruct (Nat.eqb_spec a (addr s h)) as [->|]; [|auto]. cbn.
      intros I. apply in_app_or in I. destruct I as [I|[<-|[]]]; auto. }
    constructor; rewrite ?LC.
    + apply (wf_addr s W).
    + apply (wf_names s W).
    + intros a Ha. rewrite RT. now apply (wf_root s W).
    + intros a b Ha I. destruct (PO a b I) as [I'| ->]; [eapply (wf_points s W); eauto|exact Lg].
    + intros a b Ha P. rewrite PT in P. rewrite !RT. now apply (wf_parent s W).
    + intros p Hp. cbv zeta. rewrite RT. apply (wf_own s W p Hp).
    + intros a b Ha I. rewrite !RT. destruct (PO a b I) as [I'| ->]; [now apply (wf_borrow s W)|auto].
    + apply (wf_durable s W).
  - exact W.
  - constructor; cbn [ps_py ps_cpp ps_names]; try (apply W).
    + intros p I. apply in_remove in I. apply (wf_names s W). tauto.
    + intros d Hd Ld. apply in_in_remove; [congruence|]. now apply (wf_durable s W).
Qed.

Lemma run_wf : forall l s, wf s -> well_named s l -> caring D s l -> wf (fold_left py_do l s).
Proof.
  induction l as [|o l IH]; intros s W N C; cbn; [exact W|]. destruct N as (N1 & N2 & N3). destruct C as (C1 & C2 & C3).
  apply IH; auto. apply step_wf; auto.
Qed.

Lemma start_wf : wf py_start.
Proof. constructor; cbn; intros; try lia; try contradiction. Qed.
End Durable.
