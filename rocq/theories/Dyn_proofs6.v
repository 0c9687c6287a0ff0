(** Lemmas about the dynamics solver: when a solve must succeed. *)
From Coq Require Import Reals List ZArith Bool String Lra Lia.
From Verif Require Import Base Linalg Geom3 Tools_model Geometry_model Expression_model Expression_spec Expression_proofs Problem_model Problem_spec
  Problem_proofs Problem_proofs2 Problem_proofs3 Problem_props Polynom_model Robot_model Robot_spec KinTasks_model Kin_model Kin_spec Kin_proofs Kin_proofs3 Kin_proofs6
  DynTasks_model Dyn_model Dyn_spec Dyn_proofs Dyn_proofs2 Dyn_proofs3 Dyn_proofs4 Dyn_proofs5.
Import ListNotations.
Open Scope R_scope.

(** ** One constraint *)

Lemma good_equality c w n m f M : made c Equality Hard w n m f -> (0 < n)%nat -> (m <= M)%nat -> good M [c] (map (fun i => coefficients (fun x => f x i)) (seq 0 n)).
Proof. intros H Hn HM. pose proof (made_good c Equality Hard w n m f M H Hn HM) as G. apply G. discriminate. Qed.
Lemma good_inequality c w n m f M : made c Inequality Hard w n m f -> (0 < n)%nat -> (m <= M)%nat -> good M [c] [].
Proof. intros H Hn HM. pose proof (made_good c Inequality Hard w n m f M H Hn HM) as G. apply G. discriminate. Qed.
Lemma good_soft c w n m f M : made c Equality Soft w n m f -> (0 < n)%nat -> (m <= M)%nat -> 0 <= w -> good M [c] [].
Proof. intros H Hn HM Hw. pose proof (made_good c Equality Soft w n m f M H Hn HM) as G. apply G. auto. Qed.
Lemma good_cons n c cs rs : good n [c] [] -> good n cs rs -> good n (c :: cs) rs.
Proof. intros A B. exact (good_app n [c] cs [] rs A B). Qed.

Lemma part_total e n m f i k : denotes e n m f -> (i + k <= n)%nat -> exists e', part e i k = Ok e' /\ denotes e' k m (fun x a => f x (i + a)%nat).
Proof. intros D L. unfold part. exact (slice_denotes e n m f i k D L). Qed.
Lemma le_total a b n m1 m2 f g : denotes a n m1 f -> denotes b n m2 g ->
  exists c, e_le a b = Ok c /\ made c Inequality Hard 1 n (Nat.max m1 m2) (fun x i => g x i - f x i).
Proof.
  intros D1 D2. destruct (sub_means_e a b n m1 m2 f g D1 D2) as (r & Hr & Dr). unfold e_le. rewrite Hr. cbn [obind]. eexists. split; [reflexivity|].
  eapply made_ext; [|apply made_intro, e_opp_denotes; exact Dr]. intros x i _. cbv beta. ring.
Qed.
Lemma between_total e n m f i z k M : denotes e n m f -> (i < n)%nat -> (z < n)%nat -> (m <= M)%nat -> exists cs, between e i z k = Ok cs /\ good M cs [].
Proof.
  intros D Hi Hz HM. unfold between. destruct (part_total e n m f i 1 D) as (a & -> & Da); [lia|]. destruct (part_total e n m f z 1 D) as (b & -> & Db); [lia|].
  cbn [obind]. pose proof (scale_denotes _ _ _ _ k Db) as D1. pose proof (scale_denotes _ _ _ _ (- k) Db) as D2.
  destruct (le_total _ _ _ _ _ _ _ Da D1) as (c1 & E1 & M1). destruct (le_total _ _ _ _ _ _ _ D2 Da) as (c2 & E2 & M2).
  unfold scale_e. rewrite E1, E2. cbn [obind].
  eexists. split; [reflexivity|]. apply good_cons; [|apply good_cons; [|apply good_nil]]; eapply good_inequality; eauto; lia.
Qed.
Lemma penalise_total w o e n m f i k M : o = Ok e -> denotes e n m f -> (0 < k)%nat -> (i + k <= n)%nat -> (m <= M)%nat ->
  exists cs, penalise w o i k = Ok cs /\ good M cs [].
Proof.
  intros -> D Hk L HM. unfold penalise. destruct (Rlt_dec 0 w).
  - cbn [obind]. destruct (part_total e n m f i k D L) as (a & -> & Da). cbn [obind]. destruct (made_eq_d _ _ _ _ 0 Da) as (c & -> & Mc). cbn [obind].
    apply (made_configure _ _ _ _ _ _ _ Soft w) in Mc. eexists. split; [reflexivity|]. eapply good_soft; eauto. lra.
  - eexists. split; [reflexivity|apply good_nil].
Qed.

Section WithRobot.
Variable pn : pin.
Variable log3 : mat3 -> vec3.
Variable jlog : mat3 -> mat3.
Notation dtask_update := (dtask_update pn log3 jlog).

(** ** Contacts *)

Definition wrench_rows (c : contact) (n k : nat) : list ((nat -> R) -> R) :=
  match co_kind c with CExternal _ _ w => map (fun a x => x (n + a)%nat - vat w a) (seq 0 k) | _ => [] end.

Lemma contact_total s r c n k M f : denotes f k (n + k) (fun x a => x (n + a)%nat) -> contact_ready pn log3 jlog s r c -> (n + k <= M)%nat -> (0 < k)%nat ->
  (match co_kind c with CPoint _ _ _ => k = 3%nat | CPlanar _ _ _ _ _ => k = 6%nat | CLine _ _ _ _ _ => k = 5%nat | CExternal _ _ w => vlen w = k | _ => True end) ->
  exists cs, contact_constraints c f = Ok cs /\ good M cs (map coefficients (wrench_rows c n k)).
Proof.
  intros D Rd HM Hk Hs. unfold contact_ready in Rd. unfold contact_constraints, wrench_rows. destruct (co_kind c) as [t u Rs|fp fo u len wid|fp t u len Rs|f' k' w| |t].
  - subst k. destruct (m_mul_e_denotes (mat_of3 (m3_t Rs)) f _ _ _ D eq_refl) as (e & Ee & De). unfold point_constraints.
    assert (U : exists cs, (if u then s0 <- m_mul_e (mat_of3 (m3_t Rs)) f ;; z <- part s0 2 1 ;; c0 <- e_ge_d z 0 ;; c1 <- between s0 0 2 (co_mu c) ;;
                 c2 <- between s0 1 2 (co_mu c) ;; Ok (c0 :: c1 ++ c2) else Ok []) = Ok cs /\ good M cs []).
    { destruct u; [|eexists; split; [reflexivity|apply good_nil]]. rewrite Ee. cbn [obind]. destruct (part_total e _ _ _ 2 1 De) as (z & -> & Dz); [cbn; lia|]. cbn [obind].
      destruct (made_ge_d _ _ _ _ 0 Dz) as (c0 & -> & M0). cbn [obind].
      destruct (between_total e _ _ _ 0 2 (co_mu c) M De) as (c1 & -> & G1); [cbn; lia|cbn; lia|exact HM|]. cbn [obind].
      destruct (between_total e _ _ _ 1 2 (co_mu c) M De) as (c2 & -> & G2); [cbn; lia|cbn; lia|exact HM|]. cbn [obind]. eexists. split; [reflexivity|].
      apply good_cons; [eapply good_inequality; eauto; lia|]. exact (good_app _ _ _ [] [] G1 G2). }
    destruct U as (cs & -> & G). cbn [obind].
    destruct (penalise_total (co_wforces c) (Ok f) f _ _ _ 0 3 M eq_refl D) as (p1 & -> & G1); [lia|lia|exact HM|]. cbn [obind].
    destruct (penalise_total (co_wtangentials c) _ e _ _ _ 0 2 M Ee De) as (p2 & -> & G2); [lia|cbn; lia|exact HM|]. cbn [obind]. eexists. split; [reflexivity|].
    exact (good_app _ _ _ [] [] G (good_app _ _ _ [] [] G1 G2)).
  - subst k. unfold planar_constraints. destruct Rd as (_ & _ & _ & _ & Hu).
    assert (U : exists cs, (if u then if Req_EM_T len 0 then Throw ELogic else if Req_EM_T wid 0 then Throw ELogic else
             z <- part f 2 1 ;; c0 <- e_ge_d z 0 ;; c1 <- between f 4 2 (len / 2) ;; c2 <- between f 3 2 (wid / 2) ;; c3 <- between f 0 2 (co_mu c) ;;
             c4 <- between f 1 2 (co_mu c) ;; Ok (c0 :: c1 ++ c2 ++ c3 ++ c4) else Ok []) = Ok cs /\ good M cs []).
    { destruct u; [|eexists; split; [reflexivity|apply good_nil]]. destruct (Hu eq_refl) as [H1 H2]. destruct (Req_EM_T len 0); [contradiction|].
      destruct (Req_EM_T wid 0); [contradiction|]. destruct (part_total f _ _ _ 2 1 D) as (z & -> & Dz); [lia|]. cbn [obind].
      destruct (made_ge_d _ _ _ _ 0 Dz) as (c0 & -> & M0). cbn [obind].
      destruct (between_total f _ _ _ 4 2 (len / 2) M D) as (c1 & -> & G1); [lia|lia|exact HM|]. cbn [obind].
      destruct (between_total f _ _ _ 3 2 (wid / 2) M D) as (c2 & -> & G2); [lia|lia|exact HM|]. cbn [obind].
      destruct (between_total f _ _ _ 0 2 (co_mu c) M D) as (c3 & -> & G3); [lia|lia|exact HM|]. cbn [obind].
      destruct (between_total f _ _ _ 1 2 (co_mu c) M D) as (c4 & -> & G4); [lia|lia|exact HM|]. cbn [obind]. eexists. split; [reflexivity|].
      apply good_cons; [eapply good_inequality; eauto; lia|]. exact (good_app _ _ _ [] [] G1 (good_app _ _ _ [] [] G2 (good_app _ _ _ [] [] G3 G4))). }
    destruct U as (cs & -> & G). cbn [obind].
    destruct (penalise_total (co_wforces c) (Ok f) f _ _ _ 0 3 M eq_refl D) as (p1 & -> & G1); [lia|lia|exact HM|]. cbn [obind].
    destruct (penalise_total (co_wtangentials c) (Ok f) f _ _ _ 1 2 M eq_refl D) as (p2 & -> & G2); [lia|lia|exact HM|]. cbn [obind].
    destruct (penalise_total (co_wmoments c) (Ok f) f _ _ _ 3 3 M eq_refl D) as (p3 & -> & G3); [lia|lia|exact HM|]. cbn [obind]. eexists. split; [reflexivity|].
    exact (good_app _ _ _ [] [] G (good_app _ _ _ [] [] G1 (good_app _ _ _ [] [] G2 G3))).
  - subst k. destruct Rd as (_ & _ & _ & -> & W1 & W2). unfold line_constraints. cbn [obind]. unfold penalise at 1. destruct (Rlt_dec 0 (co_wforces c)); [lra|].
    unfold penalise at 1. destruct (Rlt_dec 0 (co_wtangentials c)); [lra|]. cbn [obind].
    destruct (penalise_total (co_wmoments c) (Ok f) f _ _ _ 3 2 M eq_refl D) as (p3 & -> & G3); [lia|lia|exact HM|]. cbn [obind app]. eexists. split; [reflexivity|exact G3].
  - unfold external_constraints, e_eq_v, e_eq. destruct (sub_means_ev f w _ _ _ D Hs) as (e & Ee & De). rewrite Ee. cbn [obind].
    eexists. split; [reflexivity|]. pose proof (made_intro e Equality Hard 1 false _ _ _ De) as Mc. rewrite map_map.
    exact (good_equality _ _ _ _ _ M Mc Hk HM).
  - unfold plain_constraints. destruct (Rlt_dec 0 (co_wforces c)); [|eexists; split; [reflexivity|apply good_nil]].
    destruct (made_eq_d _ _ _ _ 0 D) as (c0 & -> & Mc). cbn [obind]. apply (made_configure _ _ _ _ _ _ _ Soft (co_wforces c)) in Mc.
    eexists. split; [reflexivity|]. eapply good_soft; eauto. lra.
  - unfold plain_constraints. destruct (Rlt_dec 0 (co_wforces c)); [|eexists; split; [reflexivity|apply good_nil]].
    destruct (made_eq_d _ _ _ _ 0 D) as (c0 & -> & Mc). cbn [obind]. apply (made_configure _ _ _ _ _ _ _ Soft (co_wforces c)) in Mc.
    eexists. split; [reflexivity|]. eapply good_soft; eauto. lra.
Qed.

Lemma Forall2_nth_l {A B} (P : A -> B -> Prop) l l' k a : Forall2 P l l' -> nth_error l k = Some a -> exists b, nth_error l' k = Some b /\ P a b.
Proof.
  intros F. revert k. induction F as [|a' b l l' H F IH]; intros k Hk; [now destruct k|]. destruct k as [|k]; cbn in *; [|now apply IH].
  injection Hk as <-. now exists b.
Qed.

Lemma task_matrix_total s r es k J : Forall2 (fun t e => dtask_update (ds_N s) r t = Ok e) (ds_tasks s) es -> matrix_of_task pn log3 jlog s r k J -> task_matrix es k = Ok J.
Proof.
  intros F (t & e & Ht & Eu & ->). destruct (Forall2_nth_l _ _ _ _ _ F Ht) as (e' & He & Eu'). rewrite Eu in Eu'. injection Eu' as <-. unfold task_matrix. now rewrite He.
Qed.

Lemma contact_update_total s r es c : dsound pn log3 jlog s r -> (0 < ds_N s)%nat -> Forall2 (fun t e => dtask_update (ds_N s) r t = Ok e) (ds_tasks s) es ->
  contact_ready pn log3 jlog s r c -> exists J, contact_update pn (ds_N s) r es (co_kind c) = Ok J /\ mcols J = ds_N s /\ (0 < mrows J)%nat /\
  (match co_kind c with CPoint _ _ _ => mrows J = 3%nat | CPlanar _ _ _ _ _ => mrows J = 6%nat | CLine _ _ _ _ _ => mrows J = 5%nat
   | CExternal f k _ => mrows J = mrows (frame_jacobian pn r f k) | _ => True end).
Proof.
  intros So HN F Rd. assert (Cs : forall k J, matrix_of_task pn log3 jlog s r k J -> mcols J = ds_N s).
  { intros k J (t & e & Ht & Eu & ->). apply (dn_tasks _ _ _ _ _ So t e). split; [eapply nth_error_In; eauto|exact Eu]. }
  unfold contact_ready in Rd. destruct (co_kind c) as [t u Rs|fp fo u len wid|fp t u len Rs|f' k' w| |t]; cbn [contact_update].
  - destruct Rd as (J & HJ & H3). exists J. rewrite (task_matrix_total s r es t J F HJ). cbn [obind]. rewrite H3. cbn. split; [reflexivity|]. split; [now apply (Cs t)|lia].
  - destruct Rd as (C1 & R1 & C2 & R2 & _). unfold block. rewrite C1, R1, C2, R2. rewrite Nat.leb_refl. cbn [Nat.add Nat.leb andb guard obind].
    replace (Nat.leb (0 + ds_N s) (ds_N s)) with true by (symmetry; apply Nat.leb_le; lia). cbn [andb guard obind].
    eexists. split; [reflexivity|]. cbn [stack_rows mrows mcols]. split; [reflexivity|lia].
  - destruct Rd as (C1 & R1 & (A & HA & H2) & _). unfold block. rewrite C1, R1. cbn [Nat.add Nat.leb andb].
    replace (Nat.leb (0 + ds_N s) (ds_N s)) with true by (symmetry; apply Nat.leb_le; lia). rewrite ?Nat.leb_refl. cbn [andb guard obind].
    rewrite (task_matrix_total s r es t A F HA). cbn [obind]. rewrite H2. cbn [Nat.eqb negb]. rewrite (Cs t A HA), Nat.eqb_refl. cbn [guard].
    eexists. split; [reflexivity|]. cbn [stack_rows mrows mcols]. rewrite H2. split; [reflexivity|lia].
  - destruct Rd as [C1 R1]. eexists. split; [reflexivity|]. auto.
  - eexists. split; [reflexivity|]. cbn. auto.
  - destruct Rd as (J & HJ & H3). exists J. rewrite (task_matrix_total s r es t J F HJ). split; [reflexivity|]. split; [now apply (Cs t)|auto].
Qed.

Lemma add_contacts_total s r es : dsound pn log3 jlog s r -> (0 < ds_N s)%nat -> Forall2 (fun t e => dtask_update (ds_N s) r t = Ok e) (ds_tasks s) es ->
  forall l pb, (forall c, In c l -> In c (ds_contacts s)) -> (forall c, In c l -> co_active c = true -> contact_ready pn log3 jlog s r c) ->
  tiles 0 (p_vars pb) (p_n pb) ->
  exists pb' fs cs Js, add_contacts pn (ds_N s) r es pb l = Ok (pb', fs, cs) /\ raw_matrices pn (ds_N s) r es l Js /\ tiles 0 (p_vars pb') (p_n pb') /\
    (p_n pb <= p_n pb')%nat /\ good (p_n pb') cs (map coefficients (wrench_equalities (p_n pb) l Js)) /\ (forall J, In (Some J) Js -> mcols J = ds_N s).
Proof.
  intros So HN F. induction l as [|c l IH]; intros pb Hin Rd T; cbn [add_contacts].
  - exists pb, [], [], []. split; [reflexivity|]. split; [constructor|]. split; [exact T|]. split; [lia|]. split; [apply good_nil|intros J []].
  - destruct (co_active c) eqn:Ea.
    + destruct (contact_update_total s r es c So HN F (Rd c (or_introl eq_refl) Ea)) as (J & EJ & CJ & RJ & KJ). rewrite EJ. cbn [obind].
      destruct (add_variable pb (mrows J)) as [pb1 v] eqn:Ev.
      assert (En : p_n pb1 = (p_n pb + mrows J)%nat) by (unfold add_variable in Ev; injection Ev as <- _; reflexivity).
      assert (Ek : k_start v = p_n pb /\ k_end v = (p_n pb + mrows J)%nat) by (unfold add_variable in Ev; injection Ev as _ <-; split; reflexivity).
      destruct Ek as [Ek1 Ek2]. assert (Es : var_size v = mrows J) by (unfold var_size; lia).
      destruct (var_whole v) as (f & -> & Df); [lia|]. cbn [obind]. rewrite Es, Ek1, Ek2 in Df.
      assert (T1 : tiles 0 (p_vars pb1) (p_n pb1)) by (unfold add_variable in Ev; injection Ev as <- _; cbn; now apply tiles_app).
      destruct (IH pb1) as (pb' & fs & cs & Js & E & Rw & T' & L & G & C); [intros; apply Hin; now right|intros; apply Rd; auto; now right|exact T1|].
      destruct (contact_total s r c (p_n pb) (mrows J) (p_n pb') f Df (Rd c (or_introl eq_refl) Ea)) as (c1 & Ec & Gc); [lia|exact RJ| |].
      { destruct (co_kind c) as [t u Rs|fp fo u len wid|fp t u len Rs|f' k' w| |t] eqn:Ekd; auto. rewrite KJ. eapply (dn_external _ _ _ _ _ So); eauto. apply Hin. now left. }
      rewrite Ec. cbn [obind]. rewrite E. cbn [obind]. exists pb', (Some (J, f) :: fs), (c1 ++ cs), (Some J :: Js). split; [reflexivity|].
      split; [constructor; [split; assumption|exact Rw]|]. split; [exact T'|]. split; [lia|]. split.
      * cbn [wrench_equalities]. rewrite map_app. rewrite <- En. apply good_app; [exact Gc|exact G].
      * intros J' [EJ'|HJ']; [injection EJ' as <-; exact CJ|now apply C].
    + destruct (IH pb) as (pb' & fs & cs & Js & E & Rw & T' & L & G & C); [intros; apply Hin; now right|intros; apply Rd; auto; now right|exact T|].
      rewrite E. cbn [obind]. exists pb', (None :: fs), cs, (None :: Js). split; [reflexivity|]. split; [constructor; [exact Ea|exact Rw]|]. split; [exact T'|].
      split; [exact L|]. split; [exact G|]. intros J' [EJ'|HJ']; [discriminate|now apply C].
Qed.

End WithRobot.
