(** Lemmas about the dynamics solver: the unknowns, the contacts and the expression of the torques. *)
From Coq Require Import Reals List ZArith Bool String Lra Lia.
From Verif Require Import Base Linalg Geom3 Tools_model Geometry_model Expression_model Expression_spec Expression_proofs Problem_model Problem_spec
  Problem_proofs Problem_proofs2 Problem_props Polynom_model Robot_model Robot_spec KinTasks_model Kin_model Kin_spec Kin_proofs Kin_proofs6
  DynTasks_model Dyn_model Dyn_spec Dyn_proofs.
Import ListNotations.
Open Scope R_scope.

Lemma var_whole v : (k_start v <= k_end v)%nat -> exists e, var_expr v (-1) (-1) = Ok e /\ denotes e (var_size v) (k_end v) (fun x i => x (k_start v + i)%nat).
Proof.
  intros L. rewrite var_expr_default_start. change 0%Z with (Z.of_nat 0). rewrite var_expr_default_rows by lia.
  destruct (var_expr_denotes v 0 (var_size v - 0)) as (e & E & D); [exact L|lia|]. rewrite E. exists e. split; [reflexivity|].
  rewrite Nat.sub_0_r in D. eapply denotes_ext; [|exact D]. intros x i _. cbv beta. f_equal. lia.
Qed.

(** The expressions of the wrenches, the first unknown being [n]. *)
Fixpoint wrenches (n : nat) (fs : list (option (mat * expr))) (Js : list (option mat)) : Prop :=
  match fs, Js with
  | [], [] => True
  | None :: fs', None :: Js' => wrenches n fs' Js'
  | Some (J, f) :: fs', Some J' :: Js' => J' = J /\ denotes f (mrows J) (n + mrows J) (fun x a => x (n + a)%nat) /\ wrenches (n + mrows J) fs' Js'
  | _, _ => False
  end.

Section WithRobot.
Variable pn : pin.
Variable log3 : mat3 -> vec3.
Variable jlog : mat3 -> mat3.

(** ** Tasks *)

Lemma update_tasks_spec N r l : forall es, update_tasks pn log3 jlog N r l = Ok es -> Forall2 (fun t e => dtask_update pn log3 jlog N r t = Ok e) l es.
Proof.
  induction l as [|t l IH]; intros es H; cbn [update_tasks] in H; [injection H as <-; constructor|].
  bind H e E. bind H rest Er. injection H as <-. constructor; auto.
Qed.

Lemma Forall2_nth {A B} (P : A -> B -> Prop) l l' k b : Forall2 P l l' -> nth_error l' k = Some b -> exists a, nth_error l k = Some a /\ P a b.
Proof.
  intros F. revert k. induction F as [|a b' l l' H F IH]; intros k Hk; [now destruct k|]. destruct k as [|k]; cbn in *; [|now apply IH].
  injection Hk as <-. now exists a.
Qed.

Lemma task_matrix_spec s r es k J : update_tasks pn log3 jlog (ds_N s) r (ds_tasks s) = Ok es -> task_matrix es k = Ok J -> matrix_of_task pn log3 jlog s r k J.
Proof.
  intros Hes H. unfold task_matrix in H. destruct (nth_error es k) as [e|] eqn:E; [|discriminate]. injection H as <-.
  apply update_tasks_spec in Hes. destruct (Forall2_nth _ _ _ _ _ Hes E) as (t & Ht & Hu). exists t, e. auto.
Qed.

(** ** Contacts *)

Lemma contact_update_spec s r es c J : update_tasks pn log3 jlog (ds_N s) r (ds_tasks s) = Ok es -> contact_update pn (ds_N s) r es (co_kind c) = Ok J ->
  mcols J = ds_N s -> contact_matrix pn log3 jlog s r c J.
Proof.
  intros Hes H HN. split; [exact HN|]. destruct (co_kind c) as [t u Rs|fp fo u len wid|fp t u len Rs|f k w| |t]; cbn [contact_update] in H.
  - bind H A EA. destruct (Nat.eqb_spec (mrows A) 3) as [E3|]; [|discriminate]. injection H as <-. split; [now apply (task_matrix_spec s r es)|exact E3].
  - bind H P EP. bind H O EO. injection H as <-. apply guard_inv in EP, EO. destruct EP as [_ EP], EO as [_ EO]. injection EP as <-. injection EO as <-.
    split; [reflexivity|]. intros i k Hi Hk. cbn [stack_rows mat_at mrows]. destruct (Nat.ltb_spec i 3); [reflexivity|]. f_equal; lia.
  - bind H P EP. bind H A EA. destruct (Nat.eqb_spec (mrows A) 2) as [E2|]; [|discriminate]. apply guard_inv in H. destruct H as [_ H]. injection H as <-.
    apply guard_inv in EP. destruct EP as [_ EP]. injection EP as <-. cbn [stack_rows mat_at mrows]. split; [cbn; lia|]. exists A.
    split; [now apply (task_matrix_spec s r es)|]. split; [exact E2|]. intros i k Hi Hk. reflexivity.
  - now injection H as <-.
  - injection H as <-. split; reflexivity.
  - now apply (task_matrix_spec s r es).
Qed.

Lemma contact_update_line N r es fp t u len Rs J : contact_update pn N r es (CLine fp t u len Rs) = Ok J -> mrows J = 5%nat.
Proof.
  intros H. cbn [contact_update] in H. bind H P EP. bind H A EA. destruct (Nat.eqb_spec (mrows A) 2) as [E2|]; [|discriminate].
  apply guard_inv in H. destruct H as [_ H]. injection H as <-. apply guard_inv in EP. destruct EP as [_ EP]. injection EP as <-. cbn. lia.
Qed.

Definition raw_matrices (N : nat) (r : robot) (es : list dyn_equation) (l : list contact) (Js : list (option mat)) : Prop :=
  Forall2 (fun c J => match J with Some J => co_active c = true /\ contact_update pn N r es (co_kind c) = Ok J | None => co_active c = false end) l Js.

Lemma place_le Js : forall n i, (n <= place n Js i)%nat.
Proof. induction Js as [|[J|] Js IH]; intros n [|i]; cbn [place]; try lia; [specialize (IH (n + mrows J)%nat i)|specialize (IH n i)]; lia. Qed.

Lemma add_contacts_spec N r es l : forall pb pb' fs cs,
  (forall c f k w, In c l -> co_active c = true -> co_kind c = CExternal f k w -> vlen w = mrows (frame_jacobian pn r f k)) ->
  add_contacts pn N r es pb l = Ok (pb', fs, cs) ->
  exists Js, raw_matrices N r es l Js /\ wrenches (p_n pb) fs Js /\ p_n pb' = unknowns (p_n pb) Js /\
    means (p_n pb') cs
      (fun x => forall i c J, nth_error l i = Some c -> nth_error Js i = Some (Some J) -> contact_valid c (wrench_in (p_n pb) Js x i))
      (fun x => contacts_penalty (p_n pb) l Js x) /\
    p_cons pb' = p_cons pb /\ p_reg pb' = p_reg pb /\ p_sparse pb' = p_sparse pb /\ p_rewrite pb' = p_rewrite pb.
Proof.
  induction l as [|c l IH]; intros pb pb' fs cs Hext H; cbn [add_contacts] in H.
  - injection H as <- <- <-. exists []. split; [constructor|]. split; [exact I|]. split; [reflexivity|]. split; [|auto].
    eapply means_ext; [| |apply means_nil]; [|reflexivity]. intros x. split; [|trivial]. intros _ [|i] c J; discriminate.
  - destruct (co_active c) eqn:Ea.
    + bind H J EJ. destruct (add_variable pb (mrows J)) as [pb1 v] eqn:Ev. bind H f Ef. bind H cs1 Ec. bind H x Ex. destruct x as [[pb2 fs'] rest]. injection H as <- <- <-.
      destruct (IH pb1 pb2 fs' rest) as (Js & R & W & Hn & Me & O1 & O2 & O3 & O4); [intros; eapply Hext; eauto; now right|exact Ex|].
      assert (En : p_n pb1 = (p_n pb + mrows J)%nat) by (unfold add_variable in Ev; injection Ev as <- _; reflexivity).
      assert (Ek : k_start v = p_n pb /\ k_end v = (p_n pb + mrows J)%nat) by (unfold add_variable in Ev; injection Ev as _ <-; split; reflexivity).
      destruct Ek as [Ek1 Ek2]. assert (Es : var_size v = mrows J) by (unfold var_size; lia).
      destruct (var_whole v) as (f' & Ef' & Df); [lia|]. rewrite Ef in Ef'. injection Ef' as <-. rewrite Es, Ek1, Ek2 in Df.
      exists (Some J :: Js). split; [constructor; [split; assumption|exact R]|]. split; [cbn; rewrite <- En; rewrite En at 1; auto|].
      rewrite En in *. split; [exact Hn|]. split.
      * assert (Mc : means (p_n pb + mrows J) cs1 (fun y => contact_valid c (fun a => y (p_n pb + a)%nat)) (fun y => contact_penalty c (mrows J) (fun a => y (p_n pb + a)%nat))).
        { apply (contact_means c f (mrows J) _ (fun y a => y (p_n pb + a)%nat) cs1 Df); [| |exact Ec].
          - intros w (f0 & k & Ek). rewrite Ek in EJ. cbn in EJ. injection EJ as <-. eapply Hext; eauto. now left.
          - intros (fp & t & u & len & Rs & El). rewrite El in EJ. eapply contact_update_line; eauto. }
        apply (means_le _ (p_n pb2)) in Mc; [|rewrite Hn; apply place_le].
        eapply means_ext; [| |exact (means_app _ _ _ _ _ _ _ Mc Me)].
        -- intros x. cbv beta. split.
           ++ intros [H1 H2] [|i] c0 J0 Hc HJ; cbn in Hc, HJ; [injection Hc as <-; exact H1|]. exact (H2 i c0 J0 Hc HJ).
           ++ intros H0. split; [exact (H0 0%nat c J eq_refl eq_refl)|]. intros i c0 J0 Hc HJ. exact (H0 (S i) c0 J0 Hc HJ).
        -- intros x. reflexivity.
      * unfold add_variable in Ev. injection Ev as <- _. cbn in O1, O2, O3, O4. auto.
    + bind H x Ex. destruct x as [[pb2 fs'] rest]. injection H as <- <- <-.
      destruct (IH pb pb2 fs' rest) as (Js & R & W & Hn & Me & O1 & O2 & O3 & O4); [intros; eapply Hext; eauto; now right|exact Ex|].
      exists (None :: Js). split; [constructor; [exact Ea|exact R]|]. split; [exact W|]. split; [exact Hn|]. split; [|auto].
      eapply means_ext; [| |exact Me]; [|intros x; reflexivity]. intros x. cbv beta. split.
      * intros H2 [|i] c0 J0 Hc HJ; cbn in Hc, HJ; [discriminate|]. exact (H2 i c0 J0 Hc HJ).
      * intros H0 i c0 J0 Hc HJ. exact (H0 (S i) c0 J0 Hc HJ).
Qed.

(** ** Torques *)

Lemma motion_torques_spec s r qdd tau N : denotes qdd N N (fun x i => x i) -> dynamics_sized pn r -> m_nv (r_model r) = N -> ds_N s = N ->
  motion_torques pn s r qdd = Ok tau -> exists M, mass_matrix pn r = Ok M /\ mrows M = N /\ mcols M = N /\
    denotes tau N N (fun x k => Rsum N (fun j => mat_at M k j * x j) + damping_of s r k + bias_of pn s r k).
Proof.
  intros D (S1 & S2 & S3) HN Hs H. unfold motion_torques in H. bind H M EM. exists M. split; [reflexivity|].
  assert (RM : mrows M = N /\ mcols M = N).
  { unfold mass_matrix in EM. apply guard_inv in EM. destruct EM as [_ EM]. injection EM as <-. cbn. rewrite <- HN. apply S3. }
  destruct RM as [RM CM]. split; [exact RM|]. split; [exact CM|].
  bind H e1 E1. destruct (m_mul_e_denotes M qdd N N _ D CM) as (e1' & E1' & D1). rewrite E1 in E1'. injection E1' as <-. rewrite RM in D1.
  bind H e2 E2. assert (L2 : vlen (vec_scale (ds_damping s) (st_qd (r_state r))) = N).
  { unfold e_add_v in E2. apply guard_inv in E2. destruct E2 as [E2 _]. apply Nat.eqb_eq in E2. rewrite <- E2. apply (denotes_elim _ _ _ _ D1). }
  destruct (e_add_v_denotes e1 N N _ _ D1 L2) as (e2' & E2' & D2). rewrite E2 in E2'. injection E2' as <-.
  bind H e3 E3. assert (L3 : vlen (if ds_gravity_only s then generalized_gravity pn r else non_linear_effects pn r) = N).
  { unfold e_add_v in E3. apply guard_inv in E3. destruct E3 as [E3 _]. apply Nat.eqb_eq in E3. rewrite <- E3. apply (denotes_elim _ _ _ _ D2). }
  destruct (e_add_v_denotes e2 N N _ _ D2 L3) as (e3' & E3' & D3). rewrite E3 in E3'. injection E3' as <-. unfold bias_of.
  destruct (Nat.ltb 0 (vlen (ds_extra s))).
  - assert (L4 : vlen (ds_extra s) = N).
    { unfold e_add_v in H. apply guard_inv in H. destruct H as [H _]. apply Nat.eqb_eq in H. rewrite <- H. apply (denotes_elim _ _ _ _ D3). }
    destruct (e_add_v_denotes e3 N N _ _ D3 L4) as (e4' & E4' & D4). rewrite H in E4'. injection E4' as <-.
    eapply denotes_ext; [|exact D4]. intros x i _. cbv beta. unfold damping_of. cbn [vec_scale vat]. ring.
  - injection H as <-. eapply denotes_ext; [|exact D3]. intros x i _. cbv beta. unfold damping_of. cbn [vec_scale vat]. ring.
Qed.

Lemma Rsum_window n k m g : (k + m <= n)%nat -> Rsum n (fun j => if Nat.leb k j && Nat.ltb j (k + m) then g (j - k)%nat else 0) = Rsum m g.
Proof.
  intros L. replace n with ((k + m) + (n - (k + m)))%nat by lia. rewrite Rsum_split, Rsum_split.
  rewrite (Rsum_zero_ext k), (Rsum_zero_ext (n - (k + m))).
  - rewrite Rplus_0_l, Rplus_0_r. apply Rsum_ext. intros i Hi. destruct (Nat.leb_spec k (k + i)); [|lia]. destruct (Nat.ltb_spec (k + i) (k + m)); [|lia].
    cbn [andb]. f_equal. lia.
  - intros i Hi. destruct (Nat.ltb_spec (k + m + i) (k + m)); [lia|]. now rewrite andb_false_r.
  - intros i Hi. destruct (Nat.leb_spec k i); [lia|]. reflexivity.
Qed.

Lemma contact_torques_spec N fs : forall Js tau k tau' n g, wrenches k fs Js -> denotes tau N n g ->
  (forall i j, (i < N)%nat -> (k <= j < n)%nat -> mat_at (eA tau) i j = 0) ->
  contact_torques N tau k fs = Ok tau' ->
  denotes tau' N n (fun x i => g x i - contacts_effort k Js x i) /\ (forall J, In (Some J) Js -> mcols J = N).
Proof.
  induction fs as [|[[J f]|] fs IH]; intros Js tau k tau' n g W D Z H; destruct Js as [|[J'|] Js]; cbn [wrenches] in W; try contradiction; cbn [contact_torques] in H.
  - injection H as <-. split; [|intros J []]. eapply denotes_ext; [|exact D]. intros x i _. cbn. ring.
  - destruct W as (-> & Df & W). apply guard_inv in H. destruct H as [G H]. rewrite !andb_true_iff in G. destruct G as (((G1 & G2) & G3) & G4).
    apply Nat.eqb_eq in G1, G3, G4. apply Nat.leb_le in G2. pose proof (denotes_elim _ _ _ _ D) as (R1 & R2 & R3 & R4). rewrite R3 in G2.
    assert (Fz : forall a, (a < mrows J)%nat -> vat (eb f) a = 0).
    { intros a Ha. pose proof (denotes_elim _ _ _ _ Df) as (_ & _ & _ & E). specialize (E (fun _ => 0) a Ha). unfold ev in E.
      rewrite Rsum_zero_ext in E by (intros; ring). lra. }
    match type of H with contact_torques N ?t _ _ = _ => set (t1 := t) in * end.
    assert (D1 : denotes t1 N n (fun x i => g x i - effort_of J (fun a => x (k + a)%nat) i)).
    { apply denotes_intro; [exact R1|exact R2|exact R3|]. intros x i Hi. rewrite <- R4 by exact Hi. unfold ev, t1, cols. cbn [eA eb mcols vat]. fold (cols tau). rewrite R3.
      rewrite (Rsum_zero_ext (mrows J)) by (intros a Ha; rewrite Fz by exact Ha; ring). unfold effort_of.
      rewrite <- (Rsum_window n k (mrows J) (fun a => mat_at J a i * x (k + a)%nat)) by exact G2.
      assert (Rsum n (fun j => (if Nat.leb k j && Nat.ltb j (k + mrows J) then - mat_at J (j - k) i else mat_at (eA tau) i j) * x j) =
        Rsum n (fun j => mat_at (eA tau) i j * x j - (if Nat.leb k j && Nat.ltb j (k + mrows J) then mat_at J (j - k) i * x (k + (j - k))%nat else 0))) as Hs.
      { apply Rsum_ext. intros j Hj. destruct (Nat.leb_spec k j); cbn [andb]; [|ring]. destruct (Nat.ltb_spec j (k + mrows J)); [|ring].
        rewrite (Z i j Hi) by lia. replace (k + (j - k))%nat with j by lia. ring. }
      cbn [mat_at]. rewrite Hs, Rsum_minus. ring. }
    destruct (IH Js t1 (k + mrows J)%nat tau' n _ W D1) as [D' C']; [|exact H|].
    { intros i j Hi Hj. unfold t1. cbn [eA mat_at]. destruct (Nat.leb_spec k j); cbn [andb]; [|lia]. destruct (Nat.ltb_spec j (k + mrows J)); [lia|]. apply Z; [exact Hi|lia]. }
    split.
    + eapply denotes_ext; [|exact D']. intros x i _. cbv beta. cbn [contacts_effort]. ring.
    + intros J0 [E|E]; [injection E as <-; exact G1|auto].
  - destruct (IH Js tau k tau' n g W D Z H) as [D' C']. split; [exact D'|]. intros J0 [E|E]; [discriminate|auto].
Qed.

Lemma resize_spec N n tau tau' g : denotes tau N N g -> resize_torques N n tau = Ok tau' ->
  (N <= n)%nat /\ denotes tau' N n g /\ forall i j, (i < N)%nat -> (N <= j < n)%nat -> mat_at (eA tau') i j = 0.
Proof.
  intros D H. unfold resize_torques in H. apply guard_inv in H. destruct H as [G H]. injection H as <-. pose proof (denotes_elim _ _ _ _ D) as (R1 & R2 & R3 & R4).
  rewrite R3 in *. apply andb_true_iff in G. destruct G as [_ G]. apply Nat.leb_le in G. split; [exact G|]. split.
  - apply denotes_intro; [reflexivity|exact R2|reflexivity|]. intros x i Hi. rewrite <- R4 by exact Hi. unfold ev, cols. cbn [eA eb mcols mat_at]. fold (cols tau). rewrite R3.
    f_equal. rewrite (Rsum_extend N n _ G).
    + apply Rsum_ext. intros j Hj. destruct (Nat.ltb_spec j N); [reflexivity|lia].
    + intros j Hj. destruct (Nat.ltb_spec j N); [lia|ring].
  - intros i j Hi Hj. cbn [eA mat_at]. destruct (Nat.ltb_spec j N); [lia|reflexivity].
Qed.

End WithRobot.
