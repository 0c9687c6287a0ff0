(** Lemmas about the dynamics solver: the problem can be built, and solved when it has a solution. *)
From Coq Require Import Reals List ZArith Bool String Lra Lia.
From Verif Require Import Base Linalg Geom3 Tools_model Geometry_model Expression_model Expression_spec Expression_proofs Problem_model Problem_spec
  Problem_proofs Problem_proofs2 Problem_proofs3 Problem_props Polynom_model Robot_model Robot_spec KinTasks_model Kin_model Kin_spec Kin_proofs Kin_proofs3 Kin_proofs6
  DynTasks_model Dyn_model Dyn_spec Dyn_proofs Dyn_proofs2 Dyn_proofs3 Dyn_proofs4 Dyn_proofs5 Dyn_proofs6.
Import ListNotations.
Open Scope R_scope.

Lemma guard_true {A} b (o : outcome A) : b = true -> guard b o = o.
Proof. now intros ->. Qed.

Lemma override_total l : forall v, (forall d x, In (d, x) l -> (d < vlen v)%nat) -> exists v', override v l = Ok v' /\ vlen v' = vlen v.
Proof.
  induction l as [|[k x] l IH]; intros v H; cbn [override]; [exists v; auto|]. unfold vec_set. rewrite guard_true by (apply Nat.ltb_lt, (H k x); now left). cbn [obind].
  destruct (IH (Vec (vlen v) (fun k0 => if Nat.eqb k0 k then x else vat v k0))) as (v' & E & L); [intros d y Hd; apply (H d y); now right|]. exists v'. auto.
Qed.

Lemma vec_get_total v i : (i < vlen v)%nat -> vec_get v i = Ok (vat v i).
Proof. intros H. unfold vec_get. apply guard_true. now apply Nat.ltb_lt. Qed.

Section WithRobot.
Variable pn : pin.
Variable log3 : mat3 -> vec3.
Variable jlog : mat3 -> mat3.
Notation dtask_update := (dtask_update pn log3 jlog).

Lemma raw_unique N r es l : forall Js Js', raw_matrices pn N r es l Js -> raw_matrices pn N r es l Js' -> Js = Js'.
Proof.
  unfold raw_matrices. intros Js Js' H. revert Js'. induction H as [|c J l Js Hc F IH]; intros Js' H'; inversion H' as [|? J' ? ? Hc' F']; subst; [reflexivity|].
  rewrite (IH _ F'). f_equal. destruct J as [J|], J' as [J'|]; auto.
  - destruct Hc, Hc'. congruence.
  - destruct Hc. congruence.
  - destruct Hc'. congruence.
Qed.

(** ** Torques *)

Lemma motion_torques_total s r qdd : denotes qdd (ds_N s) (ds_N s) (fun x i => x i) -> dsound pn log3 jlog s r ->
  (vlen (ds_extra s) = 0%nat \/ vlen (ds_extra s) = ds_N s) -> exists tau, motion_torques pn s r qdd = Ok tau.
Proof.
  intros D So Hx. destruct So as [HN (Wm & _ & Wv & _) (S1 & S2 & S3) _ _ _ _]. destruct Wm as (_ & _ & _ & _ & _ & _ & _ & _ & Wr & Wg).
  unfold motion_torques, mass_matrix. destruct (S3 (st_q (r_state r))) as [E1 E2]. rewrite E1, E2, Wr, Wg. rewrite Nat.eqb_refl, Nat.leb_refl. cbn [andb guard obind].
  match goal with |- context [m_mul_e ?m qdd] => destruct (m_mul_e_denotes m qdd _ _ _ D) as (e1 & -> & D1); [cbn; congruence|] end. cbn [obind mrows] in *.
  match goal with |- context [e_add_v e1 ?v] => destruct (e_add_v_denotes e1 _ _ _ v D1) as (e2 & -> & D2); [cbn; congruence|] end. cbn [obind].
  match goal with |- context [e_add_v e2 ?v] => destruct (e_add_v_denotes e2 _ _ _ v D2) as (e3 & -> & D3); [destruct (ds_gravity_only s); [apply S1|apply S2]|] end. cbn [obind].
  destruct (Nat.ltb_spec 0 (vlen (ds_extra s))) as [L|L]; [|eauto].
  match goal with |- context [e_add_v e3 ?v] => destruct (e_add_v_denotes e3 _ _ _ v D3) as (e4 & -> & D4) end; [|eauto]. destruct Hx; [lia|congruence].
Qed.

Lemma contact_torques_total N fs : forall Js tau k n g, wrenches k fs Js -> denotes tau N n g -> (forall J, In (Some J) Js -> mcols J = N) ->
  (place k Js (List.length Js) <= n)%nat -> exists tau', contact_torques N tau k fs = Ok tau'.
Proof.
  induction fs as [|[[J f]|] fs IH]; intros Js tau k n g W D C L; destruct Js as [|[J'|] Js]; cbn [wrenches] in W; try contradiction; cbn [contact_torques]; [eauto| |].
  - destruct W as (-> & Df & W). cbn [List.length place] in L. pose proof (denotes_elim _ _ _ _ D) as (R1 & R2 & R3 & R4). pose proof (denotes_elim _ _ _ _ Df) as (F1 & F2 & _).
    pose proof (place_le Js (k + mrows J) (List.length Js)) as L2.
    rewrite guard_true.
    + eapply IH; [exact W| |intros; apply C; now right|exact L]. apply denotes_intro; cbn [eA eb mrows mcols]; [exact R1|exact R2|exact R3|]. intros x i Hi. reflexivity.
    + rewrite (C J (or_introl eq_refl)), R2, F2, R3, !Nat.eqb_refl, !andb_true_r. cbn [andb]. apply Nat.leb_le. lia.
  - cbn [List.length place] in L. eapply IH; eauto. intros; apply C; now right.
Qed.

(** ** Limits *)

Lemma torque_limits_total s r tau n f : denotes tau (ds_N s) n f -> dsound pn log3 jlog s r -> (6 < ds_N s)%nat ->
  (forall d x, In (d, x) (ds_overridden s) -> (d < ds_N s)%nat) -> exists cs, torque_limit_constraints s r tau = Ok cs /\ good n cs [].
Proof.
  intros D So H6 Ho. unfold torque_limit_constraints. destruct (ds_torque_limits s); [|eexists; split; [reflexivity|apply good_nil]].
  destruct So as [HN (Wm & _) _ _ _ _ _]. assert (Le : vlen (m_effort (r_model r)) = ds_N s) by (destruct Wm as (_ & _ & _ & _ & _ & _ & _ & W & _); congruence).
  destruct (override_total (ds_overridden s) (m_effort (r_model r))) as (v & -> & Lv); [rewrite Le; exact Ho|]. cbn [obind].
  rewrite guard_true by (apply Nat.leb_le; lia). change 6%Z with (Z.of_nat 6). rewrite (slice_neg tau _ _ _ 6 (-1) D) by lia.
  destruct (slice_denotes tau _ _ _ 6 (ds_N s - 6) D) as (e & -> & De); [lia|]. cbn [obind]. unfold bottom_rows. rewrite guard_true by (apply Nat.leb_le; lia). cbn [obind].
  match goal with |- context [e_le_v e ?v] => set (l := v) end. destruct (made_le_v e _ _ _ l De eq_refl) as (c1 & -> & M1). cbn [obind].
  unfold e_ge_v, e_ge. destruct (sub_means_ev e (vec_scale (-1) l) _ _ _ De eq_refl) as (y & -> & Dy). cbn [obind]. eexists. split; [reflexivity|].
  apply good_cons; [eapply good_inequality; eauto; lia|]. apply good_cons; [|apply good_nil]. eapply good_inequality; [apply made_intro; exact Dy|lia|lia].
Qed.

Lemma joint_rows_total s r tau n f k : denotes tau (ds_N s) n f -> dsound pn log3 jlog s r -> (k + 6 < ds_N s)%nat -> (S (ds_N s) <= m_nq (r_model r))%nat ->
  exists rs, joint_limit_rows s r tau k = Ok rs /\ (ds_joint_limits s || ds_velocity_limits s || ds_vs_torque s = true -> (0 < List.length rs)%nat).
Proof.
  intros D So Hk Hq. destruct So as [HN (Wm & Wq & Wv & _) _ _ _ _ _]. destruct Wm as (_ & _ & _ & _ & Wl & Wu & Wve & We & _).
  pose proof (denotes_elim _ _ _ _ D) as (R1 & R2 & _). unfold joint_limit_rows. rewrite !vec_get_total by lia. cbn [obind].
  match goal with |- context [obind ?o (fun vel => obind _ _)] => match o with (if ds_vs_torque s then _ else _) =>
    assert (V : exists vel, o = Ok vel /\ (ds_velocity_limits s || ds_vs_torque s = true -> (0 < List.length vel)%nat)) end end.
  { destruct (ds_vs_torque s).
    - cbn [obind]. rewrite guard_true by (rewrite R1, R2; apply andb_true_iff; split; apply Nat.ltb_lt; lia). eexists. split; [reflexivity|]. cbn. lia.
    - destruct (ds_velocity_limits s); eexists; (split; [reflexivity|]); cbn; [lia|discriminate]. }
  destruct V as (vel & -> & Hv). cbn [obind]. destruct (ds_joint_limits s); cbn [obind].
  - eexists. split; [reflexivity|]. intros _. rewrite app_length. cbn [List.length]. lia.
  - eexists. split; [reflexivity|]. cbn [orb]. rewrite app_nil_r. exact Hv.
Qed.

Lemma joints_rows_total s r tau n f : denotes tau (ds_N s) n f -> dsound pn log3 jlog s r -> (S (ds_N s) <= m_nq (r_model r))%nat ->
  forall l, (forall k, In k l -> (k + 6 < ds_N s)%nat) -> exists rs, joints_limit_rows s r tau l = Ok rs /\
    (ds_joint_limits s || ds_velocity_limits s || ds_vs_torque s = true -> l <> [] -> (0 < List.length rs)%nat).
Proof.
  intros D So Hq. induction l as [|k l IH]; intros Hl; cbn [joints_limit_rows]; [eexists; split; [reflexivity|]; congruence|].
  destruct (joint_rows_total s r tau n f k D So (Hl k (or_introl eq_refl)) Hq) as (a & -> & La). cbn [obind].
  destruct IH as (b & -> & _); [intros; apply Hl; now right|]. cbn [obind]. eexists. split; [reflexivity|]. intros Hs _. rewrite app_length. specialize (La Hs). lia.
Qed.

Lemma limits_total s r tau n f : denotes tau (ds_N s) n f -> dready pn log3 jlog s r -> exists cs, dlimit_constraints s r n tau = Ok cs /\ good n cs [].
Proof.
  intros D Rd. destruct Rd as [So [H6 Hq] _ Hdt Ho _ _ _ _]. unfold dlimit_constraints.
  destruct (torque_limits_total s r tau n f D So H6 Ho) as (c1 & Ec & G1). rewrite Ec.
  destruct (ds_joint_limits s || ds_velocity_limits s || ds_vs_torque s) eqn:Es.
  - specialize (Hdt eq_refl). destruct (Req_EM_T (ds_dt s) 0); [contradiction|]. cbn [andb obind]. rewrite guard_true by (apply Nat.leb_le; lia).
    destruct (Nat.eqb_spec (ds_N s) 6); [lia|].
    destruct (joints_rows_total s r tau n f D So Hq (seq 0 (ds_N s - 6))) as (rs & -> & Lr); [intros k Hk; apply in_seq in Hk; lia|]. cbn [obind].
    assert (Lp : (0 < List.length rs)%nat) by (apply Lr; [exact Es|]; destruct (ds_N s - 6)%nat eqn:E; [lia|discriminate]).
    match goal with |- context [e_le_d ?e 0] => set (y := e) end.
    assert (De : denotes y (List.length rs) n (fun x i => Rsum n (fun j => fst (nth i rs ((fun _ => 0), 0)) j * x j) + snd (nth i rs ((fun _ => 0), 0)))).
    { apply denotes_intro; reflexivity. }
    destruct (made_le_d y _ _ _ 0 De) as (c & -> & M). cbn [obind]. eexists. split; [reflexivity|]. apply (good_app n c1 [c] [] [] G1). eapply good_inequality; eauto.
  - cbn [andb obind]. eexists. split; [reflexivity|exact G1].
Qed.

(** ** Tasks and constraints *)

Lemma dtask_total N n tau f t e : denotes tau N n f -> (N <= n)%nat -> dshaped N e -> dt_priority t <> PScaled -> (dt_priority t = PSoft -> 0 <= dt_weight t) ->
  exists cs, dtask_constraint tau t e = Ok cs /\
    good n cs (map coefficients (match dt_priority t with PHard => map (fun k x => dresidual t e x (f x) k) (seq 0 (mrows (de_A e))) | _ => [] end)).
Proof.
  intros D Hn [Sc Sb] Hp Hw. unfold dtask_constraint. destruct (Nat.eqb_spec (mrows (de_A e)) 0) as [E0|E0].
  { eexists. split; [reflexivity|]. rewrite E0. destruct (dt_priority t); apply good_nil. }
  assert (Y : exists y m, (if about_tau (dt_kind t) then y <- m_mul_e (de_A e) tau ;; b <- vec_sub (eb y) (de_b e) ;; Ok (Expr (eA y) b)
          else Ok (Expr (de_A e) (vec_scale (-1) (de_b e)))) = Ok y /\ denotes y (mrows (de_A e)) m (fun x k => dresidual t e x (f x) k) /\ (m <= n)%nat).
  { unfold dresidual. destruct (about_tau (dt_kind t)).
    - destruct (m_mul_e_denotes (de_A e) tau N n f D Sc) as (z & -> & Dz). cbn [obind]. pose proof (denotes_elim _ _ _ _ Dz) as (Z1 & Z2 & Z3 & Z4).
      unfold vec_sub. rewrite guard_true by (apply Nat.eqb_eq; congruence). cbn [obind]. eexists _, n. split; [reflexivity|]. split; [|lia]. rewrite Sc.
      apply denotes_intro; [exact Z1|exact Z2|exact Z3|]. intros x i Hi. unfold ev, cols. cbn [eA eb mcols vat]. fold (cols z). rewrite <- Z4 by exact Hi. unfold ev. ring.
    - eexists _, N. split; [reflexivity|]. split; [|exact Hn]. rewrite Sc. apply denotes_intro; [reflexivity|exact Sb|exact Sc|].
      intros x i Hi. unfold ev, cols. cbn [eA eb vat vec_scale]. rewrite Sc. ring. }
  destruct Y as (y & m & Ey & Dy & Hm). destruct (made_eq_d y _ _ _ 0 Dy) as (c & Ec & Mc).
  destruct (dt_priority t); [| |contradiction]; cbn [obind]; rewrite Ey; cbn [obind]; rewrite Ec; cbn [obind]; eexists; (split; [reflexivity|]).
  - apply (made_configure _ _ _ _ _ _ _ Hard (dt_weight t)) in Mc. rewrite map_map. eapply good_rows; [|eapply good_equality; [exact Mc|lia|exact Hm]].
    apply same_rows_map. intros i _ j. unfold coefficients. ring.
  - apply (made_configure _ _ _ _ _ _ _ Soft (dt_weight t)) in Mc. eapply good_soft; [exact Mc|lia|exact Hm|auto].
Qed.

Lemma dtasks_total s r n tau f : denotes tau (ds_N s) n f -> (ds_N s <= n)%nat -> forall l es,
  (forall t e, In t l -> dtask_update (ds_N s) r t = Ok e -> dshaped (ds_N s) e) ->
  (forall t, In t l -> dt_priority t <> PScaled /\ (dt_priority t = PSoft -> 0 <= dt_weight t)) ->
  Forall2 (fun t e => dtask_update (ds_N s) r t = Ok e) l es -> exists cs, dtask_constraints tau (combine l es) = Ok cs /\
    good n cs (map coefficients (flat_map (task_equalities pn log3 jlog s r f) l)).
Proof.
  intros D Hn l es Hs Hp F. induction F as [|t e l es Hte F IH]; cbn [combine dtask_constraints]; [eexists; split; [reflexivity|apply good_nil]|].
  destruct (Hp t (or_introl eq_refl)) as [P1 P2].
  destruct (dtask_total (ds_N s) n tau f t e D Hn (Hs t e (or_introl eq_refl) Hte) P1 P2) as (c1 & -> & G1). cbn [obind].
  destruct IH as (rest & -> & G2); [intros; eapply Hs; eauto; now right|intros; apply Hp; now right|]. cbn [obind]. eexists. split; [reflexivity|].
  cbn [flat_map]. rewrite map_app. apply good_app; [|exact G2]. unfold task_equalities. rewrite Hte. destruct (dt_priority t); exact G1.
Qed.

Lemma dconstraints_total n s r tau : forall l,
  (forall c, In c l -> exists cs, dconstraint_add pn s r tau c = Ok cs /\ forall c', In c' cs -> (0 < rows (c_expr c'))%nat /\ vlen (eb (c_expr c')) = rows (c_expr c') /\
     (cols (c_expr c') <= n)%nat /\ (c_prio c' = Soft -> 0 <= c_weight c' /\ (c_type c' = Inequality -> 0 < c_weight c'))) ->
  exists cs, dconstraints_add pn s r tau l = Ok cs /\
    good n cs (flat_map (fun c => match dconstraint_add pn s r tau c with Ok cs => flat_map equality_rows cs | _ => [] end) l).
Proof.
  induction l as [|c l IH]; intros H; cbn [dconstraints_add]; [eexists; split; [reflexivity|apply good_nil]|].
  destruct (H c (or_introl eq_refl)) as (c1 & E1 & H1). rewrite E1. cbn [obind]. destruct IH as (rest & -> & G2); [intros; apply H; now right|]. cbn [obind].
  eexists. split; [reflexivity|]. cbn [flat_map]. rewrite E1. apply good_app; [|exact G2]. split; [exact H1|apply same_rows_refl].
Qed.

Lemma update_tasks_total N r : forall l, (forall t, In t l -> exists e, dtask_update N r t = Ok e) -> exists es, update_tasks pn log3 jlog N r l = Ok es.
Proof.
  induction l as [|t l IH]; intros H; cbn [update_tasks]; [eauto|]. destruct (H t (or_introl eq_refl)) as (e & ->). cbn [obind].
  destruct IH as (es & ->); [intros; apply H; now right|]. cbn [obind]. eauto.
Qed.

(** ** The whole problem *)

Lemma dready_built s r : dready pn log3 jlog s r -> exists b M Js, dbuild pn log3 jlog s r = Ok b /\ dform pn log3 jlog s r b M Js /\
  tiles 0 (p_vars (db_problem b)) (p_n (db_problem b)) /\ good (p_n (db_problem b)) (p_cons (db_problem b)) (equality_coefficients pn log3 jlog s r M Js (db_tau b)) /\
  p_rewrite (db_problem b) = p_rewrite (ds_problem s).
Proof.
  intros Rd. pose proof Rd as [So [H6 Hq] Hx Hdt Ho Hcost Ht Hc Hk]. pose proof So as [HN Wr Dy Hts He Hcs Hov].
  assert (B : exists b, dbuild pn log3 jlog s r = Ok b /\
    tiles 0 (p_vars (db_problem b)) (p_n (db_problem b)) /\ p_rewrite (db_problem b) = p_rewrite (ds_problem s) /\
    (forall M Js, dform pn log3 jlog s r b M Js -> good (p_n (db_problem b)) (p_cons (db_problem b)) (equality_coefficients pn log3 jlog s r M Js (db_tau b)))).
  { unfold dbuild. cbn [add_variable clear_variables clear_constraints set_vars set_cons p_n p_vars p_cons app Nat.add].
    set (v := MkVar 0 (m_nv (r_model r)) (Vec 0 (fun _ => 0)) 0).
    match goal with |- context [add_contacts _ _ _ _ ?p _] => set (pb0 := p) end. set (N := ds_N s) in *.
    destruct (var_whole v) as (qdd & Eq & Dq); [cbn; lia|]. rewrite Eq. cbn [obind].
    assert (Vs : var_size v = N) by (unfold var_size; cbn; unfold N; lia). rewrite Vs in Dq. assert (Ve : k_end v = N) by (cbn; unfold N; lia). rewrite Ve in Dq.
    change (fun (x : nat -> R) (i : nat) => x (k_start v + i)%nat) with (fun (x : nat -> R) (i : nat) => x i) in Dq.
    assert (C0 : exists cs0, (if ds_masked_fbase s then e <- var_expr v 0 6 ;; c <- e_eq_d e 0 ;; Ok [c] else Ok []) = Ok cs0 /\
      good N cs0 (map coefficients (if ds_masked_fbase s then map (fun j x => x j) (seq 0 6) else []))).
    { destruct (ds_masked_fbase s); [|eexists; split; [reflexivity|apply good_nil]].
      destruct (var_expr_denotes v 0 6) as (e0 & Ee0 & De0); [cbn; lia|rewrite Vs; cbn; lia|]. change (var_expr v (Z.of_nat 0) (Z.of_nat 6)) with (var_expr v 0 6) in Ee0.
      rewrite Ee0. cbn [obind]. destruct (made_eq_d _ _ _ _ 0 De0) as (c & -> & Mc). cbn [obind]. eexists. split; [reflexivity|]. rewrite map_map.
      eapply good_rows; [|eapply good_equality; [exact Mc|lia|rewrite Ve; lia]]. apply same_rows_map. intros i _ j. unfold coefficients. cbn [k_start v Nat.add]. ring. }
    destruct C0 as (cs0 & -> & G0). cbn [obind].
    destruct (update_tasks_total N r (ds_tasks s)) as (es & Ees); [intros t H; now apply Ht|]. rewrite Ees. cbn [obind]. pose proof (update_tasks_spec pn log3 jlog N r _ _ Ees) as Fes.
    destruct (motion_torques_total s r qdd Dq So Hx) as (tau0 & Et0). rewrite Et0. cbn [obind].
    destruct (motion_torques_spec pn s r qdd tau0 N Dq Dy (eq_sym HN) eq_refl Et0) as (M0 & EM0 & RM0 & CM0 & D0).
    assert (N0 : p_n pb0 = N) by (cbn; unfold N; lia).
    destruct (add_contacts_total pn log3 jlog s r es So ltac:(lia) Fes (ds_contacts s) pb0) as (pb & fs & cs1 & Js0 & Ex & Rw0 & T & L & G1 & C1);
      [auto|exact Hc|cbn; lia|]. fold N in Ex. rewrite Ex. cbn [obind].
    destruct (add_contacts_spec pn N r es (ds_contacts s) pb0 pb fs cs1 He Ex) as (Js & Rw & W & Hn & M1 & O1 & O2 & O3 & O4).
    assert (Js = Js0) by exact (raw_unique _ _ _ _ _ _ Rw Rw0).
    subst Js0. rewrite N0 in *.
    assert (Er : exists tau1, resize_torques N (p_n pb) tau0 = Ok tau1).
    { unfold resize_torques. pose proof (denotes_elim _ _ _ _ D0) as (R1 & R2 & R3 & _). rewrite R1, R3. rewrite guard_true; [eauto|].
      apply andb_true_iff. split; apply Nat.leb_le; lia. }
    destruct Er as (tau1 & Et1). rewrite Et1. cbn [obind]. destruct (resize_spec N (p_n pb) tau0 tau1 _ D0 Et1) as (Hle & D1 & Z1).
    destruct (contact_torques_total N fs Js tau1 N (p_n pb) _ W D1 C1) as (tau & Et); [rewrite Hn; apply Nat.le_refl|]. rewrite Et. cbn [obind].
    destruct (contact_torques_spec N fs Js tau1 N tau (p_n pb) _ W D1 Z1 Et) as (D2 & Cj).
    change (fun x i => Rsum N (fun j => mat_at M0 i j * x j) + damping_of s r i + bias_of pn s r i - contacts_effort N Js x i) with (torques_of pn s r M0 Js) in D2.
    destruct (limits_total s r tau (p_n pb) _ D2 Rd) as (cs2 & -> & G2). cbn [obind].
    destruct (dtasks_total s r (p_n pb) tau _ D2 Hle (ds_tasks s) es) as (cs3 & -> & G3); [intros t e H1 H2; apply (Hts t e); split; assumption|intros t H; now apply Ht|exact Fes|]. cbn [obind].
    destruct (dconstraints_total (p_n pb) s r tau (ds_cons s)) as (cs4 & -> & G4).
    { intros c H. destruct (Hk c tau H) as (cs & E & K); [apply (denotes_elim _ _ _ _ D2)|]. exists cs. split; [exact E|]. intros c' Hc'.
      destruct (Hcs c tau cs c' H E Hc') as (K1 & K2 & _). destruct (K c' Hc') as [K3 K4]. replace (cols tau) with (p_n pb) in K2 by (symmetry; apply (denotes_elim _ _ _ _ D2)).
      split; [exact K3|]. split; [exact K1|]. split; [fold N in K2; lia|exact K4]. }
    cbn [obind].
    assert (C5 : exists cs5, (if ds_masked_fbase s then Ok [] else e <- slice tau 0 6 ;; c <- e_eq_d e 0 ;; Ok [c]) = Ok cs5 /\
      good (p_n pb) cs5 (map coefficients (if ds_masked_fbase s then [] else map (fun j x => torques_of pn s r M0 Js x j) (seq 0 6)))).
    { destruct (ds_masked_fbase s); [eexists; split; [reflexivity|apply good_nil]|].
      destruct (part_total tau _ _ _ 0 6 D2) as (e5 & Ee5 & De5); [lia|]. unfold part in Ee5. change (slice tau (Z.of_nat 0) (Z.of_nat 6)) with (slice tau 0 6) in Ee5.
      rewrite Ee5. cbn [obind]. destruct (made_eq_d _ _ _ _ 0 De5) as (c & -> & Mc). cbn [obind]. eexists. split; [reflexivity|]. rewrite map_map.
      eapply good_rows; [|eapply good_equality; [exact Mc|lia|lia]]. apply same_rows_map. intros i _ j. unfold coefficients. cbn [Nat.add]. ring. }
    destruct C5 as (cs5 & -> & G5). cbn [obind].
    change 6%Z with (Z.of_nat 6). rewrite (slice_neg tau _ _ _ 6 (-1) D2) by lia. destruct (slice_denotes tau _ _ _ 6 (N - 6) D2) as (e & -> & De); [lia|]. cbn [obind].
    destruct (made_eq_d _ _ _ _ 0 De) as (c6 & -> & M6). cbn [obind]. apply (made_configure _ _ _ _ _ _ _ Soft (ds_torque_cost s)) in M6.
    set (all := cs0 ++ cs1 ++ cs2 ++ cs3 ++ cs4 ++ cs5 ++ [configure_prio c6 Soft (ds_torque_cost s)]).
    destruct (add_constraints_spec all pb) as (A1 & A2 & A3 & A4 & A5 & A6).
    eexists. split; [reflexivity|]. cbn [db_problem db_tau]. split; [rewrite A1, A2; exact T|]. split; [rewrite A6, O4; reflexivity|].
    intros M Js' F. assert (M = M0) by (pose proof (df_mass _ _ _ _ _ _ _ _ F); congruence). subst M.
    assert (Js' = Js).
    { pose proof (df_wrenches _ _ _ _ _ _ _ _ F) as W'. cbn [db_contacts] in W'. fold N in W'. clear - W W'. revert Js Js' W W'. generalize N.
      induction fs as [|[[J f]|] fs IH]; intros n Js Js' W W'; destruct Js as [|[J1|] Js], Js' as [|[J2|] Js']; cbn [wrenches] in W, W'; try contradiction; [reflexivity| |].
      - destruct W as (-> & _ & W), W' as (-> & _ & W'). f_equal. eapply IH; eauto.
      - f_equal. eapply IH; eauto. }
    subst Js'. rewrite A2, A3, O1. change (p_cons pb0) with (@nil pconstraint). rewrite app_nil_l. unfold all, equality_coefficients. fold N.
    apply good_app; [apply (good_more N); [exact Hle|exact G0]|]. apply good_app; [exact G1|]. apply (good_app _ cs2 _ []); [exact G2|]. apply good_app; [exact G3|].
    apply good_app; [exact G4|]. rewrite <- (app_nil_r (map coefficients (if ds_masked_fbase s then [] else _))). apply good_app; [exact G5|].
    eapply good_soft; [exact M6|lia|lia|exact Hcost]. }
  destruct B as (b & Eb & T & Rw & G). destruct (built_form pn log3 jlog s r b So Eb) as (M & Js & F). exists b, M, Js. split; [exact Eb|]. split; [exact F|]. split; [exact T|]. split; [exact (G M Js F)|exact Rw].
Qed.

Lemma dsolve_complete qr qp s r : dready pn log3 jlog s r -> qr_correct qr -> qp_correct qp -> p_rewrite (ds_problem s) = true -> 0 < p_reg (ds_problem s) ->
  (forall M Js tau, mass_matrix pn r = Ok M -> contact_matrices pn log3 jlog s r Js -> independent_rows (unknowns (ds_N s) Js) (equality_coefficients pn log3 jlog s r M Js tau)) ->
  (forall M Js tau, mass_matrix pn r = Ok M -> contact_matrices pn log3 jlog s r Js -> exists x, dallowed pn log3 jlog s r M Js tau x) ->
  (exists s' res, dr_success res = true /\ dsolve pn log3 jlog qr qp s r false = (s', r, Ok res)) \/ qr_fails qr \/ qp_fails qp.
Proof.
  intros Rd Hqr Hqp Hrw Hreg Hi Ha. destruct (dready_built s r Rd) as (b & M & Js & Eb & F & T & G & Er).
  pose proof (df_n _ _ _ _ _ _ _ _ F) as Fn.
  destruct (solve_complete (db_problem b) qr qp Hqr Hqp T) as [(pb' & E)|X]; [| | | | | | |left|now right].
  - intros c Hc. destruct (proj1 G c Hc) as (A & B & C & _). auto.
  - left. congruence.
  - apply (independent_of_rows _ _ (proj2 G)). rewrite Fn. apply Hi; apply F.
  - rewrite (df_reg _ _ _ _ _ _ _ _ F). exact Hreg.
  - intros c Hc Hp. now destruct (proj1 G c Hc) as (_ & _ & _ & A); apply A.
  - intros c Hc Hp Hty. destruct (proj1 G c Hc) as (_ & _ & _ & A). now apply A.
  - destruct (Ha M Js (db_tau b) (df_mass _ _ _ _ _ _ _ _ F) (df_matrices _ _ _ _ _ _ _ _ F)) as (x & Hx). exists x.
    now apply (proj1 (df_means _ _ _ _ _ _ _ _ F)).
  - destruct (dsolve_cases pn log3 jlog qr qp s r false (dr_sound _ _ _ _ _ Rd)) as [(e & E1 & _)|[(E1 & _)|[(b1 & pb & E1 & E2 & _)|[(b1 & pb & E1 & E2 & _)|(s1 & res1 & b1 & M1 & Js1 & x & E1 & V & E3)]]]];
      try congruence.
    exists s1, res1. split; [apply V|exact E3].
Qed.

End WithRobot.
