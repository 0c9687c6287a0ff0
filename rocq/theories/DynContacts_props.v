(** Properties of the contacts of a dynamics solver as the user makes them (C176). *)
From Coq Require Import Reals List Arith ZArith Bool String Lra Lia.
From Verif Require Import Base Linalg Geom3 Tools_model Geometry_model Expression_model Expression_spec Expression_proofs Problem_model Problem_spec
  Problem_proofs Problem_proofs2 Problem_proofs3 Problem_props Backends_proofs Polynom_model Robot_model Robot_spec Robot_props KinTasks_model Kin_model Kin_spec Kin_proofs
  Kin_proofs3 Kin_proofs6 Kin_proofs7 DynTasks_model Dyn_model Dyn_spec Dyn_proofs Dyn_proofs2 Dyn_proofs3 Dyn_proofs4 Dyn_proofs5 Dyn_proofs6 Dyn_proofs7 Dyn_proofs8 Dyn_example
  Dyn_props Dyn_props2 DynContacts_model DynContacts_spec DynContacts_proofs.
Import ListNotations.
Open Scope R_scope.

(** The contacts of the solver are those added and not removed, in the order in which they were added, each as it was made with the last value given to each
    attribute. *)
Theorem C176_contacts l : in_order 0 l ->
  map fst (cs_list (contacts_after l)) = filter (fun i => negb (removed l i)) (seq 0 (List.length (makers l))) /\
  forall i c, In (i, c) (cs_list (contacts_after l)) -> exists m, nth_error (makers l) i = Some m /\ expected m i l c.
Proof. intros H. destruct (contacts_inv l H) as (_ & A & B). split; assumption. Qed.
Print Assumptions C176_contacts.

(** get_contact(i) for an index that count_contacts allows: the contact at this place among those left, not the i-th that was added. *)
Theorem C176_index l i : in_order 0 l -> (0 <= i < Z.of_nat (count_contacts (contacts_after l)))%Z ->
  exists k m c, get_contact (contacts_after l) i = Ok (k, c) /\
    nth_error (filter (fun j => negb (removed l j)) (seq 0 (List.length (makers l)))) (Z.to_nat i) = Some k /\
    nth_error (makers l) k = Some m /\ expected m k l c.
Proof.
  intros H Hi. destruct (C176_contacts l H) as [A B]. unfold get_contact, count_contacts in *. destruct (Z.ltb_spec i 0) as [|_]; [lia|].
  destruct (nth_error (cs_list (contacts_after l)) (Z.to_nat i)) as [[k c]|] eqn:E.
  - destruct (B k c (nth_error_In _ _ E)) as (m & Em & Ex). exists k, m, c. split; [reflexivity|]. split; [|split; assumption].
    rewrite <- A. rewrite (map_nth_error fst _ _ E). reflexivity.
  - apply nth_error_None in E. lia.
Qed.
Print Assumptions C176_index.

(** Any other index, negative ones included, is undefined behaviour and not the exception Python users expect. *)
Theorem C176_index_behaviour l i : ~ (0 <= i < Z.of_nat (count_contacts (contacts_after l)))%Z -> get_contact (contacts_after l) i = UB.
Proof.
  intros Hi. unfold get_contact, count_contacts in *. destruct (Z.ltb_spec i 0) as [|P]; [reflexivity|].
  assert (E : nth_error (cs_list (contacts_after l)) (Z.to_nat i) = None) by (apply nth_error_None; lia). rewrite E. reflexivity.
Qed.
Print Assumptions C176_index_behaviour.
Theorem C176_index_refuted : exists l, in_order 0 l /\ count_contacts (contacts_after l) = 1%nat /\
  get_contact (contacts_after l) (-1) = UB /\ get_contact (contacts_after l) 1 = UB.
Proof. exists [AddContact Puppet; AddContact (PointContact 0); RemoveContact 0]. cbn. repeat split; lia. Qed.
Print Assumptions C176_index_refuted.

(** What the user gets from a solve that succeeds, in terms of the calls that made the contacts. *)
Definition promised (l : list contact_call) (m : maker) (i : nat) (w : vec) : Prop :=
  let mu := last_given given_mu i l 1 in
  match m with
  | UnilateralPointContact _ => last_given given_unilateral i l true = true ->
      let f := in_surface (last_given given_surface i l m3_id) (vat w) in
      0 <= vz f /\ Rabs (vx f) <= mu * vz f /\ Rabs (vy f) <= mu * vz f
  | PlanarContact _ _ => last_given given_unilateral i l true = true ->
      0 <= vat w 2 /\ Rabs (vat w 0) <= mu * vat w 2 /\ Rabs (vat w 1) <= mu * vat w 2 /\
      Rabs (vat w 4) <= last_given given_length i l 0 / 2 * vat w 2 /\ Rabs (vat w 3) <= last_given given_width i l 0 / 2 * vat w 2
  | ExternalWrench _ _ => let given := last_given given_wrench i l (Vec 6 (fun _ => 0)) in
      vlen w = vlen given /\ forall a, (a < vlen given)%nat -> vat w a = vat given a
  | _ => True
  end.

Theorem C176_promised pn log3 jlog qr qp s r integrate s' r' res l : in_order 0 l -> dsound pn log3 jlog (with_contacts s (contacts_after l)) r ->
  qr_correct qr -> qp_correct qp ->
  dsolve pn log3 jlog qr qp (with_contacts s (contacts_after l)) r integrate = (s', r', Ok res) -> dr_success res = true ->
  forall k i c m, nth_error (cs_list (contacts_after l)) k = Some (i, c) -> nth_error (makers l) i = Some m -> last_given given_active i l true = true ->
    exists c', nth_error (ds_contacts s') k = Some c' /\ co_kind c' = expected_kind m i l /\ promised l m i (co_wrench c').
Proof.
  intros Ho Hd Hqr Hqp H Hs k i c m Hk Hm Ha. destruct (C176_contacts l Ho) as [_ B]. destruct (B i c (nth_error_In _ _ Hk)) as (m' & Em & Ex).
  rewrite Hm in Em. injection Em as <-. destruct Ex as (K & A1 & A2 & _). rewrite Ha in A1.
  assert (Hc : nth_error (ds_contacts (with_contacts s (contacts_after l))) k = Some c) by (cbn; rewrite (map_nth_error snd _ _ Hk); reflexivity).
  destruct (dsolve_success pn log3 jlog qr qp _ r integrate s' r' res Hd H Hs) as (b & M & Js & x & _ & V & _).
  destruct V as [F V1 V2 V3 _ _ _ _ [V8 V8'] V9]. destruct (V8' k c Hc) as (c1 & E1 & E2). exists c1. split; [exact E1|].
  pose proof (C69_valid pn log3 jlog qr qp _ r integrate s' r' res Hd Hqr Hqp H Hs k c c1 Hc E1) as Cv. rewrite A1 in Cv. destruct Cv as [C1 C2].
  split; [rewrite C1; exact K|]. unfold promised. unfold contact_valid in C2. rewrite K in C2. unfold friction_ok in C2.
  destruct m; try exact Logic.I; cbn [expected_kind] in *; cbv zeta in *.
  - intros U. rewrite U in C2. rewrite A2 in C2. exact C2.
  - intros U. rewrite U in C2. rewrite A2 in C2. destruct C2 as ((P1 & P2 & P3) & P4 & P5). repeat split; try assumption; apply Rabs_le; lra.
  - destruct (C126_applied pn log3 jlog qr qp _ r integrate s' r' res k c f k0 _ Hd Hqr Hqp H Hs Hc A1 K) as (c2 & E3 & _ & L & W). rewrite E1 in E3. injection E3 as <-. split; assumption.
Qed.
Print Assumptions C176_promised.

(** A planar contact whose length or width was never given: the solve is refused, and neither the solver nor the robot changes. *)
Theorem C176_unset pn log3 jlog qr qp s r integrate l k i c fp fo : in_order 0 l ->
  nth_error (cs_list (contacts_after l)) k = Some (i, c) -> nth_error (makers l) i = Some (PlanarContact fp fo) ->
  last_given given_active i l true = true -> last_given given_unilateral i l true = true ->
  (forall x, ~ In (SetContact i (Length x)) l) \/ (forall x, ~ In (SetContact i (Width x)) l) ->
  (forall f, mcols (frame_jacobian pn r f Local) = ds_N s /\ mrows (frame_jacobian pn r f Local) = 6%nat) ->
  dready pn log3 jlog (dset_contacts s (firstn k (map snd (cs_list (contacts_after l))))) r ->
  dsolve pn log3 jlog qr qp (with_contacts s (contacts_after l)) r integrate = (with_contacts s (contacts_after l), r, Throw ELogic).
Proof.
  intros Ho Hk0 Hm Hact Huni Hun HJ Rd0. destruct (C176_contacts l Ho) as [_ Bc]. destruct (Bc i c (nth_error_In _ _ Hk0)) as (m' & Em & Ex).
  rewrite Hm in Em. injection Em as <-. destruct Ex as (K & Ha & _). rewrite Hact in Ha. cbn [expected_kind] in K. rewrite Huni in K.
  set (length := last_given given_length i l 0) in *. set (width := last_given given_width i l 0) in *.
  assert (Z : length = 0 \/ width = 0).
  { assert (G : forall (sel : attribute -> option R) L d, (forall x a, sel a = Some x -> ~ In (SetContact i a) L) -> last_given sel i L d = d).
    { intros sel L. induction L as [|[m0|j a|j] L IH]; intros d HL; cbn; [reflexivity| | |].
      - apply IH. intros x a Hx Hi. apply (HL x a Hx). now right.
      - rewrite IH by (intros x a' Hx Hi; apply (HL x a' Hx); now right). destruct (Nat.eqb_spec j i) as [->|]; [|reflexivity].
        destruct (sel a) as [x|] eqn:Es; [|reflexivity]. destruct (HL x a Es). now left.
      - apply IH. intros x a Hx Hi. apply (HL x a Hx). now right. }
    destruct Hun as [Hu|Hu]; [left|right]; apply G; intros x a Hx; destruct a; try discriminate; apply Hu. }
  set (s0 := with_contacts s (contacts_after l)). set (l1 := firstn k (map snd (cs_list (contacts_after l)))) in *.
  assert (El : exists l2, ds_contacts s0 = l1 ++ c :: l2).
  { exists (skipn (S k) (map snd (cs_list (contacts_after l)))). unfold s0, l1. cbn. apply map_nth_error with (f := snd) in Hk0. cbn in Hk0.
    revert Hk0. generalize (map snd (cs_list (contacts_after l))). clear. intros L. revert k. induction L as [|a L IH]; intros [|k] H; try discriminate; cbn in *.
    - injection H as ->. reflexivity.
    - f_equal. now apply IH. }
  destruct El as (l2 & El).
  change (dset_contacts s l1) with (dset_contacts s0 l1) in Rd0. change (ds_N s) with (ds_N s0) in HJ. clearbody s0. clear Hk0 Hm Hact Huni Hun Bc Ho s.
  pose proof Rd0 as [So [H6 Hq] Hx Hdt Hov' Hcost Ht Hc Hk]. pose proof So as [HN Wr Dy Hts He Hcs Hov].
  cbn [ds_N dset_contacts ds_tasks ds_extra ds_contacts] in *.
  assert (B : dbuild pn log3 jlog s0 r = Throw ELogic); [|unfold dsolve; rewrite B; reflexivity].
  unfold dbuild. cbn [add_variable clear_variables clear_constraints set_vars set_cons p_n p_vars p_cons app Nat.add].
  set (v := MkVar 0 (m_nv (r_model r)) (Vec 0 (fun _ => 0)) 0).
  match goal with |- context [add_contacts _ _ _ _ ?p _] => set (pb0 := p) end. set (N := ds_N s0) in *.
  destruct (var_whole v) as (qdd & Eq & Dq); [cbn; lia|]. rewrite Eq. cbn [obind].
  assert (Vs : var_size v = N) by (unfold var_size; cbn; lia). rewrite Vs in Dq. assert (Ve : k_end v = N) by (cbn; lia). rewrite Ve in Dq.
  change (fun (x : nat -> R) (i : nat) => x (k_start v + i)%nat) with (fun (x : nat -> R) (i : nat) => x i) in Dq.
  assert (C0 : exists cs0, (if ds_masked_fbase s0 then e <- var_expr v 0 6 ;; c <- e_eq_d e 0 ;; Ok [c] else Ok []) = Ok cs0).
  { destruct (ds_masked_fbase s0); [|eexists; reflexivity].
    destruct (var_expr_denotes v 0 6) as (e0 & Ee0 & De0); [cbn; lia|rewrite Vs; cbn; lia|]. change (var_expr v (Z.of_nat 0) (Z.of_nat 6)) with (var_expr v 0 6) in Ee0.
    rewrite Ee0. cbn [obind]. destruct (made_eq_d _ _ _ _ 0 De0) as (d & -> & _). eexists. reflexivity. }
  destruct C0 as (cs0 & ->). cbn [obind].
  destruct (update_tasks_total pn log3 jlog N r (ds_tasks s0)) as (es & Ees); [intros t0 H; now apply Ht|]. rewrite Ees. cbn [obind]. pose proof (update_tasks_spec pn log3 jlog N r _ _ Ees) as Fes.
  destruct (motion_torques_total pn log3 jlog (dset_contacts s0 l1) r qdd Dq So Hx) as (tau0 & Et0). change (motion_torques pn (dset_contacts s0 l1) r qdd) with (motion_torques pn s0 r qdd) in Et0.
  rewrite Et0. cbn [obind].
  destruct (add_contacts_total pn log3 jlog (dset_contacts s0 l1) r es So ltac:(cbn; lia) Fes l1 pb0) as (pb & fs & cs1 & Js0 & Ex & _); [auto|exact Hc|cbn; lia|].
  cbn [ds_N dset_contacts] in Ex. fold N in Ex. rewrite El.
  destruct (add_contacts_app pn N r es pb0 l1 pb fs cs1 (c :: l2) Ex) as [_ Eu]. rewrite (Eu ELogic); [reflexivity|].
  cbn [add_contacts]. rewrite Ha, K. cbn [contact_update]. destruct (HJ fp) as [J1 J2], (HJ fo) as [J3 J4].
  unfold block. rewrite J1, J2, J3, J4. do 2 (rewrite guard_true by (fold N; rewrite ?Nat.leb_refl; reflexivity); cbn [obind]). cbn [stack_rows mrows Nat.add add_variable].
  match goal with |- context [var_expr ?w (-1) (-1)] => destruct (var_whole w) as (f & -> & Df); [cbn; lia|] end. cbn [obind].
  unfold contact_constraints. rewrite K. unfold planar_constraints. destruct (Req_EM_T length 0); [reflexivity|]. destruct (Req_EM_T width 0); [reflexivity|]. destruct Z; contradiction.
Qed.
Print Assumptions C176_unset.

(** A program that adds a puppet and a planar contact, gives the latter a length and a width, and removes the puppet; and one that forgets the width. *)
Definition dcx (set : bool) : list contact_call :=
  [AddContact Puppet; AddContact (PlanarContact 1 1); SetContact 1 (Length 1)] ++ (if set then [SetContact 1 (Width 1)] else []) ++ [RemoveContact 0].
Example C176_example : in_order 0 (dcx true) /\ with_contacts (dex true 1) (contacts_after (dcx true)) = dex true 1 /\
  dsound dex_pin dex_log dex_jlog (with_contacts (dex true 1) (contacts_after (dcx true))) dex_robot /\
  (exists s' res, dsolve dex_pin dex_log dex_jlog perfect_qr perfect_qp (with_contacts (dex true 1) (contacts_after (dcx true))) dex_robot false = (s', dex_robot, Ok res) /\
  dr_success res = true) /\
  (exists c, nth_error (cs_list (contacts_after (dcx true))) 0 = Some (1%nat, c)) /\ nth_error (makers (dcx true)) 1 = Some (PlanarContact 1 1) /\
  last_given given_active 1 (dcx true) true = true /\ last_given given_unilateral 1 (dcx true) true = true.
Proof.
  assert (E : with_contacts (dex true 1) (contacts_after (dcx true)) = dex true 1) by reflexivity.
  split; [cbn; repeat split; lia|]. split; [exact E|]. rewrite E. split; [apply dex_sound|]. split.
  - destruct (dex_solved true 1 ltac:(lra)) as (s' & res & Hs & H). exists s', res. split; assumption.
  - split; [eexists; reflexivity|]. repeat split.
Qed.
Example C176_unset_example : in_order 0 (dcx false) /\ (exists c, nth_error (cs_list (contacts_after (dcx false))) 0 = Some (1%nat, c)) /\
  nth_error (makers (dcx false)) 1 = Some (PlanarContact 1 1) /\ last_given given_active 1 (dcx false) true = true /\ last_given given_unilateral 1 (dcx false) true = true /\
  (forall x, ~ In (SetContact 1 (Width x)) (dcx false)) /\
  (forall f, mcols (frame_jacobian dex_pin dex_robot f Local) = 7%nat /\ mrows (frame_jacobian dex_pin dex_robot f Local) = 6%nat) /\
  let s := dex_settings dex_base (1 / 10) false false 0 [dex_line_task] [] in
  dready dex_pin dex_log dex_jlog (dset_contacts s (firstn 0 (map snd (cs_list (contacts_after (dcx false)))))) dex_robot.
Proof.
  split; [cbn; repeat split; lia|]. split; [eexists; reflexivity|]. split; [reflexivity|]. split; [reflexivity|]. split; [reflexivity|]. split.
  - intros x H. cbn in H. repeat (destruct H as [H|H]; [discriminate|]). exact H.
  - split; [intros f; split; reflexivity|]. destruct C71_example as (_ & H & _). exact H.
Qed.
