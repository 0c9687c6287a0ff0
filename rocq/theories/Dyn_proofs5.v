(** Lemmas about the dynamics solver: the result of a solve. *)
From Coq Require Import Reals List ZArith Bool String Lra Lia.
From Verif Require Import Base Linalg Geom3 Tools_model Geometry_model Expression_model Expression_spec Expression_proofs Problem_model Problem_spec
  Problem_proofs Problem_proofs2 Problem_props Polynom_model Robot_model Robot_spec KinTasks_model Kin_model Kin_spec Kin_proofs Kin_proofs6
  DynTasks_model Dyn_model Dyn_spec Dyn_proofs Dyn_proofs2 Dyn_proofs3 Dyn_proofs4.
Import ListNotations.
Open Scope R_scope.

Lemma value_of e n m f x : denotes e n m f -> (m <= vlen x)%nat -> exists v, value e x = Ok v /\ vlen v = n /\ forall i, (i < n)%nat -> vat v i = f (vat x) i.
Proof. intros (_ & _ & _ & H). apply H. Qed.

Lemma mat_vec_t J w : mrows J = vlen w -> mat_vec (mat_t J) w = Ok (Vec (mcols J) (fun k => Rsum (vlen w) (fun a => mat_at J a k * vat w a))).
Proof.
  intros E. unfold mat_vec. cbn [mat_t mcols mrows]. rewrite E, Nat.eqb_refl. reflexivity.
Qed.

Lemma read_wrenches_spec N x : forall fs n Js l sum, wrenches n fs Js -> List.length l = List.length Js -> (forall J, In (Some J) Js -> mcols J = N) -> vlen sum = N ->
  (place n Js (List.length Js) <= vlen x)%nat ->
  exists l' t, read_wrenches N x l fs sum = Ok (l', t) /\ contacts_after l Js l' /\ vlen t = N /\
    (forall k, (k < N)%nat -> vat t k = vat sum k + contacts_effort n Js (vat x) k) /\
    (forall k, applied_effort l' Js k = contacts_effort n Js (vat x) k) /\
    (forall i c J a, nth_error l' i = Some c -> nth_error Js i = Some (Some J) -> (a < mrows J)%nat -> vat (co_wrench c) a = wrench_in n Js (vat x) i a).
Proof.
  induction fs as [|[[J f]|] fs IH]; intros n Js l sum W L HJ Hs Hx; destruct Js as [|[J'|] Js]; cbn [wrenches] in W; try contradiction;
    destruct l as [|c l]; cbn [List.length] in L; try discriminate L; cbn [read_wrenches].
  - exists [], sum. split; [reflexivity|]. split; [split; [reflexivity|intros [|i] c; discriminate]|]. split; [exact Hs|].
    split; [intros k _; cbn; ring|]. split; [reflexivity|]. intros [|i] c J a H; discriminate.
  - destruct W as (-> & D & W). cbn [List.length place] in Hx.
    destruct (value_of _ _ _ _ x D) as (w & Ew & Lw & Vw). { pose proof (place_le Js (n + mrows J) (List.length Js)). lia. }
    rewrite Ew. cbn [obind]. rewrite mat_vec_t by now rewrite Lw. cbn [obind]. pose proof (HJ J (or_introl eq_refl)) as HJN.
    unfold vec_add. cbn [vlen vat]. rewrite Hs, HJN, Nat.eqb_refl. cbn [guard obind].
    match goal with |- context [read_wrenches N x l fs ?s0] => set (sum' := s0) end.
    destruct (IH (n + mrows J)%nat Js l sum' W) as (l' & t & E & (A0 & A1) & B & C & A & F); [lia|intros; apply HJ; now right|reflexivity|exact Hx|].
    rewrite E. cbn [obind fst snd]. exists (set_wrench c w :: l'), t. split; [reflexivity|]. split; [|split; [exact B|split; [|split]]].
    + split; [cbn; now rewrite A0|]. intros [|i] c0 H; cbn in H |- *; [|now apply A1]. injection H as <-. exists (set_wrench c w). split; [reflexivity|]. split; [reflexivity|exact Lw].
    + intros k Hk. rewrite C by exact Hk. cbn [contacts_effort sum' vat]. unfold effort_of. rewrite Lw.
      rewrite (Rsum_ext (mrows J) (fun a => mat_at J a k * vat w a) (fun a => mat_at J a k * vat x (n + a)%nat)) by (intros a Ha; now rewrite Vw). ring.
    + intros k. cbn [applied_effort contacts_effort set_wrench co_wrench]. rewrite A. f_equal. unfold effort_of. apply Rsum_ext. intros a Ha. now rewrite Vw.
    + intros [|i] c0 J0 a Hc HJ0 Ha; cbn in Hc, HJ0.
      * injection Hc as <-. injection HJ0 as <-. cbn [set_wrench co_wrench]. rewrite Vw by exact Ha. reflexivity.
      * unfold wrench_in. cbn [place]. now apply (F i c0 J0 a).
  - cbn [List.length place] in Hx. destruct (IH n Js l sum W) as (l' & t & E & (A0 & A1) & B & C & A & F); [lia|intros; apply HJ; now right|exact Hs|exact Hx|].
    rewrite E. cbn [obind fst snd]. exists (c :: l'), t. split; [reflexivity|]. split; [|split; [exact B|split; [|split]]].
    + split; [cbn; now rewrite A0|]. intros [|i] c0 H; cbn in H |- *; [|now apply A1]. injection H as <-. now exists c.
    + intros k Hk. now rewrite C.
    + intros k. cbn [applied_effort contacts_effort]. apply A.
    + intros [|i] c0 J0 a Hc HJ0 Ha; cbn in Hc, HJ0; [discriminate|]. now apply (F i c0 J0 a).
Qed.

Section WithRobot.
Variable pn : pin.
Variable log3 : mat3 -> vec3.
Variable jlog : mat3 -> mat3.

(** What a successful solve gives. *)
Record dsolved (qr : mat -> qr_result) (qp : qp_problem -> qp_result) (s : dsolver) (r : robot) (s' : dsolver) (res : dresult) (b : dbuilt) (M : mat)
    (Js : list (option mat)) (x : vec) : Prop := DSolved {
  dv_form : dform pn log3 jlog s r b M Js;
  dv_success : dr_success res = true;
  dv_x : (unknowns (ds_N s) Js <= vlen x)%nat;
  dv_solve : exists pb, solve (db_problem b) qr qp = (pb, Ok tt) /\ p_x pb = x /\ s' = dset_contacts (dset_problem s pb) (ds_contacts s');
  dv_tau : vlen (dr_tau res) = ds_N s /\ forall k, (k < ds_N s)%nat -> vat (dr_tau res) k = torques_of pn s r M Js (vat x) k;
  dv_qdd : vlen (dr_qdd res) = ds_N s /\ forall k, (k < ds_N s)%nat -> vat (dr_qdd res) k = vat x k;
  dv_sum : vlen (dr_tau_contacts res) = ds_N s /\ forall k, (k < ds_N s)%nat -> vat (dr_tau_contacts res) k = contacts_effort (ds_N s) Js (vat x) k;
  dv_applied : forall k, applied_effort (ds_contacts s') Js k = contacts_effort (ds_N s) Js (vat x) k;
  dv_contacts : contacts_after (ds_contacts s) Js (ds_contacts s');
  dv_wrench : forall i c J a, nth_error (ds_contacts s') i = Some c -> nth_error Js i = Some (Some J) -> (a < mrows J)%nat ->
    vat (co_wrench c) a = wrench_in (ds_N s) Js (vat x) i a }.

Lemma unknowns_ge N Js : (N <= unknowns N Js)%nat.
Proof. apply place_le. Qed.

Lemma dform_read s r b M Js x : dform pn log3 jlog s r b M Js -> (unknowns (ds_N s) Js <= vlen x)%nat ->
  exists tau qdd l' t, value (db_tau b) x = Ok tau /\ value (db_qdd b) x = Ok qdd /\
    read_wrenches (ds_N s) x (ds_contacts s) (db_contacts b) (zeros (ds_N s)) = Ok (l', t) /\
    (vlen tau = ds_N s /\ forall k, (k < ds_N s)%nat -> vat tau k = torques_of pn s r M Js (vat x) k) /\
    (vlen qdd = ds_N s /\ forall k, (k < ds_N s)%nat -> vat qdd k = vat x k) /\
    (vlen t = ds_N s /\ forall k, (k < ds_N s)%nat -> vat t k = contacts_effort (ds_N s) Js (vat x) k) /\
    (forall k, applied_effort l' Js k = contacts_effort (ds_N s) Js (vat x) k) /\ contacts_after (ds_contacts s) Js l' /\
    (forall i c J a, nth_error l' i = Some c -> nth_error Js i = Some (Some J) -> (a < mrows J)%nat -> vat (co_wrench c) a = wrench_in (ds_N s) Js (vat x) i a).
Proof.
  intros F Hx. destruct F as [F1 F2 F3 F4 F5 F6 F7 F8 F9 F10 F11].
  destruct (value_of _ _ _ _ x F6) as (tau & E1 & T1 & T2); [lia|].
  destruct (value_of _ _ _ _ x F5) as (qdd & E2 & Q1 & Q2); [eapply Nat.le_trans; [apply unknowns_ge|exact Hx]|].
  destruct (read_wrenches_spec (ds_N s) x (db_contacts b) (ds_N s) Js (ds_contacts s) (zeros (ds_N s)) F7) as (l' & t & E3 & A & B & C & A' & W).
  - clear - F4. unfold contact_matrices in F4. induction F4 as [|c J l Js' H F IH]; [reflexivity|]. cbn. now rewrite IH.
  - intros J HJ. clear - F4 HJ. unfold contact_matrices in F4. induction F4 as [|c J' l Js' H F IH]; [destruct HJ|]. destruct HJ as [->|HJ]; [|now apply IH]. apply H.
  - reflexivity.
  - exact Hx.
  - exists tau, qdd, l', t. split; [exact E1|]. split; [exact E2|]. split; [exact E3|]. split; [split; assumption|]. split; [split; assumption|].
    split; [|split; [exact A'|split; [exact A|exact W]]]. split; [exact B|]. intros k Hk. rewrite C by exact Hk. cbn. ring.
Qed.

Lemma solve_x pb qr qp pb' : solve pb qr qp = (pb', Ok tt) -> (p_n pb <= vlen (p_x pb'))%nat.
Proof.
  intros Hs. destruct (solve_cases pb qr qp) as [(pb1 & e & E & _)|[(pb1 & E)|(a & pb1 & vs & Ha & _ & E & Hi & Hx & _)]]; rewrite E in Hs;
    [discriminate Hs|discriminate Hs|injection Hs as <-]. rewrite Hx. exact (recompose_len _ qr a _ Ha).
Qed.

(** The outcomes of [dsolve]. *)
Lemma dsolve_cases qr qp s r i : dsound pn log3 jlog s r ->
  (exists e, dbuild pn log3 jlog s r = Throw e /\ dsolve pn log3 jlog qr qp s r i = (s, r, Throw e)) \/
  (dbuild pn log3 jlog s r = UB /\ dsolve pn log3 jlog qr qp s r i = (s, r, UB)) \/
  (exists b pb, dbuild pn log3 jlog s r = Ok b /\ solve (db_problem b) qr qp = (pb, UB) /\ dsolve pn log3 jlog qr qp s r i = (dset_problem s pb, r, UB)) \/
  (exists b pb, dbuild pn log3 jlog s r = Ok b /\ solve (db_problem b) qr qp = (pb, Throw EQP) /\
     dsolve pn log3 jlog qr qp s r i = (dset_problem s pb, r, Ok failed)) \/
  (exists s' res b M Js x, dbuild pn log3 jlog s r = Ok b /\ dsolved qr qp s r s' res b M Js x /\
     dsolve pn log3 jlog qr qp s r i =
       if i then
         if Req_EM_T (ds_dt s) 0 then (s', r, Throw ERuntime)
         else match apply_result pn s r (dr_qdd res) with Ok r' => (s', r', Ok res) | Throw e => (s', r, Throw e) | UB => (s', r, UB) end
       else (s', r, Ok res)).
Proof.
  intros Hd. unfold dsolve. destruct (dbuild pn log3 jlog s r) as [b|e|] eqn:Eb.
  - do 2 right. destruct (solve (db_problem b) qr qp) as [pb o] eqn:Es. destruct o as [u|e|].
    + destruct u. do 2 right. destruct (built_form pn log3 jlog s r b Hd Eb) as (M & Js & F).
      assert (Hx : (unknowns (ds_N s) Js <= vlen (p_x pb))%nat) by (rewrite <- (df_n _ _ _ _ _ _ _ _ F); exact (solve_x _ _ _ _ Es)).
      destruct (dform_read s r b M Js (p_x pb) F Hx) as (tau & qdd & l' & t & E1 & E2 & E3 & H1 & H2 & H3 & H4 & H5 & H6).
      rewrite E1. cbn [obind]. rewrite E2. cbn [obind]. cbn [ds_N ds_contacts dset_problem]. rewrite E3. cbn [obind fst snd dr_qdd].
      exists (dset_contacts (dset_problem s pb) l'), (DResult true tau qdd t), b, M, Js, (p_x pb). split; [reflexivity|]. split.
      * constructor; cbn [dr_success dr_tau dr_qdd dr_tau_contacts ds_contacts dset_contacts]; auto. exists pb. split; [exact Es|]. split; reflexivity.
      * reflexivity.
    + right; left. pose proof (C21_only_qp_errors _ _ _ _ _ Es) as ->. exists b, pb. auto.
    + left. exists b, pb. auto.
  - left. exists e. auto.
  - right; left. auto.
Qed.

Lemma dsolve_success qr qp s r i s' r' res : dsound pn log3 jlog s r -> dsolve pn log3 jlog qr qp s r i = (s', r', Ok res) -> dr_success res = true ->
  exists b M Js x, dbuild pn log3 jlog s r = Ok b /\ dsolved qr qp s r s' res b M Js x /\
    if i then ds_dt s <> 0 /\ apply_result pn s r (dr_qdd res) = Ok r' else r' = r.
Proof.
  intros Hd H Hs. destruct (dsolve_cases qr qp s r i Hd) as [(e & _ & E)|[(_ & E)|[(b & pb & _ & _ & E)|[(b & pb & _ & _ & E)|(s1 & res1 & b & M & Js & x & Eb & V & E)]]]];
    rewrite E in H; try discriminate H.
  - injection H as _ _ <-. discriminate Hs.
  - exists b, M, Js, x. destruct i.
    + destruct (Req_EM_T (ds_dt s) 0) as [|Hz]; [discriminate|]. destruct (apply_result pn s r (dr_qdd res1)) as [r1|e|] eqn:Ea; try discriminate.
      injection H as <- <- <-. auto.
    + injection H as <- <- <-. auto.
Qed.

Lemma dsolved_allowed qr qp s r s' res b M Js x : qr_correct qr -> qp_correct qp -> dsolved qr qp s r s' res b M Js x ->
  dallowed pn log3 jlog s r M Js (db_tau b) (vat x).
Proof.
  intros Hqr Hqp [F V1 V2 (pb & Es & Ex & _) V4 V5 V6 V7 V8 V9]. pose proof (C20_feasible _ _ _ _ Hqr Hqp Es) as Hh. rewrite Ex in Hh.
  destruct (df_means _ _ _ _ _ _ _ _ F) as (K & _). now apply K.
Qed.

Lemma dsolved_optimum qr qp s r s' res b M Js x : qr_correct qr -> qp_correct qp -> p_sparse (ds_problem s) = false -> dsolved qr qp s r s' res b M Js x ->
  forall y, dallowed pn log3 jlog s r M Js (db_tau b) y ->
    dpenalties pn log3 jlog s r M Js (db_tau b) (vat x) + p_reg (ds_problem s) / 2 * Rsum (unknowns (ds_N s) Js) (fun j => Rsqr (vat x j)) <=
    dpenalties pn log3 jlog s r M Js (db_tau b) y + p_reg (ds_problem s) / 2 * Rsum (unknowns (ds_N s) Js) (fun j => Rsqr (y j)).
Proof.
  intros Hqr Hqp Hsp [F V1 V2 (pb & Es & Ex & _) V4 V5 V6 V7 V8 V9] y Hy. destruct (df_means _ _ _ _ _ _ _ _ F) as (K1 & K2 & K3 & K4).
  destruct (C20_optimum (db_problem b) qr qp pb Hqr Hqp) as [_ O].
  - rewrite (df_sparse _ _ _ _ _ _ _ _ F). exact Hsp.
  - intros c Hc. rewrite Forall_forall in K4. now apply K4.
  - exact Es.
  - specialize (O y (proj2 (K1 y) Hy)). unfold cost in O. rewrite (df_n _ _ _ _ _ _ _ _ F), (df_reg _ _ _ _ _ _ _ _ F), Ex, !K2 in O. exact O.
Qed.

(** Nothing depends on the entries beyond the sizes. *)
Lemma within_limits_ext s r qdd tau qdd' tau' : (forall k, (k < ds_N s)%nat -> qdd k = qdd' k) -> (forall k, (k < ds_N s)%nat -> tau k = tau' k) ->
  within_limits s r qdd tau -> within_limits s r qdd' tau'.
Proof.
  intros E1 E2 [W1 W2 W3 W4 W5]. constructor.
  - intros H d Hd. rewrite <- E2 by lia. now apply W1.
  - intros H H' d Hd. rewrite <- E1 by lia. now apply W2.
  - intros H d Hd. rewrite <- E1, <- E2 by lia. now apply W3.
  - intros H d Hd. rewrite <- E1 by lia. now apply W4.
  - intros H d Hd. rewrite <- E1 by lia. now apply W5.
Qed.

Lemma contact_valid_ext c w w' : (forall a, (a < match co_kind c with CExternal _ _ v => vlen v | CPlanar _ _ _ _ _ => 6 | _ => 3 end)%nat -> w a = w' a) ->
  contact_valid c w -> contact_valid c w'.
Proof.
  intros E. unfold contact_valid. destruct (co_kind c) as [t [] Rs|fp fo [] len wid|fp t u len Rs|f' k v| |t]; auto.
  - unfold in_surface. now rewrite !E by lia.
  - now rewrite !E by lia.
  - intros H a Ha. rewrite <- E by exact Ha. now apply H.
Qed.

End WithRobot.
