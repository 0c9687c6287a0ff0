(** Lemmas about the dynamics solver: the whole problem, and the result of a solve. *)
From Coq Require Import Reals List ZArith Bool String Lra Lia.
From Verif Require Import Base Linalg Geom3 Tools_model Geometry_model Expression_model Expression_spec Expression_proofs Problem_model Problem_spec
  Problem_proofs Problem_proofs2 Problem_props Polynom_model Robot_model Robot_spec KinTasks_model Kin_model Kin_spec Kin_proofs Kin_proofs6
  DynTasks_model Dyn_model Dyn_spec Dyn_proofs Dyn_proofs2 Dyn_proofs3.
Import ListNotations.
Open Scope R_scope.

Section WithRobot.
Variable pn : pin.
Variable log3 : mat3 -> vec3.
Variable jlog : mat3 -> mat3.

Lemma dtasks_means N n r tau f : denotes tau N n f -> (N <= n)%nat -> forall l es,
  (forall t e, In t l -> dtask_update pn log3 jlog N r t = Ok e -> dshaped N e) ->
  Forall2 (fun t e => dtask_update pn log3 jlog N r t = Ok e) l es -> forall cs, dtask_constraints tau (combine l es) = Ok cs ->
  means n cs (fun x => forall t e, In t l -> dtask_update pn log3 jlog N r t = Ok e -> dt_priority t = PHard ->
                forall k, (k < mrows (de_A e))%nat -> dresidual t e x (f x) k = 0)
    (fun x => total (fun t => match dt_priority t, dtask_update pn log3 jlog N r t with
                         | PSoft, Ok e => dt_weight t / 2 * Rsum (mrows (de_A e)) (fun k => Rsqr (dresidual t e x (f x) k)) | _, _ => 0 end) l).
Proof.
  intros D Hn l es Hs F. induction F as [|t e l es Hte F IH]; intros cs H; cbn [combine dtask_constraints] in H.
  - injection H as <-. eapply means_ext; [| |apply means_nil]; [|reflexivity]. intros x. split; [|trivial]. intros _ t e [].
  - bind H c1 E1. bind H rest E2. injection H as <-.
    assert (Hs' : forall t0 e0, In t0 l -> dtask_update pn log3 jlog N r t0 = Ok e0 -> dshaped N e0) by (intros t0 e0 Ht0; apply Hs; now right).
    specialize (IH Hs' rest eq_refl). pose proof (dtask_means N n tau f t e c1 D Hn (Hs t e (or_introl eq_refl) Hte) E1) as M1.
    eapply means_ext; [| |exact (means_app n _ _ _ _ _ _ M1 IH)].
    + intros x. cbv beta. split.
      * intros [H1 H2] t0 e0 [<-|Ht0] E0; [|now apply H2]. rewrite Hte in E0. injection E0 as <-. exact H1.
      * intros H0. split; [apply (H0 t e (or_introl eq_refl) Hte)|]. intros t0 e0 Ht0. apply H0. now right.
    + intros x. cbv beta. cbn [total]. rewrite Hte. destruct (dt_priority t); reflexivity.
Qed.

Lemma dconstraints_means n s r tau : forall l cs, 
  (forall c cs c', In c l -> dconstraint_add pn s r tau c = Ok cs -> In c' cs ->
     vlen (eb (c_expr c')) = rows (c_expr c') /\ (cols (c_expr c') <= n)%nat /\ (c_prio c' = Soft -> c_type c' = Inequality -> 0 <= c_weight c')) ->
  dconstraints_add pn s r tau l = Ok cs ->
  means n cs (fun x => forall c cs, In c l -> dconstraint_add pn s r tau c = Ok cs -> hard_holds cs x)
    (fun x => total (fun c => match dconstraint_add pn s r tau c with Ok cs => soft_cost cs x | _ => 0 end) l).
Proof.
  induction l as [|c l IH]; intros cs Hs H; cbn [dconstraints_add] in H.
  - injection H as <-. eapply means_ext; [| |apply means_nil]; [|reflexivity]. intros x. split; [|trivial]. intros _ c cs [].
  - bind H c1 E1. bind H rest E2. injection H as <-. specialize (IH rest (fun c0 cs0 c' Hc => Hs c0 cs0 c' (or_intror Hc)) eq_refl).
    assert (M1 : means n c1 (fun x => hard_holds c1 x) (fun x => soft_cost c1 x)).
    { split; [reflexivity|]. split; [reflexivity|]. split; apply Forall_forall; intros c' Hc'; destruct (Hs c c1 c' (or_introl eq_refl) E1 Hc') as (S1 & S2 & S3);
        [split; assumption|exact S3]. }
    eapply means_ext; [| |exact (means_app n _ _ _ _ _ _ M1 IH)].
    + intros x. cbv beta. split.
      * intros [H1 H2] c0 cs0 [<-|Hc0] E0; [|now apply (H2 c0 cs0)]. rewrite E1 in E0. injection E0 as <-. exact H1.
      * intros H0. split; [apply (H0 c c1 (or_introl eq_refl) E1)|]. intros c0 cs0 Hc0. apply H0. now right.
    + intros x. cbv beta. cbn [total]. now rewrite E1.
Qed.

(** What is known of a problem that was built. *)
Record dform (s : dsolver) (r : robot) (b : dbuilt) (M : mat) (Js : list (option mat)) : Prop := DForm {
  df_mass : mass_matrix pn r = Ok M;
  df_M : mrows M = ds_N s /\ mcols M = ds_N s;
  df_six : (6 <= ds_N s)%nat;
  df_matrices : contact_matrices pn log3 jlog s r Js;
  df_qdd : denotes (db_qdd b) (ds_N s) (ds_N s) (fun x i => x i);
  df_tau : denotes (db_tau b) (ds_N s) (unknowns (ds_N s) Js) (torques_of pn s r M Js);
  df_wrenches : wrenches (ds_N s) (db_contacts b) Js;
  df_n : p_n (db_problem b) = unknowns (ds_N s) Js;
  df_means : means (unknowns (ds_N s) Js) (p_cons (db_problem b)) (dallowed pn log3 jlog s r M Js (db_tau b)) (dpenalties pn log3 jlog s r M Js (db_tau b));
  df_reg : p_reg (db_problem b) = p_reg (ds_problem s);
  df_sparse : p_sparse (db_problem b) = p_sparse (ds_problem s) }.

Lemma built_form s r b : dsound pn log3 jlog s r -> dbuild pn log3 jlog s r = Ok b -> exists M Js, dform s r b M Js.
Proof.
  intros [HN Wr Dy Ht He Hc Hov] H. unfold dbuild in H. cbn [add_variable clear_variables clear_constraints set_vars set_cons p_n p_vars p_cons app Nat.add] in H.
  set (v := MkVar 0 (m_nv (r_model r)) (Vec 0 (fun _ => 0)) 0) in *.
  match type of H with context [add_contacts _ _ _ _ ?p _] => set (pb0 := p) in * end.
  set (N := ds_N s) in *.
  bind H qdd Eq. destruct (var_whole v) as (qdd' & Eq' & Dq); [cbn; lia|]. rewrite Eq in Eq'. injection Eq' as <-.
  assert (Vs : var_size v = N) by (unfold var_size; cbn; unfold N; lia). rewrite Vs in Dq. assert (Ve : k_end v = N) by (cbn; unfold N; lia). rewrite Ve in Dq.
  change (fun (x : nat -> R) (i : nat) => x (k_start v + i)%nat) with (fun (x : nat -> R) (i : nat) => x i) in Dq.
  bind H cs0 E0. bind H es Ees. bind H tau0 Et0. bind H x Ex. destruct x as [[pb fs] cs1]. cbn [fst snd] in H.
  bind H tau1 Et1. bind H tau Et. bind H cs2 E2. bind H cs3 E3. bind H cs4 E4. bind H cs5 E5. bind H e Ee. bind H c6 E6. injection H as <-.
  destruct (motion_torques_spec pn s r qdd tau0 N Dq Dy (eq_sym HN) eq_refl Et0) as (M & EM & RM & CM & D0).
  destruct (add_contacts_spec pn N r es (ds_contacts s) pb0 pb fs cs1 He Ex) as (Js & Rw & W & Hn & M1 & O1 & O2 & O3 & O4).
  assert (N0 : p_n pb0 = N) by (cbn; unfold N; lia). rewrite N0 in *.
  destruct (resize_spec N (p_n pb) tau0 tau1 _ D0 Et1) as (Hle & D1 & Z1).
  destruct (contact_torques_spec N fs Js tau1 N tau (p_n pb) _ W D1 Z1 Et) as (D2 & Cj).
  change (fun x i => Rsum N (fun j => mat_at M i j * x j) + damping_of s r i + bias_of pn s r i - contacts_effort N Js x i) with (torques_of pn s r M Js) in D2.
  destruct (slice_from tau _ _ _ 6 e D2 Ee) as [H6 De].
  exists M, Js. set (all := cs0 ++ cs1 ++ cs2 ++ cs3 ++ cs4 ++ cs5 ++ [configure_prio c6 Soft (ds_torque_cost s)]).
  destruct (add_constraints_spec all pb) as (_ & A2 & A3 & A4 & A5 & _).
  constructor; cbn [db_problem db_qdd db_tau db_contacts]; fold N; auto.
  - (* matrices *)
    unfold contact_matrices. clear - Rw Cj Ees. unfold raw_matrices in Rw. induction Rw as [|c J l Js Hc F IH]; constructor.
    + destruct J as [J|]; [|exact Hc]. destruct Hc as [Ha Hc]. split; [exact Ha|]. apply (contact_update_spec pn log3 jlog s r es c J Ees Hc). apply Cj. now left.
    + apply IH. intros J' HJ'. apply Cj. now right.
  - now rewrite <- Hn.
  - now rewrite A2.
  - (* constraints *)
    rewrite <- Hn. rewrite A3, O1. cbn [pb0 set_vars p_cons]. 
    assert (P0 : means (p_n pb) cs0 (fun x => ds_masked_fbase s = true -> forall j, (j < 6)%nat -> x j = 0) (fun _ => 0)).
    { destruct (ds_masked_fbase s).
      - bind E0 e0 Ee0. bind E0 c0 Ec0. injection E0 as <-. destruct (var_expr_denotes v 0 6) as (e0' & Ee0' & De0); [cbn; lia|rewrite Vs; cbn; exact H6|].
        change (var_expr v (Z.of_nat 0) (Z.of_nat 6)) with (var_expr v 0 6) in Ee0'. rewrite Ee0 in Ee0'. injection Ee0' as <-.
        pose proof (made_eqd _ _ _ _ _ _ De0 Ec0) as Mc. eapply means_ext; [| |refine (means_hard _ _ _ _ _ _ (p_n pb) Mc _)]; [|reflexivity|rewrite Ve; exact Hle].
        intros x. cbv beta. cbn [k_start v Nat.add]. split; [intros H _ j Hj; specialize (H j Hj); lra|intros H j Hj; specialize (H eq_refl j Hj); lra].
      - injection E0 as <-. eapply means_ext; [| |apply means_nil]; [|reflexivity]. intros x. split; [discriminate|trivial]. }
    destruct Wr as (Wm & _).
    pose proof (limits_means s r tau (p_n pb) _ cs2 D2 Hle Wm HN Hov E2) as P2.
    assert (Ht' : forall t e0, In t (ds_tasks s) -> dtask_update pn log3 jlog N r t = Ok e0 -> dshaped N e0) by (intros t e0 H1 H2; apply (Ht t e0); split; assumption).
    pose proof (dtasks_means N (p_n pb) r tau _ D2 Hle (ds_tasks s) es Ht' (update_tasks_spec pn log3 jlog N r _ _ Ees) cs3 E3) as P3.
    assert (P4 : means (p_n pb) cs4 (fun x => forall c cs, In c (ds_cons s) -> dconstraint_add pn s r tau c = Ok cs -> hard_holds cs x)
      (fun x => total (fun c => match dconstraint_add pn s r tau c with Ok cs => soft_cost cs x | _ => 0 end) (ds_cons s))).
    { apply dconstraints_means; [|exact E4]. intros c cs c' H1 H2 H3. destruct (Hc c tau cs c' H1 H2 H3) as (K1 & K2 & K3). split; [exact K1|]. split; [|exact K3].
      replace (cols tau) with (p_n pb) in K2 by (symmetry; apply (denotes_elim _ _ _ _ D2)). fold N in K2. lia. }
    assert (P5 : means (p_n pb) cs5 (fun x => ds_masked_fbase s = false -> forall j, (j < 6)%nat -> torques_of pn s r M Js x j = 0) (fun _ => 0)).
    { destruct (ds_masked_fbase s).
      - injection E5 as <-. eapply means_ext; [| |apply means_nil]; [|reflexivity]. intros x. split; [discriminate|trivial].
      - bind E5 e5 Ee5. bind E5 c5 Ec5. injection E5 as <-. destruct (part_spec tau _ _ _ 0 6 e5 D2 Ee5) as [_ De5].
        pose proof (made_eqd _ _ _ _ _ _ De5 Ec5) as Mc. eapply means_ext; [| |exact (means_hard _ _ _ _ _ _ (p_n pb) Mc (Nat.le_refl _))]; [|reflexivity].
        intros x. cbv beta. cbn [Nat.add]. split; [intros H _ j Hj; specialize (H j Hj); lra|intros H j Hj; specialize (H eq_refl j Hj); lra]. }
    pose proof (made_eqd _ _ _ _ _ _ De E6) as M6. apply (made_configure _ _ _ _ _ _ _ Soft (ds_torque_cost s)) in M6.
    pose proof (means_soft _ _ _ _ _ (p_n pb) M6 (Nat.le_refl _)) as P6.
    eapply means_ext; [| |exact (means_app _ _ _ _ _ _ _ P0 (means_app _ _ _ _ _ _ _ M1 (means_app _ _ _ _ _ _ _ P2 (means_app _ _ _ _ _ _ _ P3
      (means_app _ _ _ _ _ _ _ P4 (means_app _ _ _ _ _ _ _ P5 P6))))))].
    + intros x. cbv beta. split.
      * intros (H0 & H1 & H2 & H3 & H4 & H5 & _). constructor; try assumption. intros t e0 [K1 K2]. now apply H3.
      * intros [B0 B5 B1 B2 B3 B4]. repeat (split; [assumption|]). split; [|repeat (split; [assumption|]); trivial]. intros t e0 K1 K2. apply B3. now split.
    + intros x. cbv beta. unfold dpenalties, dtask_penalty. fold N.
      rewrite (Rsum_ext (N - 6) (fun i => Rsqr (torques_of pn s r M Js x (6 + i) - 0)) (fun i => Rsqr (torques_of pn s r M Js x (6 + i)))) by (intros; now rewrite Rminus_0_r). ring.
  - rewrite A4, O2. reflexivity.
  - rewrite A5, O3. reflexivity.
Qed.

End WithRobot.
