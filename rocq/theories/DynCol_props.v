From Coq Require Import Reals List ZArith Bool String Lra Lia FunctionalExtensionality.
From Verif Require Import Base Linalg Geom3 Tools_model Geometry_model Expression_model Expression_spec Problem_model Problem_spec Problem_proofs Problem_props Backends_proofs Polynom_model Robot_model Robot_spec Robot_proofs Robot_props KinTasks_model
  Kin_model Kin_spec Kin_proofs Kin_proofs3 Kin_proofs6 DynTasks_model Dyn_model Dyn_spec Dyn_proofs Dyn_proofs3 Dyn_proofs5 Tasks_spec Tasks_proofs KinTasks_proofs KinCons_spec KinCons_proofs Dyn_example DynTasks_props
  DynCol_spec DynCol_proofs.
Import ListNotations.
Open Scope R_scope.

(** ** C137 Self collisions in the dynamics *)

Lemma solved_gap pn log3 jlog qr qp s r i s' r' res c distances margin trigger q qd t d : dsound pn log3 jlog s r -> qr_correct qr -> qp_correct qp ->
  dsolve pn log3 jlog qr qp s r i = (s', r', Ok res) -> dr_success res = true ->
  In c (ds_cons s) -> dc_kind c = DCollisions distances margin trigger -> dc_priority c <> PSoft -> in_motion r q qd t (dr_qdd res) ->
  (forall d, In d (near_pairs trigger (distances r)) -> joint_contract pn (r_model r) q qd t (di_A d) /\ joint_contract pn (r_model r) q qd t (di_B d)) ->
  In d (distances r) -> di_min d < trigger -> 0 <= pair_gap pn s margin d (q t) (qd t) (dr_qdd res).
Proof.
  intros Hd Hqr Hqp H Hs Hc Hk Hp Mo Hj Hin Hlt. destruct (dsolve_success pn log3 jlog qr qp s r i s' r' res Hd H Hs) as (b & M & Js & x & Eb & V & _).
  pose proof (dsolved_allowed _ _ _ _ _ _ _ _ _ _ _ _ _ Hqr Hqp V) as [_ _ _ _ _ A6].
  assert (Hadd : exists cs, dconstraint_add pn s r (db_tau b) c = Ok cs).
  { clear - Eb Hc. unfold dbuild in Eb. cbv zeta in Eb. destruct (add_variable _ _) as [pb v]. bind Eb qdd E1. bind Eb cs0 E2. bind Eb es E3. bind Eb tau0 E4. bind Eb y E5. destruct y as [[pb' fs] cs1].
    bind Eb tau1 E6. bind Eb tau E7. bind Eb cs2 E8. bind Eb cs3 E9. bind Eb cs4 E10. bind Eb cs5 E11. bind Eb e6 E12. bind Eb c6 E13. injection Eb as <-. cbn [db_tau].
    clear - E10 Hc. revert cs4 E10. induction (ds_cons s) as [|c0 l IH]; intros cs4 E; [destruct Hc|]. cbn [dconstraints_add] in E. bind E a Ea. bind E rest Er. destruct Hc as [<-|Hc]; [eexists; exact Ea|]. exact (IH Hc _ eq_refl). }
  destruct Hadd as [cs Ecs]. specialize (A6 c cs Hc Ecs). unfold dconstraint_add in Ecs. rewrite Hk in Ecs.
  destruct (dcollisions_made pn s r c (distances r) margin trigger cs q qd t (dr_qdd res) (dn_N _ _ _ _ _ Hd) Mo Hj Ecs) as [[E _]|(c' & g & -> & Mc & G)].
  - exfalso. assert (X : In d (near_pairs trigger (distances r))) by (apply filter_In; split; [exact Hin|]; destruct (Rlt_dec (di_min d) trigger); [reflexivity|contradiction]). rewrite E in X. destruct X.
  - assert (X : In d (near_pairs trigger (distances r))) by (apply filter_In; split; [exact Hin|]; destruct (Rlt_dec (di_min d) trigger); [reflexivity|contradiction]).
    apply In_nth_error in X. destruct X as [k Hn]. assert (Lk : (k < List.length (near_pairs trigger (distances r)))%nat) by (apply nth_error_Some; congruence).
    destruct V as [_ _ _ _ _ [Q1 Q2] _ _ _ _]. pose proof (A6 c' (or_introl eq_refl)) as Hh. pose proof Mc as (_ & Pr & _). rewrite Pr in Hh. specialize (Hh ltac:(destruct (dc_priority c); congruence)).
    apply (proj1 (made_holds _ _ _ _ _ _ _ _ Mc)) with (i := k) in Hh; [|exact Lk]. cbn in Hh. rewrite (made_same _ _ _ _ _ _ _ _ (vat (dr_qdd res)) _ Mc Lk) in Hh by (intros j Lj; symmetry; now apply Q2). rewrite (G (dr_qdd res) k d Hn) in Hh. exact Hh.
Qed.

(** While the objects are beyond the margin, the speed at which they come closer, after the step, is at most the one from which half of the safe accelerations
    of the joints can stop them before the margin. *)
Theorem C137_brakes pn log3 jlog qr qp s r i s' r' res c distances margin trigger q qd t d : dsound pn log3 jlog s r -> qr_correct qr -> qp_correct qp ->
  dsolve pn log3 jlog qr qp s r i = (s', r', Ok res) -> dr_success res = true ->
  In c (ds_cons s) -> dc_kind c = DCollisions distances margin trigger -> dc_priority c <> PSoft -> in_motion r q qd t (dr_qdd res) ->
  (forall d, In d (near_pairs trigger (distances r)) -> joint_contract pn (r_model r) q qd t (di_A d) /\ joint_contract pn (r_model r) q qd t (di_B d)) ->
  In d (distances r) -> di_min d < trigger -> margin <= di_min d ->
  exists a, derivable_pt_lim (fun u => opening pn d (q u) (qd u)) t a /\ - braking_speed (safe_opening pn s d (q t)) (di_min d - margin) <= opening pn d (q t) (qd t) + ds_dt s * a.
Proof.
  intros Hd Hqr Hqp H Hs Hc Hk Hp Mo Hj Hin Hlt Hm. pose proof (solved_gap _ _ _ _ _ _ _ _ _ _ _ _ _ _ _ _ _ _ _ Hd Hqr Hqp H Hs Hc Hk Hp Mo Hj Hin Hlt) as G.
  assert (X : In d (near_pairs trigger (distances r))) by (apply filter_In; split; [exact Hin|]; destruct (Rlt_dec (di_min d) trigger); [reflexivity|contradiction]).
  destruct (Hj d X) as [CA CB]. pose proof (opening_deriv pn (r_model r) q qd t (dr_qdd res) d (proj2 (im_size _ _ _ _ _ Mo)) (im_qdd _ _ _ _ _ Mo) CA CB) as D.
  eexists. split; [exact D|]. unfold pair_gap in G. destruct (Rle_dec margin (di_min d)); [|contradiction]. lra.
Qed.
Print Assumptions C137_brakes.

(** Closer than the margin: the opening acceleration without the part that comes from the velocities is at least half of the safe accelerations. *)
Theorem C137_behaviour pn log3 jlog qr qp s r i s' r' res c distances margin trigger q qd t d : dsound pn log3 jlog s r -> qr_correct qr -> qp_correct qp ->
  dsolve pn log3 jlog qr qp s r i = (s', r', Ok res) -> dr_success res = true ->
  In c (ds_cons s) -> dc_kind c = DCollisions distances margin trigger -> dc_priority c <> PSoft -> in_motion r q qd t (dr_qdd res) ->
  (forall d, In d (near_pairs trigger (distances r)) -> joint_contract pn (r_model r) q qd t (di_A d) /\ joint_contract pn (r_model r) q qd t (di_B d)) ->
  In d (distances r) -> di_min d < trigger -> di_min d < margin -> safe_opening pn s d (q t) <= opening pn d (q t) (dr_qdd res).
Proof.
  intros Hd Hqr Hqp H Hs Hc Hk Hp Mo Hj Hin Hlt Hm. pose proof (solved_gap _ _ _ _ _ _ _ _ _ _ _ _ _ _ _ _ _ _ _ Hd Hqr Hqp H Hs Hc Hk Hp Mo Hj Hin Hlt) as G.
  unfold pair_gap in G. destruct (Rle_dec margin (di_min d)); [lra|]. lra.
Qed.
Print Assumptions C137_behaviour.

(** Closer than the margin the objects are pushed apart: the acceleration of their opening is at least half of the safe ones. [rest]: for a robot at rest only. *)
Definition pushed_apart (rest : bool) : Prop := forall pn log3 jlog qr qp s r i s' r' res c distances margin trigger q qd t d, dsound pn log3 jlog s r -> qr_correct qr -> qp_correct qp ->
  dsolve pn log3 jlog qr qp s r i = (s', r', Ok res) -> dr_success res = true ->
  In c (ds_cons s) -> dc_kind c = DCollisions distances margin trigger -> dc_priority c <> PSoft -> in_motion r q qd t (dr_qdd res) ->
  (forall d, In d (near_pairs trigger (distances r)) -> joint_contract pn (r_model r) q qd t (di_A d) /\ joint_contract pn (r_model r) q qd t (di_B d)) ->
  In d (distances r) -> di_min d < trigger -> di_min d < margin -> (rest = true -> forall k, vat (st_qd (r_state r)) k = 0) ->
  exists a, derivable_pt_lim (fun u => opening pn d (q u) (qd u)) t a /\ safe_opening pn s d (q t) <= a.

Theorem C137_pushes_partial : pushed_apart true.
Proof.
  intros pn log3 jlog qr qp s r i s' r' res c distances margin trigger q qd t d Hd Hqr Hqp H Hs Hc Hk Hp Mo Hj Hin Hlt Hm Hr. specialize (Hr eq_refl).
  pose proof (C137_behaviour pn log3 jlog qr qp s r i s' r' res c distances margin trigger q qd t d Hd Hqr Hqp H Hs Hc Hk Hp Mo Hj Hin Hlt Hm) as G.
  assert (X : In d (near_pairs trigger (distances r))) by (apply filter_In; split; [exact Hin|]; destruct (Rlt_dec (di_min d) trigger); [reflexivity|contradiction]).
  destruct (Hj d X) as [CA CB]. pose proof (opening_deriv pn (r_model r) q qd t (dr_qdd res) d (proj2 (im_size _ _ _ _ _ Mo)) (im_qdd _ _ _ _ _ Mo) CA CB) as D.
  eexists. split; [exact D|]. rewrite <- (im_qd _ _ _ _ _ Mo) in Hr.
  assert (Z : forall M k, row_of M k (qd t) = 0) by (intros M k; unfold row_of; apply Rsum_zero_ext; intros j _; rewrite Hr; ring).
  assert (B : opening_bias pn d (q t) (qd t) = 0) by (unfold opening_bias, point_bias, rows3; rewrite !Z; unfold v3_dot, v3_sub, v3_add, v3_cross; cbn; ring). lra.
Qed.
Print Assumptions C137_pushes_partial.

(** A soft constraint costs half its weight times the squares of the violations of the same inequalities. *)
Lemma total_nth {A} (f : A -> R) g : forall l, (forall k d, nth_error l k = Some d -> g k = f d) -> Rsum (List.length l) g = total f l.
Proof.
  intros l. revert g. induction l as [|a l IH]; intros g H; [reflexivity|]. cbn [List.length total]. change (S (List.length l)) with (1 + List.length l)%nat. rewrite Rsum_split. cbn [Rsum]. rewrite (H 0%nat a eq_refl), Rplus_0_l. f_equal. apply IH. intros k d Hk. exact (H (S k) d Hk).
Qed.
Theorem C137_soft pn s r tau c cs distances margin trigger q qd t (qdd : vec) : ds_N s = m_nv (r_model r) -> dc_kind c = DCollisions distances margin trigger -> dc_priority c = PSoft ->
  dconstraint_add pn s r tau c = Ok cs -> in_motion r q qd t qdd ->
  (forall d, In d (near_pairs trigger (distances r)) -> joint_contract pn (r_model r) q qd t (di_A d) /\ joint_contract pn (r_model r) q qd t (di_B d)) ->
  exists a, (forall d, In d (near_pairs trigger (distances r)) -> derivable_pt_lim (fun u => opening pn d (q u) (qd u)) t (a d)) /\
    soft_cost cs (vat qdd) = dc_weight c / 2 * total (fun d => Rsqr (Rmin 0 (
      if Rle_dec margin (di_min d) then opening pn d (q t) (qd t) + ds_dt s * a d + braking_speed (safe_opening pn s d (q t)) (di_min d - margin)
      else opening pn d (q t) qdd - safe_opening pn s d (q t)))) (near_pairs trigger (distances r)).
Proof.
  intros HN Hk Hp Ecs Mo Hj. exists (fun d => opening pn d (q t) qdd + opening_bias pn d (q t) (qd t)). split.
  - intros d X. destruct (Hj d X) as [CA CB]. exact (opening_deriv pn (r_model r) q qd t qdd d (proj2 (im_size _ _ _ _ _ Mo)) (im_qdd _ _ _ _ _ Mo) CA CB).
  - unfold dconstraint_add in Ecs. rewrite Hk in Ecs. destruct (dcollisions_made pn s r c (distances r) margin trigger cs q qd t qdd HN Mo Hj Ecs) as [[-> ->]|(c' & g & -> & Mc & G)]; [cbn; ring|].
    rewrite Hp in Mc. cbn [soft_cost]. rewrite (made_penalty_ineq _ _ _ _ _ _ Mc), Rplus_0_r. f_equal. apply total_nth. intros k d Hn. rewrite (G qdd k d Hn). reflexivity.
Qed.
Print Assumptions C137_soft.

(** ** Examples *)

(** The base turns around z with the speed [w]; a joint slides, with the speed [v], along the x axis of the base. The object of the joint 0 does not move. *)
Definition col_q : vec := Vec 8 (fun k => if Nat.eqb k 6 then 1 else 0).
Definition col_qd (w v : R) : vec := Vec 7 (fun k => if Nat.eqb k 5 then w else if Nat.eqb k 6 then v else 0).
Definition col_robot (w v : R) : robot := Robot ex_model (State col_q (col_qd w v) (zeros 7)) (col_q, col_qd w v).
(** The Jacobian in the world of the joint that slides: the base turns, and the direction of the joint turns with it. *)
Definition col_j (q : vec) (j i k : nat) : R :=
  if Nat.eqb j 1 then
    if Nat.eqb k 5 then if Nat.eqb i 5 then 1 else 0
    else if Nat.eqb k 6 then match i with 0%nat => 1 - 2 * (vat q 5 * vat q 5) | 1%nat => 2 * (vat q 5 * vat q 6) | _ => 0 end else 0
  else 0.
Definition col_dj (q qd : vec) (j i k : nat) : R :=
  if Nat.eqb j 1 && Nat.eqb k 6 then match i with 0%nat => - (2 * (vat q 5 * vat q 6)) * vat qd 5 | 1%nat => (1 - 2 * (vat q 5 * vat q 5)) * vat qd 5 | _ => 0 end else 0.
Definition col_pin : pin := Pin (pn_frame dex_pin) (pn_jac dex_pin) (pn_djac dex_pin) (pn_integrate dex_pin) (pn_difference dex_pin)
  (pn_neutral dex_pin) (pn_com dex_pin) (pn_comjac dex_pin) (pn_dcomjac dex_pin) (pn_centroidal dex_pin) (pn_crba dex_pin)
  (pn_gravity dex_pin) (pn_nle dex_pin) (fun q j _ => Mat 6 7 (col_j q j)) (fun q qd j _ => Mat 6 7 (col_dj q qd j)).

(** A motion from this state, the base turning with the constant speed [w]. *)
Definition col_path (w v : R) (a : vec) (u : R) : vec := Vec 8 (fun k => match k with 5%nat => sin (w / 2 * u) | 6%nat => cos (w / 2 * u) | 7%nat => v * u + vat a 6 / 2 * (u * u) | _ => 0 end).
Definition col_speed (w v : R) (a : vec) (u : R) : vec := Vec 7 (fun k => vat (col_qd w v) k + (vat a k * u + 0 * (u * u))).
Lemma col_motion w v a : vlen a = 7%nat -> in_motion (col_robot w v) (col_path w v a) (col_speed w v a) 0 a.
Proof.
  intros L. constructor.
  - reflexivity.
  - unfold col_path. cbn [col_robot r_state st_q]. unfold col_q. f_equal. apply functional_extensionality. intros k. rewrite Rmult_0_r, sin_0, cos_0. do 8 (destruct k as [|k]; [cbn; ring|]). reflexivity.
  - unfold col_speed. cbn [col_robot r_state st_qd]. unfold col_qd at 2. f_equal. apply functional_extensionality. intros k. unfold col_qd. cbn [vat]. ring.
  - split; [exact L|]. reflexivity.
  - intros k _. cbn [col_speed vat]. eapply lim_ext; [intros y; reflexivity| |apply lim_quadratic]. ring.
Qed.
Lemma lim_line c u : derivable_pt_lim (fun y => c * y) u c.
Proof. eapply lim_eq; [apply (derivable_pt_lim_scal (fun y => y) c u 1), derivable_pt_lim_id|]. ring. Qed.
Lemma col_contract w v a j : joint_contract col_pin ex_model (col_path w v a) (col_speed w v a) 0 j.
Proof.
  split; [intros u; split; reflexivity|]. split; [reflexivity|]. split; [reflexivity|]. intros i k Hi Hk. cbn [col_pin pn_joint_jac pn_joint_djac mat_at mrows mcols] in *.
  unfold col_j, col_dj. destruct (Nat.eqb_spec j 1) as [->|]; [|apply derivable_pt_lim_const]. cbn [andb].
  destruct (Nat.eqb_spec k 5) as [->|]; [cbn [Nat.eqb]; apply derivable_pt_lim_const|]. destruct (Nat.eqb_spec k 6) as [->|]; [|apply derivable_pt_lim_const].
  assert (Ds := lim_sin _ 0 _ (lim_line (w / 2) 0)). assert (Dc := lim_cos _ 0 _ (lim_line (w / 2) 0)). cbv beta in Ds, Dc. rewrite Rmult_0_r in Ds, Dc. rewrite cos_0 in Ds. rewrite sin_0 in Dc.
  cbn [col_path col_speed vat]. rewrite Rmult_0_r, sin_0, cos_0. destruct i as [|[|i]]; [| |apply derivable_pt_lim_const].
  - eapply (lim_ext (fun u => 1 - 2 * (sin (w / 2 * u) * sin (w / 2 * u)))); [reflexivity| |apply deriv_sub; [apply (deriv_const 1)|apply deriv_prod; [apply (deriv_const 2)|apply deriv_prod; exact Ds]]]. cbv beta. rewrite !Rmult_0_r, sin_0. ring.
  - eapply (lim_ext (fun u => 2 * (sin (w / 2 * u) * cos (w / 2 * u)))); [reflexivity| |apply deriv_prod; [apply (deriv_const 2)|apply deriv_prod; [exact Ds|exact Dc]]]. cbv beta. cbn [col_qd vat Nat.eqb]. rewrite !Rmult_0_r, sin_0, cos_0. field.
Qed.

(** The solver: the base is masked, the period is 1/10, and the pair [d] is near. *)
Definition col_cons (d : distance_info) (margin : R) : dconstraint := DConstraint (DCollisions (fun _ => [d]) margin 1) PHard 1.
Definition col_solver (d : distance_info) (margin : R) : dsolver := DSolver 7 (1 / 10) (ds_problem dex_base) true false false false false 0 false (1 / 1000) (Vec 0 (fun _ => 0)) [(6%nat, 1)] [] [] [] [col_cons d margin].

Section Solved.
Variables (w v margin : R) (d : distance_info).
Hypothesis Hmin : di_min d < 1.
Let s := col_solver d margin.
Let r := col_robot w v.

Lemma col_row_ok : exists J y, dcollision_row col_pin s r margin d = Ok (J, y).
Proof. unfold dcollision_row. cbv zeta. destruct (Rle_dec margin (di_min d)); do 2 eexists; reflexivity. Qed.
Lemma col_near : near_pairs 1 [d] = [d].
Proof. unfold near_pairs. cbn. destruct (Rlt_dec (di_min d) 1); [reflexivity|contradiction]. Qed.
Lemma col_add tau : exists cs, dconstraint_add col_pin s r tau (col_cons d margin) = Ok cs.
Proof.
  unfold dconstraint_add. cbn [dc_kind col_cons]. unfold dcollisions. cbn [ds_dt s col_solver]. destruct (Req_EM_T (1 / 10) 0); [lra|]. fold (near_pairs 1 [d]). rewrite col_near.
  destruct col_row_ok as (J & y & E). cbn [dcollision_rows]. rewrite E. cbn [obind]. eexists. reflexivity.
Qed.
Lemma col_made tau cs (x : vec) : dconstraint_add col_pin s r tau (col_cons d margin) = Ok cs -> vlen x = 7%nat ->
  exists c' g, cs = [c'] /\ made c' Inequality Hard 1 1 7 g /\ g (vat x) 0%nat = pair_gap col_pin s margin d col_q (col_qd w v) x.
Proof.
  intros H L. unfold dconstraint_add in H. cbn [dc_kind col_cons] in H. pose proof (col_motion w v x L) as Mo.
  destruct (dcollisions_made col_pin s r _ _ _ _ _ _ _ _ _ eq_refl Mo (fun d _ => conj (col_contract w v x (di_A d)) (col_contract w v x (di_B d))) H) as [[E _]|(c' & g & -> & M & G)]; [rewrite col_near in E; discriminate|].
  rewrite col_near in M, G. exists c', g. split; [reflexivity|]. split; [exact M|]. rewrite (G x 0%nat d eq_refl). rewrite (im_q _ _ _ _ _ Mo), (im_qd _ _ _ _ _ Mo). reflexivity.
Qed.
Lemma col_sound : dsound col_pin dex_log dex_jlog s r.
Proof.
  constructor.
  - reflexivity.
  - destruct ex_well_formed as (H & _). split; [exact H|]. repeat split.
  - repeat split.
  - intros t e [[] _].
  - intros c f k z [].
  - intros c tau cs c' [<-|[]] H Hin. destruct (col_made tau cs (zeros 7) H eq_refl) as (c0 & g & -> & (M1 & M2 & M3 & M4 & M5 & M6 & _) & _). destruct Hin as [<-|[]]. rewrite M4, M5, M6. split; [reflexivity|]. split; [change (ds_N s) with 7%nat; lia|]. congruence.
  - constructor.
Qed.
Lemma col_ready : dready col_pin dex_log dex_jlog s r.
Proof.
  constructor.
  - apply col_sound.
  - cbn; lia.
  - left. reflexivity.
  - discriminate.
  - intros k x [].
  - cbn. lra.
  - intros t [].
  - intros c [].
  - intros c tau [<-|[]] _. destruct (col_add tau) as [cs E]. exists cs. split; [exact E|]. intros c' Hin. destruct (col_made tau cs (zeros 7) E eq_refl) as (c0 & g & -> & (M1 & M2 & M3 & M4 & _) & _). destruct Hin as [<-|[]]. rewrite M4. split; [lia|]. congruence.
Qed.
Lemma col_independent M Js tau : contact_matrices col_pin dex_log dex_jlog s r Js -> independent_rows (unknowns (ds_N s) Js) (equality_coefficients col_pin dex_log dex_jlog s r M Js tau).
Proof.
  intros H. inversion H. subst Js. unfold equality_coefficients. cbn [ds_masked_fbase s col_solver ds_contacts ds_N ds_tasks ds_cons map wrench_equalities app flat_map seq].
  fold s. destruct (col_add tau) as [cs E]. destruct (col_made tau cs (zeros 7) E eq_refl) as (c0 & g & -> & (M1 & M2 & _) & _). rewrite E. cbn [flat_map]. unfold equality_rows. rewrite M2, M1. cbn [app].
  intros mu Hm. cbn [List.length] in *. intros k Hk. assert (Hk' : (k < 7)%nat) by (clear - Hk; cbn in Hk; lia). specialize (Hm k Hk'). cbn [Rsum nth] in Hm. unfold coefficients, unit_row in Hm.
  do 6 (destruct k as [|k]; [cbn in Hm; lra|]). lia.
Qed.
Definition col_x : vec := Vec 7 (fun k => if Nat.eqb k 6 then 10 else 0).
Lemma col_allowed M Js tau : contact_matrices col_pin dex_log dex_jlog s r Js -> 0 <= pair_gap col_pin s margin d col_q (col_qd w v) col_x -> dallowed col_pin dex_log dex_jlog s r M Js tau (vat col_x).
Proof.
  intros H G. inversion H. subst Js. constructor.
  - intros _ j Hj. cbn. destruct (Nat.eqb_spec j 6); [lia|reflexivity].
  - discriminate.
  - intros [|i] c J Hc; discriminate.
  - constructor; discriminate.
  - intros t e [[] _].
  - intros c cs [<-|[]] E. destruct (col_made tau cs col_x E eq_refl) as (c0 & g & -> & M0 & G0). intros c' [<-|[]] _. apply (made_holds _ _ _ _ _ _ _ _ M0). intros i Hi. assert (i = 0%nat) by lia. subst i. cbv iota. rewrite G0. exact G.
Qed.
Lemma col_solved : 0 <= pair_gap col_pin s margin d col_q (col_qd w v) col_x -> exists s' res, dsolve col_pin dex_log dex_jlog perfect_qr perfect_qp s r false = (s', r, Ok res) /\ dr_success res = true /\
  dsound col_pin dex_log dex_jlog s r /\ In (col_cons d margin) (ds_cons s) /\ in_motion r (col_path w v (dr_qdd res)) (col_speed w v (dr_qdd res)) 0 (dr_qdd res) /\ (forall k, (k < 6)%nat -> vat (dr_qdd res) k = 0).
Proof.
  intros G. destruct (perfect_dsolve col_pin dex_log dex_jlog s r col_ready eq_refl ltac:(cbn; lra)) as (s' & res & Hs & E).
  - intros M Js tau _. apply col_independent.
  - intros M Js tau _ HJ. exists (vat col_x). now apply col_allowed.
  - exists s', res. split; [exact E|]. split; [exact Hs|]. split; [apply col_sound|]. split; [now left|].
    destruct (dsolve_success _ _ _ _ _ _ _ _ _ _ _ col_sound E Hs) as (b & M & Js & x & _ & V & _). pose proof (dsolved_allowed _ _ _ _ _ _ _ _ _ _ _ _ _ perfect_qr_correct perfect_qp_correct V) as [A1 _ _ _ _ _].
    pose proof (dv_qdd _ _ _ _ _ _ _ _ _ _ _ _ _ V) as [Q Q']. split; [now apply col_motion|]. intros k Hk. rewrite Q' by (cbn; lia). now apply A1.
Qed.
End Solved.

(** The opening, for a direction along x or y. *)
Lemma col_opening pA pB m (z : vec) : vlen z = 7%nat -> let d := DistanceInfo 0 1 pA pB m in
  opening col_pin d col_q z = vx (apart d) * (vat z 6 - vat z 5 * vy pB) + vy (apart d) * (vat z 5 * vx pB).
Proof. intros L d. unfold opening, point_velocity, rows3, row_of, v3_dot, v3_sub, v3_add, v3_cross. cbn. unfold col_j. cbn. ring. Qed.

Lemma col_apart_x m : apart (DistanceInfo 0 1 v3_zero (V3 1 0 0) m) = V3 (if Rlt_dec m 0 then -1 else 1) 0 0.
Proof.
  unfold apart, v3_normalize, v3_norm, v3_dot, v3_sub, v3_zero. cbn. destruct (Rlt_dec 0 _) as [|Hn]; [|exfalso; apply Hn; lra]. cbn.
  match goal with |- context [sqrt ?a] => replace a with 1 by ring end. rewrite sqrt_1. apply V3_ext; cbn; field.
Qed.
Lemma col_apart_y m : 0 <= m -> apart (DistanceInfo 0 1 v3_zero (V3 0 1 0) m) = V3 0 1 0.
Proof.
  intros Hm. unfold apart, v3_normalize, v3_norm, v3_dot, v3_sub, v3_zero. cbn. destruct (Rlt_dec 0 _) as [|Hn]; [|exfalso; apply Hn; lra]. destruct (Rlt_dec m 0); [lra|]. cbn.
  match goal with |- context [sqrt ?a] => replace a with 1 by ring end. rewrite sqrt_1. apply V3_ext; cbn; field.
Qed.
Lemma col_safe pA pB m margin d' : let d := DistanceInfo 0 1 pA pB m in safe_opening col_pin (col_solver d' margin) d col_q = / 2 * Rabs (vx (apart d)).
Proof.
  intros d. unfold safe_opening. change (ds_N (col_solver d' margin)) with 7%nat. cbn [Nat.sub Rsum]. unfold d. rewrite col_opening by reflexivity. fold d. cbn. f_equal. rewrite Rplus_0_l, Rmult_1_r. f_equal. ring.
Qed.

(** Beyond the margin, at 3/10 from an object that comes at the speed 1: the joint has to brake. *)
Definition col_d1 : distance_info := DistanceInfo 0 1 v3_zero (V3 1 0 0) (3 / 10).
Example C137_brakes_example : exists s' res, let a := dr_qdd res in dsolve col_pin dex_log dex_jlog perfect_qr perfect_qp (col_solver col_d1 (1 / 10)) (col_robot 0 (-1)) false = (s', col_robot 0 (-1), Ok res) /\
  dr_success res = true /\ dsound col_pin dex_log dex_jlog (col_solver col_d1 (1 / 10)) (col_robot 0 (-1)) /\ In (col_cons col_d1 (1 / 10)) (ds_cons (col_solver col_d1 (1 / 10))) /\
  in_motion (col_robot 0 (-1)) (col_path 0 (-1) a) (col_speed 0 (-1) a) 0 a /\ (forall j, joint_contract col_pin ex_model (col_path 0 (-1) a) (col_speed 0 (-1) a) 0 j) /\ di_min col_d1 < 1 /\ 1 / 10 <= di_min col_d1 /\
  opening col_pin col_d1 col_q (col_qd 0 (-1)) = -1 /\ braking_speed (safe_opening col_pin (col_solver col_d1 (1 / 10)) col_d1 col_q) (di_min col_d1 - 1 / 10) < 1.
Proof.
  assert (O : forall z, vlen z = 7%nat -> opening col_pin col_d1 col_q z = vat z 6). { intros z L. unfold col_d1. rewrite col_opening by exact L. rewrite col_apart_x. destruct (Rlt_dec (3 / 10) 0); [lra|]. cbn. ring. }
  assert (Sf : safe_opening col_pin (col_solver col_d1 (1 / 10)) col_d1 col_q = / 2). { unfold col_d1 at 2. rewrite col_safe, col_apart_x. destruct (Rlt_dec (3 / 10) 0); [lra|]. cbn. rewrite Rabs_R1. ring. }
  assert (Bi : forall qd, vat qd 5 = 0 -> opening_bias col_pin col_d1 col_q qd = 0). { intros qd Z. unfold opening_bias, point_bias, rows3, row_of, v3_dot, v3_sub, v3_add, v3_cross. cbn. unfold col_dj. cbn. rewrite Z. ring. }
  destruct (col_solved 0 (-1) (1 / 10) col_d1 ltac:(cbn; lra)) as (s' & res & E & Hs & So & Hin & Mo & _).
  - unfold pair_gap. rewrite !O by reflexivity. rewrite Bi by reflexivity. change (ds_dt (col_solver col_d1 (1 / 10))) with (1 / 10). cbn [col_d1 di_min]. destruct (Rle_dec (1 / 10) (3 / 10)) as [|Hn]; [|exfalso; apply Hn; lra].
    unfold braking_speed. match goal with |- context [sqrt ?a] => pose proof (sqrt_pos a); generalize dependent (sqrt a) end. intros z Hz. cbn. lra.
  - exists s', res. do 5 (split; [assumption|]). split; [intros j; apply col_contract|]. split; [cbn; lra|]. split; [cbn; lra|]. split; [rewrite O by reflexivity; reflexivity|].
    rewrite Sf. unfold braking_speed. cbn [col_d1 di_min]. assert (X : sqrt (2 * (3 / 10 - 1 / 10) * / 2) < sqrt 1) by (apply sqrt_lt_1_alt; lra). rewrite sqrt_1 in X. exact X.
Qed.

(** Inside the margin, at rest. *)
Example C137_pushes_example : exists s' res, let a := dr_qdd res in dsolve col_pin dex_log dex_jlog perfect_qr perfect_qp (col_solver (DistanceInfo 0 1 v3_zero (V3 1 0 0) 0) (1 / 10)) (col_robot 0 0) false = (s', col_robot 0 0, Ok res) /\
  dr_success res = true /\ dsound col_pin dex_log dex_jlog (col_solver (DistanceInfo 0 1 v3_zero (V3 1 0 0) 0) (1 / 10)) (col_robot 0 0) /\
  in_motion (col_robot 0 0) (col_path 0 0 a) (col_speed 0 0 a) 0 a /\ (forall j, joint_contract col_pin ex_model (col_path 0 0 a) (col_speed 0 0 a) 0 j) /\ (forall k, vat (st_qd (r_state (col_robot 0 0))) k = 0) /\
  safe_opening col_pin (col_solver (DistanceInfo 0 1 v3_zero (V3 1 0 0) 0) (1 / 10)) (DistanceInfo 0 1 v3_zero (V3 1 0 0) 0) col_q = / 2.
Proof.
  set (d := DistanceInfo 0 1 v3_zero (V3 1 0 0) 0).
  assert (O : forall z, vlen z = 7%nat -> opening col_pin d col_q z = vat z 6). { intros z L. unfold d. rewrite col_opening by exact L. rewrite col_apart_x. destruct (Rlt_dec 0 0); [lra|]. cbn. ring. }
  assert (Sf : safe_opening col_pin (col_solver d (1 / 10)) d col_q = / 2). { unfold d at 2. rewrite col_safe, col_apart_x. destruct (Rlt_dec 0 0); [lra|]. cbn. rewrite Rabs_R1. ring. }
  assert (Hm : di_min d < 1) by (unfold d; cbn; lra). destruct (col_solved 0 0 (1 / 10) d Hm) as (s' & res & E & Hs & So & Hin & Mo & _).
  - unfold pair_gap. rewrite !O by reflexivity. rewrite Sf. cbn [d di_min]. destruct (Rle_dec (1 / 10) 0) as [Hn|]; [exfalso; lra|]. cbn. lra.
  - exists s', res. do 4 (split; [assumption|]). split; [intros j; apply col_contract|]. split; [|exact Sf]. intros k. cbn. destruct (Nat.eqb k 5), (Nat.eqb k 6); reflexivity.
Qed.

(** When the robot moves this is not true: the base turns with the speed 1 and the joint goes in with the speed 1; the object accelerates towards the other one. *)
Theorem C137_pushes_refuted : ~ pushed_apart false.
Proof.
  set (d := DistanceInfo 0 1 v3_zero (V3 0 1 0) 0).
  assert (O : forall z, vlen z = 7%nat -> opening col_pin d col_q z = 0). { intros z L. unfold d. rewrite col_opening by exact L. rewrite col_apart_y by lra. cbn. ring. }
  assert (Sf : safe_opening col_pin (col_solver d (1 / 10)) d col_q = 0). { unfold d at 2. rewrite col_safe, col_apart_y by lra. cbn. rewrite Rabs_R0. ring. }
  assert (Bi : opening_bias col_pin d col_q (col_qd 1 (-1)) = -1).
  { unfold opening_bias. unfold d at 1. rewrite col_apart_y by lra. unfold point_bias, rows3, row_of, v3_dot, v3_sub, v3_add, v3_cross. cbn. unfold col_dj. cbn. ring. }
  assert (Hm : di_min d < 1) by (unfold d; cbn; lra). destruct (col_solved 1 (-1) (1 / 10) d Hm) as (s' & res & E & Hs & So & Hin & Mo & _).
  - unfold pair_gap. rewrite !O by reflexivity. rewrite Sf. cbn [d di_min]. destruct (Rle_dec (1 / 10) 0) as [Hn|]; [exfalso; lra|]. lra.
  - intros F. destruct (F col_pin dex_log dex_jlog perfect_qr perfect_qp _ _ false s' _ res _ (fun _ => [d]) (1 / 10) 1 _ _ 0 d So perfect_qr_correct perfect_qp_correct E Hs Hin eq_refl ltac:(discriminate) Mo
      (fun d0 _ => conj (col_contract 1 (-1) (dr_qdd res) (di_A d0)) (col_contract 1 (-1) (dr_qdd res) (di_B d0))) (or_introl eq_refl) Hm ltac:(unfold d; cbn; lra) ltac:(discriminate)) as (a & D & Ha).
    pose proof (opening_deriv col_pin ex_model _ _ 0 _ d (proj2 (im_size _ _ _ _ _ Mo)) (im_qdd _ _ _ _ _ Mo) (col_contract _ _ _ _) (col_contract _ _ _ _)) as D'. pose proof (uniqueness_limite _ _ _ _ D D') as Ea.
    rewrite (im_q _ _ _ _ _ Mo) in *. rewrite (im_qd _ _ _ _ _ Mo) in *. cbn [col_robot r_state st_q st_qd] in *. rewrite Bi, O in Ea by (apply (im_size _ _ _ _ _ Mo)). rewrite Sf in Ha. lra.
Qed.
Print Assumptions C137_pushes_refuted.
