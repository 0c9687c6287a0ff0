(** Properties C33-C36, C91 and C92: cubic splines. *)
From Coq Require Import Reals Lra Lia List Bool Sorted.
From Verif Require Import Base Angle Tools_model Tools_proofs Spline_model Spline_spec Spline_proofs.
Import ListNotations.
Open Scope R_scope.

(** ** C33 *)
Theorem C33_spline s first second rest : reachable s -> cs_points s = first :: second :: rest ->
  let final := last rest second in
  exists P V A : R -> R,
    (forall t, snd (pos s t) = Ok (P t) /\ snd (vel s t) = Ok (V t) /\ snd (acc s t) = Ok (A t)) /\
    (forall p q, consecutive (cs_points s) p q ->
       sp_t p < sp_t q /\ cubic_between (sp_t p) (sp_x p) (sp_dx p) (sp_t q) (sp_x q) (sp_dx q) P V A) /\
    continuity P /\ continuity V /\ (forall t, sp_t first < t < sp_t final -> derivable_pt_lim P t (V t)) /\
    (forall t, t <= sp_t first -> P t = sp_x first /\ V t = sp_dx first) /\
    (forall t, sp_t final <= t -> P t = sp_x final /\ V t = sp_dx final).
Proof.
  intros Hr E final. pose proof (reachable_inv s Hr) as I. pose proof (proj1 I) as S. rewrite E in S.
  destruct (sorted_cons _ _ _ S) as [Hpq S']. pose proof (last_sorted _ _ S') as Hl. fold final in Hl. unfold before in Hpq.
  pose (F type t := ext type first second rest (clamped first second rest t)).
  exists (F VValue), (F VSpeed), (F VAcceleration).
  assert (In : forall t, sp_t first <= t <= sp_t final -> clamped first second rest t = t) by (intros t Ht; now apply clamp_in).
  split; [intros t; repeat split; apply interpolation_value; assumption|]. split; [|split; [|split; [|split; [|split]]]].
  - intros p q Hc. rewrite E in Hc. destruct (ext_piece rest first second S p q Hc) as (H1 & H2 & H3 & H4 & H5). fold final in H5.
    unfold before in H3. split; [exact H3|]. set (w := the_fit p q). set (u := sp_t p).
    exists (c_d w - c_c w * u + c_b w * u ^ 2 - c_a w * u ^ 3), (c_c w - 2 * c_b w * u + 3 * c_a w * u ^ 2), (c_b w - 3 * c_a w * u), (c_a w).
    destruct (one_ends p q H3) as (E1 & E2 & E3 & E4). unfold F.
    split; [|split; [|split; [|split; [|split; [|split]]]]].
    + intros t Ht. rewrite In by (unfold u in Ht; lra). rewrite (proj1 (H1 t Ht)). unfold one, polynom_value. fold w u. ring.
    + intros t Ht. rewrite In by (unfold u in Ht; lra). rewrite (proj2 (H1 t Ht)). unfold one, polynom_diff. fold w u. ring.
    + unfold u. rewrite In by lra. rewrite (proj1 (H1 (sp_t p) ltac:(lra))). exact E1.
    + unfold u. rewrite In by lra. rewrite (proj2 (H1 (sp_t p) ltac:(lra))). exact E2.
    + rewrite In by lra. rewrite (proj1 (H1 (sp_t q) ltac:(lra))). exact E3.
    + rewrite In by lra. rewrite (proj2 (H1 (sp_t q) ltac:(lra))). exact E4.
    + intros t Ht. rewrite In by (unfold u in Ht; lra). rewrite (H2 t Ht). unfold one, polynom_diff2. fold w u. ring.
  - intros t. unfold F. apply (continuity_pt_comp (clamped first second rest) (ext VValue first second rest)).
    + apply clamp_continuity.
    + apply (derivable_continuity _ _ (ext_derivable rest first second S)).
  - intros t. unfold F. apply (continuity_pt_comp (clamped first second rest) (ext VSpeed first second rest)).
    + apply clamp_continuity.
    + apply ext_continuity. exact S.
  - intros t Ht. unfold F. rewrite (In t) by lra.
    intros eps He. destruct (ext_derivable rest first second S t eps He) as [d Hd].
    assert (Hm : 0 < Rmin d (Rmin (t - sp_t first) (sp_t final - t))) by (apply Rmin_pos; [apply cond_pos|apply Rmin_pos; lra]).
    exists (mkposreal _ Hm). cbn [RIneq.pos]. intros h Hh Hhl.
    pose proof (Rmin_l d (Rmin (t - sp_t first) (sp_t final - t))). pose proof (Rmin_r d (Rmin (t - sp_t first) (sp_t final - t))).
    pose proof (Rmin_l (t - sp_t first) (sp_t final - t)). pose proof (Rmin_r (t - sp_t first) (sp_t final - t)).
    assert (Hb : - (t - sp_t first) < h < sp_t final - t) by (apply Rabs_def2 in Hhl; lra).
    rewrite !In by lra. apply Hd; [exact Hh|lra].
  - intros t Ht. unfold F. assert (Ec : clamped first second rest t = sp_t first).
    { unfold clamped, clamp. fold final. rewrite Rmin_right, Rmax_left; lra. }
    rewrite Ec, !ext_start by exact Hpq. destruct (one_ends first second Hpq) as (E1 & E2 & _). auto.
  - intros t Ht. unfold F. assert (Ec : clamped first second rest t = sp_t final).
    { unfold clamped, clamp. fold final. rewrite Rmin_left, Rmax_right; lra. }
    rewrite Ec. unfold final in *. clear -S. revert first second S. induction rest as [|q' r IH]; intros p q S; destruct (sorted_cons _ _ _ S) as [Hpq S'].
    + cbn [ext last]. destruct (one_ends p q Hpq) as (_ & _ & E3 & E4). auto.
    + rewrite last_cons_ne. cbn [ext]. destruct (sorted_cons _ _ _ S') as [Hq S'']. pose proof (last_sorted _ _ S'') as Hl.
      unfold before in Hq. destruct (Rle_dec (sp_t (last r q')) (sp_t q)); [exfalso; lra|]. now apply IH.
Qed.
Print Assumptions C33_spline.

(** With fewer points: nothing is 0, one point is a constant (whose acceleration is reported to be its slope). *)
Theorem C33_few_points s t : 
  (cs_points s = [] -> snd (pos s t) = Ok 0 /\ snd (vel s t) = Ok 0 /\ snd (acc s t) = Ok 0) /\
  (forall p, cs_points s = [p] -> snd (pos s t) = Ok (sp_x p) /\ snd (vel s t) = Ok (sp_dx p) /\ snd (acc s t) = Ok (sp_dx p)).
Proof.
  unfold pos, vel, acc, interpolation. cbn [snd]. destruct (cs_dirty s); cbn [compute_splines cs_points].
  - split; [intros ->|intros p ->]; repeat split.
  - split; [intros ->|intros p ->]; repeat split.
Qed.
Print Assumptions C33_few_points.

(** Queries change neither the points nor the results of later queries, and never fail. *)
Theorem C33_queries s t type : reachable s ->
  let s' := fst (interpolation s t type) in
  cs_points s' = cs_points s /\ (exists y, snd (interpolation s t type) = Ok y) /\
  forall t' type', snd (interpolation s' t' type') = snd (interpolation s t' type').
Proof.
  intros Hr s'. pose proof (reachable_inv s Hr) as I. pose proof (interpolation_inv s t type I) as I'. fold s' in I'.
  assert (Ep : cs_points s' = cs_points s) by (unfold s', interpolation; cbn [fst]; destruct (cs_dirty s); reflexivity).
  split; [exact Ep|].
  destruct (cs_points s) as [|p [|q r]] eqn:E.
  - split.
    + unfold interpolation. cbn [snd]. destruct (cs_dirty s); cbn [compute_splines cs_points]; rewrite E; eauto.
    + intros t' type'. unfold interpolation. cbn [snd]. destruct (cs_dirty s), (cs_dirty s'); cbn [compute_splines cs_points]; rewrite E, Ep; reflexivity.
  - split.
    + unfold interpolation. cbn [snd]. destruct (cs_dirty s); cbn [compute_splines cs_points]; rewrite E; eauto.
    + intros t' type'. unfold interpolation. cbn [snd]. destruct (cs_dirty s), (cs_dirty s'); cbn [compute_splines cs_points]; rewrite E, Ep; reflexivity.
  - split.
    + eexists. apply (interpolation_value s p q r); assumption.
    + intros t' type'. rewrite (interpolation_value s p q r), (interpolation_value s' p q r); auto.
Qed.
Print Assumptions C33_queries.

(** The code inverts a 4 x 4 matrix; the model's closed form is the only solution of its system. *)
Theorem C33_fit t1 x1 dx1 t2 x2 dx2 w : t1 <> t2 ->
  system t1 t2 w = [x1; dx1; x2; dx2] <-> w = fit t1 x1 dx1 t2 x2 dx2.
Proof.
  intros H. split; [now apply fit_unique|]. intros ->. now apply fit_system.
Qed.
Print Assumptions C33_fit.

(** Three points added by a user. *)
Definition ex_calls : list scall := [CAdd 0 1 0; CAdd 1 2 1; CQuery (1 / 2) VValue; CAdd 3 0 0].
Lemma ex_reachable : exists s, reachable s /\ scalls_run (new_spline false) ex_calls = Some s /\
  cs_points s = [SPoint 0 1 0; SPoint 1 2 1; SPoint 3 0 0].
Proof.
  unfold ex_calls, scalls_run, scall_run, add_point, last_point, new_spline.
  cbn [cs_points rev app cs_angular sp_t sp_x cs_pieces].
  destruct (Rle_dec 1 0); [lra|]. cbn [cs_points rev app cs_angular cs_pieces cs_dirty interpolation compute_splines pieces_of].
  cbn [last sp_t]. destruct (Rle_dec 3 1); [lra|].
  eexists. split; [|split; [reflexivity|reflexivity]].
  exists false, ex_calls. unfold ex_calls, scalls_run, scall_run, add_point, last_point, new_spline.
  cbn [cs_points rev app cs_angular sp_t sp_x cs_pieces].
  destruct (Rle_dec 1 0); [lra|]. cbn [cs_points rev app cs_angular cs_pieces cs_dirty interpolation compute_splines pieces_of].
  cbn [last sp_t]. destruct (Rle_dec 3 1); [lra|]. reflexivity.
Qed.

Example C33_example : exists s, reachable s /\ snd (pos s 1) = Ok 2 /\ snd (vel s 1) = Ok 1 /\ snd (pos s 5) = Ok 0 /\ snd (pos s (-1)) = Ok 1.
Proof.
  destruct ex_reachable as (s & R & _ & E). exists s. split; [exact R|].
  destruct (C33_spline s _ _ _ R E) as (P & V & A & Q & H & _ & _ & _ & B & L). cbv zeta in L. cbn [last sp_t sp_x] in *.
  destruct (H (SPoint 0 1 0) (SPoint 1 2 1)) as (_ & k0 & k1 & k2 & k3 & _ & _ & _ & _ & H3 & H4 & _).
  { exists [], [SPoint 3 0 0]. rewrite E. reflexivity. }
  cbn [sp_t sp_x sp_dx] in *. repeat split.
  - rewrite (proj1 (Q 1)), H3. reflexivity.
  - rewrite (proj1 (proj2 (Q 1))), H4. reflexivity.
  - rewrite (proj1 (Q 5)), (proj1 (L 5 ltac:(lra))). reflexivity.
  - rewrite (proj1 (Q (-1))), (proj1 (B (-1) ltac:(lra))). reflexivity.
Qed.

(** ** C34 *)
(** add_point throws iff there is a previous point that is not earlier; the spline is then unchanged. *)
Theorem C34_rejected s t x dx :
  (exists l, last_point (cs_points s) = Some l /\ t <= sp_t l) <-> snd (add_point s t x dx) <> Ok tt.
Proof.
  unfold add_point. destruct (last_point (cs_points s)) as [l|].
  - destruct (Rle_dec t (sp_t l)); cbn [snd]; split; intros H; try discriminate; [now exists l| |].
    + destruct H as (l' & E & H). injection E as <-. contradiction.
    + now elim H.
  - cbn [snd]. split; [|intros H; now elim H]. intros (l & H & _). discriminate.
Qed.
Print Assumptions C34_rejected.

Theorem C34_rejected_unchanged s t x dx : snd (add_point s t x dx) <> Ok tt -> add_point s t x dx = (s, Throw ERuntime).
Proof.
  unfold add_point. destruct (last_point (cs_points s)) as [l|].
  - destruct (Rle_dec t (sp_t l)); cbn [snd]; intros H; [reflexivity|now elim H].
  - cbn [snd]. intros H. now elim H.
Qed.
Print Assumptions C34_rejected_unchanged.

(** An accepted point is added at the end, with its time and slope, and its value unless the spline is angular. *)
Theorem C34_accepted s t x dx s' : add_point s t x dx = (s', Ok tt) ->
  exists x', cs_points s' = cs_points s ++ [SPoint t x' dx] /\ cs_angular s' = cs_angular s /\ (cs_angular s = false -> x' = x).
Proof.
  unfold add_point. destruct (last_point (cs_points s)) as [l|].
  - destruct (Rle_dec t (sp_t l)); [discriminate|]. intros H. injection H as <-. eexists. split; [reflexivity|]. split; [reflexivity|].
    intros ->. reflexivity.
  - intros H. injection H as <-. eexists. repeat split.
Qed.
Print Assumptions C34_accepted.

Theorem C34_increasing s p q l1 l2 l3 : reachable s -> cs_points s = l1 ++ p :: l2 ++ q :: l3 -> sp_t p < sp_t q.
Proof.
  intros Hr E. destruct (reachable_inv s Hr) as [S _]. rewrite E in S. clear E.
  induction l1 as [|a l1 IH]; cbn [app] in S; inversion S as [|? ? S' F]; subst; [|now apply IH].
  apply Forall_app in F as [_ F]. inversion F. assumption.
Qed.
Print Assumptions C34_increasing.

(** ** C35 *)
Theorem C35_angular s t x dx s' : cs_angular s = true -> add_point s t x dx = (s', Ok tt) ->
  exists x', cs_points s' = cs_points s ++ [SPoint t x' dx] /\ (exists k : Z, x' = x + IZR k * (2 * PI)) /\
    forall l, last_point (cs_points s) = Some l -> Rabs (x' - sp_x l) <= PI.
Proof.
  intros Ha. unfold add_point. destruct (last_point (cs_points s)) as [l|].
  - rewrite Ha. destruct (Rle_dec t (sp_t l)); [discriminate|]. intros H. injection H as <-. eexists. split; [reflexivity|]. split.
    + destruct (wrap_angle_same (x - sp_x l)) as [k Hk]. exists k. rewrite Hk. ring.
    + intros l' E. injection E as <-. replace (_ - _) with (wrap_angle (x - sp_x l)) by ring.
      pose proof (wrap_angle_range (x - sp_x l)). apply Rabs_le. lra.
  - intros H. injection H as <-. exists x. split; [reflexivity|]. split; [exists 0%Z; simpl; ring|]. discriminate.
Qed.
Print Assumptions C35_angular.

Theorem C35_consecutive s p q : reachable s -> cs_angular s = true -> consecutive (cs_points s) p q -> Rabs (sp_x q - sp_x p) <= PI.
Proof.
  intros (ang & l & H) Ha Hc.
  assert (G : forall l s, (forall p q, consecutive (cs_points s) p q -> cs_angular s = true -> Rabs (sp_x q - sp_x p) <= PI) ->
    forall s', scalls_run s l = Some s' -> forall p q, consecutive (cs_points s') p q -> cs_angular s' = true -> Rabs (sp_x q - sp_x p) <= PI).
  { clear. induction l as [|c l IH]; intros s I s' H; cbn [scalls_run] in H; [injection H as <-; exact I|].
    destruct (scall_run s c) as [s1|] eqn:E; [|discriminate]. apply (IH s1); [|exact H]. clear H IH.
    destruct c as [t x dx| |t type|]; cbn [scall_run] in E.
    - destruct (add_point s t x dx) as [s2 o] eqn:Ea. assert (s1 = s2) by (destruct o; congruence). subst s2. clear E.
      destruct o as [[]|e|]; [| |unfold add_point in Ea; destruct (last_point _); [destruct (Rle_dec _ _)|]; discriminate].
      + intros p q (l1 & l2 & Hc) Ha.
        assert (Ha' : cs_angular s = true) by (destruct (C34_accepted _ _ _ _ _ Ea) as (? & _ & <- & _); exact Ha).
        destruct (C35_angular s t x dx s1 Ha' Ea) as (x' & Ep & _ & B). rewrite Ep in Hc.
        destruct l2 as [|b l2] using rev_ind.
        * replace (l1 ++ [p; q]) with ((l1 ++ [p]) ++ [q]) in Hc by (rewrite <- app_assoc; reflexivity).
          apply app_inj_tail in Hc as [Hc <-]. cbn [sp_x]. apply B. rewrite Hc. apply last_point_app.
        * clear IHl2. replace (l1 ++ p :: q :: l2 ++ [b]) with ((l1 ++ p :: q :: l2) ++ [b]) in Hc by (rewrite <- app_assoc; reflexivity).
          apply app_inj_tail in Hc as [Hc _]. apply I; [|exact Ha']. now exists l1, l2.
      + assert (s1 = s) as ->; [|exact I]. pose proof (C34_rejected_unchanged s t x dx) as R. rewrite Ea in R. cbn [snd] in R.
        specialize (R ltac:(discriminate)). congruence.
    - injection E as <-. intros p q (l1 & l2 & Hc). destruct l1; discriminate.
    - assert (E1 : s1 = fst (interpolation s t type)) by (destruct (interpolation s t type) as [s2 o]; cbn [fst]; destruct o; congruence).
      rewrite E1. unfold interpolation. cbn [fst]. destruct (cs_dirty s); exact I.
    - assert (s1 = s) as -> by (destruct (duration s); congruence). exact I. }
  apply (G l (new_spline ang) ) with (s' := s); [|exact H|exact Hc|exact Ha]. intros p' q' ([|] & l2 & E); discriminate.
Qed.
Print Assumptions C35_consecutive.

(** From 0 to 3 pi / 2: stored as - pi / 2. *)
Example C35_example : exists s, reachable s /\ cs_angular s = true /\ cs_points s = [SPoint 0 0 0; SPoint 1 (- (PI / 2)) 0].
Proof.
  assert (W : wrap_angle (3 * (PI / 2) - 0) = - (PI / 2)).
  { pose proof PI_RGT_0. apply same_angle_unique; [apply wrap_angle_range|lra|].
    apply same_angle_trans with (3 * (PI / 2) - 0); [apply wrap_angle_same|]. exists 1%Z. lra. }
  assert (E : scalls_run (new_spline true) [CAdd 0 0 0; CAdd 1 (3 * (PI / 2)) 0] = Some (Spline true true [SPoint 0 0 0; SPoint 1 (- (PI / 2)) 0] [])).
  { unfold scalls_run, scall_run, add_point, last_point, new_spline. cbn [cs_points rev app cs_angular sp_t sp_x cs_pieces].
    destruct (Rle_dec 1 0); [lra|]. rewrite W, Rplus_0_l. reflexivity. }
  eexists. split; [exists true; eexists; exact E|]. split; reflexivity.
Qed.

(** ** C36 *)

(** False: without a query since the last clear the access is undefined, and after a later add_point the value is stale. *)
Theorem C36_duration_refuted :
  (exists s p q r, reachable s /\ cs_points s = p :: q :: r /\ duration s = UB) /\
  (exists s p q r d, reachable s /\ cs_points s = p :: q :: r /\ duration s = Ok d /\ d <> sp_t (last r q) - sp_t p).
Proof.
  split.
  - assert (E : scalls_run (new_spline false) [CAdd 0 1 0; CAdd 1 2 1] = Some (Spline false true [SPoint 0 1 0; SPoint 1 2 1] [])).
    { unfold scalls_run, scall_run, add_point, last_point, new_spline. cbn [cs_points rev app cs_angular sp_t sp_x cs_pieces].
      destruct (Rle_dec 1 0); [lra|]. reflexivity. }
    eexists. eexists. eexists. eexists. split; [exists false; eexists; exact E|]. split; reflexivity.
  - destruct ex_reachable as (s & R & E & Ep). exists s, (SPoint 0 1 0), (SPoint 1 2 1), [SPoint 3 0 0], 1.
    split; [exact R|]. split; [exact Ep|]. split; [|cbn; lra].
    unfold ex_calls, scalls_run, scall_run, add_point, last_point, new_spline in E.
    cbn [cs_points rev app cs_angular sp_t sp_x cs_pieces] in E.
    destruct (Rle_dec 1 0); [lra|]. cbn [cs_points rev app cs_angular cs_pieces cs_dirty interpolation compute_splines pieces_of] in E.
    cbn [last sp_t] in E. destruct (Rle_dec 3 1); [lra|]. injection E as <-. unfold duration. cbn [cs_pieces last pc_end pc_start].
    f_equal. cbn [sp_t]. ring.
Qed.
Print Assumptions C36_duration_refuted.

(** Right after a query it is the time between the first and the last point, if there are two. *)
Theorem C36_duration_partial s t type p q r : reachable s -> cs_points s = p :: q :: r ->
  duration (fst (interpolation s t type)) = Ok (sp_t (last r q) - sp_t p).
Proof.
  intros Hr E. pose proof (interpolation_inv s t type (reachable_inv s Hr)) as [_ D].
  assert (Ed : cs_dirty (fst (interpolation s t type)) = false).
  { unfold interpolation. cbn [fst]. destruct (cs_dirty s) eqn:Ed; [reflexivity|exact Ed]. }
  specialize (D Ed). assert (Ep : cs_points (fst (interpolation s t type)) = p :: q :: r).
  { unfold interpolation. cbn [fst]. destruct (cs_dirty s); exact E. }
  unfold duration. rewrite D, Ep. change (pieces_of (p :: q :: r)) with (Piece (the_fit p q) (sp_t p) (sp_t q) :: pieces_of (q :: r)) at 1.
  cbv iota. rewrite last_piece. reflexivity.
Qed.
Print Assumptions C36_duration_partial.

(** Points added later do not change it; with fewer than two points at the last query, or none since the last clear, the
    call is undefined. *)
Theorem C36_behaviour s t x dx :
  duration (fst (add_point s t x dx)) = duration s /\ duration (clear s) = UB /\
  (forall type, (List.length (cs_points s) < 2)%nat -> cs_dirty s = true -> duration (fst (interpolation s t type)) = UB) /\
  (forall ang, duration (new_spline ang) = UB).
Proof.
  split; [|split; [reflexivity|split; [|reflexivity]]].
  - unfold add_point. destruct (last_point (cs_points s)); [destruct (Rle_dec _ _)|]; reflexivity.
  - intros type H Hd. unfold interpolation. cbn [fst]. rewrite Hd. unfold duration. cbn [cs_pieces compute_splines].
    destruct (cs_points s) as [|p [|q r]]; cbn in *; [reflexivity|reflexivity|lia].
Qed.
Print Assumptions C36_behaviour.

(** ** C91 *)

(** False: outside the range the position is constant while the velocity is the slope of the end point. *)
Theorem C91_derivatives_refuted :
  (exists s P V t, reachable s /\ (forall u, snd (pos s u) = Ok (P u) /\ snd (vel s u) = Ok (V u)) /\ ~ derivable_pt_lim P t (V t)) /\
  (exists s P V t, reachable s /\ List.length (cs_points s) = 1%nat /\
     (forall u, snd (vel s u) = Ok (P u) /\ snd (acc s u) = Ok (V u)) /\ ~ derivable_pt_lim P t (V t)).
Proof.
  split.
  - assert (E : scalls_run (new_spline false) [CAdd 0 0 1; CAdd 1 1 1] = Some (Spline false true [SPoint 0 0 1; SPoint 1 1 1] [])).
    { unfold scalls_run, scall_run, add_point, last_point, new_spline. cbn [cs_points rev app cs_angular sp_t sp_x cs_pieces].
      destruct (Rle_dec 1 0); [lra|]. reflexivity. }
    set (s := Spline _ _ _ _) in E. assert (R : reachable s) by (exists false; eexists; exact E).
    destruct (C33_spline s _ _ _ R eq_refl) as (P & V & A & Q & _ & _ & _ & _ & B & _). exists s, P, V, (-1). split; [exact R|].
    split; [intros u; split; apply Q|]. cbn [sp_t sp_x sp_dx] in B. rewrite (proj2 (B (-1) ltac:(lra))). intros D.
    destruct (D (1 / 2) ltac:(lra)) as [d Hd]. assert (Hm : 0 < Rmin d 1) by (apply Rmin_pos; [apply cond_pos|lra]).
    pose proof (Rmin_l d 1). pose proof (Rmin_r d 1). specialize (Hd (Rmin d 1 / 2) ltac:(lra)). rewrite Rabs_right in Hd by lra.
    specialize (Hd ltac:(lra)). rewrite (proj1 (B (-1) ltac:(lra))), (proj1 (B (-1 + Rmin d 1 / 2) ltac:(lra))) in Hd.
    replace ((0 - 0) / (Rmin d 1 / 2) - 1) with (-1) in Hd by (field; lra). rewrite Rabs_left in Hd; lra.
  - pose (s := Spline false true [SPoint 0 0 1] []). exists s, (fun _ => 1), (fun _ => 1), 0.
    split; [exists false, [CAdd 0 0 1]; reflexivity|]. split; [reflexivity|]. split; [intros u; split; reflexivity|].
    intros D. assert (E : 1 = 0); [|lra]. eapply uniqueness_limite; [exact D|]. apply derivable_pt_lim_const.
Qed.
Print Assumptions C91_derivatives_refuted.

(** True strictly inside the range for the velocity, and between the points for the acceleration. *)
Theorem C91_derivatives_partial s first second rest P V A : reachable s -> cs_points s = first :: second :: rest ->
  (forall t, snd (pos s t) = Ok (P t) /\ snd (vel s t) = Ok (V t) /\ snd (acc s t) = Ok (A t)) ->
  (forall t, sp_t first < t < sp_t (last rest second) -> derivable_pt_lim P t (V t)) /\
  (forall p q t, consecutive (cs_points s) p q -> sp_t p < t < sp_t q -> derivable_pt_lim V t (A t)).
Proof.
  intros R E H. destruct (C33_spline s _ _ _ R E) as (P' & V' & A' & Q & C & _ & _ & D & _).
  assert (EP : forall t, P t = P' t) by (intros t; pose proof (H t) as [H1 _]; pose proof (Q t) as [H2 _]; congruence).
  assert (EV : forall t, V t = V' t) by (intros t; pose proof (H t) as (_ & H1 & _); pose proof (Q t) as (_ & H2 & _); congruence).
  assert (EA : forall t, A t = A' t) by (intros t; pose proof (H t) as (_ & _ & H1); pose proof (Q t) as (_ & _ & H2); congruence).
  split.
  - intros t Ht eps He. destruct (D t Ht eps He) as [d Hd]. exists d. intros h Hh Hl. rewrite !EP, EV. now apply Hd.
  - intros p q t Hc Ht. destruct (C p q Hc) as (_ & k0 & k1 & k2 & k3 & _ & F & _ & _ & _ & _ & G).
    rewrite EA, G by lra.
    assert (L : derivable_pt_lim (fun t => k1 + 2 * k2 * t + 3 * k3 * t ^ 2) t (2 * k2 + 6 * k3 * t)).
    { replace (2 * k2 + 6 * k3 * t) with (0 + 2 * k2 * 1 + 3 * k3 * (INR 2 * t ^ 1)) by (simpl; ring).
      apply (derivable_pt_lim_plus (fun t => k1 + 2 * k2 * t) (fun t => 3 * k3 * t ^ 2)).
      - apply (derivable_pt_lim_plus (fun _ => k1) (fun t => 2 * k2 * t)); [apply derivable_pt_lim_const|].
        apply (derivable_pt_lim_scal (fun t => t)), derivable_pt_lim_id.
      - apply (derivable_pt_lim_scal (fun t => t ^ 2)). apply (derivable_pt_lim_pow t 2). }
    intros eps He. destruct (L eps He) as [d Hd].
    assert (Hm : 0 < Rmin d (Rmin (t - sp_t p) (sp_t q - t))) by (apply Rmin_pos; [apply cond_pos|apply Rmin_pos; lra]).
    exists (mkposreal _ Hm). cbn [RIneq.pos]. intros h Hh Hl.
    pose proof (Rmin_l d (Rmin (t - sp_t p) (sp_t q - t))). pose proof (Rmin_r d (Rmin (t - sp_t p) (sp_t q - t))).
    pose proof (Rmin_l (t - sp_t p) (sp_t q - t)). pose proof (Rmin_r (t - sp_t p) (sp_t q - t)).
    assert (Hb : - (t - sp_t p) < h < sp_t q - t) by (apply Rabs_def2 in Hl; lra).
    rewrite !EV, !F by lra. apply Hd; [exact Hh|lra].
Qed.
Print Assumptions C91_derivatives_partial.

(** ** C92 *)
Lemma reachable_step s c s' : reachable s -> scall_run s c = Some s' -> reachable s'.
Proof.
  intros (ang & l & H) E. exists ang, (l ++ [c]).
  assert (G : forall l s0, scalls_run s0 l = Some s -> scalls_run s0 (l ++ [c]) = Some s').
  { clear -E. induction l as [|d l IH]; intros s0 H; cbn [scalls_run app] in *.
    - injection H as ->. now rewrite E.
    - destruct (scall_run s0 d); [|discriminate]. now apply IH. }
  now apply G.
Qed.

Definition times (s : cubic_spline) : list R := map sp_t (cs_points s).

Lemma add_point_times s1 s2 t x1 d1 x2 d2 : times s1 = times s2 ->
  snd (add_point s1 t x1 d1) = snd (add_point s2 t x2 d2) /\
  times (fst (add_point s1 t x1 d1)) = times (fst (add_point s2 t x2 d2)).
Proof.
  unfold times. intros E. unfold add_point.
  destruct (last_point (cs_points s1)) as [l1|] eqn:L1.
  - apply last_point_Some in L1 as [a1 L1]. rewrite L1 in E. rewrite map_app in E.
    destruct (last_point (cs_points s2)) as [l2|] eqn:L2.
    + apply last_point_Some in L2 as [a2 L2]. rewrite L2, map_app in E. apply app_inj_tail in E as [E1 E2].
      rewrite E2. destruct (Rle_dec t (sp_t l2)); cbn [fst snd cs_points]; (split; [reflexivity|]).
      * rewrite L1, L2, !map_app. cbn [map]. congruence.
      * rewrite L1, L2, !map_app. cbn [map sp_t]. congruence.
    + apply last_point_None in L2. rewrite L2 in E. destruct (map sp_t a1); discriminate.
  - apply last_point_None in L1. rewrite L1 in *. destruct (cs_points s2) eqn:E2; [|discriminate]. cbn [last_point rev fst snd cs_points]. auto.
Qed.

Lemma interpolation_times s t type : times (fst (interpolation s t type)) = times s /\ cs_angular (fst (interpolation s t type)) = cs_angular s.
Proof. unfold interpolation, times. cbn [fst]. destruct (cs_dirty s); split; reflexivity. Qed.

Lemma add_point_angular s t x dx : cs_angular (fst (add_point s t x dx)) = cs_angular s.
Proof. unfold add_point. destruct (last_point _); [destruct (Rle_dec _ _)|]; reflexivity. Qed.

Definition lockstep (s : spline3) : Prop :=
  reachable (s3_x s) /\ reachable (s3_y s) /\ reachable (s3_z s) /\ times (s3_y s) = times (s3_x s) /\ times (s3_z s) = times (s3_x s) /\
  cs_angular (s3_x s) = false /\ cs_angular (s3_y s) = false /\ cs_angular (s3_z s) = false.

Lemma add_point_reachable s t x dx : reachable s -> reachable (fst (add_point s t x dx)).
Proof.
  intros R. apply (reachable_step s (CAdd t x dx)); [exact R|]. cbn [scall_run]. 
  destruct (add_point s t x dx) as [s' o] eqn:E. destruct o; try reflexivity. exfalso.
  unfold add_point in E. destruct (last_point _); [destruct (Rle_dec _ _)|]; discriminate.
Qed.

(** The three components always have the same times and are splines a user could have built one by one; a rejected point
    changes none of them, and the queries are those of the components. *)
Theorem C92_components s : reachable3 s -> lockstep s.
Proof.
  intros [l H].
  assert (G : forall l s0, lockstep s0 -> scalls3_run s0 l = Some s -> lockstep s).
  { clear. induction l as [|c l IH]; intros s0 I H; cbn [scalls3_run] in H; [injection H as <-; exact I|].
    destruct (scall3_run s0 c) as [s1|] eqn:E; [|discriminate]. apply (IH s1); [|exact H]. clear H IH.
    destruct I as (R1 & R2 & R3 & T2 & T3 & A1 & A2 & A3).
    destruct c as [t v d| |t type|]; cbn [scall3_run] in E.
    - unfold add_point3 in E.
      pose proof (add_point_times _ _ t (snd (fst v)) (snd (fst d)) (fst (fst v)) (fst (fst d)) T2) as [O2 U2].
      pose proof (add_point_times _ _ t (snd v) (snd d) (fst (fst v)) (fst (fst d)) T3) as [O3 U3].
      pose proof (add_point_reachable (s3_x s0) t (fst (fst v)) (fst (fst d)) R1) as R1'.
      pose proof (add_point_reachable (s3_y s0) t (snd (fst v)) (snd (fst d)) R2) as R2'.
      pose proof (add_point_reachable (s3_z s0) t (snd v) (snd d) R3) as R3'.
      pose proof (add_point_angular (s3_x s0) t (fst (fst v)) (fst (fst d))) as A1'.
      pose proof (add_point_angular (s3_y s0) t (snd (fst v)) (snd (fst d))) as A2'.
      pose proof (add_point_angular (s3_z s0) t (snd v) (snd d)) as A3'.
      pose proof (C34_rejected_unchanged (s3_x s0) t (fst (fst v)) (fst (fst d))) as N.
      destruct (add_point (s3_x s0) _ _ _) as [x1 o1]. cbn [fst snd] in *. destruct o1 as [[]|e|].
      + destruct (add_point (s3_y s0) _ _ _) as [y1 o2]. cbn [fst snd] in *. subst o2.
        destruct (add_point (s3_z s0) _ _ _) as [z1 o3]. cbn [fst snd] in *. subst o3.
        injection E as <-. unfold lockstep. cbn [s3_x s3_y s3_z]. repeat split; congruence || assumption.
      + injection E as <-. specialize (N ltac:(discriminate)). injection N as ->. unfold lockstep. cbn [s3_x s3_y s3_z]. repeat split; assumption.
      + discriminate.
    - injection E as <-. unfold lockstep, clear3. cbn [s3_x s3_y s3_z].
      split; [apply (reachable_step _ CClear _ R1 eq_refl)|]. split; [apply (reachable_step _ CClear _ R2 eq_refl)|].
      split; [apply (reachable_step _ CClear _ R3 eq_refl)|]. repeat split; assumption.
    - unfold interpolation3 in E.
      assert (Q : forall s, reachable s -> reachable (fst (interpolation s t type))).
      { intros s' R'. apply (reachable_step s' (CQuery t type)); [exact R'|]. cbn [scall_run].
        destruct (C33_queries s' t type R') as (_ & (y & Hy) & _). destruct (interpolation s' t type) as [s'' o]. cbn [snd fst] in *. now subst o. }
      pose proof (Q _ R1) as R1'. pose proof (Q _ R2) as R2'. pose proof (Q _ R3) as R3'.
      destruct (interpolation_times (s3_x s0) t type) as [I1 J1]. destruct (interpolation_times (s3_y s0) t type) as [I2 J2].
      destruct (interpolation_times (s3_z s0) t type) as [I3 J3].
      destruct (interpolation (s3_x s0) t type) as [x1 o1]. destruct (interpolation (s3_y s0) t type) as [y1 o2].
      destruct (interpolation (s3_z s0) t type) as [z1 o3]. cbn [fst] in *.
      assert (s1 = Spline3 x1 y1 z1) as -> by (destruct (obind _ _); congruence).
      unfold lockstep. cbn [s3_x s3_y s3_z]. repeat split; congruence || assumption.
    - destruct (duration3 s0); try discriminate; injection E as <-; unfold lockstep; repeat split; assumption. }
  apply (G l new_spline3); [|exact H]. unfold lockstep, new_spline3. cbn [s3_x s3_y s3_z].
  assert (R : reachable (new_spline false)) by (exists false, []; reflexivity). repeat split; exact R.
Qed.
Print Assumptions C92_components.

Theorem C92_add_point s t v d : reachable3 s ->
  (snd (add_point3 s t v d) <> Ok tt -> add_point3 s t v d = (s, Throw ERuntime)) /\
  (snd (add_point3 s t v d) = Ok tt ->
     let s' := fst (add_point3 s t v d) in
     cs_points (s3_x s') = cs_points (s3_x s) ++ [SPoint t (fst (fst v)) (fst (fst d))] /\
     cs_points (s3_y s') = cs_points (s3_y s) ++ [SPoint t (snd (fst v)) (snd (fst d))] /\
     cs_points (s3_z s') = cs_points (s3_z s) ++ [SPoint t (snd v) (snd d)]).
Proof.
  intros R. destruct (C92_components s R) as (R1 & R2 & R3 & T2 & T3 & A1 & A2 & A3).
  pose proof (add_point_times _ _ t (snd (fst v)) (snd (fst d)) (fst (fst v)) (fst (fst d)) T2) as [O2 _].
  pose proof (add_point_times _ _ t (snd v) (snd d) (fst (fst v)) (fst (fst d)) T3) as [O3 _].
  pose proof (C34_rejected_unchanged (s3_x s) t (fst (fst v)) (fst (fst d))) as N.
  unfold add_point3.
  destruct (add_point (s3_x s) _ _ _) as [x1 o1] eqn:E1. destruct (add_point (s3_y s) _ _ _) as [y1 o2] eqn:E2.
  destruct (add_point (s3_z s) _ _ _) as [z1 o3] eqn:E3. cbn [snd] in *. subst o2 o3.
  destruct o1 as [[]|e|]; cbn [snd fst].
  - split; [intros H; now elim H|]. intros _. cbn [s3_x s3_y s3_z].
    destruct (C34_accepted _ _ _ _ _ E1) as (x' & -> & _ & F1). destruct (C34_accepted _ _ _ _ _ E2) as (y' & -> & _ & F2).
    destruct (C34_accepted _ _ _ _ _ E3) as (z' & -> & _ & F3). rewrite (F1 A1), (F2 A2), (F3 A3). auto.
  - split; [|discriminate]. intros _. specialize (N ltac:(discriminate)). injection N as -> ->. now destruct s.
  - split; [|discriminate]. intros _. specialize (N ltac:(discriminate)). discriminate.
Qed.
Print Assumptions C92_add_point.

Theorem C92_queries s t type : reachable3 s -> exists x y z,
  snd (interpolation3 s t type) = Ok (x, y, z) /\ snd (interpolation (s3_x s) t type) = Ok x /\
  snd (interpolation (s3_y s) t type) = Ok y /\ snd (interpolation (s3_z s) t type) = Ok z.
Proof.
  intros R. destruct (C92_components s R) as (R1 & R2 & R3 & _).
  destruct (C33_queries _ t type R1) as (_ & (x & X) & _). destruct (C33_queries _ t type R2) as (_ & (y & Y) & _).
  destruct (C33_queries _ t type R3) as (_ & (z & Z) & _). exists x, y, z. unfold interpolation3.
  destruct (interpolation (s3_x s) t type) as [x1 o1]. destruct (interpolation (s3_y s) t type) as [y1 o2].
  destruct (interpolation (s3_z s) t type) as [z1 o3]. cbn [snd] in *. subst. repeat split.
Qed.
Print Assumptions C92_queries.

Theorem C92_duration s t type p q r : reachable3 s -> cs_points (s3_z s) = p :: q :: r ->
  duration3 (fst (interpolation3 s t type)) = Ok (sp_t (last r q) - sp_t p).
Proof.
  intros R E. destruct (C92_components s R) as (R1 & _ & _ & _ & T & _). unfold times in T. rewrite E in T.
  destruct (cs_points (s3_x s)) as [|p' [|q' r']] eqn:E'; try discriminate. cbn [map] in T. injection T as Hp Hq Hr.
  replace (sp_t (last r q)) with (sp_t (last r' q')).
  - rewrite Hp. rewrite <- (C36_duration_partial (s3_x s) t type p' q' r' R1 E'). unfold duration3, interpolation3.
    destruct (interpolation (s3_x s) t type), (interpolation (s3_y s) t type), (interpolation (s3_z s) t type). reflexivity.
  - clear -Hq Hr. revert r' q q' Hq Hr. induction r as [|a r IH]; intros [|b r'] q q' Hq Hr; try discriminate; [exact (eq_sym Hq)|].
    cbn [map] in Hr. injection Hr as Hb Hr. rewrite !last_cons_ne. now apply IH.
Qed.
Print Assumptions C92_duration.

Example C92_example : exists s, reachable3 s /\ List.length (cs_points (s3_z s)) = 2%nat.
Proof.
  eexists. split.
  - exists [CAdd3 0 (1, 2, 3) (0, 0, 0); CAdd3 1 (4, 5, 6) (0, 0, 0)].
    unfold scalls3_run, scall3_run, add_point3, add_point, last_point, new_spline3, new_spline.
    cbn [s3_x s3_y s3_z cs_points rev app cs_angular sp_t sp_x cs_pieces fst snd].
    destruct (Rle_dec 1 0); [lra|]. reflexivity.
  - reflexivity.
Qed.
