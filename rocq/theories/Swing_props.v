(** C58, C59 and C103: the trajectories of the swing foot. *)
From Coq Require Import Reals Lra Lia List Bool.
From Coquelicot Require Import Coquelicot.
From Verif Require Import Base Linalg Geom3 Spline_model Spline_spec Spline_proofs Spline_props Swing_model Swing_spec Swing_proofs.
Import ListNotations.
Open Scope R_scope.

(** ** C58: SwingFoot *)

Lemma make_swing_motion inv ts te h s e t : inverse_correct inv -> ts <> te ->
  let w := make_swing inv ts te h s e in
  let u := (t - ts) / (te - ts) in
  vx (swing_pos w t) = vx s + (3 * u ^ 2 - 2 * u ^ 3) * (vx e - vx s) /\
  vy (swing_pos w t) = vy s + (3 * u ^ 2 - 2 * u ^ 3) * (vy e - vy s) /\
  vz (swing_pos w t) = vz s + u * (vz e - vz s) + u * (1 - u) * (16 / 3 * (h - vz s) + 16 / 3 * (vz s - vz e) * u) /\
  vx (swing_vel w t) = 6 * u * (1 - u) * (vx e - vx s) / (te - ts) /\
  vy (swing_vel w t) = 6 * u * (1 - u) * (vy e - vy s) / (te - ts) /\
  vz (swing_vel w t) = ((vz e - vz s) + (1 - 2 * u) * (16 / 3 * (h - vz s) + 16 / 3 * (vz s - vz e) * u)
                        + u * (1 - u) * (16 / 3 * (vz s - vz e))) / (te - ts).
Proof.
  intros I N w u. unfold w. rewrite make_swing_coefficients by assumption. unfold swing_pos, swing_vel, vertical, bump_slope, bump_tilt, fit, of_cubic, u.
  cbn. assert (te - ts <> 0) by lra. replace (te - ts - 0) with (te - ts) by ring. set (T := te - ts) in *.
  replace (t - ts) with ((t - ts) / T * T) by (now field). set (v := (t - ts) / T).
  replace (v * T / T) with v by (now field). split; [|split; [|split; [|split; [|split]]]]; field; auto.
Qed.

(** The foot starts at [s], lands at [e], passes twice at height [h], goes straight from s to e seen from above, and is at
    rest horizontally at both ends. *)
Theorem C58_make_partial inv ts te h s e : inverse_correct inv -> ts < te ->
  let w := make_swing inv ts te h s e in
  swing_pos w ts = s /\ swing_pos w te = e /\
  (vx (swing_vel w ts) = 0 /\ vy (swing_vel w ts) = 0) /\ (vx (swing_vel w te) = 0 /\ vy (swing_vel w te) = 0) /\
  vz (swing_pos w (ts + (te - ts) / 4)) = h /\ vz (swing_pos w (ts + 3 * (te - ts) / 4)) = h /\
  (forall t, velocity_of (swing_pos w) (swing_vel w) t) /\
  (forall t, ts <= t <= te -> exists r, 0 <= r <= 1 /\
     vx (swing_pos w t) = vx s + r * (vx e - vx s) /\ vy (swing_pos w t) = vy s + r * (vy e - vy s)).
Proof.
  intros I L w. assert (N : ts <> te) by lra. pose proof (fun t => make_swing_motion inv ts te h s e t I N) as M. cbv zeta in M. fold w in M.
  assert (U0 : (ts - ts) / (te - ts) = 0) by (field; lra). assert (U1 : (te - ts) / (te - ts) = 1) by (field; lra).
  assert (Ua : (ts + (te - ts) / 4 - ts) / (te - ts) = 1 / 4) by (field; lra).
  assert (Ub : (ts + 3 * (te - ts) / 4 - ts) / (te - ts) = 3 / 4) by (field; lra).
  assert (Hi : te - ts <> 0) by lra.
  pose proof (M ts) as (A1 & A2 & A3 & A4 & A5 & _). rewrite U0 in *. pose proof (M te) as (B1 & B2 & B3 & B4 & B5 & _). rewrite U1 in *.
  pose proof (M (ts + (te - ts) / 4)) as (_ & _ & C & _). rewrite Ua in C. pose proof (M (ts + 3 * (te - ts) / 4)) as (_ & _ & D & _). rewrite Ub in D.
  split; [apply V3_ext; [rewrite A1|rewrite A2|rewrite A3]; ring|]. split; [apply V3_ext; [rewrite B1|rewrite B2|rewrite B3]; ring|].
  split; [split; [rewrite A4|rewrite A5]; unfold Rdiv; ring|]. split; [split; [rewrite B4|rewrite B5]; unfold Rdiv; ring|].
  split; [rewrite C; field|]. split; [rewrite D; field|]. split; [intros t; apply swing_velocity|].
  intros t Ht. destruct (M t) as (E1 & E2 & _). set (u := (t - ts) / (te - ts)) in *. exists (3 * u ^ 2 - 2 * u ^ 3). split; [|auto].
  assert (U : 0 <= u <= 1).
  { unfold u. split; [apply Rmult_le_pos; [lra|left; apply Rinv_0_lt_compat; lra]|]. apply (Rmult_le_reg_r (te - ts)); [lra|].
    unfold Rdiv. rewrite Rmult_assoc, Rinv_l by lra. lra. }
  split.
  - replace (3 * u ^ 2 - 2 * u ^ 3) with (u * u * (3 - 2 * u)) by ring. apply Rmult_le_pos; [apply Rmult_le_pos|]; lra.
  - enough (0 <= (1 - u) * (1 - u) * (1 + 2 * u)) by lra. apply Rmult_le_pos; [apply Rmult_le_pos|]; lra.
Qed.
Print Assumptions C58_make_partial.

(** Vertically the foot is not at rest: it leaves and hits the ground at these velocities. *)
Theorem C58_vertical_velocity inv ts te h s e : inverse_correct inv -> ts < te ->
  let w := make_swing inv ts te h s e in
  vz (swing_vel w ts) = (16 / 3 * (h - vz s) + (vz e - vz s)) / (te - ts) /\
  vz (swing_vel w te) = - (16 / 3 * (h - vz e) + (vz s - vz e)) / (te - ts) /\
  (swing_vel w te = V3 0 0 0 <-> 16 * (h - vz e) = 3 * (vz e - vz s)).
Proof.
  intros I L w. assert (N : ts <> te) by lra. pose proof (fun t => make_swing_motion inv ts te h s e t I N) as M. cbv zeta in M. fold w in M.
  assert (U0 : (ts - ts) / (te - ts) = 0) by (field; lra). assert (U1 : (te - ts) / (te - ts) = 1) by (field; lra).
  pose proof (M ts) as (_ & _ & _ & _ & _ & A). rewrite U0 in A. pose proof (M te) as (_ & _ & _ & B1 & B2 & B). rewrite U1 in *.
  assert (B' : vz (swing_vel w te) = - (16 / 3 * (h - vz e) + (vz s - vz e)) / (te - ts)) by (rewrite B; field; lra).
  split; [rewrite A; field; lra|]. split; [exact B'|]. split.
  - intros E. rewrite E in B'. cbn in B'. assert (Z : 16 / 3 * (h - vz e) + (vz s - vz e) = 0); [|lra].
    apply (Rmult_eq_reg_r (- / (te - ts))); [|apply Ropp_neq_0_compat, Rinv_neq_0_compat; lra]. transitivity (- (16 / 3 * (h - vz e) + (vz s - vz e)) / (te - ts)); [field; lra|].
    rewrite <- B'. ring.
  - intros E. apply V3_ext; [rewrite B1; cbn; field; lra|rewrite B2; cbn; field; lra|rewrite B'; cbn].
    replace (- (16 / 3 * (h - vz e) + (vz s - vz e))) with 0 by lra. field. lra.
Qed.
Print Assumptions C58_vertical_velocity.

(** So the claim of a landing at zero velocity is false for every step on level ground with a height above it; and the foot
    goes higher than the height asked, by a third. *)
Theorem C58_zero_landing_velocity_refuted inv ts te h s e : inverse_correct inv -> ts < te -> vz s = vz e -> vz s < h ->
  let w := make_swing inv ts te h s e in
  vz (swing_vel w te) < 0 /\ 0 < vz (swing_vel w ts) /\ vz (swing_pos w ((ts + te) / 2)) = vz s + 4 / 3 * (h - vz s).
Proof.
  intros I L Z H w. destruct (C58_vertical_velocity inv ts te h s e I L) as (A & B & _). fold w in A, B.
  split; [|split].
  - rewrite B. assert (0 < (16 / 3 * (h - vz e) + (vz s - vz e)) * / (te - ts)) by (apply Rmult_lt_0_compat; [lra|apply Rinv_0_lt_compat; lra]).
    unfold Rdiv in *. lra.
  - rewrite A. apply Rmult_lt_0_compat; [lra|apply Rinv_0_lt_compat; lra].
  - destruct (make_swing_motion inv ts te h s e ((ts + te) / 2) I ltac:(lra)) as (_ & _ & M & _). fold w in M. rewrite M.
    replace (((ts + te) / 2 - ts) / (te - ts)) with (1 / 2) by (field; lra). rewrite <- Z. field.
Qed.
Print Assumptions C58_zero_landing_velocity_refuted.

Lemma remake_swing_coefficients inv old t e : inverse_correct inv -> t <> w_end old ->
  let a := t - w_start old in
  let b := w_end old - w_start old in
  let x := of_cubic (fit a (vx (swing_pos old t)) (vx (swing_vel old t)) b (vx e) 0) in
  let y := of_cubic (fit a (vy (swing_pos old t)) (vy (swing_vel old t)) b (vy e) 0) in
  remake_swing inv old t e = Swing (w_start old) (w_end old) (V3 (x 0%nat) (y 0%nat) (vz (w_a old))) (V3 (x 1%nat) (y 1%nat) (vz (w_b old)))
    (V3 (x 2%nat) (y 2%nat) (vz (w_c old))) (V3 (x 3%nat) (y 3%nat) (vz (w_d old))).
Proof.
  intros I N a b x y. unfold remake_swing. fold a b. fold (hermite a b).
  assert (Nab : a <> b) by (unfold a, b; lra). rewrite !(hermite_solved inv a b) by (auto; lia). reflexivity.
Qed.

(** Remaking the trajectory at time t keeps the position and the velocity at t and leads to the new target. *)
Theorem C58_remake inv old t e : inverse_correct inv -> t <> w_end old ->
  let w := remake_swing inv old t e in
  w_start w = w_start old /\ w_end w = w_end old /\ swing_pos w t = swing_pos old t /\ swing_vel w t = swing_vel old t /\
  (vx (swing_pos w (w_end w)) = vx e /\ vy (swing_pos w (w_end w)) = vy e) /\
  (vx (swing_vel w (w_end w)) = 0 /\ vy (swing_vel w (w_end w)) = 0) /\
  (forall t', vz (swing_pos w t') = vz (swing_pos old t') /\ vz (swing_vel w t') = vz (swing_vel old t')) /\
  (forall t', velocity_of (swing_pos w) (swing_vel w) t').
Proof.
  intros I N w. pose proof (remake_swing_coefficients inv old t e I N) as E. fold w in E. cbv zeta in E.
  assert (Nab : t - w_start old <> w_end old - w_start old) by lra.
  destruct (fit_ends _ (vx (swing_pos old t)) (vx (swing_vel old t)) _ (vx e) 0 Nab) as (X1 & X2 & X3 & X4).
  destruct (fit_ends _ (vy (swing_pos old t)) (vy (swing_vel old t)) _ (vy e) 0 Nab) as (Y1 & Y2 & Y3 & Y4).
  set (cx := fit _ (vx (swing_pos old t)) _ _ _ _) in *. set (cy := fit _ (vy (swing_pos old t)) _ _ _ _) in *. clearbody cx cy. cbn [of_cubic] in E.
  assert (S1 : w_start w = w_start old) by (rewrite E; reflexivity). assert (S2 : w_end w = w_end old) by (rewrite E; reflexivity).
  assert (Z : forall t', vz (swing_pos w t') = vz (swing_pos old t') /\ vz (swing_vel w t') = vz (swing_vel old t')) by (intros t'; rewrite E; split; reflexivity).
  split; [exact S1|]. split; [exact S2|]. split; [|split; [|split; [|split; [|split]]]].
  - apply V3_ext; [|  |apply Z]; rewrite E; (etransitivity; [|first [exact X1|exact Y1]]); unfold swing_pos; cbn; ring.
  - apply V3_ext; [|  |apply Z]; rewrite E; (etransitivity; [|first [exact X2|exact Y2]]); unfold swing_vel; cbn; ring.
  - rewrite S2, E. unfold swing_pos. cbn. split; (etransitivity; [|first [exact X3|exact Y3]]); ring.
  - rewrite S2, E. unfold swing_vel. cbn. split; [etransitivity; [|exact X4]|etransitivity; [|exact Y4]]; ring.
  - exact Z.
  - intros t'. apply swing_velocity.
Qed.
Print Assumptions C58_remake.

(** Whatever the sequence of corrections of the target, the flight still starts and ends at the same times, keeps its
    vertical motion, and lands horizontally at rest at the last target. *)
Fixpoint remakes (inv : mat -> vec -> vec) (w : swing) (l : list (R * vec3)) : swing :=
  match l with [] => w | (t, e) :: l' => remakes inv (remake_swing inv w t e) l' end.
Theorem C58_remakes inv ts te h s e l : inverse_correct inv -> ts < te -> List.Forall (fun c : R * vec3 => fst c <> te) l ->
  let w := remakes inv (make_swing inv ts te h s e) l in
  let target := last (map snd l) e in
  vx (swing_pos w te) = vx target /\ vy (swing_pos w te) = vy target /\ vz (swing_pos w te) = vz e /\
  vx (swing_vel w te) = 0 /\ vy (swing_vel w te) = 0.
Proof.
  intros I L F. destruct (C58_make_partial inv ts te h s e I L) as (_ & P & _ & (V1 & V2) & _).
  assert (E : w_end (make_swing inv ts te h s e) = te) by reflexivity.
  revert P V1 V2 E. generalize (make_swing inv ts te h s e). intros w0 P.
  assert (P1 : vx (swing_pos w0 te) = vx e) by (rewrite P; reflexivity). assert (P2 : vy (swing_pos w0 te) = vy e) by (rewrite P; reflexivity).
  assert (P3 : vz (swing_pos w0 te) = vz e) by (rewrite P; reflexivity). clear P. generalize dependent (vz e). intros ze P3. 
  revert w0 e P1 P2 P3. induction F as [|[t e'] l H F IH]; intros w0 e P1 P2 P3 V1 V2 E; cbn [remakes map snd]; cbv zeta.
  - auto.
  - cbn [fst] in H. destruct (C58_remake inv w0 t e' I ltac:(congruence)) as (_ & E' & _ & _ & (X & Y) & (VX & VY) & Z & _).
    rewrite E', E in *. specialize (IH (remake_swing inv w0 t e') e'). 
    rewrite last_of_cons. assert (Z' : vz (swing_pos (remake_swing inv w0 t e') te) = ze) by (rewrite (proj1 (Z te)); exact P3). apply IH; auto.
Qed.
Print Assumptions C58_remakes.

(** In particular the height of the new target is ignored. *)
Theorem C58_remake_height_refuted : exists old t e, w_start old <= t < w_end old /\
  forall inv, inverse_correct inv -> swing_pos (remake_swing inv old t e) (w_end old) <> e.
Proof.
  exists (Swing 0 1 (V3 0 0 0) (V3 0 0 0) (V3 0 0 0) (V3 0 0 0)), 0, (V3 0 0 1). cbn [w_start w_end]. split; [lra|]. intros inv I E.
  destruct (C58_remake inv (Swing 0 1 (V3 0 0 0) (V3 0 0 0) (V3 0 0 0) (V3 0 0 0)) 0 (V3 0 0 1) I ltac:(cbn; lra)) as (_ & _ & _ & _ & _ & _ & Z & _).
  destruct (Z 1) as [Z1 _]. rewrite E in Z1. cbn in Z1. lra.
Qed.
Print Assumptions C58_remake_height_refuted.

Example C58_example : exists inv, inverse_correct inv /\
  swing_pos (make_swing inv 1 3 5 (V3 0 1 2) (V3 4 5 2)) 3 = V3 4 5 2 /\ vz (swing_vel (make_swing inv 1 3 5 (V3 0 1 2) (V3 4 5 2)) 3) = - 8.
Proof.
  destruct inverse_exists as [inv I]. exists inv. split; [exact I|]. split.
  - apply (C58_make_partial inv 1 3 5 (V3 0 1 2) (V3 4 5 2) I ltac:(lra)).
  - rewrite (proj1 (proj2 (C58_vertical_velocity inv 1 3 5 (V3 0 1 2) (V3 4 5 2) I ltac:(lra)))). cbn. field.
Qed.
Print Assumptions C58_example.

(** ** C59: SwingFootCubic *)

Definition apex_left (t_start : R) (l : list R) : list R := filter (fun t => if Rlt_dec t_start t then true else false) l.

Lemma increasing_app a l : forall t, increasing t (map (fun u => (u, a, 0)) l) -> forall e x d, last l t < e -> increasing t (map (fun u => (u, a, 0)) l ++ [(e, x, d)]).
Proof.
  induction l as [|u l IH]; intros t I e x d H; cbn [map app increasing fst snd] in *; [cbn in H; auto|]. destruct I as [I1 I2]. split; [exact I1|].
  apply IH; [exact I2|]. now rewrite last_of_cons in H.
Qed.

Section Cubic.
Variables (ts D h r : R) (s e : vec3) (elapsed : R) (v : vec3).
Hypothesis HD : 0 < D.
Hypothesis He : elapsed < 1.
Let half := D / 2.
Let virt := ts - elapsed * D.
Let te := ts + (1 - elapsed) * D.
Let apex := apex_left ts (apex_times virt half r).

Lemma te_virt : te = virt + 2 * half.
Proof. unfold te, virt, half. lra. Qed.
Lemma te_later : ts < te.
Proof. unfold te. assert (0 < (1 - elapsed) * D) by (apply Rmult_lt_0_compat; lra). lra. Qed.

(** The four possible lists of apexes. *)
Lemma apex_cases : r < 1 ->
  increasing ts (map (fun u => (u, h, 0)) apex) /\ last apex ts < te /\
  (forall t, In t apex <-> In t (apex_times virt half r) /\ ts < t).
Proof.
  intros Hr. pose proof te_later as Lt. pose proof te_virt as Et. unfold apex, apex_left, apex_times. assert (0 < half) by (unfold half; lra).
  destruct (Rlt_dec 0 r) as [P|P].
  - assert (0 < half * r) by (apply Rmult_lt_0_compat; lra). assert (half * r < half * 1) by (apply Rmult_lt_compat_l; lra).
    cbn [filter]. destruct (Rlt_dec ts (virt + half - half * r)), (Rlt_dec ts (virt + half + half * r)); cbn [map increasing last fst]; try lra;
      (split; [|split; [lra|]]); try (intros t; cbn; split; [intuition (subst; auto)|intuition (subst; auto; lra)]); auto; split; auto; split; auto; lra.
  - cbn [filter]. destruct (Rlt_dec ts (virt + half)); cbn [map increasing last fst]; (split; [|split; [lra|]]); try (intros t; cbn; split; [intuition (subst; auto)|intuition (subst; auto; lra)]); auto.
Qed.

Lemma spline_ok x y d l : increasing ts (l ++ [(te, y, 0)]) -> exists sp P V, add_points (new_spline false) ((ts, x, d) :: l ++ [(te, y, 0)]) = Ok sp /\
  cs_points sp = SPoint ts x d :: map to_point (l ++ [(te, y, 0)]) /\
  (forall t, snd (pos sp t) = Ok (P t) /\ snd (vel sp t) = Ok (V t)) /\
  (forall p q, consecutive (cs_points sp) p q -> exists A, sp_t p < sp_t q /\ cubic_between (sp_t p) (sp_x p) (sp_dx p) (sp_t q) (sp_x q) (sp_dx q) P V A) /\
  continuity P /\ continuity V /\ (forall t, ts < t < te -> derivable_pt_lim P t (V t)) /\
  (forall t, t <= ts -> P t = x /\ V t = d) /\ (forall t, te <= t -> P t = y /\ V t = 0).
Proof.
  intros I. destruct (add_points_new ts x d _ I) as (sp & E & C & Rs).
  assert (Hc : exists second rest, cs_points sp = SPoint ts x d :: second :: rest /\ last rest second = SPoint te y 0).
  { rewrite C, map_app. cbn [map]. unfold to_point at 2. cbn [fst snd]. destruct l as [|q l].
    - exists (SPoint te y 0), []. auto.
    - exists (to_point q), (map to_point l ++ [SPoint te y 0]). split; [reflexivity|]. apply last_last. }
  destruct Hc as (second & rest & C' & La). destruct (C33_spline sp _ _ _ Rs C') as (P & V & A & Q & B & K1 & K2 & K3 & K4 & K5). rewrite La in *. cbn [sp_t sp_x sp_dx] in *.
  exists sp, P, V. split; [exact E|]. split; [exact C|]. split; [intros t; destruct (Q t) as (Q1 & Q2 & _); auto|].
  split; [intros p q H; exists A; auto|]. auto 10.
Qed.

Lemma make_cswing_ok : r < 1 -> exists w X Y Z VX VY VZ,
  make_cswing ts D h r s e elapsed v = Ok w /\
  (forall t, cswing_pos w t = Ok (V3 (X t) (Y t) (Z t)) /\ cswing_vel w t = Ok (V3 (VX t) (VY t) (VZ t))) /\
  (exists A, cubic_between ts (vx s) (vx v) te (vx e) 0 X VX A) /\ (exists A, cubic_between ts (vy s) (vy v) te (vy e) 0 Y VY A) /\
  (forall p q, consecutive (SPoint ts (vz s) (vz v) :: map (fun t => SPoint t h 0) apex ++ [SPoint te (vz e) 0]) p q ->
     exists A, sp_t p < sp_t q /\ cubic_between (sp_t p) (sp_x p) (sp_dx p) (sp_t q) (sp_x q) (sp_dx q) Z VZ A) /\
  continuous3 (fun t => V3 (X t) (Y t) (Z t)) /\ continuous3 (fun t => V3 (VX t) (VY t) (VZ t)) /\
  (forall t, ts < t < te -> velocity_of (fun t => V3 (X t) (Y t) (Z t)) (fun t => V3 (VX t) (VY t) (VZ t)) t) /\
  (forall t, t <= ts -> V3 (X t) (Y t) (Z t) = s /\ V3 (VX t) (VY t) (VZ t) = v) /\
  (forall t, te <= t -> V3 (X t) (Y t) (Z t) = e /\ V3 (VX t) (VY t) (VZ t) = V3 0 0 0).
Proof.
  intros Hr. destruct (apex_cases Hr) as (I & La & _). pose proof te_later as Lt.
  destruct (spline_ok (vx s) (vx e) (vx v) [] ltac:(split; [exact Lt|exact Logic.I])) as (sx & X & VX & Ex & Cx & Qx & Bx & K1 & K2 & K3 & K4 & K5).
  destruct (spline_ok (vy s) (vy e) (vy v) [] ltac:(split; [exact Lt|exact Logic.I])) as (sy & Y & VY & Ey & Cy & Qy & By & L1 & L2 & L3 & L4 & L5).
  destruct (spline_ok (vz s) (vz e) (vz v) _ (increasing_app h apex ts I te (vz e) 0 La)) as (sz & Z & VZ & Ez & Cz & Qz & Bz & M1 & M2 & M3 & M4 & M5).
  exists (CSwing sx sy sz), X, Y, Z, VX, VY, VZ. split.
  { unfold make_cswing. cbv zeta. fold half virt te. fold (apex_left ts (apex_times virt half r)). fold apex. cbn [app] in Ex, Ey. rewrite Ex, Ey, Ez. reflexivity. }
  split. { intros t. unfold cswing_pos, cswing_vel. cbn [cw_x cw_y cw_z]. destruct (Qx t) as [-> ->], (Qy t) as [-> ->], (Qz t) as [-> ->]. split; reflexivity. }
  split. { destruct (Bx (SPoint ts (vx s) (vx v)) (SPoint te (vx e) 0)) as (A & _ & B); [rewrite Cx; now exists [], []|]. exists A. exact B. }
  split. { destruct (By (SPoint ts (vy s) (vy v)) (SPoint te (vy e) 0)) as (A & _ & B); [rewrite Cy; now exists [], []|]. exists A. exact B. }
  split. { intros p q H. apply Bz. rewrite Cz, map_app, map_map. exact H. }
  split; [exact (conj K1 (conj L1 M1))|]. split; [exact (conj K2 (conj L2 M2))|].
  split. { intros t Ht. exact (conj (K3 t Ht) (conj (L3 t Ht) (M3 t Ht))). }
  split.
  - intros t Ht. destruct (K4 t Ht) as [-> ->], (L4 t Ht) as [-> ->], (M4 t Ht) as [-> ->]. split; [now destruct s|now destruct v].
  - intros t Ht. destruct (K5 t Ht) as [-> ->], (L5 t Ht) as [-> ->], (M5 t Ht) as [-> ->]. split; [now destruct e|reflexivity].
Qed.

Lemma make_cswing_late : 1 <= r -> make_cswing ts D h r s e elapsed v = Throw ERuntime.
Proof.
  intros Hr. pose proof te_later as Lt. pose proof te_virt as Et. assert (0 < half) by (unfold half; lra).
  assert (half * 1 <= half * r) by (apply Rmult_le_compat_l; lra).
  destruct (spline_ok (vx s) (vx e) (vx v) [] ltac:(split; [exact Lt|exact Logic.I])) as (sx & _ & _ & Ex & _).
  destruct (spline_ok (vy s) (vy e) (vy v) [] ltac:(split; [exact Lt|exact Logic.I])) as (sy & _ & _ & Ey & _).
  unfold make_cswing. cbv zeta. fold half virt te. fold (apex_left ts (apex_times virt half r)). fold apex. cbn [app] in Ex, Ey. rewrite Ex, Ey. cbn [obind].
  enough (Z : add_points (new_spline false) ((ts, vz s, vz v) :: map (fun u => (u, h, 0)) apex ++ [(te, vz e, 0)]) = Throw ERuntime) by (rewrite Z; reflexivity).
  cbn [add_points]. unfold add_point at 1, new_spline, last_point. cbn [cs_points rev app cs_angular cs_pieces].
  apply (add_points_late _ _ (SPoint ts (vz s) (vz v))); auto.
  - cbn [sp_t]. unfold apex, apex_left, apex_times. destruct (Rlt_dec 0 r); [|lra]. cbn [filter].
    destruct (Rlt_dec ts (virt + half - half * r)), (Rlt_dec ts (virt + half + half * r)); cbn; auto; try (split; auto; split; auto); lra.
  - cbn [sp_t]. unfold apex, apex_left, apex_times. destruct (Rlt_dec 0 r); [|lra]. cbn [filter].
    destruct (Rlt_dec ts (virt + half - half * r)), (Rlt_dec ts (virt + half + half * r)); cbn; lra.
Qed.
End Cubic.

(** The trajectory exists exactly when the rise ratio is below 1 (for a positive duration and a step that is not over). *)
Theorem C59_success ts D h r s e elapsed v : 0 < D -> elapsed < 1 ->
  (r < 1 -> exists w, make_cswing ts D h r s e elapsed v = Ok w) /\ (1 <= r -> make_cswing ts D h r s e elapsed v = Throw ERuntime).
Proof.
  intros HD He. split.
  - intros Hr. destruct (make_cswing_ok ts D h r s e elapsed v HD He Hr) as (w & _ & _ & _ & _ & _ & _ & E & _). now exists w.
  - apply make_cswing_late; assumption.
Qed.
Print Assumptions C59_success.

(** And a step of no or negative remaining duration is refused. *)
Theorem C59_over ts D h r s e elapsed v : (1 - elapsed) * D <= 0 -> make_cswing ts D h r s e elapsed v = Throw ERuntime.
Proof.
  intros H. unfold make_cswing. cbv zeta. cbn [add_points]. unfold add_point, new_spline, last_point. cbn [cs_points rev app cs_angular cs_pieces sp_t].
  destruct Rle_dec; [reflexivity|lra].
Qed.
Print Assumptions C59_over.

(** The trajectory, for a step of duration [D] of which the part [elapsed] is over: it starts from [s] with velocity [v],
    ends at rest at [e] at the end of the step, stays there, is continuous with its velocity, and holds the height [h]
    (an absolute height) in the middle part of the step. *)
Theorem C59_trajectory ts D h r s e elapsed v : 0 < D -> elapsed < 1 -> r < 1 ->
  let begin := ts - elapsed * D in
  let te := begin + D in
  exists w (P V : R -> vec3), make_cswing ts D h r s e elapsed v = Ok w /\
    (forall t, cswing_pos w t = Ok (P t) /\ cswing_vel w t = Ok (V t)) /\
    (forall t, t <= ts -> P t = s /\ V t = v) /\ (forall t, te <= t -> P t = e /\ V t = V3 0 0 0) /\
    continuous3 P /\ continuous3 V /\ (forall t, ts < t < te -> velocity_of P V t) /\
    (** the plateau, when it is still ahead *)
    (0 < r -> ts < begin + D * (1 - r) / 2 -> forall t, begin + D * (1 - r) / 2 <= t <= begin + D * (1 + r) / 2 -> vz (P t) = h /\ vz (V t) = 0) /\
    (** its end, when it has begun *)
    (0 < r -> ts < begin + D * (1 + r) / 2 -> vz (P (begin + D * (1 + r) / 2)) = h /\ vz (V (begin + D * (1 + r) / 2)) = 0) /\
    (** without plateau, the middle of the step *)
    (r <= 0 -> ts < begin + D / 2 -> vz (P (begin + D / 2)) = h /\ vz (V (begin + D / 2)) = 0) /\
    (** from rest, the foot goes straight to the target seen from above *)
    (vx v = 0 -> vy v = 0 -> forall t, ts <= t <= te -> exists q, 0 <= q <= 1 /\
       vx (P t) = vx s + q * (vx e - vx s) /\ vy (P t) = vy s + q * (vy e - vy s)) /\
    (** and never leaves the range of the heights *)
    (vz v = 0 -> forall t, Rmin (vz s) (Rmin h (vz e)) <= vz (P t) <= Rmax (vz s) (Rmax h (vz e))).
Proof.
  intros HD He Hr begin te.
  destruct (make_cswing_ok ts D h r s e elapsed v HD He Hr) as (w & X & Y & Z & VX & VY & VZ & E & Q & [Ax Bx] & [Ay By] & Bz & C1 & C2 & C3 & C4 & C5).
  destruct (apex_cases ts D h r elapsed HD He Hr) as (I & La & Hin).
  pose proof (te_later ts D elapsed HD He) as Lt.
  assert (Te : ts + (1 - elapsed) * D = te) by (unfold te, begin; ring). rewrite Te in *. fold begin in I, La, Hin, Bz.
  set (apex := apex_left ts (apex_times begin (D / 2) r)) in *.
  set (pts := SPoint ts (vz s) (vz v) :: map (fun t => SPoint t h 0) apex ++ [SPoint te (vz e) 0]) in *.
  assert (At : forall t, In t apex -> Z t = h /\ VZ t = 0).
  { intros t Ht. destruct (in_split t apex Ht) as (l1 & l2 & El).
    assert (exists q, consecutive pts (SPoint t h 0) q) as [q Hq].
    { unfold pts. rewrite El, map_app. cbn [map]. destruct l2 as [|u l2].
      - exists (SPoint te (vz e) 0), (SPoint ts (vz s) (vz v) :: map (fun t => SPoint t h 0) l1), []. cbn. rewrite <- app_assoc. reflexivity.
      - exists (SPoint u h 0), (SPoint ts (vz s) (vz v) :: map (fun t => SPoint t h 0) l1), (map (fun t => SPoint t h 0) l2 ++ [SPoint te (vz e) 0]). cbn.
        rewrite <- app_assoc. reflexivity. }
    destruct (Bz _ _ Hq) as (A & _ & k0 & k1 & k2 & k3 & _ & _ & F1 & F2 & _). auto. }
  exists w, (fun t => V3 (X t) (Y t) (Z t)), (fun t => V3 (VX t) (VY t) (VZ t)). cbn [vx vy vz].
  split; [exact E|]. split; [exact Q|]. split; [exact C4|]. split; [exact C5|]. split; [exact C1|]. split; [exact C2|]. split; [exact C3|].
  assert (Hh : 0 < D / 2) by lra.
  split; [|split; [|split; [|split]]].
  - intros R0 Ts t Ht.
    assert (Ea : apex = [begin + D / 2 - D / 2 * r; begin + D / 2 + D / 2 * r]).
    { unfold apex, apex_left, apex_times. assert (0 < D / 2 * r) by (apply Rmult_lt_0_compat; lra).
      destruct (Rlt_dec 0 r); [|lra]. cbn [filter]. destruct (Rlt_dec ts (begin + D / 2 - D / 2 * r)); [|lra]. destruct (Rlt_dec ts (begin + D / 2 + D / 2 * r)); [|lra]. reflexivity. }
    assert (Hq : consecutive pts (SPoint (begin + D / 2 - D / 2 * r) h 0) (SPoint (begin + D / 2 + D / 2 * r) h 0)).
    { unfold pts. rewrite Ea. exists [SPoint ts (vz s) (vz v)], [SPoint te (vz e) 0]. reflexivity. }
    destruct (Bz _ _ Hq) as (A & L & B). cbn [sp_t sp_x sp_dx] in *.
    assert (Ht' : begin + D / 2 - D / 2 * r <= t <= begin + D / 2 + D / 2 * r) by lra.
    destruct (cubic_at_rest _ _ _ _ _ _ _ L B t Ht') as [F _]. split; [rewrite F; ring|].
    destruct B as (k0 & k1 & k2 & k3 & F1 & F2 & G1 & G2 & G3 & G4 & _).
    rewrite F2 by assumption. rewrite F1 in G1, G3 by lra. rewrite F2 in G2, G4 by lra.
    set (a := begin + D / 2 - D / 2 * r) in *. set (b := begin + D / 2 + D / 2 * r) in *.
    assert (K3 : k3 = 0).
    { apply (pow_cancel (b - a) 3); [lra|]. transitivity ((b - a) * ((k1 + 2 * k2 * b + 3 * k3 * b ^ 2) + (k1 + 2 * k2 * a + 3 * k3 * a ^ 2))
        - 2 * ((k0 + k1 * b + k2 * b ^ 2 + k3 * b ^ 3) - (k0 + k1 * a + k2 * a ^ 2 + k3 * a ^ 3))); [ring|]. rewrite G1, G2, G3, G4. ring. }
    rewrite K3 in *. assert (K2 : k2 = 0). { apply (pow_cancel (b - a) 1); [lra|]. lra. }
    rewrite K2 in *. lra.
  - intros R0 Ts. apply At. apply Hin. split; [|exact Ts]. unfold apex_times. destruct (Rlt_dec 0 r); [|lra]. right. left. lra.
  - intros R0 Ts. apply At. apply Hin. split; [|exact Ts]. unfold apex_times. destruct (Rlt_dec 0 r); [lra|]. left. reflexivity.
  - intros V1 V2 t Ht. rewrite V1 in Bx. rewrite V2 in By. destruct (cubic_at_rest _ _ _ _ _ _ _ Lt Bx t Ht) as [F G]. destruct (cubic_at_rest _ _ _ _ _ _ _ Lt By t Ht) as [F' _].
    eexists. split; [exact G|]. split; assumption.
  - intros V3 t.
    assert (Fin : forall x y : R, forall q, 0 <= q <= 1 -> forall lo hi, lo <= x <= hi -> lo <= y <= hi -> lo <= x + q * (y - x) <= hi).
    { intros x y q Hq lo hi Hx Hy. split; nra. }
    set (lo := Rmin (vz s) (Rmin h (vz e))). set (hi := Rmax (vz s) (Rmax h (vz e))).
    assert (Ls : lo <= vz s <= hi) by (split; [apply Rmin_l|apply Rmax_l]).
    assert (Lh : lo <= h <= hi) by (split; [eapply Rle_trans; [apply Rmin_r|apply Rmin_l]|eapply Rle_trans; [|apply Rmax_r]; apply Rmax_l]).
    assert (Le : lo <= vz e <= hi) by (split; [eapply Rle_trans; [apply Rmin_r|apply Rmin_r]|eapply Rle_trans; [|apply Rmax_r]; apply Rmax_r]).
    assert (Pr : forall p, In p pts -> lo <= sp_x p <= hi /\ sp_dx p = 0).
    { intros p [<-|Hp]; [cbn; auto|]. apply in_app_or in Hp as [Hp|[<-|[]]]; [|cbn; auto]. apply in_map_iff in Hp as (u & <- & _). cbn. auto. }
    destruct (Rle_dec t ts) as [T1|T1]; [pose proof (f_equal vz (proj1 (C4 t T1))) as F; cbn [vz] in F; rewrite F; exact Ls|].
    destruct (Rle_dec te t) as [T2|T2]; [pose proof (f_equal vz (proj1 (C5 t T2))) as F; cbn [vz] in F; rewrite F; exact Le|].
    assert (Piece : forall l p, sp_t p <= t -> t <= sp_t (last l p) -> (exists pre, pts = pre ++ p :: l) -> exists a b, consecutive pts a b /\ sp_t a <= t <= sp_t b).
    { induction l as [|q l IH]; intros p Hp Hl [pre Ep].
      - cbn in Hl. exfalso. clear - Hp Hl Ep T2. assert (p = SPoint te (vz e) 0).
        { unfold pts in Ep. apply (f_equal (fun l => last l p)) in Ep. rewrite app_comm_cons, !last_last in Ep. auto. } subst p. cbn in *. lra.
      - destruct (Rle_dec t (sp_t q)) as [Hq|Hq]; [exists p, q; split; [exists pre, l; exact Ep|auto]|].
        apply (IH q); [lra|now rewrite last_of_cons in Hl|]. exists (pre ++ [p]). rewrite <- app_assoc. exact Ep. }
    destruct (Piece (map (fun t => SPoint t h 0) apex ++ [SPoint te (vz e) 0]) (SPoint ts (vz s) (vz v))) as (a & b & Hab & Ht).
    { cbn. lra. } { rewrite last_last. cbn. lra. } { exists []. reflexivity. }
    destruct (Bz _ _ Hab) as (A & L & B). destruct Hab as (pre & post & Ep).
    destruct (Pr a) as [Pa Da]; [rewrite Ep; apply in_or_app; right; left; reflexivity|].
    destruct (Pr b) as [Pb Db]; [rewrite Ep; apply in_or_app; right; right; left; reflexivity|].
    rewrite Da, Db in B. destruct (cubic_at_rest _ _ _ _ _ _ _ L B t Ht) as [-> G]. now apply Fin.
Qed.
Print Assumptions C59_trajectory.

Example C59_example : exists w, make_cswing 2 4 (1 / 10) (1 / 2) (V3 0 1 0) (V3 1 1 0) 0 (V3 0 0 0) = Ok w /\
  cswing_pos w 6 = Ok (V3 1 1 0) /\ (exists p, cswing_pos w (9 / 2) = Ok p /\ vz p = 1 / 10) /\
  make_cswing 2 4 (1 / 10) 1 (V3 0 1 0) (V3 1 1 0) 0 (V3 0 0 0) = Throw ERuntime.
Proof.
  destruct (C59_trajectory 2 4 (1 / 10) (1 / 2) (V3 0 1 0) (V3 1 1 0) 0 (V3 0 0 0) ltac:(lra) ltac:(lra) ltac:(lra))
    as (w & P & V & E & Q & _ & T & _ & _ & _ & Pl & _). exists w. split; [exact E|]. split; [rewrite (proj1 (Q 6)), (proj1 (T 6 ltac:(lra))); reflexivity|]. split.
  - exists (P (9 / 2)). split; [apply Q|]. apply Pl; lra.
  - apply C59_success; lra.
Qed.

(** ** C103: SwingFootQuintic *)

(** As written, the matrices do not have the right sizes: with the assertions of Eigen no trajectory can be made. *)
Theorem C103_sizes_refuted junk inv ts te h s e : make_qswing true junk inv ts te h s e = UB.
Proof. reflexivity. Qed.
Print Assumptions C103_sizes_refuted.

(** Without them, and whatever the uninitialised memory holds, the trajectory is the one documented: at rest at both ends,
    without horizontal acceleration there, and at height [h] twice. *)
Theorem C103_without_checks_partial junk inv ts te h s e : inverse_correct inv -> ts <> te ->
  exists w, make_qswing false junk inv ts te h s e = Ok w /\
    qswing_pos w ts = s /\ qswing_pos w te = e /\ qswing_vel w ts = V3 0 0 0 /\ qswing_vel w te = V3 0 0 0 /\
    vz (qswing_pos w (ts + (te - ts) / 4)) = h /\ vz (qswing_pos w (ts + 3 * (te - ts) / 4)) = h /\
    (forall t, velocity_of (qswing_pos w) (qswing_vel w) t) /\
    exists acc : R -> vec3, (forall t, velocity_of (qswing_vel w) acc t) /\
      vx (acc ts) = 0 /\ vy (acc ts) = 0 /\ vx (acc te) = 0 /\ vy (acc te) = 0.
Proof.
  intros I N. destruct (quintic_solved inv junk ts te h s e I N) as ((A0 & A1 & A2 & A3 & A4 & A5) & (B0 & B1 & B2 & B3 & B4 & B5) & (D0 & D1 & D2 & D3 & D4 & D5)).
  unfold make_qswing. fold (quintic_matrix junk ts te) (quintic_data h s e).
  set (k := vat (inv (quintic_matrix junk ts te) (quintic_data h s e))) in *.
  eexists. split; [reflexivity|].
  assert (P : forall t, qswing_pos (QSwing (V3 (k 0%nat) (k 6%nat) (k 12%nat)) (V3 (k 1%nat) (k 7%nat) (k 13%nat)) (V3 (k 2%nat) (k 8%nat) (k 14%nat))
      (V3 (k 3%nat) (k 9%nat) (k 15%nat)) (V3 (k 4%nat) (k 10%nat) (k 16%nat)) (V3 (k 5%nat) (k 11%nat) (k 17%nat))) t
      = V3 (p5 (fun i => k i) t) (p5 (fun i => k (6 + i)%nat) t) (p5 (fun i => k (12 + i)%nat) t)).
  { intros t. unfold qswing_pos, p5. cbn. apply V3_ext; cbn; ring. }
  assert (V : forall t, qswing_vel (QSwing (V3 (k 0%nat) (k 6%nat) (k 12%nat)) (V3 (k 1%nat) (k 7%nat) (k 13%nat)) (V3 (k 2%nat) (k 8%nat) (k 14%nat))
      (V3 (k 3%nat) (k 9%nat) (k 15%nat)) (V3 (k 4%nat) (k 10%nat) (k 16%nat)) (V3 (k 5%nat) (k 11%nat) (k 17%nat))) t
      = V3 (d5 (fun i => k i) t) (d5 (fun i => k (6 + i)%nat) t) (d5 (fun i => k (12 + i)%nat) t)).
  { intros t. unfold qswing_vel, d5. cbn. apply V3_ext; cbn; ring. }
  cbn [Nat.add]. set (w := QSwing _ _ _ _ _ _) in *.
  assert (Dp : forall c t, derivable_pt_lim (fun t => p5 c t) t (d5 c t)).
  { intros c t. apply is_derive_Reals. unfold p5, d5. auto_derive; auto. ring. }
  assert (Dd : forall c t, derivable_pt_lim (fun t => d5 c t) t (dd5 c t)).
  { intros c t. apply is_derive_Reals. unfold d5, dd5. auto_derive; auto. ring. }
  assert (Ext : forall f g t l, (forall x, f x = g x) -> derivable_pt_lim g t l -> derivable_pt_lim f t l).
  { intros f g t l H Hg. apply is_derive_Reals. apply is_derive_Reals in Hg. eapply is_derive_ext; [|exact Hg]. intros; symmetry; apply H. }
  split; [rewrite P; apply V3_ext; assumption|]. split; [rewrite P; apply V3_ext; assumption|].
  split; [rewrite V; apply V3_ext; assumption|]. split; [rewrite V; apply V3_ext; assumption|].
  split; [rewrite P; assumption|]. split; [rewrite P; assumption|]. split.
  - intros t. unfold velocity_of. rewrite V. cbn [vx vy vz].
    split; [|split]; (eapply Ext; [intros x; rewrite P; reflexivity|apply Dp]).
  - exists (fun t => V3 (dd5 (fun i => k i) t) (dd5 (fun i => k (6 + i)%nat) t) (dd5 (fun i => k (12 + i)%nat) t)). split; [|auto].
    intros t. unfold velocity_of. cbn [vx vy vz]. split; [|split]; (eapply Ext; [intros x; rewrite V; reflexivity|apply Dd]).
Qed.
Print Assumptions C103_without_checks_partial.

Example C103_example : exists inv w, inverse_correct inv /\
  make_qswing false (fun _ => 7) inv 1 2 5 (V3 0 0 0) (V3 1 2 3) = Ok w /\ qswing_pos w 2 = V3 1 2 3 /\ vz (qswing_pos w (5 / 4)) = 5.
Proof.
  destruct inverse_exists as [inv I]. destruct (C103_without_checks_partial (fun _ => 7) inv 1 2 5 (V3 0 0 0) (V3 1 2 3) I ltac:(lra)) as (w & E & _ & P & _ & _ & H & _).
  exists inv, w. split; [exact I|]. split; [exact E|]. split; [exact P|]. rewrite <- H. do 2 f_equal. lra.
Qed.
