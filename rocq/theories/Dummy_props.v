(** Theorems about the dummy walk (C144 to C146). *)
From Coq Require Import Reals List ZArith Bool String Lra Lia.
From Verif Require Import Base Linalg Angle Geom3 Tools_model Geometry_model Geometry_spec Geometry_proofs Geometry_props Spline_model Spline_spec Spline_proofs Spline_props Footsteps_model Footsteps_spec Footsteps_proofs Footsteps_proofs2 Footsteps_proofs3 Footsteps_props Footsteps_props2 Robot_model Robot_spec Robot_proofs Robot_props Wpg_model Dummy_model Dummy_spec Dummy_proofs.
Import ListNotations.
Open Scope R_scope.

(** ** C144: the steps *)

(** A call of next_step: the foot that was flying is laid where it was to land and becomes the support, the other one does not move, and the next landing
    is for the step that is asked for. *)
Theorem C144_next_step c p w dx dy da : dparams_ok p -> walk_ok c p w -> exists w', next_step c p w dx dy da = (w', Ok tt) /\ walk_ok c p w' /\
  support_of w' = other_side (support_of w) /\ foot_of w' (support_of w') = dw_next w /\ foot_of w' (support_of w) = foot_of w (support_of w) /\
  step_towards c (w_base p) (support_of w') (dw_next w) (dw_next w') (V3 dx dy da) /\ dw_robot w' = dw_robot w /\ dw_targets w' = dw_targets w.
Proof.
  intros [P _] H. destruct (next_step_spec c p w dx dy da P H) as (w' & E & W & B & F1 & F2 & St & Er & Et & _). exists w'. split; [exact E|]. split; [exact W|].
  split; [unfold support_of; rewrite B; destruct (dw_support_left w); reflexivity|]. split; [exact F2|]. split; [exact F1|].
  split; [|split; assumption]. destruct W as (_ & _ & _ & _ & S). rewrite F2, St in S. exact S.
Qed.
Print Assumptions C144_next_step.

(** A reset: both feet on the floor, at the feet spacing around the origin, on the support that is asked for; the next step is on the spot. *)
Theorem C144_reset pn ik c p w left m : dparams_ok p -> reachable (dw_lift w) -> cs_angular (dw_lift w) = false ->
  r_model (dw_robot w) = m -> unit_base (pn_neutral pn) -> ik_works m ik ->
  exists w', reset_walk pn ik c p w left = (w', Ok tt) /\ walk_ok c p w' /\ robot_ok m (dw_robot w') /\ dw_support_left w' = left /\
    dw_left w' = planar 0 (p_feet_spacing (w_base p) / 2) 0 /\ dw_right w' = planar 0 (- (p_feet_spacing (w_base p) / 2)) 0 /\
    dw_next w' = foot_of w' (other_side (support_of w')) /\ dw_targets w' = (dw_left w', dw_right w', trunk_of w').
Proof.
  intros [P Hr] R Ha Em Hn Hik. unfold reset_walk. destruct (add_points_ok p (dw_lift w) Hr R Ha) as (s & -> & L).
  replace (translation 0 (- p_feet_spacing (w_base p) / 2) 0) with (planar 0 (- (p_feet_spacing (w_base p) / 2)) 0) by (rewrite <- floor_translation; f_equal; lra).
  rewrite floor_translation.
  match goal with |- context [compute_next_support c p ?W 0 0 0] => set (V := W); destruct (next_support c p V 0 0 0 P) as (U & E & T) end.
  rewrite E.
  match goal with |- context [update ik p ?W 0] => set (w1 := W) end.
  assert (T1 : step_towards c (w_base p) (support_of w1) (foot_of w1 (support_of w1)) (dw_next w1) (dw_step w1)) by exact T.
  assert (FU : on_floor U) by (eapply towards_floor; [|exact T]; unfold foot_of, support_of, V; cbn [dw_set_feet dw_set_robot dw_set_lift dw_support_left dw_left dw_right]; destruct left; repeat eexists).
  assert (W1 : walk_ok c p w1).
  { unfold walk_ok. split; [repeat eexists|]. split; [repeat eexists|]. split; [exact FU|]. split; [exact L|]. exact T1. }
  assert (EU : U = foot_of w1 (other_side (support_of w1))).
  { destruct T as (k & _ & _ & -> & _). unfold wanted, landing, foot_of, support_of, w1, V, v3_scale. cbn [dw_set_feet dw_set_step dw_set_robot dw_set_lift dw_support_left dw_left dw_right vx vy vz other_side].
    destruct left; cbn [other_side lateral]; rewrite planar_mul, Rabs_R0, cos_0, sin_0; f_equal; lra. }
  destruct (update_spec ik c p w1 0 Hr W1) as (W & Sf & Lf & Er & Et & ->).
  assert (Rk : robot_ok m (dw_robot W)).
  { rewrite Er. unfold w1, V, robot_ok. cbn [dw_set_feet dw_set_step dw_set_robot dw_set_lift dw_robot update_kinematics reset neutral_state set_state r_model r_state r_seen st_q st_qd fst].
    split; [exact Em|]. split; exact Hn. }
  destruct (Hik (dw_robot W) (dw_targets W) Rk) as (r & Ei & Rr).
  destruct (solve_walk ik W) as [w' o] eqn:Es. destruct (solve_same ik W w' o Es) as (Sw & Lw & Tw & Ro). destruct (Ro r Ei) as [Er' ->].
  exists w'. split; [reflexivity|]. pose proof (same_feet_trans _ _ _ Sf Sw) as Sa.
  split; [apply (same_feet_ok c p w1 w' Sa); [rewrite Lw; exact Lf|exact W1]|]. split; [rewrite Er'; exact Rr|].
  destruct Sa as (So & Ss & Sl & Sr & Sn & _). split; [rewrite Ss; reflexivity|]. split; [rewrite Sl; reflexivity|]. split; [rewrite Sr; reflexivity|].
  split.
  { rewrite Sn. unfold foot_of, support_of. rewrite Ss, Sl, Sr. change (dw_next w1) with U. rewrite EU. reflexivity. }
  unfold trunk_of. rewrite Tw, Et. cbn [snd]. rewrite Sl, Sr. f_equal. f_equal.
  - unfold left_target. destruct (dw_support_left w1) eqn:Bl; [reflexivity|]. unfold flying_target. rewrite (proj1 (C44_ends _ _ (rigid_of_floor _ (proj1 W1)) (rigid_of_floor _ (proj1 (proj2 (proj2 W1)))))).
    unfold lift_height. destruct (Rle_dec 0 0); [reflexivity|lra].
  - unfold right_target. destruct (dw_support_left w1) eqn:Bl; [|reflexivity]. unfold flying_target. rewrite (proj1 (C44_ends _ _ (rigid_of_floor _ (proj1 (proj2 W1))) (rigid_of_floor _ (proj1 (proj2 (proj2 W1)))))).
    unfold lift_height. destruct (Rle_dec 0 0); [reflexivity|lra].
Qed.
Print Assumptions C144_reset.

(** The constructor. *)
Theorem C144_new pn ik c p r : dparams_ok p -> unit_base (pn_neutral pn) -> ik_works (r_model r) ik ->
  exists w, new_walk pn ik c p r = (w, Ok tt) /\ walk_ok c p w /\ robot_ok (r_model r) (dw_robot w) /\ support_of w = Right /\
    dw_left w = planar 0 (p_feet_spacing (w_base p) / 2) 0 /\ dw_right w = planar 0 (- (p_feet_spacing (w_base p) / 2)) 0 /\
    dw_next w = dw_left w /\ dw_targets w = (dw_left w, dw_right w, trunk_of w).
Proof.
  intros Hp Hn Hik. destruct (C144_reset pn ik c p (DWalk r (5 / 100) false (new_spline false) frame_id frame_id frame_id v3_zero (frame_id, frame_id, frame_id)) false (r_model r) Hp)
    as (w & E & W & Rk & S & L & R & N & T); try assumption; try reflexivity; [exists false, []; reflexivity|].
  exists w. split; [exact E|]. split; [exact W|]. split; [exact Rk|]. assert (Es : support_of w = Right) by (unfold support_of; rewrite S; reflexivity).
  rewrite Es in *. repeat (split; [assumption || reflexivity|]). exact T.
Qed.
Print Assumptions C144_new.

(** With another ratio of the time spent at the height of the steps, nothing works. *)
Theorem C144_rise_ratio pn ik c p r : ~ 0 < w_rise_ratio p < 1 -> snd (new_walk pn ik c p r) = Throw ERuntime.
Proof.
  intros Hr. unfold new_walk, reset_walk. cbn [dw_lift]. destruct (add_points_refused p (new_spline false) Hr eq_refl) as (s & -> & _). reflexivity.
Qed.
Print Assumptions C144_rise_ratio.

(** Whatever the calls, also when one of them fails: the feet and the next landing are on the floor, the next landing is the one of the last step that was
    asked for, from the support foot; and the support alternates with the calls of next_step. *)
Lemma update_ok ik c p w t w' o : 0 < w_rise_ratio p < 1 -> walk_ok c p w -> update ik p w t = (w', o) -> walk_ok c p w' /\ same_feet w w' /\
  dw_targets w' = (left_target p w t, right_target p w t, trunk_target p w (left_target p w t) (right_target p w t)) /\
  (forall r, ik (dw_robot w) (dw_targets w') = Ok r -> dw_robot w' = r /\ o = Ok tt).
Proof.
  intros Hr H E. destruct (update_spec ik c p w t Hr H) as (W & Sf & Lf & Er & Et & Eu). rewrite Eu in E. destruct (solve_same ik W w' o E) as (Sw & Lw & Tw & Ro).
  pose proof (same_feet_trans _ _ _ Sf Sw) as Sa. split; [apply (same_feet_ok c p w w' Sa); [rewrite Lw; exact Lf|exact H]|]. split; [exact Sa|]. split; [congruence|].
  rewrite Tw, <- Er. exact Ro.
Qed.
Lemma place_ok pn c p w T w' o : walk_ok c p w -> update_T_world_support pn w T = (w', o) -> walk_ok c p w' /\ dw_support_left w' = dw_support_left w.
Proof.
  intros H E. rewrite (place_spec pn c p w T H) in E. pose proof (replaced_ok c p w T H) as Hr.
  destruct (set_T_world_frame_name _ _ _ _); injection E as <- <-; (split; [exact Hr|reflexivity]).
Qed.
Lemma call_ok pn ik c p w d w' o : dparams_ok p -> walk_ok c p w -> dcall pn ik c p w d = (w', o) -> walk_ok c p w' /\
  dw_support_left w' = xorb (dw_support_left w) (is_next d).
Proof.
  intros [P Hr] H E. destruct d as [dx dy da|t|T]; cbn [dcall is_next] in *.
  - destruct (next_step_spec c p w dx dy da P H) as (w1 & E1 & W1 & B1 & _). rewrite E1 in E. injection E as <- <-. split; [exact W1|]. rewrite B1. destruct (dw_support_left w); reflexivity.
  - destruct (update_ok ik c p w t w' o Hr H E) as (W1 & (_ & B1 & _) & _). split; [exact W1|]. rewrite B1, xorb_false_r. reflexivity.
  - destruct (place_ok pn c p w T w' o H E) as [W1 B1]. split; [exact W1|]. rewrite B1, xorb_false_r. reflexivity.
Qed.
Theorem C144_history pn ik c p l : dparams_ok p -> forall w w' o, walk_ok c p w -> dcalls pn ik c p w l = (w', o) -> walk_ok c p w' /\
  (o = Ok tt -> dw_support_left w' = xorb (dw_support_left w) (Nat.odd (List.length (filter is_next l)))).
Proof.
  intros Hp. induction l as [|d l IH]; intros w w' o H E; cbn [dcalls] in E.
  - injection E as <- <-. split; [exact H|]. intros _. cbn. now rewrite xorb_false_r.
  - destruct (dcall pn ik c p w d) as [w1 o1] eqn:E1. destruct (call_ok pn ik c p w d w1 o1 Hp H E1) as [W1 B1].
    destruct o1 as [[]| |]; try (injection E as <- <-; split; [exact W1|discriminate]).
    destruct (IH w1 w' o W1 E) as [W2 B2]. split; [exact W2|]. intros Ho. rewrite (B2 Ho), B1. cbn [filter].
    destruct (is_next d); cbn [List.length]; [|rewrite xorb_false_r; reflexivity]. rewrite Nat.odd_succ, <- Nat.negb_odd. destruct (dw_support_left w), (Nat.odd _); reflexivity.
Qed.
Print Assumptions C144_history.

(** The calls do not fail, as long as the inverse kinematics do not. *)
Lemma place_robot pn c p m moving i j w T : feet_found pn m moving i j -> walk_ok c p w -> robot_ok m (dw_robot w) ->
  exists r', update_T_world_support pn w T = (dw_set_robot (replaced w T) (update_kinematics r'), Ok tt) /\ robot_ok m (update_kinematics r') /\
    same_joints (st_q (r_state r')) (st_q (r_state (dw_robot w))) /\
    forall g, moving g -> pn_frame pn (st_q (r_state r')) g =
      frame_mul (flatten_on_floor T) (frame_mul (frame_inv (pn_frame pn (fst (r_seen (dw_robot w))) (if dw_support_left w then i else j))) (pn_frame pn (st_q (r_state (dw_robot w))) g)).
Proof.
  intros (Fc & Ro & Pi & Pj & Mi & Mj & Li & Lj) H (Em & Uq & Us). rewrite (place_spec pn c p w T H).
  assert (K : forall name f, position_of name (m_frames m) = Some f -> moving f -> (f < List.length (m_frames m))%nat ->
    exists r', set_T_world_frame_name pn (dw_robot w) name (flatten_on_floor T) = Ok r' /\ robot_ok m (update_kinematics r') /\ same_joints (st_q (r_state r')) (st_q (r_state (dw_robot w))) /\
      forall g, moving g -> pn_frame pn (st_q (r_state r')) g = frame_mul (flatten_on_floor T) (frame_mul (frame_inv (pn_frame pn (fst (r_seen (dw_robot w))) f)) (pn_frame pn (st_q (r_state (dw_robot w))) g))).
  { intros name f Pf Mf Lf. rewrite <- Em in *.
    destruct (C74_stale_behaviour pn moving (dw_robot w) f (flatten_on_floor T) Fc Ro Uq Us Lf Mf (rigid_of_floor _ (floor_flatten T))) as (r' & E & U' & J & _ & _ & Em' & _ & G).
    exists r'. split; [unfold set_T_world_frame_name, get_frame_index; rewrite Pf; exact E|]. split; [|split; [exact J|exact G]].
    unfold robot_ok, update_kinematics. cbn [r_model r_state r_seen fst]. auto. }
  destruct (dw_support_left w).
  - destruct (K _ _ Pi Mi Li) as (r' & -> & A & B & C). exists r'. auto.
  - destruct (K _ _ Pj Mj Lj) as (r' & -> & A & B & C). exists r'. auto.
Qed.
Theorem C144_total pn ik c p m moving i j l : dparams_ok p -> feet_found pn m moving i j -> ik_works m ik ->
  forall w, walk_ok c p w -> robot_ok m (dw_robot w) -> exists w', dcalls pn ik c p w l = (w', Ok tt) /\ walk_ok c p w' /\ robot_ok m (dw_robot w').
Proof.
  intros Hp Hf Hik. induction l as [|d l IH]; intros w H Hr; [exists w; auto|]. cbn [dcalls].
  assert (K : exists w1, dcall pn ik c p w d = (w1, Ok tt) /\ robot_ok m (dw_robot w1)).
  { destruct d as [dx dy da|t|T]; cbn [dcall].
    - destruct (next_step_spec c p w dx dy da (proj1 Hp) H) as (w1 & E1 & _ & _ & _ & _ & _ & Er & _). exists w1. split; [exact E1|]. rewrite Er. exact Hr.
    - destruct (update ik p w t) as [w1 o] eqn:E. destruct (update_ok ik c p w t w1 o (proj2 Hp) H E) as (_ & _ & _ & Ro).
      destruct (Hik (dw_robot w) (dw_targets w1) Hr) as (r & Ei & Rr). destruct (Ro r Ei) as [Er ->]. exists w1. split; [reflexivity|]. rewrite Er. exact Rr.
    - destruct (place_robot pn c p m moving i j w T Hf H Hr) as (r' & E & Rr & _). eexists. split; [exact E|]. exact Rr. }
  destruct K as (w1 & E1 & R1). rewrite E1. destruct (call_ok pn ik c p w d w1 _ Hp H E1) as [W1 _]. exact (IH w1 W1 R1).
Qed.
Print Assumptions C144_total.

(** ** C145: the motion during a step *)

Lemma lift_bounds p t : 0 < w_rise_ratio p < 1 -> 0 <= w_foot_height p -> 0 <= lift_height p t <= w_foot_height p.
Proof.
  intros Hr Hh. unfold lift_height. cbv zeta. set (a := 1 / 2 - w_rise_ratio p / 2). assert (Ha : 0 < a) by (unfold a; lra).
  assert (S : forall u, 0 <= u <= 1 -> 0 <= smooth (w_foot_height p) u <= w_foot_height p).
  { intros u Hu. unfold smooth. assert (0 <= 3 * u ^ 2 - 2 * u ^ 3 <= 1).
    { replace (3 * u ^ 2 - 2 * u ^ 3) with (u * u * (3 - 2 * u)) by ring. split; [apply Rmult_le_pos; [nra|lra]|].
      assert (0 <= (1 - u) * (1 - u) * (1 + 2 * u)) by (apply Rmult_le_pos; [nra|lra]). nra. }
    split; [apply Rmult_le_pos; lra|]. rewrite <- (Rmult_1_r (w_foot_height p)) at 2. apply Rmult_le_compat_l; lra. }
  destruct (Rle_dec t 0); [lra|]. destruct (Rle_dec t a).
  { apply S. split; [apply Rmult_le_pos; [lra|left; apply Rinv_0_lt_compat; lra]|]. apply (Rmult_le_reg_r a); [lra|]. unfold Rdiv. rewrite Rmult_assoc, Rinv_l by lra. lra. }
  destruct (Rle_dec t (1 - a)); [lra|]. destruct (Rle_dec t 1); [|lra].
  apply S. split; [apply Rmult_le_pos; [lra|left; apply Rinv_0_lt_compat; lra]|]. apply (Rmult_le_reg_r a); [lra|]. unfold Rdiv. rewrite Rmult_assoc, Rinv_l by lra. lra.
Qed.

(** The height of the flying foot: none at both ends of the step, the one of the parameters around its middle, never outside, and without jumps. *)
Theorem C145_height p : dparams_ok p -> 0 <= w_foot_height p ->
  lift_height p 0 = 0 /\ lift_height p 1 = 0 /\ (forall t, Rabs (t - 1 / 2) <= w_rise_ratio p / 2 -> lift_height p t = w_foot_height p) /\
  (forall t, 0 <= lift_height p t <= w_foot_height p) /\ continuity (lift_height p).
Proof.
  intros [_ Hr] Hh. assert (A : 0 < 1 / 2 - w_rise_ratio p / 2) by lra. split; [unfold lift_height; destruct (Rle_dec 0 0); lra|]. split.
  { unfold lift_height. cbv zeta. repeat match goal with |- context [Rle_dec ?a ?b] => destruct (Rle_dec a b) end; try lra. unfold smooth. replace ((1 - 1) / _) with 0 by (unfold Rdiv; ring). ring. }
  split; [|split; [intros t; apply lift_bounds; assumption|]].
  - intros t Ht. assert (1 / 2 - w_rise_ratio p / 2 <= t <= 1 / 2 + w_rise_ratio p / 2) by (unfold Rabs in Ht; destruct (Rcase_abs _) in Ht; lra).
    unfold lift_height. cbv zeta. destruct (Rle_dec t 0); [lra|]. destruct (Rle_dec t (1 / 2 - w_rise_ratio p / 2)).
    + replace t with (1 / 2 - w_rise_ratio p / 2) by lra. unfold smooth. field. lra.
    + destruct (Rle_dec t (1 - (1 / 2 - w_rise_ratio p / 2))); [reflexivity|lra].
  - destruct (add_points_ok p (new_spline false) Hr) as (s & _ & L); [exists false, []; reflexivity|reflexivity|].
    destruct L as (R & La & Ep). destruct (C33_spline s _ _ _ R Ep) as (P & V & Ac & Q & _ & Cp & _).
    assert (E : forall t, P t = lift_height p t).
    { intros t. destruct (lift_pos p s t Hr) as [E _]; [unfold lift_ok; auto|]. rewrite (proj1 (Q t)) in E. congruence. }
    intros t eps He. destruct (Cp t eps He) as (d & Hd & K). exists d. split; [exact Hd|]. intros y Hy. rewrite <- !E. exact (K y Hy).
Qed.
Print Assumptions C145_height.

(** update(t): the support foot does not move; the other one goes straight, seen from above, from where it was to where it lands, without tilting, at the height
    above; both feet and the landing are kept for the next calls. *)
Theorem C145_update ik c p w t w' o : dparams_ok p -> walk_ok c p w -> update ik p w t = (w', o) ->
  let start := foot_of w (other_side (support_of w)) in
  let flying := target_of_foot w' (other_side (support_of w)) in
  target_of_foot w' (support_of w) = foot_of w (support_of w) /\
  vx (fr_t flying) = vx (fr_t start) + t * (vx (fr_t (dw_next w)) - vx (fr_t start)) /\
  vy (fr_t flying) = vy (fr_t start) + t * (vy (fr_t (dw_next w)) - vy (fr_t start)) /\
  vz (fr_t flying) = lift_height p t /\ level flying /\ (t = 0 -> flying = start) /\ (t = 1 -> flying = dw_next w) /\
  support_of w' = support_of w /\ (forall s, foot_of w' s = foot_of w s) /\ dw_next w' = dw_next w.
Proof.
  intros [_ Hr] H E start flying. destruct (update_ok ik c p w t w' o Hr H E) as (W & (_ & Ss & Sl & Sr & Sn & _) & Et & _).
  assert (Fs : on_floor start) by (unfold start, foot_of, support_of; destruct (dw_support_left w); apply H).
  assert (Fn : on_floor (dw_next w)) by apply H.
  assert (Ef : flying = flying_target p start (dw_next w) t).
  { unfold flying, start, target_of_foot, foot_of, support_of. rewrite Et. unfold left_target, right_target. destruct (dw_support_left w); reflexivity. }
  assert (Ez : forall T, on_floor T -> lifted T 0 = T) by (intros T (x & y & a & ->); reflexivity).
  split; [unfold target_of_foot, foot_of, support_of; rewrite Et; unfold left_target, right_target; destruct (dw_support_left w); reflexivity|].
  rewrite Ef. unfold flying_target. cbn [lifted fr_t fr_R vx vy vz]. rewrite C44_translation. split; [m3; ring|]. split; [m3; ring|]. split; [reflexivity|].
  split; [exact (interpolate_level start (dw_next w) t Fs Fn)|].
  destruct (C44_ends start (dw_next w) (rigid_of_floor _ Fs) (rigid_of_floor _ Fn)) as [E0 E1].
  assert (Z0 : lift_height p 0 = 0) by (unfold lift_height; destruct (Rle_dec 0 0); lra).
  assert (Z1 : lift_height p 1 = 0).
  { unfold lift_height. cbv zeta. repeat match goal with |- context [Rle_dec ?a ?b] => destruct (Rle_dec a b) end; try lra. unfold smooth. replace ((1 - 1) / _) with 0 by (unfold Rdiv; ring). ring. }
  split; [intros ->; rewrite E0, Z0; apply Ez; exact Fs|]. split; [intros ->; rewrite E1, Z1; apply Ez; exact Fn|].
  split; [unfold support_of; rewrite Ss; reflexivity|]. split; [intros [|]; cbn [foot_of]; assumption|exact Sn].
Qed.
Print Assumptions C145_update.

(** The trunk: upright but for its pitch, at the height of the parameters, in front of the middle of the feet. *)
Theorem C145_trunk ik c p w t w' o : dparams_ok p -> walk_ok c p w -> update ik p w t = (w', o) ->
  exists mid, level mid /\ vx (fr_t mid) = (vx (fr_t (target_of_foot w' Left)) + vx (fr_t (target_of_foot w' Right))) / 2 /\
    vy (fr_t mid) = (vy (fr_t (target_of_foot w' Left)) + vy (fr_t (target_of_foot w' Right))) / 2 /\ vz (fr_t mid) = 0 /\
    trunk_of w' = frame_mul mid (Frame (rot_y (w_trunk_pitch p)) (V3 (dw_offset w) 0 (w_com_height p))) /\ vz (fr_t (trunk_of w')) = w_com_height p.
Proof.
  intros [_ Hr] H E. destruct (update_ok ik c p w t w' o Hr H E) as (_ & _ & Et & _). unfold trunk_of, target_of_foot. rewrite Et. cbn [snd].
  set (L := left_target p w t). set (G := right_target p w t). unfold trunk_target. set (mid := interpolate_frames (flatten_on_floor L) (flatten_on_floor G) (1 / 2)).
  assert (Lv : level mid) by (apply interpolate_level; apply floor_flatten).
  assert (Tm : fr_t mid = V3 ((vx (fr_t L) + vx (fr_t G)) / 2) ((vy (fr_t L) + vy (fr_t G)) / 2) 0).
  { unfold mid. rewrite C44_translation. unfold flatten_on_floor. cbn [fr_t]. apply V3_ext; m3; lra. }
  exists mid. split; [exact Lv|]. rewrite Tm. cbn [vx vy vz]. repeat (split; [reflexivity|]).
  assert (Em : frame_mul (frame_mul mid (translation (dw_offset w) 0 (w_com_height p))) (Frame (rot_y (w_trunk_pitch p)) v3_zero) = frame_mul mid (Frame (rot_y (w_trunk_pitch p)) (V3 (dw_offset w) 0 (w_com_height p)))).
  { rewrite frame_mul_assoc. f_equal. unfold translation, frame_mul. cbn [fr_R fr_t]. rewrite m3_mul_id_l, m3_vec_id. f_equal. apply V3_ext; m3; ring. }
  split; [exact Em|]. rewrite Em. unfold frame_mul. cbn [fr_t]. rewrite Tm. destruct Lv as [_ Lv]. pose proof (f_equal vx Lv) as K0. pose proof (f_equal vy Lv) as K1. pose proof (f_equal vz Lv) as K2.
  revert K0 K1 K2. destruct (fr_R mid) as [a00 a01 a02 a10 a11 a12 a20 a21 a22]. m3. intros K0 K1 K2. replace a20 with 0 by lra. replace a21 with 0 by lra. replace a22 with 1 by lra. ring.
Qed.
Print Assumptions C145_trunk.

(** No jump between two steps: what is asked for at the end of a step is what is asked for at the start of the next one. *)
Theorem C145_handover ik c p w w1 w2 w3 o1 o2 dx dy da : dparams_ok p -> walk_ok c p w -> update ik p w 1 = (w1, o1) ->
  next_step c p w1 dx dy da = (w2, Ok tt) -> update ik p w2 0 = (w3, o2) -> dw_targets w3 = dw_targets w1.
Proof.
  intros Hp H E1 E2 E3. pose proof (proj2 Hp) as Hr. destruct (update_ok ik c p w 1 w1 o1 Hr H E1) as (W1 & (So & Ss & Sl & Sr & Sn & _) & Et1 & _).
  destruct (next_step_spec c p w1 dx dy da (proj1 Hp) W1) as (w2' & E2' & W2 & B2 & F1 & F2 & _ & _ & _ & Of). rewrite E2' in E2. injection E2 as ->.
  destruct (update_ok ik c p w2 0 w3 o2 Hr W2 E3) as (_ & _ & Et3 & _).
  destruct (C145_update ik c p w 1 w1 o1 Hp H E1) as (A1 & _ & _ & _ & _ & _ & A2 & _). specialize (A2 eq_refl).
  destruct (C145_update ik c p w2 0 w3 o2 Hp W2 E3) as (A3 & _ & _ & _ & _ & A4 & _). specialize (A4 eq_refl).
  assert (EL : left_target p w2 0 = left_target p w 1 /\ right_target p w2 0 = right_target p w 1).
  { unfold target_of_foot, support_of, foot_of in *. rewrite Et1 in A1, A2. rewrite Et3 in A3, A4. rewrite B2, Ss in *. destruct (dw_support_left w); cbn [negb other_side] in *; rewrite ?Sl, ?Sr, ?Sn in *; split; congruence. }
  destruct EL as [EL ER]. rewrite Et3, Et1, EL, ER. f_equal. unfold trunk_target. rewrite Of, So. reflexivity.
Qed.
Print Assumptions C145_handover.

(** ** C146: placing the walk *)

(** The support foot is put at the given place of the floor, and everything moves with it, as one body. *)
Theorem C146_feet pn c p w T w' o : walk_ok c p w -> update_T_world_support pn w T = (w', o) ->
  foot_of w' (support_of w') = flatten_on_floor T /\ support_of w' = support_of w /\ dw_step w' = dw_step w /\
  exists D, on_floor D /\ dw_left w' = frame_mul D (dw_left w) /\ dw_right w' = frame_mul D (dw_right w) /\ dw_next w' = frame_mul D (dw_next w).
Proof.
  intros H E. pose proof (replacement_support c p w T H) as Es. rewrite (place_spec pn c p w T H) in E.
  assert (K : forall r, foot_of (dw_set_robot (replaced w T) r) (support_of w) = flatten_on_floor T) by (intros r; rewrite <- Es; unfold foot_of, support_of; destruct (dw_support_left w); reflexivity).
  assert (K' : foot_of (replaced w T) (support_of w) = flatten_on_floor T) by (rewrite <- Es; unfold foot_of, support_of; destruct (dw_support_left w); reflexivity).
  destruct (set_T_world_frame_name _ _ _ _) as [r| |]; injection E as <- <-; (split; [apply K || exact K'|]; split; [reflexivity|]; split; [reflexivity|]; exists (replacement w T); split; [apply (replacement_floor c p w T H)|]; repeat split).
Qed.
Print Assumptions C146_feet.

(** The robot: when its data is up to date, its support foot is there as well, and the rest of its body follows. *)
Theorem C146_robot_partial pn c p m moving i j w T : feet_found pn m moving i j -> walk_ok c p w -> robot_ok m (dw_robot w) -> up_to_date (dw_robot w) ->
  exists w', update_T_world_support pn w T = (w', Ok tt) /\ same_joints (st_q (r_state (dw_robot w'))) (st_q (r_state (dw_robot w))) /\ up_to_date (dw_robot w') /\
    get_T_world_frame_name pn (dw_robot w') (if dw_support_left w then "left_foot" else "right_foot") = Ok (foot_of w' (support_of w')) /\
    (forall a b, moving a -> moving b -> (a < List.length (m_frames m))%nat -> (b < List.length (m_frames m))%nat -> get_T_a_b pn (dw_robot w') a b = get_T_a_b pn (dw_robot w) a b).
Proof.
  intros Hf H Hr Hu. destruct (place_robot pn c p m moving i j w T Hf H Hr) as (r' & E & Rr & J & G). eexists. split; [exact E|].
  destruct (C146_feet pn c p w T _ _ H E) as (Ft & _). set (w' := dw_set_robot _ _) in *. 
  assert (Es : fst (r_seen (dw_robot w)) = st_q (r_state (dw_robot w))) by (rewrite Hu; reflexivity). rewrite Es in G.
  destruct Hf as (Fc & Ro & Pi & Pj & Mi & Mj & Li & Lj). destruct Hr as (Em & Uq & _). destruct Rr as (Em' & Uq' & _). cbn [update_kinematics r_model r_state] in Em', Uq'.
  assert (Rg : forall g, moving g -> rigid (pn_frame pn (st_q (r_state (dw_robot w))) g)).
  { intros g Mg. destruct Fc as (rel & Hrig & _ & Hfr). rewrite Hfr by assumption. apply rigid_mul; [apply rigid_mul; [exact Ro|apply q_base_rigid; exact Uq]|apply Hrig]. }
  set (s := if dw_support_left w then i else j) in *. assert (Ms : moving s) by (unfold s; destruct (dw_support_left w); assumption).
  assert (Ls : (s < List.length (m_frames m))%nat) by (unfold s; destruct (dw_support_left w); assumption).
  assert (P : position_of (if dw_support_left w then "left_foot" else "right_foot") (m_frames m) = Some s) by (unfold s; destruct (dw_support_left w); assumption).
  split; [exact J|]. split; [reflexivity|]. split.
  - rewrite Ft. unfold get_T_world_frame_name, get_frame_index, get_T_world_frame, w'. cbn [dw_set_robot dw_robot update_kinematics r_model r_seen fst]. rewrite Em', P. cbn [obind].
    apply Nat.ltb_lt in Ls. rewrite Ls. cbn [guard]. rewrite (G s Ms), frame_inv_l, frame_mul_id_r by (apply Rg; exact Ms). reflexivity.
  - intros a b Ma Mb La Lb. unfold get_T_a_b, get_T_world_frame, w'. cbn [dw_set_robot dw_robot update_kinematics r_model r_seen fst]. rewrite Em', Em. apply Nat.ltb_lt in La, Lb. rewrite La, Lb. cbn [guard obind].
    rewrite (G a Ma), (G b Mb), Es. f_equal. set (K := frame_mul (flatten_on_floor T) (frame_inv (pn_frame pn (st_q (r_state (dw_robot w))) s))).
    assert (HK : rigid K) by (apply rigid_mul; [apply rigid_of_floor, floor_flatten|apply rigid_inv, Rg; exact Ms]).
    rewrite <- !(frame_mul_assoc (flatten_on_floor T)). fold K. rewrite frame_inv_mul by (try exact HK; apply Rg; assumption).
    rewrite !frame_mul_assoc. f_equal. apply root_cancel'. exact HK.
Qed.
Print Assumptions C146_robot_partial.

(** But the inverse kinematics of update leave data that is not: the robot is moved by what the flattened target is to the place where its foot was seen. *)
Theorem C146_stale_behaviour pn c p m moving i j w T : feet_found pn m moving i j -> walk_ok c p w -> robot_ok m (dw_robot w) ->
  exists w', update_T_world_support pn w T = (w', Ok tt) /\
    forall g, moving g -> pn_frame pn (st_q (r_state (dw_robot w'))) g =
      frame_mul (frame_mul (foot_of w' (support_of w')) (frame_inv (pn_frame pn (fst (r_seen (dw_robot w))) (if dw_support_left w then i else j)))) (pn_frame pn (st_q (r_state (dw_robot w))) g).
Proof.
  intros Hf H Hr. destruct (place_robot pn c p m moving i j w T Hf H Hr) as (r' & E & _ & _ & G). eexists. split; [exact E|]. destruct (C146_feet pn c p w T _ _ H E) as (Ft & _).
  intros g Mg. rewrite Ft, frame_mul_assoc. exact (G g Mg).
Qed.
Print Assumptions C146_stale_behaviour.
