(** What planning the feet computes: the points of the yaws and the swing of each part. *)
From Coq Require Import Reals Lra Lia List ZArith Bool.
From Verif Require Import Base Angle Linalg Geom3 Tools_model Spline_model Spline_spec Spline_proofs Spline_props Swing_model Swing_spec Swing_proofs Swing_props
  Geometry_model Footsteps_model Wpg_model Wpg_spec Wpg_proofs Wpg_proofs2 Wpg_proofs3 Wpg_proofs5 WpgPlan_spec.
Import ListNotations.
Open Scope R_scope.

(** ** Points of a yaw *)

(** The points of an angular spline, whose values are known up to whole turns. *)
Definition yaw_pts (s : cubic_spline) (l : list (R * R * R)) : Prop :=
  cs_angular s = true /\ reachable s /\
  Forall2 (fun p x => sp_t p = fst (fst x) /\ same_angle (sp_x p) (snd (fst x)) /\ sp_dx p = snd x) (cs_points s) l.

Lemma scalls_app : forall l l' s s' s'', scalls_run s l = Some s' -> scalls_run s' l' = Some s'' -> scalls_run s (l ++ l') = Some s''.
Proof.
  induction l as [|c l IH]; intros l' s s' s'' H H'; cbn in *; [injection H as <-; exact H'|]. destruct (scall_run s c); [eauto|discriminate H].
Qed.
Lemma reachable_add s t x dx s' : reachable s -> add_point s t x dx = (s', Ok tt) -> reachable s'.
Proof.
  intros (a & l & H) E. exists a, (l ++ [CAdd t x dx]). apply (scalls_app _ _ _ _ _ H). cbn. rewrite E. reflexivity.
Qed.
Lemma yaw_pts_new : yaw_pts (new_spline true) [].
Proof. split; [reflexivity|]. split; [exists true, []; reflexivity|constructor]. Qed.

Lemma spline_add_pts s l t x dx s' : yaw_pts s l -> spline_add s t x dx = Ok s' -> yaw_pts s' (l ++ [(t, x, dx)]).
Proof.
  intros (A & Rs & F) E. unfold spline_add in E. destruct (add_point s t x dx) as [s1 o] eqn:Ea. destruct o as [[]|e|]; try discriminate E. injection E as <-.
  destruct (C35_angular _ _ _ _ _ A Ea) as (x' & Ep & (k & Hk) & _). destruct (C34_accepted _ _ _ _ _ Ea) as (_ & _ & Ha & _).
  split; [congruence|]. split; [exact (reachable_add _ _ _ _ _ Rs Ea)|]. rewrite Ep. apply Forall2_app; [exact F|]. constructor; [|constructor]. cbn.
  split; [reflexivity|]. split; [exists k; exact Hk|reflexivity].
Qed.

Definition added (ls : side -> list (R * R * R)) (sd : side) (x : R * R * R) (sd' : side) : list (R * R * R) :=
  if side_eqb sd' sd then ls sd' ++ [x] else ls sd'.
Definition yaws_pts (j : wtraj) (ls : side -> list (R * R * R)) : Prop := forall sd, yaw_pts (foot_yaw j sd) (ls sd).

Lemma yaw_add_pts j sd t x dx k ls : yaws_pts j ls -> yaw_add j sd t x dx = Ok k -> yaws_pts k (added ls sd (t, x, dx)).
Proof.
  intros H E sd'. unfold yaw_add in E. bind E s Es. injection E as <-. pose proof (spline_add_pts _ _ _ _ _ _ (H sd) Es) as P. unfold added.
  specialize (H sd'). destruct sd, sd'; cbn in *; assumption.
Qed.
Lemma trunk_add_yaws j t x dx k : trunk_add j t x dx = Ok k -> forall sd, foot_yaw k sd = foot_yaw j sd.
Proof. intros E sd. unfold trunk_add in E. bind E s Es. injection E as <-. now destruct sd. Qed.

(** Where a support places a foot. *)
Definition yaw_of (o : outcome frame) : R := match o with Ok F => frame_yaw (fr_R F) | _ => 0 end.
Definition placed (ls : side -> list (R * R * R)) (s : support) (t : R) (sd : side) : list (R * R * R) :=
  match footstep_frame s sd with Ok F => ls sd ++ [(t, frame_yaw (fr_R F), 0)] | _ => ls sd end.

Lemma yaws_ext j ls ls' : (forall sd, ls sd = ls' sd) -> yaws_pts j ls -> yaws_pts j ls'.
Proof. intros E H sd. rewrite <- E. apply H. Qed.

Lemma add_supports_pts j t s k ls : feet_ok s -> yaws_pts j ls -> add_supports j t s = Ok k -> yaws_pts k (placed ls s t).
Proof.
  intros Hf H E. unfold add_supports in E. destruct Hf as [(f & Ef)|(f & h & Ef & Hs)]; rewrite Ef in E; cbn [add_footsteps] in E.
  - bind E j1 E1. injection E as <-. apply (yaw_add_pts _ _ _ _ _ _ _ H) in E1. revert E1. apply yaws_ext. intros sd.
    unfold placed, added, footstep_frame. rewrite Ef. cbn [find]. destruct (f_side f), sd; reflexivity.
  - bind E j1 E1. bind E j2 E2. injection E as <-. apply (yaw_add_pts _ _ _ _ _ _ _ H) in E1. apply (yaw_add_pts _ _ _ _ _ _ _ E1) in E2. revert E2. apply yaws_ext. intros sd.
    unfold placed, added, footstep_frame. rewrite Ef. cbn [find]. rewrite Hs. destruct (f_side f), sd; reflexivity.
Qed.

(** ** Where a foot is at the end of a part *)

Definition goes (l : list part) (i : nat) (sd : side) : outcome frame :=
  match nth_error l i with
  | Some q =>
      match footstep_frame (pt_support q) sd with
      | Ok F => Ok F
      | _ => match nth_error l (i + 1) with Some q' => footstep_frame (pt_support q') sd | None => UB end
      end
  | None => UB
  end.
Definition stop (l : list part) (sd : side) (i : nat) : R * R * R :=
  (match nth_error l i with Some q => pt_end q | None => 0 end, yaw_of (goes l i sd), 0).

Lemma same_nth l m i : Forall2 same_walk l m -> match nth_error l i, nth_error m i with Some p, Some q => same_walk p q | None, None => True | _, _ => False end.
Proof.
  intros H. revert i. induction H as [|p q l m S H IH]; intros [|i]; cbn; auto. apply IH.
Qed.
Lemma goes_same l m i sd : Forall2 same_walk l m -> goes l i sd = goes m i sd.
Proof.
  intros H. unfold goes. pose proof (same_nth _ _ i H) as A. pose proof (same_nth _ _ (i + 1) H) as B.
  destruct (nth_error l i), (nth_error m i); try contradiction; [|reflexivity]. destruct A as (_ & _ & -> & _).
  destruct (nth_error l (i + 1)), (nth_error m (i + 1)); try contradiction; [|reflexivity]. now destruct B as (_ & _ & -> & _).
Qed.
Lemma stop_same l m i sd : Forall2 same_walk l m -> stop l sd i = stop m sd i.
Proof.
  intros H. unfold stop. rewrite (goes_same _ _ _ _ H). pose proof (same_nth _ _ i H) as A. destruct (nth_error l i), (nth_error m i); try contradiction; [|reflexivity].
  now destruct A as (_ & -> & _).
Qed.
Lemma same_sym l m : Forall2 same_walk l m -> Forall2 same_walk m l.
Proof. induction 1 as [|p q l m (A & B & C & D) H IH]; constructor; auto. unfold same_walk. auto. Qed.

(** ** One part *)

Definition swing_made (p : wparams) (l : list part) (i : nat) (q : part) (T0 : vec3) (v0 : vec3) (elapsed : R) : Prop :=
  exists f Te d, u_footsteps (pt_support q) = [f] /\ goes l i (other_side (f_side f)) = Ok Te /\
    support_default_duration (w_base p) (pt_support q) = Ok d /\
    make_cswing (pt_start q) (d * u_time_ratio (pt_support q)) (w_foot_height p) (w_rise_ratio p) T0 (fr_t Te) elapsed v0 = Ok (pt_swing q).

Lemma feet_single s : feet_ok s -> length (u_footsteps s) = 1%nat -> exists f, u_footsteps s = [f].
Proof. intros [H|(f & h & E & _)] Hl; [exact H|]. rewrite E in Hl. discriminate Hl. Qed.
Lemma feet_double s : feet_ok s -> length (u_footsteps s) <> 1%nat -> forall sd, exists F, footstep_frame s sd = Ok F.
Proof.
  intros [(f & E)|(f & h & E & Hs)] Hl sd; [rewrite E in Hl; now destruct Hl|]. unfold footstep_frame. rewrite E. cbn [find]. rewrite Hs.
  destruct (f_side f), sd; cbn; eauto.
Qed.

Lemma dbl_pts j i q k ls : nth_error (j_parts j) i = Some q -> feet_ok (pt_support q) -> length (u_footsteps (pt_support q)) <> 1%nat ->
  yaws_pts j ls -> plan_dbl_support j i = Ok k ->
  yaws_pts k (fun sd => ls sd ++ [stop (j_parts j) sd i]) /\ (forall sd, exists F, goes (j_parts j) i sd = Ok F) /\ j_parts k = j_parts j.
Proof.
  intros Hq Hf Hl H E. split; [|split; [|exact (proj2 (plan_dbl_keeps _ _ _ E))]].
  - unfold plan_dbl_support in E. rewrite (at_index_ok _ _ _ Hq) in E. cbn [obind] in E. bind E j1 E1. bind E f Ef.
    apply (add_supports_pts _ _ _ _ _ Hf H) in E1. intros sd. rewrite (trunk_add_yaws _ _ _ _ _ E sd). specialize (E1 sd). unfold placed, stop, goes in *. rewrite Hq.
    destruct (feet_double _ Hf Hl sd) as (F & EF). rewrite EF in *. exact E1.
  - intros sd. unfold goes. rewrite Hq. destruct (feet_double _ Hf Hl sd) as (F & EF). rewrite EF. eauto.
Qed.

Lemma single_frames s f sd : u_footsteps s = [f] -> footstep_frame s sd = if side_eqb (f_side f) sd then Ok (f_frame f) else Throw ELogic.
Proof. intros E. unfold footstep_frame. rewrite E. cbn [find]. now destruct (side_eqb (f_side f) sd). Qed.

Lemma sgl_pts p j i q k old ls : nth_error (j_parts j) i = Some q -> feet_ok (pt_support q) -> length (u_footsteps (pt_support q)) = 1%nat ->
  yaws_pts j ls -> plan_sgl_support p j i old = Ok k ->
  exists f w T0 v0 elapsed ls', u_footsteps (pt_support q) = [f] /\ j_parts k = replace (j_parts j) i (set_swing q w) /\
    yaws_pts k (fun sd => ls' sd ++ [stop (j_parts j) sd i]) /\ (forall sd, exists F, goes (j_parts j) i sd = Ok F) /\
    swing_made p (j_parts j) i (set_swing q w) T0 v0 elapsed /\
    match i, old with
    | S i', _ => ls' = ls /\ v0 = v3_zero /\ elapsed = 0 /\
        exists q' F, nth_error (j_parts j) i' = Some q' /\ footstep_frame (pt_support q') (other_side (f_side f)) = Ok F /\ T0 = fr_t F
    | O, Some o => elapsed = u_elapsed_ratio (pt_support q) /\
        exists F y dy, get_T_world_foot o (other_side (f_side f)) (j_start j) = Ok F /\ T0 = fr_t F /\ get_v_world_foot o (other_side (f_side f)) (j_start j) = Ok v0 /\
          get_yaw_world_foot o (other_side (f_side f)) (j_start j) = Ok y /\ snd (vel (foot_yaw o (other_side (f_side f))) (j_start j)) = Ok dy /\
          ls' = added ls (other_side (f_side f)) (j_start j, y, dy)
    | O, None => False
    end.
Proof.
  intros Hq Hf Hl H E. destruct (feet_single _ Hf Hl) as (f & Ef). unfold plan_sgl_support in E. rewrite (at_index_ok _ _ _ Hq) in E. cbn [obind] in E. rewrite Ef in E.
  cbn [at_index nth_error obind] in E. cbv zeta in E. bind E qn Eqn. apply at_index_inv in Eqn. bind E Te ETe. bind E d Ed. bind E j1 E1. bind E j2 E2. bind E j3 E3.
  set (fl := other_side (f_side f)) in *.
  assert (Pk : j_parts k = j_parts j1).
  { apply add_supports_keeps in E as [_ P4]. apply yaw_add_keeps in E2 as [_ P2]. rewrite P4. transitivity (j_parts j2); [|exact P2].
    destruct (has_double_support (w_base p)); [now injection E3 as <-|]. now apply trunk_add_keeps in E3. }
  assert (G : forall sd, exists F, goes (j_parts j) i sd = Ok F /\ (sd = fl -> F = Te) /\ (sd <> fl -> F = f_frame f)).
  { intros sd. unfold goes. rewrite Hq, (single_frames _ _ _ Ef), Eqn. unfold fl in *. destruct (f_side f), sd; cbn in *; rewrite ?ETe; eexists; (split; [reflexivity|split; congruence]). }
  assert (Gf : goes (j_parts j) i fl = Ok Te) by (destruct (G fl) as (F & EF & A & _); rewrite EF; f_equal; auto).
  assert (Y : forall ls1, yaws_pts j1 ls1 -> yaws_pts k (fun sd => ls1 sd ++ [stop (j_parts j) sd i])).
  { intros ls1 H1. apply (yaw_add_pts _ _ _ _ _ _ _ H1) in E2. assert (H3 : yaws_pts j3 (added ls1 fl (pt_end q, frame_yaw (fr_R Te), 0))).
    { destruct (has_double_support (w_base p)); [now injection E3 as <-|]. intros sd. rewrite (trunk_add_yaws _ _ _ _ _ E3 sd). apply E2. }
    apply (add_supports_pts _ _ _ _ _ Hf H3) in E. revert E. apply yaws_ext. intros sd. unfold placed, stop, added. rewrite (single_frames _ _ _ Ef), Hq.
    destruct (G sd) as (F & EF & A & B). rewrite EF. cbn [yaw_of]. unfold fl in *. destruct (f_side f), sd; cbn in *; rewrite ?A, ?B by congruence; reflexivity. }
  assert (S : forall T0 v0 elapsed w, make_cswing (pt_start q) (d * u_time_ratio (pt_support q)) (w_foot_height p) (w_rise_ratio p) T0 (fr_t Te) elapsed v0 = Ok w ->
     swing_made p (j_parts j) i (set_swing q w) T0 v0 elapsed).
  { intros T0 v0 elapsed w Ew. exists f, Te, d. cbn [set_swing pt_support pt_start pt_swing]. auto. }
  assert (G' : forall sd, exists F, goes (j_parts j) i sd = Ok F) by (intros sd; destruct (G sd) as (F & EF & _); eauto).
  destruct i as [|i']; [destruct old as [o|]; [|discriminate E1]|].
  - bind E1 T0 ET0. bind E1 v0 Ev0. bind E1 w Ew. bind E1 y0 Ey0. bind E1 dy0 Edy0.
    assert (H0 : yaws_pts (set_parts j (replace (j_parts j) 0 (set_swing q w))) ls) by (intros sd; specialize (H sd); destruct sd; exact H).
    pose proof (yaw_add_pts _ _ _ _ _ _ _ H0 E1) as H1. apply yaw_add_keeps in E1 as [_ P1]. cbn [set_parts j_parts] in P1.
    exists f, w, (fr_t T0), v0, (u_elapsed_ratio (pt_support q)), (added ls fl (j_start j, y0, dy0)). split; [exact Ef|]. split; [congruence|]. split; [now apply Y|]. split; [exact G'|].
    split; [now apply S|]. split; [reflexivity|]. exists T0, y0, dy0. repeat (split; [assumption||reflexivity|]). reflexivity.
  - bind E1 qp Eqp. apply at_index_inv in Eqp. bind E1 T0 ET0. bind E1 w Ew. injection E1 as <-. cbn [set_parts j_parts] in Pk.
    exists f, w, (fr_t T0), v3_zero, 0, ls. split; [exact Ef|]. split; [exact Pk|]. split.
    { apply Y. intros sd. specialize (H sd). destruct sd; exact H. }
    split; [exact G'|]. split; [now apply S|]. repeat (split; [reflexivity|]). exists qp, T0. auto.
Qed.
