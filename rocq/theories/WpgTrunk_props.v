(** C179: the trunk of a planned and of a replanned walk. *)
From Coq Require Import Reals Lra Lia List ZArith Bool.
From Verif Require Import Base Angle Linalg Geom3 Tools_model Spline_model Spline_spec Spline_proofs Spline_props Swing_model Swing_spec Swing_proofs Swing_props
  Geometry_model Geometry_proofs Footsteps_model Wpg_model Wpg_spec Wpg_proofs Wpg_proofs2 Wpg_proofs3 Wpg_proofs4 Wpg_proofs5 Wpg_props WpgPlan_spec WpgPlan_proofs4 WpgPlan_props
  WpgFeet_spec WpgFeet_proofs WpgFeet_proofs2 WpgFeet_proofs3 WpgFeet_proofs4 WpgFeet_props WpgTrunk_spec WpgTrunk_proofs.
Import ListNotations.
Open Scope R_scope.

Lemma frame_of_support s s' : u_footsteps s = u_footsteps s' -> support_frame s = support_frame s'.
Proof. intros H. unfold support_frame. now rewrite H. Qed.
Lemma yaw_id : frame_yaw m3_id = 0.
Proof. rewrite frame_yaw_first. unfold m3_id. cbn [m10 m00]. unfold atan2. destruct (Rlt_dec 0 1); [|lra]. unfold Rdiv. rewrite Rmult_0_l. exact atan_0. Qed.
Lemma rot_x_0 : rot_x 0 = m3_id.
Proof. unfold rot_x, m3_id. rewrite cos_0, sin_0. f_equal; ring. Qed.

(** Lists whose times increase. *)
Lemma increasing (l : list (R * R * R)) : (forall i x x', nth_error l i = Some x -> nth_error l (S i) = Some x' -> fst (fst x) < fst (fst x')) ->
  forall k i x x', nth_error l i = Some x -> nth_error l (i + S k) = Some x' -> fst (fst x) < fst (fst x').
Proof.
  intros H. induction k as [|k IH]; intros i x x' Hx Hx'.
  - apply (H i); [exact Hx|]. now rewrite Nat.add_1_r in Hx'.
  - destruct (nth_error l (i + S k)) as [z|] eqn:Hz.
    + pose proof (IH i x z Hx Hz). pose proof (H (i + S k)%nat z x' Hz). replace (S (i + S k)) with (i + S (S k))%nat in H1 by lia. specialize (H1 Hx'). lra.
    + apply nth_error_None in Hz. assert (i + S (S k) < length l)%nat by (apply nth_error_Some; congruence). lia.
Qed.

Lemma trunk_motion L g j0 supports p v a j1 ss old j : plan_com L g j0 supports p v a = Ok (true, j1, ss) -> plan_feet_trajectories (g_params g) j1 old = Ok j ->
  j_T j0 = frame_id -> j_roll j0 = 0 -> j_left j0 = new_spline true -> j_right j0 = new_spline true -> j_trunk j0 = new_spline true -> feet_walk (w_base (g_params g)) supports ->
  exists Y W, trunk_moves (has_double_support (w_base (g_params g))) supports j (j_start j0) (j_pitch j0) Y W /\
    match old with
    | None => W (j_start j0) = 0 /\ exists s F, nth_error supports 0 = Some s /\ support_frame s = Ok F /\ faces F (Y (j_start j0))
    | Some o => exists y, get_yaw_world_trunk o (j_start j0) = Ok y /\ same_angle (Y (j_start j0)) y /\ snd (vel (j_trunk o) (j_start j0)) = Ok (W (j_start j0))
    end.
Proof.
  intros Ec Ef HT HR Hl Hr Ht (W1 & W2 & W3).
  destruct (planned_parts _ _ _ _ _ _ _ _ _ _ _ Ec Ef) as (A1 & _ & A3 & A4 & _ & A6 & Cn & Ca). rewrite A1 in Cn.
  destruct (plan_com_inv _ _ _ _ _ _ _ _ _ Ec) as (pb & ls & qs & te & pb' & parts & _ & _ & _ & Ej1).
  assert (S1 : j_start j1 = j_start j0 /\ j_left j1 = new_spline true /\ j_right j1 = new_spline true /\ j_trunk j1 = new_spline true) by (rewrite Ej1; cbn; auto). destruct S1 as (S1 & S3 & S4 & S5).
  clear Ej1. pose proof (plan_feet_keeps _ _ _ _ Ef) as (_ & _ & _ & _ & _ & _ & _ & Sw).
  set (l := j_parts j) in *. set (dbl := has_double_support (w_base (g_params g))).
  assert (Sup : forall i q, nth_error l i = Some q -> exists s, nth_error supports i = Some s /\ feet_ok s /\ u_footsteps (pt_support q) = u_footsteps s /\ pt_start q < pt_end q).
  { intros i q Hq. destruct (Forall2_nth _ _ _ _ _ Ca Hq) as (s & Hs & C1 & C2 & C3 & C4 & C5 & C6 & C7). destruct (W1 s (nth_error_In _ _ Hs)) as (Hf & ((d & Hd & Hd0) & Htr & He) & _).
    exists s. split; [exact Hs|]. split; [exact Hf|]. split; [exact C1|]. assert (HD : 0 < d * u_time_ratio s) by now apply Rmult_lt_0_compat.
    assert (Dq : lasts (w_base (g_params g)) s ((1 - u_elapsed_ratio s) * d * u_time_ratio s)) by (exists d; auto).
    pose proof (lasts_det _ _ _ _ C7 Dq) as Eq. assert (0 < (1 - u_elapsed_ratio s) * (d * u_time_ratio s)) by (apply Rmult_lt_0_compat; lra). lra. }
  assert (Fk : forall q, In q l -> feet_ok (pt_support q)).
  { intros q Hq. destruct (In_nth_error _ _ Hq) as (i & Hi). destruct (Sup i q Hi) as (s & _ & Hf & E & _). unfold feet_ok in *. now rewrite E. }
  pose proof (same_feet _ _ (same_sym _ _ Sw) Fk) as F1.
  destruct (plan_feet_pts _ _ _ _ Ef F1 S3 S4) as (q0 & _ & Hq0 & _ & _ & Go & _). fold l in Hq0, Go.
  destruct (plan_trunk_pts _ _ _ _ Ef F1 S5) as (q1 & y0 & dy0 & Hq1 & St & Pts). fold l in Pts. rewrite S1 in Pts.
  set (n := length l) in *. set (f := trunk_pt (g_params g) l) in *. set (T := (j_start j0, y0, dy0) :: flat_map f (seq 0 n)) in *.
  (* the points *)
  assert (InT : forall x, In x T <-> x = (j_start j0, y0, dy0) \/ exists i, (i < n)%nat /\ In x (f i)).
  { intros x. unfold T. cbn [In]. rewrite in_flat_map. split; (intros [H|(i & H1 & H2)]; [left; congruence|right; exists i]); [rewrite in_seq in H1|rewrite in_seq]; split; auto; lia. }
  assert (Fi : forall i q, nth_error l i = Some q -> (i < n)%nat) by (intros i q Hq; apply nth_error_Some; congruence).
  assert (Dbl : forall i q s, nth_error l i = Some q -> nth_error supports i = Some s -> both_feet s -> exists F, support_frame s = Ok F /\ f i = [(pt_end q, frame_yaw (fr_R F), 0)]).
  { intros i q s Hq Hs [(fl & I1 & I2) (fr & I3 & I4)]. destruct (Sup i q Hq) as (s' & Hs' & Hf & E & _). assert (s' = s) by congruence. subst s'.
    assert (N : exists f0 f1 r, u_footsteps s = f0 :: f1 :: r).
    { destruct (u_footsteps s) as [|f0 [|f1 r]]; [destruct I1| |eauto]. destruct I1 as [<-|[]], I3 as [<-|[]]. congruence. }
    destruct N as (f0 & f1 & r & N). destruct (support_frame s) as [F|e|] eqn:EF; try (unfold support_frame in EF; rewrite N in EF; discriminate EF).
    exists F. split; [reflexivity|]. unfold f, trunk_pt. rewrite Hq, E, N, (frame_of_support _ _ E), EF. reflexivity. }
  assert (Sgl : forall i q s sd, nth_error l i = Some q -> nth_error supports i = Some s -> ~ stands_on s sd ->
    f i = if dbl then [] else [(pt_end q, yaw_of (goes l i sd), 0)]).
  { intros i q s sd Hq Hs Hn. destruct (Sup i q Hq) as (s' & Hs' & Hf & E & _). assert (s' = s) by congruence. subst s'.
    destruct (stands_or_flies s sd Hf) as [(F & HF)|(h & Eh & Hsd)]; [exfalso; apply Hn, stands_on_at; exists F; now apply stands_at_frame|].
    unfold f, trunk_pt. rewrite Hq, E, Eh, <- Hsd. reflexivity. }
  assert (Two : forall s, feet_ok s -> both_feet s \/ exists sd, ~ stands_on s sd).
  { intros s Hf. destruct (stands_or_flies s Left Hf) as [(F & HF)|(h & Eh & Hsd)].
    - destruct (stands_or_flies s Right Hf) as [(F' & HF')|(h & Eh & Hsd)].
      + left. split; apply stands_on_at; [exists F|exists F']; now apply stands_at_frame.
      + right. exists Right. intros (h' & I1 & I2). rewrite Eh in I1. destruct I1 as [<-|[]]. rewrite I2 in Hsd. discriminate Hsd.
    - right. exists Left. intros (h' & I1 & I2). rewrite Eh in I1. destruct I1 as [<-|[]]. rewrite I2 in Hsd. discriminate Hsd. }
  assert (Tm : forall i x, (i < n)%nat -> In x (f i) -> exists q s, nth_error l i = Some q /\ nth_error supports i = Some s /\ fst (fst x) = pt_end q /\ snd x = 0 /\ (both_feet s \/ dbl = false)).
  { intros i x Hi Hx. destruct (nth_error l i) as [q|] eqn:Hq; [|apply nth_error_None in Hq; unfold n in Hi; lia].
    destruct (Sup i q Hq) as (s & Hs & Hf & _). exists q, s. split; [reflexivity|]. split; [exact Hs|]. destruct (Two s Hf) as [B|(sd & Hn)].
    - destruct (Dbl i q s Hq Hs B) as (F & _ & Ei). rewrite Ei in Hx. destruct Hx as [<-|[]]. cbn. auto.
    - rewrite (Sgl i q s sd Hq Hs Hn) in Hx. destruct dbl; [destruct Hx|]. destruct Hx as [<-|[]]. cbn. auto. }
  assert (Nn : (0 < n)%nat) by exact (Fi _ _ Hq0).
  assert (Le : exists qe, nth_error l (n - 1) = Some qe) by (destruct (nth_error l (n - 1)) as [qe|] eqn:Hqe; [eauto|apply nth_error_None in Hqe; unfold n in *; lia]). destruct Le as (qe & Hqe).
  pose proof (contiguous_last _ _ _ _ Cn Hqe) as Ee.
  assert (Lst : exists z, f (n - 1)%nat = [z] /\ fst (fst z) = j_end j).
  { destruct (Sup _ _ Hqe) as (s & Hs & Hf & E & _). destruct (Two s Hf) as [B|(sd & Hn)].
    - destruct (Dbl _ _ _ Hqe Hs B) as (F & _ & Ei). eexists. split; [exact Ei|exact Ee].
    - exfalso. destruct (Go (n - 1)%nat sd ltac:(lia)) as (F & HF). unfold goes in HF. rewrite Hqe, (frame_of_feet _ _ sd E) in HF.
      destruct (footstep_frame s sd) as [F'|e|] eqn:EF; [apply Hn, stands_on_at; exists F'; now apply stands_at_frame| |];
        (replace (n - 1 + 1)%nat with n in HF by lia; assert (nth_error l n = None) as X by (apply nth_error_None; unfold n; lia); rewrite X in HF; discriminate HF). }
  destruct Lst as (z & Ez & Hz).
  assert (ET : T = ((j_start j0, y0, dy0) :: flat_map f (seq 0 (n - 1))) ++ [z]).
  { unfold T. replace n with (n - 1 + 1)%nat at 1 by lia. rewrite seq_app, flat_map_app. cbn [seq flat_map Nat.add]. rewrite Ez, app_nil_r. reflexivity. }
  assert (L2 : (2 <= length T)%nat) by (rewrite ET, app_length; cbn [length]; lia).
  assert (NzT : nth_error T (length T - 1) = Some z).
  { rewrite ET at 1. rewrite nth_error_app2; rewrite ET, app_length; cbn [length]; [|lia]. match goal with |- nth_error _ ?k = _ => replace k with 0%nat by lia end. reflexivity. }
  destruct (yaw_curve _ _ Pts L2) as (Y & W & Q & CY & CW & Cub & B1 & B2 & Der).
  assert (Vals : forall x, In x T -> same_angle (Y (fst (fst x))) (snd (fst x)) /\ W (fst (fst x)) = snd x).
  { intros x Hx. destruct (In_nth_error _ _ Hx) as (i & Hi). assert (Hli : (i < length T)%nat) by (apply nth_error_Some; congruence).
    destruct i as [|i].
    - destruct (nth_error T 1) as [x'|] eqn:Hx'; [|apply nth_error_None in Hx'; lia]. destruct (Cub 0%nat x x' Hi Hx') as (_ & V1 & _ & _ & A & (k0 & k1 & k2 & k3 & _ & _ & _ & V2 & _)). auto.
    - destruct (nth_error T i) as [x'|] eqn:Hx'; [|apply nth_error_None in Hx'; lia]. destruct (Cub i x' x Hx' Hi) as (_ & _ & V1 & _ & A & (k0 & k1 & k2 & k3 & _ & _ & _ & _ & _ & V2 & _)). auto. }
  assert (Inc : forall i x x', nth_error T i = Some x -> nth_error T (S i) = Some x' -> fst (fst x) < fst (fst x')) by (intros i x x' Hx Hx'; exact (proj1 (Cub i x x' Hx Hx'))).
  assert (StopIn : forall t, trunk_stop dbl supports l (j_start j0) t <-> exists x, In x T /\ fst (fst x) = t).
  { intros t. split.
    - intros [->|(i & s & q & Hs & Hq & -> & K)]; [exists (j_start j0, y0, dy0); split; [apply InT; now left|reflexivity]|].
      destruct (Sup i q Hq) as (s' & Hs' & Hf & _). assert (s' = s) by congruence. subst s'. destruct (Two s Hf) as [B|(sd & Hn)].
      + destruct (Dbl i q s Hq Hs B) as (F & _ & Ei). eexists. split; [apply InT; right; exists i; split; [exact (Fi _ _ Hq)|rewrite Ei; now left]|reflexivity].
      + destruct K as [[B1' B2']|K]; [destruct sd; contradiction|]. pose proof (Sgl i q s sd Hq Hs Hn) as Ei. rewrite K in Ei.
        eexists. split; [apply InT; right; exists i; split; [exact (Fi _ _ Hq)|rewrite Ei; now left]|reflexivity].
    - intros (x & Hx & <-). apply InT in Hx as [->|(i & Hi & Hx)]; [now left|]. right. destruct (Tm i x Hi Hx) as (q & s & Hq & Hs & E1 & _ & K). exists i, s, q. auto. }
  assert (End : forall t, j_start j0 < t < j_end j -> derivable_pt_lim Y t (W t)).
  { apply Der; [exists (j_start j0, y0, dy0); auto|]. exists z. auto. }
  pose proof (Vals (j_start j0, y0, dy0) (proj2 (InT _) (or_introl eq_refl))) as [V0 V0']. cbn [fst snd] in V0, V0'.
  exists Y, W. split.
  - unfold trunk_moves. fold l. split; [|split; [exact CY|split; [exact CW|split; [|split; [|split; [exact End|split]]]]]].
    + intros t. destruct (Q t) as [Q1 Q2]. unfold get_R_world_trunk, get_yaw_world_trunk. rewrite Q1. cbn [obind]. rewrite A6, HT, A3, A4, HR. cbn [frame_id fr_R].
      rewrite yaw_id, Rplus_0_l, rot_x_0, m3_mul_id_r, m3_mul_id_l. auto.
    + intros t Hti. exact (B1 _ (eq_refl : nth_error T 0 = Some _) t Hti).
    + intros t Hti. rewrite <- Hz in Hti |- *. exact (B2 z NzT t Hti).
    + intros i s q F Hs Hq [[B EF]|(Ed & sd & s' & Hn & Hs' & HF)].
      * destruct (Dbl i q s Hq Hs B) as (F' & EF' & Ei). rewrite EF in EF'. injection EF' as <-.
        destruct (Vals (pt_end q, frame_yaw (fr_R F), 0)) as [V1 V2]; [apply InT; right; exists i; split; [exact (Fi _ _ Hq)|rewrite Ei; now left]|]. cbn [fst snd] in *. split; [now apply yaw_faces|exact V2].
      * pose proof (Sgl i q s sd Hq Hs Hn) as Ei. fold dbl in Ed. rewrite Ed in Ei. assert (G : goes l i sd = Ok F).
        { destruct (Sup i q Hq) as (s1 & Hs1 & Hf1 & E1 & _). assert (s1 = s) by congruence. subst s1. unfold goes. rewrite Hq, (frame_of_feet _ _ sd E1).
          destruct (footstep_frame s sd) as [F'|e|] eqn:EF; [exfalso; apply Hn, stands_on_at; exists F'; now apply stands_at_frame| |];
            (replace (i + 1)%nat with (S i) by lia; destruct (nth_error l (S i)) as [q'|] eqn:Hq';
             [destruct (Sup _ _ Hq') as (s2 & Hs2 & Hf2 & E2 & _); assert (s2 = s') by congruence; subst s2; rewrite (frame_of_feet _ _ sd E2); now apply stands_at_frame
             |destruct (Go i sd (Fi _ _ Hq)) as (F0 & HF0); unfold goes in HF0; rewrite Hq, (frame_of_feet _ _ sd E1), EF in HF0; replace (i + 1)%nat with (S i) in HF0 by lia; rewrite Hq' in HF0; discriminate HF0]). }
        rewrite G in Ei. cbn [yaw_of] in Ei.
        destruct (Vals (pt_end q, frame_yaw (fr_R F), 0)) as [V1 V2]; [apply InT; right; exists i; split; [exact (Fi _ _ Hq)|rewrite Ei; now left]|]. cbn [fst snd] in *. split; [now apply yaw_faces|exact V2].
    + intros a' b' Ha Hb Hab Nb. fold dbl in Ha, Hb, Nb. apply StopIn in Ha as (x & Hx & <-). apply StopIn in Hb as (x' & Hx' & <-).
      destruct (In_nth_error _ _ Hx) as (i & Hi). destruct (In_nth_error _ _ Hx') as (i' & Hi').
      assert (i' = S i).
      { destruct (lt_eq_lt_dec i' (S i)) as [[Lt|E]|Gt]; [|exact E|].
        - exfalso. destruct (Nat.eq_dec i' i) as [->|Ne]; [rewrite Hi in Hi'; injection Hi' as <-; lra|]. pose proof (increasing T Inc (i - i' - 1) i' x' x Hi') as K.
          replace (i' + S (i - i' - 1))%nat with i in K by lia. specialize (K Hi). lra.
        - exfalso. assert (Li : (i' < length T)%nat) by (apply nth_error_Some; congruence). destruct (nth_error T (S i)) as [c|] eqn:Hc; [|apply nth_error_None in Hc; lia].
          apply (Nb (fst (fst c))); [apply StopIn; exists c; split; [exact (nth_error_In _ _ Hc)|reflexivity]|]. split; [exact (Inc i x c Hi Hc)|].
          pose proof (increasing T Inc (i' - S i - 1) (S i) c x' Hc) as K. replace (S i + S (i' - S i - 1))%nat with i' in K by lia. exact (K Hi'). }
      subst i'. destruct (Cub i x x' Hi Hi') as (Lt & _ & _ & Pi & A & K). destruct (Vals x Hx) as [_ Wx]. rewrite Wx.
      assert (Rx : snd x' = 0).
      { assert (I : In x' (flat_map f (seq 0 n))) by (unfold T in Hi'; cbn [nth_error] in Hi'; exact (nth_error_In _ _ Hi')). apply in_flat_map in I as (m & I1 & I2). rewrite in_seq in I1.
        destruct (Tm m x' ltac:(lia) I2) as (q & s & _ & _ & _ & R0 & _). exact R0. }
      rewrite Rx in K. apply (cubic_turn _ _ _ _ _ _ _ _ Lt K CY Pi). intros t Ht'.
      assert (Bl : j_start j0 <= fst (fst x)).
      { destruct i as [|i]; [cbn in Hi; injection Hi as <-; cbn; lra|]. pose proof (increasing T Inc i 0%nat (j_start j0, y0, dy0) x eq_refl) as K'. cbn [Nat.add] in K'. specialize (K' Hi). cbn in K'. lra. }
      assert (Bh : fst (fst x') <= j_end j).
      { rewrite <- Hz. assert (Li : (S i < length T)%nat) by (apply nth_error_Some; congruence). destruct (Nat.eq_dec (S i) (length T - 1)) as [E|Ne]; [rewrite E, NzT in Hi'; injection Hi' as <-; lra|].
        pose proof (increasing T Inc (length T - 1 - S i - 1) (S i) x' z Hi') as K'. replace (S i + S (length T - 1 - S i - 1))%nat with (length T - 1)%nat in K' by lia. specialize (K' NzT). lra. }
      apply End. lra.
  - rewrite V0'. destruct old as [o|]; cbn [trunk_start] in St.
    + rewrite S1 in St. destruct St as [St1 St2]. exists y0. auto.
    + destruct St as (F & EF & -> & ->). split; [reflexivity|]. destruct (Sup 0%nat q0 Hq0) as (s & Hs & _ & E & _). exists s, F. split; [exact Hs|].
      destruct (Forall2_nth_l _ _ _ _ _ Sw Hq1) as (q2 & Hq2 & (_ & _ & Es & _)). fold l in Hq2. rewrite Hq0 in Hq2. injection Hq2 as <-.
      split; [rewrite <- (frame_of_support _ _ E), Es; exact EF|now apply yaw_faces].
Qed.

(** ** C179 *)

(** In a planned walk the orientation of the trunk is a continuous function of time: the heading that is read, a lean by the pitch of the parameters, and no roll. The walk
    starts at rest along the frame of its first support; the trunk stops at the end of the supports on both feet, along the frame of the support (and, when
    the gait has no double supports, at the end of each step, along the foot that lands). Between two stops it turns in one direction, by half a turn at most. *)
Theorem C179_planned L g supports com t0 j ss : feet_walk (w_base (g_params g)) supports -> plan L g supports com t0 = Ok (j, ss) ->
  exists Y W, trunk_moves (has_double_support (w_base (g_params g))) supports j t0 (w_trunk_pitch (g_params g)) Y W /\ W t0 = 0 /\
    exists s F, nth_error supports 0 = Some s /\ support_frame s = Ok F /\ faces F (Y t0).
Proof.
  intros Hw E. destruct (plan_inv _ _ _ _ _ _ _ E) as (_ & j1 & Ec & Ef).
  destruct (trunk_motion _ _ _ _ _ _ _ _ _ _ _ Ec Ef eq_refl eq_refl eq_refl eq_refl eq_refl Hw) as (Y & W & M & St). exists Y, W. split; [exact M|]. exact St.
Qed.
Print Assumptions C179_planned.

(** When a walk is replanned, the trunk goes on from the heading (up to whole turns) and the rate it has in the old walk. *)
Theorem C179_replanned L g supports old t0 j ss : feet_walk (w_base (g_params g)) supports -> replan L g supports old t0 = Ok (j, ss) -> j_success j = true ->
  exists Y W, trunk_moves (has_double_support (w_base (g_params g))) supports j t0 (w_trunk_pitch (g_params g)) Y W /\
    exists y, get_yaw_world_trunk old t0 = Ok y /\ same_angle (Y t0) y /\ snd (vel (j_trunk old) t0) = Ok (W t0).
Proof.
  intros Hw E Hs. destruct (replan_inv _ _ _ _ _ _ _ E) as (_ & p & v & ac & _ & _ & _ & b & j1 & Ec & Ef). destruct b.
  2: { unfold trim_old_trajectory in Ef. bind Ef parts Ep. injection Ef as <-. discriminate Hs. }
  destruct (trunk_motion _ _ _ _ _ _ _ _ _ _ _ Ec Ef eq_refl eq_refl eq_refl eq_refl eq_refl Hw) as (Y & W & M & St). exists Y, W. split; [exact M|]. exact St.
Qed.
Print Assumptions C179_replanned.

(** When the feet are parallel, the trunk is along the feet at the end of the support. *)
Lemma comb_same q t : quat_comb (1 - t) q (1 * t) q = q.
Proof. destruct q as [w x y z]. unfold quat_comb. cbn. f_equal; ring. Qed.
Lemma parallel_frame a b t : rotation (fr_R a) -> fr_R b = fr_R a -> fr_R (interpolate_frames a b t) = fr_R a.
Proof.
  intros Ra E. unfold interpolate_frames. cbn [fr_R]. rewrite E. set (q := quat_of (fr_R a)). pose proof (quat_of_unit _ Ra) as U. fold q in U. unfold unit_quat in U.
  assert (N : 1 - slerp_epsilon <= Rabs (quat_dot q q)) by (rewrite U, Rabs_R1; pose proof slerp_epsilon_range; lra). rewrite (slerp_near q t q N), U. unfold hemi. destruct (Rlt_dec 1 0); [lra|].
  rewrite comb_same. now apply quat_matrix_of.
Qed.
Lemma faces_turned F y a : fr_R F = rot_z a -> faces F y -> rot_z y = rot_z a.
Proof.
  intros E (k & K & A & B). rewrite E in A, B. unfold rot_z in A, B. cbn [m00 m10] in A, B.
  pose proof (sin2_cos2 a) as S1. pose proof (sin2_cos2 y) as S2. unfold Rsqr in *. rewrite A, B in S1.
  assert (k = 1) as -> by nra. rewrite !Rmult_1_l in *. unfold rot_z. now rewrite A, B.
Qed.
Theorem C179_parallel L g supports com t0 j ss i s q a : feet_walk (w_base (g_params g)) supports -> plan L g supports com t0 = Ok (j, ss) ->
  nth_error supports i = Some s -> nth_error (j_parts j) i = Some q -> both_feet s -> (forall f, In f (u_footsteps s) -> fr_R (f_frame f) = rot_z a) ->
  get_R_world_trunk j (pt_end q) = Ok (m3_mul (rot_z a) (rot_y (w_trunk_pitch (g_params g)))) /\
  (i = 0%nat -> get_R_world_trunk j t0 = Ok (m3_mul (rot_z a) (rot_y (w_trunk_pitch (g_params g))))).
Proof.
  intros Hw E Hs Hq B P. destruct (C179_planned _ _ _ _ _ _ _ Hw E) as (Y & W & (M1 & _ & _ & _ & _ & _ & M7 & _) & _ & s0 & F0 & Hs0 & EF0 & Fc).
  assert (K : exists F, support_frame s = Ok F /\ fr_R F = rot_z a).
  { destruct Hw as (W1 & _). destruct (W1 s (nth_error_In _ _ Hs)) as (Hf & _). unfold support_frame. destruct Hf as [(f & Ef)|(f & h & Ef & _)]; rewrite Ef in *; cbn [frame_loop].
    - eexists. split; [reflexivity|]. apply P. now left.
    - eexists. split; [reflexivity|]. rewrite <- (P f (or_introl eq_refl)). apply parallel_frame.
      + rewrite (P f (or_introl eq_refl)). apply rotation_z.
      + rewrite (P f (or_introl eq_refl)). apply P. right. now left. }
  destruct K as (F & EF & RF). split.
  - destruct (M7 i s q F Hs Hq) as [X _]; [left; auto|]. destruct (M1 (pt_end q)) as [-> _]. now rewrite (faces_turned F _ a RF X).
  - intros ->. rewrite Hs in Hs0. injection Hs0 as <-. rewrite EF in EF0. injection EF0 as <-. destruct (M1 t0) as [-> _]. now rewrite (faces_turned F _ a RF Fc).
Qed.
Print Assumptions C179_parallel.

(** The walk on the spot of C151: at its start and at the end of its first support the trunk is along the feet. *)
Example C179_example com t : exists j ss q, plan ex_libs (new_wpg (ex_wparams (1/50))) ex_steps com t = Ok (j, ss) /\ nth_error (j_parts j) 0 = Some q /\
  get_R_world_trunk j t = Ok (m3_mul (rot_z 0) (rot_y 0)) /\ get_R_world_trunk j (pt_end q) = Ok (m3_mul (rot_z 0) (rot_y 0)).
Proof.
  destruct (C151_example com t) as ((j & ss & E) & _). destruct (ex_parts ex_libs (new_wpg (ex_wparams (1/50))) com t j ss eq_refl E) as (Ln & _ & _).
  destruct (nth_error (j_parts j) 0) as [q|] eqn:Hq; [|apply nth_error_None in Hq; lia]. exists j, ss, q. split; [exact E|]. split; [exact Hq|].
  destruct (C179_parallel ex_libs (new_wpg (ex_wparams (1/50))) ex_steps com t j ss 0 (set_start (new_support [ex_left; ex_right]) true) q 0 ex_feet_walk E eq_refl Hq) as [A B].
  - split; [exists ex_left|exists ex_right]; cbn; auto.
  - assert (Z : rot_z 0 = m3_id) by (unfold rot_z, m3_id; rewrite cos_0, sin_0; f_equal; ring). intros f [<-|[<-|[]]]; rewrite Z; reflexivity.
  - split; [exact (B eq_refl)|exact A].
Qed.
