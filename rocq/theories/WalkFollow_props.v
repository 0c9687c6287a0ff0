(** C180: the tasks of the walk on a planned walk. *)
From Coq Require Import Reals Lra Lia List ZArith Bool.
From Verif Require Import Base Linalg Angle Geom3 Tools_model Tools_spec Expression_model Expression_spec Problem_model Problem_spec
  Polynom_model Polynom_spec Integrator_model Integrator_spec Lipm_model Lipm_spec Lipm_proofs Lipm_props
  Spline_model Swing_model Swing_spec Geometry_model Geometry_spec Geometry_proofs Geometry_props Footsteps_model
  Wpg_model Wpg_spec Wpg_proofs Wpg_proofs2 Wpg_proofs3 Wpg_proofs4 Wpg_proofs5 Wpg_props
  WpgPlan_spec WpgPlan_props WpgFeet_spec WpgFeet_proofs4 WpgFeet_props WpgTrunk_spec WpgTrunk_props
  Ownership_model Ownership_spec Ownership_proofs WalkTasks_model WalkTasks_spec WalkTasks_proofs WalkTasks_props WalkFollow_model WalkFollow_spec.
Import ListNotations.
Open Scope R_scope.

(** An update does not change the settings of the user. *)
Lemma write_target_settings w r p w' : write_target w r p = Ok w' -> same_settings w w'.
Proof. unfold write_target. destruct (wt_ptr w r); [|discriminate]. unfold guard. destruct (h_alive _ _); [|discriminate]. intros E. injection E as <-. repeat split. Qed.
Lemma write_rot_settings w r m w' : write_rot w r m = Ok w' -> same_settings w w'.
Proof. unfold write_rot. destruct (wt_ptr w r); [|discriminate]. unfold guard. destruct (h_alive _ _); [|discriminate]. intros E. injection E as <-. repeat split. Qed.
Lemma remove_settings w r w' : remove_if_set w r = Ok w' -> same_settings w w'.
Proof.
  unfold remove_if_set. destruct (wt_ptr w r) eqn:E; [|intros H; injection H as <-; repeat split]. unfold remove_walk_task. rewrite E. intros H. bind H s Es. injection H as <-. repeat split.
Qed.
Lemma same_trans a b c : same_settings a b -> same_settings b c -> same_settings a c.
Proof. unfold same_settings. intuition congruence. Qed.
Lemma update_settings w po left right com trunk w' : update_tasks w po left right com trunk = Ok w' -> same_settings w w'.
Proof.
  unfold update_tasks. intros E. bind E w1 E1. bind E w2 E2. bind E w3 E3. bind E w4 E4. bind E w5 E5. bind E w6 E6.
  apply (same_trans _ w1); [|apply (same_trans _ w2); [now apply write_target_settings in E2|apply (same_trans _ w3); [now apply write_target_settings in E3|apply (same_trans _ w4);
    [now apply write_rot_settings in E4|apply (same_trans _ w5); [now apply write_target_settings in E5|apply (same_trans _ w6); [now apply write_rot_settings in E6|now apply write_rot_settings in E]]]]]].
  unfold update_com_task, guard in E1. destruct (wt_on w); [|discriminate]. destruct (wt_mode w); bind E1 w0 E0; injection E1 as <-; apply remove_settings in E0; apply (same_trans _ w0); auto;
    [destruct (wt_ptr w0 TrunkPosition)|destruct (wt_ptr w0 CoM)]; repeat split.
Qed.

(** An update leaves the object ready for the next one. *)
Lemma updated w po left right com trunk : walk_reachable w -> wt_on w = true -> exists w', update_tasks w po left right com trunk = Ok w' /\
  walk_reachable w' /\ wt_on w' = true /\ same_settings w w' /\ asked w' (po_trunk po) (wt_com_x w) (wt_com_y w) left right com trunk.
Proof.
  intros Rw O. destruct (C121_targets w po left right com trunk Rw O) as (w' & E & A1 & A2 & A3 & A4 & A5 & A6 & A7). exists w'. split; [exact E|].
  assert (Rw' : walk_reachable w') by exact (wr_call w (WUpdate po left right com trunk) w' Rw O E). split; [exact Rw'|].
  pose proof (reachable_wgood w Rw) as G. unfold wgood in G. rewrite O in G. destruct G as (m & G).
  destruct (winv_update (roles m) w po left right com trunk G O) as (w1 & E1 & K & O' & M & _).
  { intros [| | | | | |]; cbn; auto; discriminate. } { destruct m; auto. }
  rewrite E in E1. injection E1 as <-. split; [exact O'|]. split; [exact (update_settings _ _ _ _ _ _ _ E)|]. unfold asked. rewrite M. auto 10.
Qed.

Lemma followed L w delay po j t left right com trunk : walk_reachable w -> wt_on w = true ->
  get_T_world_foot j Left t = Ok left -> get_T_world_foot j Right t = Ok right -> get_p_world_CoM L j (t + delay) = Ok com -> get_R_world_trunk j t = Ok trunk ->
  exists w', follow L w delay po j t = Ok w' /\ walk_reachable w' /\ wt_on w' = true /\ same_settings w w' /\ asked w' (po_trunk po) (wt_com_x w) (wt_com_y w) left right com trunk.
Proof.
  intros Rw O E1 E2 E3 E4. unfold follow. rewrite E1, E2, E3, E4. cbn [obind]. now apply updated.
Qed.

Lemma time_positive p s d : time_ok p s -> lasts p s d -> 0 < d.
Proof.
  intros ((d0 & D0 & P0) & Tr & El) H. assert (D : lasts p s ((1 - u_elapsed_ratio s) * d0 * u_time_ratio s)) by (exists d0; auto).
  rewrite (lasts_det _ _ _ _ H D). repeat apply Rmult_lt_0_compat; lra.
Qed.

Lemma com_continuous (X Y : nat -> R -> R) h t0 t1 : motion 3 X t0 t1 -> motion 3 Y t0 t1 -> continuous3 (fun t => V3 (X 0%nat t) (Y 0%nat t) h).
Proof. intros (CX & _) (CY & _). split; [|split]; cbn; [apply CX; lia|apply CY; lia|apply continuity_const; intros a b; reflexivity]. Qed.

Lemma walk_reads L g supports j t0 : exp_correct (l_mexp L) -> g_omega_2 g <> 0 -> feet_walk (w_base (g_params g)) supports -> walked L g supports t0 j ->
  exists m, sound_motion supports (j_parts j) m /\ reads L j (w_trunk_pitch (g_params g)) m.
Proof.
  intros He Ho Hw H. assert (Hp : forall s d, In s supports -> lasts (w_base (g_params g)) s d -> 0 < d).
  { intros s d Hs. destruct Hw as (W1 & _). destruct (W1 s Hs) as (_ & Tk & _). exact (time_positive _ _ _ Tk). }
  assert (K : exists X Y PL YL PR YR Z, motion 3 X t0 (j_end j) /\ motion 3 Y t0 (j_end j) /\
    (forall t, get_p_world_CoM L j t = Ok (V3 (X 0%nat t) (Y 0%nat t) (w_com_height (g_params g)))) /\
    (forall t, get_T_world_foot j Left t = Ok (Frame (rot_z (YL t)) (PL t))) /\ continuous3 PL /\ continuity YL /\
    (forall t, get_T_world_foot j Right t = Ok (Frame (rot_z (YR t)) (PR t))) /\ continuous3 PR /\ continuity YR /\
    (forall t, get_R_world_trunk j t = Ok (m3_mul (rot_z (Z t)) (rot_y (w_trunk_pitch (g_params g)))) /\ get_yaw_world_trunk j t = Ok (Z t)) /\ continuity Z /\
    forall i s q sd F t, nth_error supports i = Some s -> nth_error (j_parts j) i = Some q -> stands_at s sd F -> pt_start q <= t <= pt_end q -> get_T_world_foot j sd t = Ok F).
  { destruct H as (ss & [(c & E)|(old & E & Hs)]).
    - destruct (C105_plan L g supports c t0 j ss He Ho Hp E) as (_ & X & Y & MX & MY & V & _).
      destruct (C152_feet L g supports c t0 j ss Left Hw E) as (PL & YL & WL & (M1 & M2 & M3 & _) & FL).
      destruct (C152_feet L g supports c t0 j ss Right Hw E) as (PR & YR & WR & (N1 & N2 & N3 & _) & FR).
      destruct (C179_planned L g supports c t0 j ss Hw E) as (Z & WZ & (T1 & T2 & _) & _).
      exists X, Y, PL, YL, PR, YR, Z. split; [exact MX|]. split; [exact MY|]. split; [intros t; apply V|]. do 6 (split; [assumption|]). split; [intros t; destruct (T1 t) as (A & B & _); auto|]. split; [exact T2|].
      intros i s q sd F t Is Iq SF Ht. destruct sd; [destruct (FL i s q Is Iq) as [St _]|destruct (FR i s q Is Iq) as [St _]]; now apply St.
    - destruct (C105_replan L g supports old t0 j ss He Ho Hp E Hs) as (_ & X & Y & MX & MY & V & _).
      assert (Tn : exists Z, (forall t, get_R_world_trunk j t = Ok (m3_mul (rot_z (Z t)) (rot_y (w_trunk_pitch (g_params g)))) /\ get_yaw_world_trunk j t = Ok (Z t)) /\ continuity Z).
      { destruct (C179_replanned L g supports old t0 j ss Hw E Hs) as (Z & WZ & (T1 & T2 & _) & _). exists Z. split; [intros t; destruct (T1 t) as (A & B & _); auto|exact T2]. }
      destruct Tn as (Z & T1 & T2).
      destruct (replan_inv _ _ _ _ _ _ _ E) as (_ & p & v & ac & _ & _ & _ & b & j1 & Ec & Ef). destruct b.
      2: { unfold trim_old_trajectory in Ef. bind Ef parts Ep. injection Ef as <-. discriminate Hs. }
      destruct (walk_motion _ _ _ _ _ _ _ _ _ _ _ Left Ec Ef eq_refl eq_refl eq_refl Hw) as (PL & YL & WL & (M1 & M2 & M3 & _) & FL).
      destruct (walk_motion _ _ _ _ _ _ _ _ _ _ _ Right Ec Ef eq_refl eq_refl eq_refl Hw) as (PR & YR & WR & (N1 & N2 & N3 & _) & FR).
      exists X, Y, PL, YL, PR, YR, Z. split; [exact MX|]. split; [exact MY|]. split; [intros t; apply V|]. do 6 (split; [assumption|]). split; [exact T1|]. split; [exact T2|].
      intros i s q sd F t Is Iq SF Ht. destruct sd; [destruct (FL i s q Is Iq) as (_ & St & _)|destruct (FR i s q Is Iq) as (_ & St & _)]; destruct (St F SF t Ht) as [E1 E2]; rewrite ?M1, ?N1, E1, E2; now destruct F. }
  destruct K as (X & Y & PL & YL & PR & YR & Z & MX & MY & VC & L1 & L2 & L3 & R1 & R2 & R3 & T1 & T2 & St).
  exists (Motion (fun sd t => match sd with Left => Frame (rot_z (YL t)) (PL t) | Right => Frame (rot_z (YR t)) (PR t) end) (fun t => V3 (X 0%nat t) (Y 0%nat t) (w_com_height (g_params g))) Z).
  split.
  - unfold sound_motion. cbn [mo_foot mo_com mo_heading]. split; [intros []; cbn [fr_t fr_R]; split; eauto|]. split; [exact (com_continuous _ _ _ _ _ MX MY)|]. split; [exact T2|].
    intros i s q sd F t Is Iq SF Ht. pose proof (St i s q sd F t Is Iq SF Ht) as E. destruct sd; [rewrite L1 in E|rewrite R1 in E]; now injection E as <-.
  - intros t. cbn [mo_foot mo_com mo_heading]. split; [intros []; auto|]. split; [apply VC|]. apply T1.
Qed.

(** ** C180 *)

(** On a walk that was planned or replanned, in any state and at any time, following the walk is defined and leaves exactly the motion of the walk as targets: the feet and the
    trunk at that time, the CoM com_delay later (shifted as the user asked). The motion is continuous, and the target of a foot is its
    footstep as long as this foot is on the ground. *)
Theorem C180_followed L g supports j t0 : exp_correct (l_mexp L) -> g_omega_2 g <> 0 -> feet_walk (w_base (g_params g)) supports -> walked L g supports t0 j ->
  exists m, sound_motion supports (j_parts j) m /\
    forall w delay po t, walk_reachable w -> wt_on w = true -> exists w', follow L w delay po j t = Ok w' /\ walk_reachable w' /\ wt_on w' = true /\ same_settings w w' /\
      asked w' (po_trunk po) (wt_com_x w) (wt_com_y w) (mo_foot m Left t) (mo_foot m Right t) (mo_com m (t + delay)) (m3_mul (rot_z (mo_heading m t)) (rot_y (w_trunk_pitch (g_params g)))).
Proof.
  intros He Ho Hw H. destruct (walk_reads L g supports j t0 He Ho Hw H) as (m & Sm & Rd). exists m. split; [exact Sm|]. intros w delay po t Rw O.
  destruct (Rd t) as (Rf & _ & Rt & _). destruct (Rd (t + delay)) as (_ & Rc & _). apply followed; auto.
Qed.
Print Assumptions C180_followed.

(** The loop of a user: any number of updates, in any order of times, and the targets are those of the last one. *)
Theorem C180_ticks L g supports j t0 : exp_correct (l_mexp L) -> g_omega_2 g <> 0 -> feet_walk (w_base (g_params g)) supports -> walked L g supports t0 j ->
  exists m, sound_motion supports (j_parts j) m /\
    forall l w delay po t, walk_reachable w -> wt_on w = true -> exists w', follow_all L w delay j (l ++ [(po, t)]) = Ok w' /\ walk_reachable w' /\ wt_on w' = true /\ same_settings w w' /\
      asked w' (po_trunk po) (wt_com_x w) (wt_com_y w) (mo_foot m Left t) (mo_foot m Right t) (mo_com m (t + delay)) (m3_mul (rot_z (mo_heading m t)) (rot_y (w_trunk_pitch (g_params g)))).
Proof.
  intros He Ho Hw H. destruct (C180_followed L g supports j t0 He Ho Hw H) as (m & Sm & K). exists m. split; [exact Sm|].
  induction l as [|[po0 t1] l IH]; intros w delay po t Rw O; cbn [app follow_all].
  - destruct (K w delay po t Rw O) as (w' & E & Rw' & O' & Se & A). rewrite E. cbn [obind]. exists w'. auto.
  - destruct (K w delay po0 t1 Rw O) as (w1 & E & Rw' & O' & Se & _). rewrite E. cbn [obind]. destruct (IH w1 delay po t Rw' O') as (w' & E' & Rw2 & O2 & Se2 & A). exists w'.
    split; [exact E'|]. split; [exact Rw2|]. split; [exact O2|]. split; [exact (same_trans _ _ _ Se Se2)|]. destruct Se as (_ & <- & <-). exact A.
Qed.
Print Assumptions C180_ticks.

(** When a walk is replaced by a replanned one, at the time of the replanning, no target jumps (without com_delay): both walks ask for the same. The first
    support of the new walk has to stand where the old walk is. *)
Theorem C180_switch L g supports0 old t00 supports j ss t0 w po : exp_correct (l_mexp L) -> g_omega_2 g <> 0 ->
  feet_walk (w_base (g_params g)) supports0 -> walked L g supports0 t00 old -> feet_walk (w_base (g_params g)) supports ->
  replan L g supports old t0 = Ok (j, ss) -> j_success j = true ->
  (forall s sd F, nth_error supports 0 = Some s -> stands_at s sd F -> get_T_world_foot old sd t0 = Ok F) ->
  follow L w 0 po j t0 = follow L w 0 po old t0.
Proof.
  intros He Ho Hw0 H0 Hw E Hs Std. destruct (walk_reads L g supports0 old t00 He Ho Hw0 H0) as (m0 & _ & Rd0).
  assert (Hp : forall s d, In s supports -> lasts (w_base (g_params g)) s d -> 0 < d).
  { intros s d Is. destruct Hw as (W1 & _). destruct (W1 s Is) as (_ & Tk & _). exact (time_positive _ _ _ Tk). }
  assert (HC : get_p_world_CoM L j t0 = get_p_world_CoM L old t0).
  { destruct (C105_replan L g supports old t0 j ss He Ho Hp E Hs) as (_ & X & Y & _ & _ & V & p & v & ac & Ep & _ & _ & X0 & Y0 & _). destruct (V t0) as (-> & _). rewrite Ep, X0, Y0.
    assert (Hh : vz p = w_com_height (g_params g)).
    { destruct H0 as (ss0 & [(c & E0)|(o & E0 & S0)]).
      - destruct (C105_plan L g supports0 c t00 old ss0 He Ho) with (2 := E0) as (_ & X1 & Y1 & _ & _ & V1 & _).
        { intros s d Is. destruct Hw0 as (W1 & _). destruct (W1 s Is) as (_ & Tk & _). exact (time_positive _ _ _ Tk). }
        destruct (V1 t0) as (V2 & _). rewrite Ep in V2. injection V2 as ->. reflexivity.
      - destruct (C105_replan L g supports0 o t00 old ss0 He Ho) with (2 := E0) as (_ & X1 & Y1 & _ & _ & V1 & _); [|exact S0|].
        { intros s d Is. destruct Hw0 as (W1 & _). destruct (W1 s Is) as (_ & Tk & _). exact (time_positive _ _ _ Tk). }
        destruct (V1 t0) as (V2 & _). rewrite Ep in V2. injection V2 as ->. reflexivity. }
    rewrite <- Hh. now destruct p. }
  assert (HTk : get_R_world_trunk j t0 = get_R_world_trunk old t0).
  { destruct (C179_replanned L g supports old t0 j ss Hw E Hs) as (Z & WZ & (T1 & _) & y & Ey & Sa & _). destruct (T1 t0) as (-> & _). destruct (Rd0 t0) as (_ & _ & -> & Ry).
    rewrite Ey in Ry. injection Ry as ->. now rewrite (same_angle_rot _ _ Sa). }
  assert (HF : forall sd, get_T_world_foot j sd t0 = get_T_world_foot old sd t0).
  { intros sd. destruct (replan_inv _ _ _ _ _ _ _ E) as (_ & p & v & ac & _ & _ & _ & b & j1 & Ec & Ef). destruct b.
    2: { unfold trim_old_trajectory in Ef. bind Ef parts Ep. injection Ef as <-. discriminate Hs. }
    destruct (planned_parts _ _ _ _ _ _ _ _ _ _ _ Ec Ef) as (A1 & _ & _ & _ & _ & _ & Cn & Ca). cbn [new_wtraj j_start] in A1. rewrite A1 in Cn.
    destruct (C55_replan L g supports old t0 j ss E Hs) as (_ & Cn' & _).
    assert (Np : exists s q, nth_error supports 0 = Some s /\ nth_error (j_parts j) 0 = Some q /\ pt_start q = t0 /\ pt_start q < pt_end q).
    { destruct (j_parts j) as [|q r] eqn:Ej; inversion Ca as [|s q' sr qr Hc Hr]; subst.
      - unfold replan in E. discriminate E.
      - exists s, q. split; [reflexivity|]. split; [reflexivity|]. destruct Cn as [C1 _]. split; [exact C1|]. destruct Hc as (_ & _ & _ & _ & _ & _ & Ld). assert (0 < pt_end q - pt_start q) by (apply (Hp s); [now left|exact Ld]). lra. }
    destruct Np as (s & q & Is & Iq & S0 & Lt).
    destruct (walk_motion _ _ _ _ _ _ _ _ _ _ _ sd Ec Ef eq_refl eq_refl eq_refl Hw) as (P & Y & W & (Ev & _) & K). destruct (K 0%nat s q Is Iq) as (_ & St & Fl).
    destruct Hw as (W1 & _). destruct (W1 s (nth_error_In _ _ Is)) as (Hf & _ & Ut). destruct (stands_or_flies s sd Hf) as [(F & HF)|(h & Eh & Hsd)].
    - apply stands_at_frame in HF; [|exact Hf]. rewrite (Std s sd F Is HF). destruct (St F HF t0 ltac:(lra)) as [E1 E2]. rewrite Ev, E1, E2. now destruct F.
    - assert (Hn : ~ stands_on s sd). { intros (f & I1 & I2). rewrite Eh in I1. destruct I1 as [<-|[]]. rewrite I2 in Hsd. destruct sd; discriminate Hsd. }
      destruct (Fl Hn) as (s' & Te & x & w0 & y & dy & d & V & _ & _ & _ & (P0 & _) & _ & Ya & _ & _ & o & F & Eo & E1 & Ex & _ & Ey & _). injection Eo as <-. cbn [new_wtraj j_start] in *.
      rewrite Ev, E1. rewrite S0 in *. rewrite P0, Ex. f_equal. destruct (Rd0 t0) as (Rf & _). rewrite Rf in E1. injection E1 as <-.
      unfold get_yaw_world_foot in Ey. bind Ey yw Eyw. injection Ey as <-. pose proof (Rf sd) as G. unfold get_T_world_foot in G. bind G qq Eq1. bind G fl Efl. bind G pp Epp. rewrite Eyw in G. cbn [obind] in G.
      injection G as G. rewrite <- G at 2. unfold frame_mul, build_frame. cbn [fr_R fr_t]. rewrite (same_angle_rot _ _ Ya).
      assert (HT : j_T old = frame_id).
      { destruct H0 as (ss0 & [(c & E0)|(o & E0 & S0')]).
        - destruct (plan_inv _ _ _ _ _ _ _ E0) as (_ & k1 & Kc & Kf). destruct (planned_parts _ _ _ _ _ _ _ _ _ _ _ Kc Kf) as (_ & _ & _ & _ & _ & B & _). exact B.
        - destruct (replan_inv _ _ _ _ _ _ _ E0) as (_ & p1 & v1 & ac1 & _ & _ & _ & b1 & k1 & Kc & Kf). destruct b1.
          2: { unfold trim_old_trajectory in Kf. bind Kf parts Ep. injection Kf as <-. discriminate S0'. }
          destruct (planned_parts _ _ _ _ _ _ _ _ _ _ _ Kc Kf) as (_ & _ & _ & _ & _ & B & _). exact B. }
      rewrite HT in *. cbn [frame_id fr_R] in *. rewrite yaw_id, Rplus_0_l. rewrite m3_mul_id_l. rewrite <- G. reflexivity. }
  unfold follow. rewrite !HF, Rplus_0_r, HC, HTk. reflexivity.
Qed.
Print Assumptions C180_switch.

(** The DCM controller does nothing while the measured DCM is the planned one: the targets are those of the walk, and its memory stays empty. *)
Theorem C180_on_track L w g delay po j t dcm omega elapsed : pd_integral g = (0, 0) -> pd_last g = (0, 0) -> elapsed <> 0 ->
  get_p_world_DCM L j (t + delay) omega = Ok dcm ->
  follow_pid L w g delay po j t dcm omega elapsed = (g, follow L w delay po j t).
Proof.
  intros Hi Hl He Hd. unfold follow_pid. rewrite Hd. unfold pid_step. rewrite Hi, Hl. cbn [fst snd].
  replace (fst dcm - fst dcm) with 0 by ring. replace (snd dcm - snd dcm) with 0 by ring. rewrite !Rmult_0_r, !Rmult_0_l, !Rplus_0_r.
  replace ((0 - 0) / elapsed) with 0 by (field; exact He). rewrite !Rmult_0_r, !Rplus_0_r. f_equal; [destruct g; cbn in *; congruence|].
  unfold follow. destruct (get_T_world_foot j Left t); [|reflexivity|reflexivity]. cbn [obind]. destruct (get_T_world_foot j Right t); [|reflexivity|reflexivity]. cbn [obind].
  destruct (get_p_world_CoM L j (t + delay)) as [com| |]; [|reflexivity|reflexivity]. cbn [obind]. destruct (get_R_world_trunk j t); [|reflexivity|reflexivity]. cbn [obind].
  f_equal. destruct com. unfold v3_add. cbn. now rewrite !Rplus_0_r.
Qed.
Print Assumptions C180_on_track.

(** Away from the plan, the CoM is asked on the side on which the measured DCM is: it is shifted by the law of the controller applied to the measured DCM
    minus the planned one; everything else is asked as without the controller. The error is remembered for the next call. *)
Theorem C180_correction L g supports j t0 : exp_correct (l_mexp L) -> g_omega_2 g <> 0 -> feet_walk (w_base (g_params g)) supports -> walked L g supports t0 j ->
  exists m, sound_motion supports (j_parts j) m /\
    forall w c delay po t mx my dx dy omega elapsed, walk_reachable w -> wt_on w = true -> elapsed <> 0 -> get_p_world_DCM L j (t + delay) omega = Ok (dx, dy) ->
      exists c' w', follow_pid L w c delay po j t (mx, my) omega elapsed = (c', Ok w') /\ walk_reachable w' /\ wt_on w' = true /\ same_settings w w' /\
        asked w' (po_trunk po) (wt_com_x w) (wt_com_y w) (mo_foot m Left t) (mo_foot m Right t)
          (V3 (vx (mo_com m (t + delay)) + pid_law c (mx - dx) (fst (pd_last c)) (fst (pd_integral c)) elapsed)
              (vy (mo_com m (t + delay)) + pid_law c (my - dy) (snd (pd_last c)) (snd (pd_integral c)) elapsed)
              (vz (mo_com m (t + delay))))
          (m3_mul (rot_z (mo_heading m t)) (rot_y (w_trunk_pitch (g_params g)))) /\
        pd_last c' = (mx - dx, my - dy) /\
        pd_integral c' = ((1 - pd_lambda c) * fst (pd_integral c) + elapsed * (mx - dx), (1 - pd_lambda c) * snd (pd_integral c) + elapsed * (my - dy)) /\
        (pd_p c', pd_i c', pd_d c', pd_lambda c') = (pd_p c, pd_i c, pd_d c, pd_lambda c).
Proof.
  intros He Ho Hw H. destruct (walk_reads L g supports j t0 He Ho Hw H) as (m & Sm & Rd). exists m. split; [exact Sm|].
  intros w c delay po t mx my dx dy omega elapsed Rw O Hel Hd. destruct (Rd t) as (Rf & _ & Rt & _). destruct (Rd (t + delay)) as (_ & Rc & _).
  unfold follow_pid. rewrite Hd. unfold pid_step. cbn [fst snd]. rewrite (Rf Left), (Rf Right), Rc, Rt. cbn [obind].
  match goal with |- context [update_tasks w po ?a ?b ?cc ?d] => destruct (updated w po a b cc d Rw O) as (w' & E & Rw' & O' & Se & A) end.
  rewrite E. do 2 eexists. split; [reflexivity|]. split; [exact Rw'|]. split; [exact O'|]. split; [exact Se|]. split; [|split; [reflexivity|split; [cbn; f_equal; ring|reflexivity]]].
  match type of A with asked _ _ _ _ _ _ ?x _ => match goal with |- asked _ _ _ _ _ _ ?y _ => replace y with x; [exact A|] end end.
  apply V3_ext; unfold v3_add, pid_law; cbn; field; auto.
Qed.
Print Assumptions C180_correction.

(** Concrete numbers: a walk of the planner's example, followed by the tasks of a new object. *)
Example C180_example : exists j ss w w', plan ex_libs (new_wpg (ex_wparams (1/50))) ex_steps (V3 0 0 1) 0 = Ok (j, ss) /\
  exp_correct (l_mexp ex_libs) /\ g_omega_2 (new_wpg (ex_wparams (1/50))) <> 0 /\ feet_walk (w_base (g_params (new_wpg (ex_wparams (1/50))))) ex_steps /\
  walked ex_libs (new_wpg (ex_wparams (1/50))) ex_steps 0 j /\ walk_reachable w /\ wt_on w = true /\
  follow_all ex_libs w (1/10) j [(some_pose, 0); (some_pose, 1/2); (some_pose, 1)] = Ok w' /\
  exists a, in_solver w' TrunkOrientation a.
Proof.
  destruct (C151_example (V3 0 0 1) 0) as ((j & ss & E) & _).
  assert (S0 : walk_reachable (new_walk_tasks fresh_owner)) by (eapply wr_start; [constructor|reflexivity]).
  destruct (run_reaches [WInitialize some_pose] _ S0) as (w & Ew & Rw); [vm_compute; reflexivity|].
  assert (O : wt_on w = true).
  { assert (W : w = ok_or (new_walk_tasks fresh_owner) (walk_run (new_walk_tasks fresh_owner) [WInitialize some_pose])) by now rewrite Ew. clear Ew Rw. subst w. vm_compute. reflexivity. }
  destruct ex_contracts as (He & _). assert (Ho : g_omega_2 (new_wpg (ex_wparams (1/50))) <> 0) by (rewrite ex_omega; lra).
  assert (Hk : walked ex_libs (new_wpg (ex_wparams (1/50))) ex_steps 0 j) by (exists ss; left; eauto).
  destruct (C180_ticks _ _ _ _ _ He Ho ex_feet_walk Hk) as (m & _ & K).
  destruct (K [(some_pose, 0); (some_pose, 1/2)] w (1/10) some_pose 1 Rw O) as (w' & E' & _ & _ & _ & (_ & _ & _ & _ & _ & _ & In)).
  exists j, ss, w, w'. do 8 (split; [first [exact E|exact He|exact Ho|exact ex_feet_walk|exact Hk|exact Rw|exact O|exact E']|]).
  apply In. destruct (wt_mode w'); discriminate.
Qed.
