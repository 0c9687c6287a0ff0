(** C152 and C153: the feet of a planned and of a replanned walk. *)
From Coq Require Import Reals Lra Lia List ZArith Bool.
From Verif Require Import Base Angle Linalg Geom3 Tools_model Spline_model Spline_spec Spline_proofs Spline_props Swing_model Swing_spec Swing_proofs Swing_props
  Geometry_model Geometry_proofs Footsteps_model Wpg_model Wpg_spec Wpg_proofs Wpg_proofs2 Wpg_proofs3 Wpg_proofs4 Wpg_proofs5 Wpg_props WpgPlan_spec WpgPlan_proofs4 WpgPlan_props
  WpgFeet_spec WpgFeet_proofs WpgFeet_proofs2 WpgFeet_proofs3 WpgFeet_proofs4.
Import ListNotations.
Open Scope R_scope.

Lemma stands_at_frame s sd F : feet_ok s -> (stands_at s sd F <-> footstep_frame s sd = Ok F).
Proof.
  intros [(f & Ef)|(f & h & Ef & Hs)]; unfold stands_at, footstep_frame; rewrite Ef; cbn [find In].
  - split; [intros (f' & [<-|[]] & <- & <-); destruct (f_side f); reflexivity|]. intros H. exists f. destruct (f_side f), sd; cbn in H; try discriminate H; injection H as <-; auto.
  - rewrite Hs. split.
    + intros (f' & [<-|[<-|[]]] & <- & <-); [destruct (f_side f); reflexivity|]. rewrite Hs. destruct (f_side f); reflexivity.
    + intros H. destruct (f_side f) eqn:E1, sd; cbn in H; injection H as <-; [exists f|exists h|exists h|exists f]; auto.
Qed.
Lemma stands_on_at s sd : stands_on s sd <-> exists F, stands_at s sd F.
Proof. unfold stands_on, stands_at. split; [intros (f & A & B); exists (f_frame f), f; auto|intros (F & f & A & B & _); exists f; auto]. Qed.
Lemma frame_of_feet s s' sd : u_footsteps s = u_footsteps s' -> footstep_frame s sd = footstep_frame s' sd.
Proof. intros H. unfold footstep_frame. now rewrite H. Qed.
Lemma kept_nth : forall l i s s', feet_kept l -> nth_error l i = Some s -> nth_error l (S i) = Some s' -> kept s s'.
Proof.
  induction l as [|a l IH]; intros i s s' K Hs Hs'; [destruct i; discriminate Hs|]. destruct l as [|c l]; [destruct i; discriminate Hs'|]. destruct K as [K1 K2]. destruct i as [|i].
  - cbn in Hs, Hs'. injection Hs as <-. injection Hs' as <-. exact K1.
  - exact (IH i s s' K2 Hs Hs').
Qed.

Lemma walk_motion L g j0 supports p v a j1 ss old j sd : plan_com L g j0 supports p v a = Ok (true, j1, ss) -> plan_feet_trajectories (g_params g) j1 old = Ok j ->
  j_T j0 = frame_id -> j_left j0 = new_spline true -> j_right j0 = new_spline true -> feet_walk (w_base (g_params g)) supports ->
  exists P Y W, moves j sd (j_start j0) (j_end j) P Y W /\
    forall i s q, nth_error supports i = Some s -> nth_error (j_parts j) i = Some q -> pt_start q < pt_end q /\
      (forall F, stands_at s sd F -> forall t, pt_start q <= t <= pt_end q -> P t = fr_t F /\ rot_z (Y t) = fr_R F) /\
      (~ stands_on s sd -> exists s' Te x w y dy d V, nth_error supports (S i) = Some s' /\ stands_at s' sd Te /\ default_duration (w_base (g_params g)) s d /\
         flight (w_foot_height (g_params g)) (w_rise_ratio (g_params g)) (pt_start q - u_elapsed_ratio s * (d * u_time_ratio s)) (pt_start q) (pt_end q) x (fr_t Te) w P V /\
         turn (pt_start q) (pt_end q) dy Y W /\ same_angle (Y (pt_start q)) y /\ rot_z (Y (pt_end q)) = fr_R Te /\
         (forall t, (i = 0%nat \/ pt_start q < t) -> t < pt_end q -> get_v_world_foot j sd t = Ok (V t)) /\
         match i with
         | S i' => u_elapsed_ratio s = 0 /\ w = V3 0 0 0 /\ dy = 0 /\ exists s0 F, nth_error supports i' = Some s0 /\ stands_at s0 sd F /\ x = fr_t F /\ rot_z (Y (pt_start q)) = fr_R F
         | O => exists o F, old = Some o /\ get_T_world_foot o sd (j_start j0) = Ok F /\ x = fr_t F /\ get_v_world_foot o sd (j_start j0) = Ok w /\
             get_yaw_world_foot o sd (j_start j0) = Ok y /\ snd (vel (foot_yaw o sd) (j_start j0)) = Ok dy
         end).
Proof.
  intros Ec Ef HT Hl Hr (W1 & W2 & W3).
  destruct (planned_parts _ _ _ _ _ _ _ _ _ _ _ Ec Ef) as (A1 & _ & _ & _ & _ & _ & Cn & Ca). rewrite A1 in Cn.
  destruct (plan_com_inv _ _ _ _ _ _ _ _ _ Ec) as (pb & ls & qs & te & pb' & parts & _ & _ & _ & Ej1).
  assert (S1 : j_start j1 = j_start j0 /\ j_T j1 = frame_id /\ j_left j1 = new_spline true /\ j_right j1 = new_spline true) by (rewrite Ej1; cbn; auto). destruct S1 as (S1 & S2 & S3 & S4).
  rewrite <- S1 in Cn |- *. clear Ej1.
  assert (Tm : forall i q, nth_error (j_parts j) i = Some q -> timed (g_params g) i q).
  { intros i q Hq. destruct (Forall2_nth _ _ _ _ _ Ca Hq) as (s & Hs & C1 & C2 & C3 & C4 & C5 & C6 & C7). destruct (W1 s (nth_error_In _ _ Hs)) as (Hf & ((d & Hd & Hd0) & Htr & He) & _).
    assert (HD : 0 < d * u_time_ratio s) by now apply Rmult_lt_0_compat. assert (Dq : lasts (w_base (g_params g)) s ((1 - u_elapsed_ratio s) * d * u_time_ratio s)) by (exists d; auto).
    pose proof (lasts_det _ _ _ _ C7 Dq) as Eq. assert (0 < (1 - u_elapsed_ratio s) * (d * u_time_ratio s)) by (apply Rmult_lt_0_compat; lra).
    unfold timed. unfold feet_ok. rewrite C1, C2, C3. split; [exact Hf|]. split; [lra|]. split.
    - intros Hi _. destruct i as [|i]; [congruence|]. exact (W3 i s Hs).
    - exists d. split; [apply default_duration_ok; unfold default_duration in *; now rewrite C1, C4, C5|]. split; [exact HD|]. split; [exact He|]. lra. }
  assert (Sup : forall i q, nth_error (j_parts j) i = Some q -> exists s, nth_error supports i = Some s /\ feet_ok s /\ (forall f, In f (u_footsteps s) -> only_turned (f_frame f)) /\ u_footsteps (pt_support q) = u_footsteps s).
  { intros i q Hq. destruct (Forall2_nth _ _ _ _ _ Ca Hq) as (s & Hs & C1 & _). exists s. destruct (W1 s (nth_error_In _ _ Hs)) as (Hf & _ & U). auto. }
  assert (Kp : forall i q q' sd F F', nth_error (j_parts j) i = Some q -> nth_error (j_parts j) (S i) = Some q' ->
    footstep_frame (pt_support q) sd = Ok F -> footstep_frame (pt_support q') sd = Ok F' -> F = F').
  { intros i q q' sd' F F' Hq Hq' HF HF'. destruct (Sup i q Hq) as (s & Hs & Hf & _ & Es). destruct (Sup _ q' Hq') as (s' & Hs' & Hf' & _ & Es').
    rewrite (frame_of_feet _ _ _ Es) in HF. rewrite (frame_of_feet _ _ _ Es') in HF'. apply (kept_nth _ _ _ _ W2 Hs Hs' sd'); now apply stands_at_frame. }
  assert (Up : forall i q F, nth_error (j_parts j) i = Some q -> footstep_frame (pt_support q) sd = Ok F -> only_turned F).
  { intros i q F Hq HF. destruct (Sup i q Hq) as (s & Hs & Hf & U & Es). rewrite (frame_of_feet _ _ _ Es) in HF. apply stands_at_frame in HF as (f & A & _ & <-); auto. }
  destruct (foot_motion _ _ _ _ (j_end j) Ef S2 S3 S4 Cn Tm Kp sd Up) as (P & Y & W & M1 & M2 & M3 & M4 & M5 & M6 & M7).
  exists P, Y, W. split; [unfold moves; auto 10|]. intros i s q Hs Hq. destruct (M7 i q Hq) as [St Fl]. destruct (Sup i q Hq) as (s' & Hs' & Hf & U & Es). rewrite Hs in Hs'. injection Hs' as <-.
  destruct (Tm i q Hq) as (_ & Lt & _). split; [exact Lt|]. split.
  - intros F HF. apply St. rewrite (frame_of_feet _ _ _ Es). now apply stands_at_frame.
  - intros Hn. destruct (stands_or_flies s sd Hf) as [(F & HF)|(f & Hsf & Hsd)]; [exfalso; apply Hn, stands_on_at; exists F; now apply stands_at_frame|].
    assert (Hqf : u_footsteps (pt_support q) = [f]) by congruence.
    destruct (Fl f Hqf Hsd) as (q' & Te & x & w & y & dy & el & d & V & Hq' & HTe & Ss & Hd & Hri & Fg & Tn & Ya & Yb & Ve).
    destruct (Sup _ q' Hq') as (s2 & Hs2 & Hf2 & _ & Es2). rewrite (frame_of_feet _ _ _ Es2) in HTe. apply stands_at_frame in HTe; [|exact Hf2].
    destruct (Forall2_nth _ _ _ _ _ Ca Hq) as (s0 & Hs0 & C1 & C2 & C3 & C4 & C5 & _). rewrite Hs in Hs0. injection Hs0 as <-.
    assert (El : el = u_elapsed_ratio s). { destruct i as [|i]; cbn [swing_start] in Ss; [destruct Ss as (-> & _); exact C2|]. destruct Ss as (_ & -> & _). now rewrite (W3 i s Hs). }
    rewrite El, C3 in Fg.
    exists s2, Te, x, w, y, dy, d, V. split; [exact Hs2|]. split; [exact HTe|]. split; [apply default_duration_ok in Hd; unfold default_duration in *; now rewrite C1, C4, C5 in Hd|].
    split; [exact Fg|]. split; [exact Tn|]. split; [exact Ya|]. split; [exact Yb|]. split; [exact Ve|]. destruct i as [|i]; cbn [swing_start] in Ss.
    + destruct Ss as (_ & o & F & Eo & E1 & E2 & E3 & E4 & E5). exists o, F. auto 10.
    + destruct Ss as (-> & _ & -> & q0 & F & Hq0 & HF & -> & ->). split; [exact (W3 i s Hs)|]. split; [reflexivity|]. split; [reflexivity|].
      pose proof (Up i q0 F Hq0 HF) as UF. destruct (Sup i q0 Hq0) as (s1 & Hs1 & Hf1 & _ & Es1). rewrite (frame_of_feet _ _ _ Es1) in HF. exists s1, F. split; [exact Hs1|].
      split; [now apply stands_at_frame|]. split; [reflexivity|]. now apply only_turned_rot.
Qed.

(** ** C152 *)

(** In a planned walk the pose of each foot is a continuous function of time, with a continuous heading, defined at all times. A foot is exactly at its
    footstep as long as it is on the ground, and goes from the footstep it leaves to the one it reaches while it is in the air; the velocity
    of the flying foot is the derivative of its position. *)
Theorem C152_feet L g supports com t0 j ss sd : feet_walk (w_base (g_params g)) supports -> plan L g supports com t0 = Ok (j, ss) ->
  exists P Y W, moves j sd t0 (j_end j) P Y W /\
    forall i s q, nth_error supports i = Some s -> nth_error (j_parts j) i = Some q ->
      (forall F, stands_at s sd F -> forall t, pt_start q <= t <= pt_end q -> get_T_world_foot j sd t = Ok F) /\
      (~ stands_on s sd -> exists i' s1 s2 F1 F2 V, i = S i' /\ nth_error supports i' = Some s1 /\ stands_at s1 sd F1 /\ nth_error supports (S i) = Some s2 /\ stands_at s2 sd F2 /\
         get_T_world_foot j sd (pt_start q) = Ok F1 /\ get_T_world_foot j sd (pt_end q) = Ok F2 /\
         flight (w_foot_height (g_params g)) (w_rise_ratio (g_params g)) (pt_start q) (pt_start q) (pt_end q) (fr_t F1) (fr_t F2) (V3 0 0 0) P V /\
         turn (pt_start q) (pt_end q) 0 Y W /\ (forall t, pt_start q < t < pt_end q -> get_v_world_foot j sd t = Ok (V t))).
Proof.
  intros Hw E. destruct (plan_inv _ _ _ _ _ _ _ E) as (_ & j1 & Ec & Ef).
  destruct (walk_motion _ _ _ _ _ _ _ _ _ _ _ sd Ec Ef eq_refl eq_refl eq_refl Hw) as (P & Y & W & M & H). cbn [new_wtraj j_start] in *. exists P, Y, W. split; [exact M|].
  pose proof M as (Ev & _). intros i s q Hs Hq. destruct (H i s q Hs Hq) as (Lt & St & Fl). split.
  - intros F HF t Ht. destruct (St F HF t Ht) as [EP EY]. rewrite Ev, EP, EY. now destruct F.
  - intros Hn. destruct (Fl Hn) as (s2 & F2 & x & w & y & dy & d & V & Hs2 & HF2 & _ & Fg & Tn & _ & Yb & Ve & I). destruct i as [|i]; [destruct I as (o & F & Eo & _); discriminate Eo|].
    destruct I as (El & -> & -> & s1 & F1 & Hs1 & HF1 & -> & Y1). rewrite El, Rmult_0_l, Rminus_0_r in Fg. exists i, s1, s2, F1, F2, V. split; [reflexivity|]. do 4 (split; [assumption|]).
    pose proof Fg as (P1 & P2 & _). split; [rewrite Ev, P1, Y1; now destruct F1|]. split; [rewrite Ev, P2, Yb; now destruct F2|]. split; [exact Fg|]. split; [exact Tn|].
    intros t [T1 T2]. apply Ve; auto.
Qed.
Print Assumptions C152_feet.

(** ** C153 *)

(** When a walk is replanned in the middle of a step, the flying foot goes on from its pose, velocity and heading rate in the old walk to its next
    footstep; the other steps are as in a planned walk. *)
Theorem C153_feet L g supports old t0 j ss sd : feet_walk (w_base (g_params g)) supports -> only_turned (j_T old) -> replan L g supports old t0 = Ok (j, ss) -> j_success j = true ->
  exists P Y W, moves j sd t0 (j_end j) P Y W /\
    forall i s q, nth_error supports i = Some s -> nth_error (j_parts j) i = Some q ->
      (forall F, stands_at s sd F -> forall t, pt_start q <= t <= pt_end q -> get_T_world_foot j sd t = Ok F) /\
      (~ stands_on s sd -> exists s2 F1 F2 v dy d V, nth_error supports (S i) = Some s2 /\ stands_at s2 sd F2 /\ default_duration (w_base (g_params g)) s d /\
         get_T_world_foot j sd (pt_start q) = Ok F1 /\ get_T_world_foot j sd (pt_end q) = Ok F2 /\
         flight (w_foot_height (g_params g)) (w_rise_ratio (g_params g)) (pt_start q - u_elapsed_ratio s * (d * u_time_ratio s)) (pt_start q) (pt_end q) (fr_t F1) (fr_t F2) v P V /\
         turn (pt_start q) (pt_end q) dy Y W /\ (forall t, pt_start q < t < pt_end q -> get_v_world_foot j sd t = Ok (V t)) /\
         (forall i', i = S i' -> u_elapsed_ratio s = 0 /\ v = V3 0 0 0 /\ dy = 0 /\ exists s1, nth_error supports i' = Some s1 /\ stands_at s1 sd F1) /\
         (i = 0%nat -> pt_start q = t0 /\ get_T_world_foot old sd t0 = Ok F1 /\ get_v_world_foot old sd t0 = Ok v /\ get_v_world_foot j sd t0 = Ok v /\
            snd (vel (foot_yaw old sd) t0) = Ok dy)).
Proof.
  intros Hw (a & HT) E Hs. destruct (replan_inv _ _ _ _ _ _ _ E) as (_ & p & v & ac & _ & _ & _ & b & j1 & Ec & Ef). destruct b.
  2: { unfold trim_old_trajectory in Ef. bind Ef parts Ep. injection Ef as <-. discriminate Hs. }
  destruct (planned_parts _ _ _ _ _ _ _ _ _ _ _ Ec Ef) as (A1 & _ & _ & _ & _ & _ & Cn & _). cbn [new_wtraj j_start] in A1. rewrite A1 in Cn.
  destruct (walk_motion _ _ _ _ _ _ _ _ _ _ _ sd Ec Ef eq_refl eq_refl eq_refl Hw) as (P & Y & W & M & H). cbn [new_wtraj j_start] in *. exists P, Y, W. split; [exact M|].
  pose proof M as (Ev & _). intros i s q Hs' Hq. destruct (H i s q Hs' Hq) as (Lt & St & Fl). split.
  - intros F HF t Ht. destruct (St F HF t Ht) as [EP EY]. rewrite Ev, EP, EY. now destruct F.
  - intros Hn. destruct (Fl Hn) as (s2 & F2 & x & w & y & dy & d & V & Hs2 & HF2 & Hd & Fg & Tn & Ya & Yb & Ve & I). pose proof Fg as (P1 & P2 & P3 & _). destruct i as [|i].
    + destruct I as (o & F & Eo & E1 & -> & E3 & E4 & E5). injection Eo as <-.
      assert (S0 : pt_start q = t0) by (destruct (j_parts j) as [|q0 r]; [discriminate Hq|]; cbn in Hq; injection Hq as ->; exact (proj1 Cn)).
      assert (RF : rot_z (Y (pt_start q)) = fr_R F).
      { rewrite (same_angle_rot _ _ Ya). unfold get_yaw_world_foot in E4. bind E4 yw Eyw. injection E4 as <-. unfold get_T_world_foot in E1. bind E1 qq Eq1. bind E1 fl Efl. bind E1 pp Epp.
        rewrite Eyw in E1. cbn [obind] in E1. injection E1 as <-. unfold frame_mul, build_frame. cbn [fr_R]. rewrite HT, rot_z_mul. apply same_angle_rot.
        destruct (frame_yaw_rot_z a) as (m & Hm). exists m. rewrite Hm. ring. }
      exists s2, F, F2, w, dy, d, V. do 3 (split; [assumption|]). split; [rewrite Ev, P1, RF; now destruct F|]. split; [rewrite Ev, P2, Yb; now destruct F2|]. split; [exact Fg|]. split; [exact Tn|].
      split; [intros t Ht; apply Ve; [now left|lra]|]. split; [discriminate|]. intros _. split; [exact S0|]. split; [exact E1|]. split; [exact E3|]. split; [|exact E5].
      rewrite S0 in *. rewrite (Ve t0 (or_introl eq_refl) Lt). now f_equal.
    + destruct I as (El & -> & -> & s1 & F1 & Hs1 & HF1 & -> & Y1). exists s2, F1, F2, (V3 0 0 0), 0, d, V. do 3 (split; [assumption|]).
      split; [rewrite Ev, P1, Y1; now destruct F1|]. split; [rewrite Ev, P2, Yb; now destruct F2|]. split; [exact Fg|]. split; [exact Tn|].
      split; [intros t [T1 T2]; apply Ve; auto|]. split; [|discriminate]. intros i' Ei. injection Ei as <-. do 3 (split; [assumption||reflexivity|]). exists s1. auto.
Qed.
Print Assumptions C153_feet.

(** ** Example: the walk on the spot of C151 *)
Lemma id_turned x : only_turned (Frame m3_id x).
Proof. exists 0. cbn [fr_R]. unfold m3_id, rot_z. rewrite cos_0, sin_0. f_equal; ring. Qed.
Lemma ex_turned s f : In s ex_steps \/ In s ex_stand -> In f (u_footsteps s) -> only_turned (f_frame f).
Proof.
  intros H Hf. assert (f = ex_left \/ f = ex_right) as [->| ->]; [|apply id_turned|apply id_turned].
  destruct H as [[<-|[<-|[<-|[<-|[<-|[]]]]]]|[<-|[]]]; cbn in Hf; intuition congruence.
Qed.
Lemma ex_feet_walk : feet_walk ex_gait ex_steps.
Proof.
  split; [|split].
  - intros s Hs. destruct (ex_support s (or_introl Hs)) as (A & _ & C & _). split; [exact A|]. split; [exact C|]. intros f. apply ex_turned. now left.
  - cbn [feet_kept ex_steps]. unfold kept, stands_at. cbn [u_footsteps set_start new_support].
    repeat (split; [intros sd F F' (f & If & <- & <-) (h & Ih & Sh & <-); cbn in If, Ih; repeat (destruct If as [<-|If]); repeat (destruct Ih as [<-|Ih]); try contradiction; try reflexivity; discriminate Sh|]). exact I.
  - intros i s Hi. apply nth_error_In in Hi. destruct Hi as [<-|[<-|[<-|[<-|[<-|[]]]]]]; reflexivity.
Qed.
Lemma ex_parts L g com t j ss : w_base (g_params g) = ex_gait -> plan L g ex_steps com t = Ok (j, ss) -> length (j_parts j) = 5%nat /\ j_end j = t + 5 /\
  forall i q, nth_error (j_parts j) i = Some q -> pt_start q = t + INR i /\ pt_end q = t + INR i + 1 /\ exists s, nth_error ex_steps i = Some s /\ carries ex_gait s q.
Proof.
  intros Eg E. destruct (C55_plan _ _ _ _ _ _ _ E) as (_ & Cn & Ca). rewrite Eg in Ca. pose proof (Wpg_proofs5.Forall2_len' _ _ _ Ca) as Ln. cbn in Ln. split; [congruence|].
  assert (G : forall k l parts a b, (forall s, In s l -> lasts ex_gait s 1) -> Forall2 (carries ex_gait) l parts -> contiguous a parts b -> a = t + INR k ->
    b = t + INR (k + length parts) /\ forall i q, nth_error parts i = Some q -> pt_start q = t + INR (k + i) /\ pt_end q = t + INR (k + i) + 1).
  { intros k l. revert k. induction l as [|s l IH]; intros k parts a b La F C ->; inversion F as [|? q ? r Fq Fr]; subst.
    - cbn in C. split; [cbn; rewrite Nat.add_0_r; congruence|]. intros i q Hq. destruct i; discriminate Hq.
    - destruct C as [C1 C2]. destruct Fq as (_ & _ & _ & _ & _ & _ & L1). pose proof (Wpg_proofs3.lasts_det _ _ _ _ (La s (or_introl eq_refl)) L1) as D.
      destruct (IH (S k) r (pt_end q) b (fun x Hx => La x (or_intror Hx)) Fr C2) as [B1 B2]; [rewrite S_INR; lra|]. split; [cbn [length]; rewrite B1; do 2 f_equal; lia|].
      intros [|i] x Hx; [injection Hx as <-; rewrite Nat.add_0_r; lra|]. destruct (B2 i x Hx) as [X1 X2]. rewrite <- Nat.add_succ_comm. split; assumption. }
  destruct (G 0%nat _ _ _ _ (fun s Hs => proj1 (proj2 (proj2 (proj2 (proj2 (ex_support s (or_introl Hs))))))) Ca Cn ltac:(cbn; lra)) as [B1 B2].
  split; [rewrite B1, <- Ln; cbn; lra|]. intros i q Hq. destruct (B2 i q Hq) as [X1 X2]. cbn [Nat.add] in X1, X2. split; [exact X1|]. split; [exact X2|]. destruct (Wpg_proofs5.Forall2_nth _ _ _ _ _ Ca Hq) as (s & Hs & C). eauto.
Qed.

(** In this walk the right foot is raised by 5 cm in the middle of its step and is at its place before and after; the left foot
    stays on the ground meanwhile. *)
Lemma ex_swing L g com t j ss : w_base (g_params g) = ex_gait -> w_foot_height (g_params g) = 1/20 -> w_rise_ratio (g_params g) = 1/5 -> plan L g ex_steps com t = Ok (j, ss) ->
  get_T_world_foot j Right (t + 1) = Ok (f_frame ex_right) /\ get_T_world_foot j Right (t + 2) = Ok (f_frame ex_right) /\
  (exists F, get_T_world_foot j Right (t + 3/2) = Ok F /\ vz (fr_t F) = 1/20) /\ (forall t', t <= t' <= t + 3 -> get_T_world_foot j Left t' = Ok (f_frame ex_left)).
Proof.
  intros Eg Eh Er E. destruct (ex_parts _ _ _ _ _ _ Eg E) as (Ln & _ & Pt). pose proof ex_feet_walk as Fw. rewrite <- Eg in Fw.
  assert (Q : forall i, (i < 5)%nat -> exists q s, nth_error (j_parts j) i = Some q /\ pt_start q = t + INR i /\ pt_end q = t + INR i + 1 /\ nth_error ex_steps i = Some s).
  { intros i Hi. destruct (nth_error (j_parts j) i) as [q|] eqn:Hq; [|apply nth_error_None in Hq; lia]. destruct (Pt i q Hq) as (A & B & s & C & _). eauto 6. }
  destruct (C152_feet _ _ _ _ _ _ _ Right Fw E) as (P & Y & W & M & H). destruct (C152_feet _ _ _ _ _ _ _ Left Fw E) as (P' & Y' & W' & _ & H').
  destruct (Q 1%nat ltac:(lia)) as (q & s & Hq & Q1 & Q2 & Hs). injection Hs as <-. destruct (H 1%nat (new_support [ex_left]) q eq_refl Hq) as [_ Fl].
  destruct Fl as (i' & s1 & s2 & F1 & F2 & V & Ei & Hs1 & SF1 & Hs2 & SF2 & G1 & G2 & Fg & _); [intros (f & [<-|[]] & Sf); discriminate Sf|]. injection Ei as <-. injection Hs1 as <-. injection Hs2 as <-.
  assert (F1 = f_frame ex_right) as -> by (destruct SF1 as (f & [<-|[<-|[]]] & Sf & <-); [discriminate Sf|reflexivity]).
  assert (F2 = f_frame ex_right) as -> by (destruct SF2 as (f & [<-|[<-|[]]] & Sf & <-); [discriminate Sf|reflexivity]).
  cbn [INR] in Q1, Q2. rewrite Q1 in G1. rewrite Q2 in G2. replace (t + 1 + 1) with (t + 2) in G2 by lra. split; [exact G1|]. split; [exact G2|]. split.
  - destruct M as (Ev & _). exists (Frame (rot_z (Y (t + 3/2))) (P (t + 3/2))). split; [apply Ev|]. cbn [fr_t]. destruct Fg as (_ & _ & _ & _ & _ & _ & Hh & _). rewrite Eh, Er, Q1, Q2 in Hh. apply Hh; lra.
  - intros t' Ht'. assert (Ic : exists i, (i < 3)%nat /\ t + INR i <= t' <= t + INR i + 1).
    { destruct (Rle_dec t' (t + 1)); [exists 0%nat; split; [lia|cbn; lra]|]. destruct (Rle_dec t' (t + 2)); [exists 1%nat|exists 2%nat]; (split; [lia|cbn; lra]). }
    destruct Ic as (i & Hi & Ht). destruct (Q i ltac:(lia)) as (q' & s' & Hq' & Q1' & Q2' & Hs'). destruct (H' i s' q' Hs' Hq') as [K _]. apply K; [|lra].
    destruct i as [|[|[|i]]]; [| | |lia]; injection Hs' as <-; exists ex_left; (split; [now left|split; reflexivity]).
Qed.
Example C152_example com t : exists j ss, plan ex_libs (new_wpg (ex_wparams (1/50))) ex_steps com t = Ok (j, ss) /\
  get_T_world_foot j Right (t + 1) = Ok (f_frame ex_right) /\ get_T_world_foot j Right (t + 2) = Ok (f_frame ex_right) /\
  (exists F, get_T_world_foot j Right (t + 3/2) = Ok F /\ vz (fr_t F) = 1/20) /\ (forall t', t <= t' <= t + 3 -> get_T_world_foot j Left t' = Ok (f_frame ex_left)).
Proof. destruct (C151_example com t) as ((j & ss & E) & _). exists j, ss. split; [exact E|]. exact (ex_swing ex_libs (new_wpg (ex_wparams (1/50))) com t j ss eq_refl eq_refl eq_refl E). Qed.
