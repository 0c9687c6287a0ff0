(** C154 and C155: a walk is replanned exactly when the ZMP can be kept in the supports, and otherwise goes on. *)
From Coq Require Import Reals Lra Lia List ZArith Bool.
From Verif Require Import Base Angle Linalg Geom3 Tools_model Expression_model Expression_spec Problem_model Problem_spec Problem_props Polynom_model Polynom_spec Integrator_model Integrator_spec Integrator_props Backends_proofs
  Lipm_model Lipm_spec Spline_model Spline_spec Spline_props Swing_model Swing_spec Swing_props
  Geometry_model Geometry_proofs Footsteps_model Wpg_model Wpg_spec Wpg_proofs Wpg_proofs2 Wpg_proofs3 Wpg_proofs4 Wpg_proofs5 Wpg_props WpgPlan_spec WpgPlan_proofs WpgPlan_proofs2 WpgPlan_proofs3 WpgPlan_proofs4 WpgPlan_props
  WpgFeet_spec WpgFeet_proofs WpgFeet_proofs4 WpgFeet_props WpgReplan_spec WpgReplan_proofs WpgReplan_proofs2.
Import ListNotations.
Open Scope R_scope.

Lemma parts_of_rewalk p hull o t s r parts : rewalk_ok hull (w_base p) (s :: r) -> (forall f, u_footsteps s = [f] -> reads_foot o (other_side (f_side f)) t) ->
  Forall2 (carries (w_base p)) (s :: r) parts -> parts_ok' p o t parts.
Proof.
  intros (F & St & _) Rd C i q Hq. destruct (Forall2_nth _ _ _ _ _ C Hq) as (si & Hsi & C1 & C2 & C3 & C4 & C5 & C6 & C7).
  destruct (F si (nth_error_In _ _ Hsi)) as (Hf & _ & Ht). destruct (time_lasts _ _ Ht) as (d & Hd & Hd0). pose proof (lasts_det _ _ _ _ C7 Hd) as Ed.
  destruct Ht as ((d0 & D0 & D1) & Htr & He).
  unfold part_ok'. split; [unfold feet_ok; rewrite C1; exact Hf|]. split; [lra|]. split; [lra|]. split.
  { exists d0. split; [|exact D1]. apply default_duration_ok. unfold default_duration in *. now rewrite C1, C4, C5. }
  split; [lra|]. intros f Ef. rewrite C1 in Ef. destruct (feet_lands r s i si f St Hsi Ef) as [(sn & Hn & Sn) B].
  destruct (Forall2_nth_l _ _ _ _ _ C Hn) as (qn & Hqn & N1 & _). exists qn. split; [exact Hqn|]. split; [unfold stands_on in *; now rewrite N1|].
  destruct i as [|i]. { cbn in Hsi. injection Hsi as <-. exact (Rd f Ef). }
  destruct (B i eq_refl) as (sp & Hp & Sp). destruct (Forall2_nth_l _ _ _ _ _ C Hp) as (qp & Hqp & P1 & _).
  exists qp. unfold stands_on in *. rewrite P1. auto.
Qed.

Lemma trim_total p t0 t : forall l, (forall q, In q l -> exists d, default_duration p (pt_support q) d) -> exists m, trim_parts p t0 t l = Ok m.
Proof.
  induction l as [|q l IH]; intros H; cbn [trim_parts]; [eauto|]. destruct IH as (m & Em); [intros q' Hq'; apply H; now right|]. destruct (H q (or_introl eq_refl)) as (d & Hd). apply default_duration_ok in Hd.
  unfold trim_part. destruct (Rle_dec _ _); [|cbn [obind]; rewrite Em; cbn [obind]; eauto]. destruct (Rlt_dec _ _); [rewrite Hd|]; cbn [obind]; rewrite Em; cbn [obind]; eauto.
Qed.

(** ** C154 *)

(** A walk that can be read is always replanned, or goes on as it was: a soft planner replans it; a hard planner does exactly when jerks exist
    that keep the ZMP in the supports, from the current state of the CoM. *)
Theorem C154_replanned_exactly_when_possible L g supports old t p v a :
  exp_correct (l_mexp L) -> qr_correct (l_qr L) -> qp_correct (l_qp L) -> ~ qr_fails (l_qr L) -> ~ qp_fails (l_qp L) ->
  g_omega_2 g <> 0 -> 0 < g_zmp_weight g -> 0 < g_stop_weight g -> 0 < w_zmp_weight (g_params g) -> w_rise_ratio (g_params g) < 1 ->
  rewalk_ok (l_hull L) (w_base (g_params g)) supports ->
  get_p_world_CoM L old t = Ok p -> get_v_world_CoM L old t = Ok v -> get_a_world_CoM L old t = Ok a -> reads_trunk old t ->
  (forall s r f, supports = s :: r -> u_footsteps s = [f] -> reads_foot old (other_side (f_side f)) t) ->
  (forall q, In q (j_parts old) -> exists d, default_duration (w_base (g_params g)) (pt_support q) d) ->
  let possible := walkable (l_hull L) (g_params g) (g_omega_2 g) supports (fun d => nth d [vx p; vx v; vx a] 0) (fun d => nth d [vy p; vy v; vy a] 0) in
  exists j ss, replan L g supports old t = Ok (j, ss) /\ (j_success j = true <-> g_soft g = true \/ possible).
Proof.
  intros He Hqr Hqp Hqr' Hqp' Ho Hw1 Hw2 Hw3 Hr W Ep Ev Ea Rt Rf Dd possible. destruct supports as [|s r]; [destruct W as (_ & [] & _)|].
  pose proof W as (F & _ & En).
  destruct (plan_com_total L He Hqr Hqp Hqr' Hqp' g Ho Hw1 Hw2 Hw3 (new_wtraj (w_com_height (g_params g)) t (w_trunk_pitch (g_params g)) 0) (s :: r) (vx p, vy p) (vx v, vy v) (vx a, vy a) F En)
    as (b & j1 & ss & E & Hb). cbn [fst snd] in Hb. fold possible in Hb. unfold replan. cbv zeta. rewrite Ep, Ev, Ea. cbn [obind]. rewrite E. cbn [obind]. destruct b.
  - destruct (plan_com_inv L g _ _ _ _ _ _ _ E) as (pb & ls & qs & te & pb' & parts & E1 & E2 & E3 & ->).
    apply com_loop_parts in E1 as [C Fc]. pose proof (attribute_keeps L g _ _ _ _ E3) as K.
    assert (G : contiguous t parts te /\ Forall2 (carries (w_base (g_params g))) (s :: r) parts).
    { cbn [new_wtraj j_start] in C. clear -C Fc K. revert Fc C. generalize t. generalize (s :: r). induction K as [|q q' qs parts (tr & dcm & ->) K IH]; intros supports t0 Fq C; inversion Fq as [|s0 ? r0 ? Fs Fr]; subst.
      - split; [exact C|constructor].
      - destruct C as [C1 C2]. destruct (IH _ _ Fr C2) as [G1 G2]. split; [split; [exact C1|exact G1]|]. constructor; [|exact G2]. exact Fs. }
    destruct G as [G1 G2].
    destruct (plan_feet_total' (g_params g) (WTraj t te parts (w_com_height (g_params g)) (w_trunk_pitch (g_params g)) 0 true (new_spline true) (new_spline true) (new_spline true) frame_id) old true te Hr)
      as (k & Ek); try reflexivity; cbn [j_parts j_start].
    + intros N. subst parts. inversion G2.
    + exact (parts_of_rewalk _ _ _ _ _ _ _ W (fun f => Rf s r f eq_refl) G2).
    + exact G1.
    + exact Rt.
    + cbn [new_wtraj j_start j_com_z j_pitch j_roll j_success j_left j_right j_trunk j_T] in *. rewrite Ek. cbn [obind]. exists k, ss. split; [reflexivity|].
      apply plan_feet_keeps in Ek as (_ & _ & _ & _ & _ & K6 & _). cbn [j_success] in K6. rewrite K6. split; [intros _; now apply Hb|reflexivity].
  - destruct (trim_total (w_base (g_params g)) (j_start old) t (j_parts old) Dd) as (m & Em). unfold trim_old_trajectory. rewrite Em. cbn [obind]. eexists; eexists. split; [reflexivity|].
    cbn [j_success]. split; [discriminate|]. intros H. apply Hb in H. discriminate H.
Qed.
Print Assumptions C154_replanned_exactly_when_possible.

Lemma walk_readable L g j0 supports p v a j1 ss old j : plan_com L g j0 supports p v a = Ok (true, j1, ss) -> plan_feet_trajectories (g_params g) j1 old = Ok j ->
  j_T j0 = frame_id -> j_left j0 = new_spline true -> j_right j0 = new_spline true -> j_trunk j0 = new_spline true -> feet_walk (w_base (g_params g)) supports ->
  (forall t, reads_trunk j t) /\ (forall q, In q (j_parts j) -> exists d, default_duration (w_base (g_params g)) (pt_support q) d) /\
  (forall i s q t sd, nth_error supports i = Some s -> nth_error (j_parts j) i = Some q -> pt_start q < t < pt_end q -> ~ stands_on s sd -> reads_foot j sd t).
Proof.
  intros Ec Ef HT Hl Hr Ht W. destruct (plan_com_inv _ _ _ _ _ _ _ _ _ Ec) as (pb & ls & qs & te & pb' & parts & _ & _ & _ & Ej1).
  assert (So : splines_ok j).
  { apply plan_feet_splines with (2 := Ef). rewrite Ej1. assert (N : reachable (new_spline true)) by (exists true, []; reflexivity). split; [intros []|]; cbn; rewrite ?Hl, ?Hr, ?Ht; exact N. }
  split; [intros t; now apply reads_trunk_ok|]. split.
  - intros q Hq. destruct (planned_parts _ _ _ _ _ _ _ _ _ _ _ Ec Ef) as (_ & _ & _ & _ & _ & _ & _ & Ca). apply In_nth_error in Hq as (i & Hq).
    destruct (Forall2_nth _ _ _ _ _ Ca Hq) as (s & Hs & C1 & _ & _ & C4 & C5 & _ & (d & Hd & _)). exists d. unfold default_duration in *. now rewrite C1, C4, C5.
  - intros i s q t sd Hs Hq Htq Hn. apply reads_foot_ok; [exact So| |].
    + destruct (walk_motion _ _ _ _ _ _ _ _ _ _ _ sd Ec Ef HT Hl Hr W) as (P & Y & _ & (Ev & _) & _). eauto.
    + destruct (walk_motion _ _ _ _ _ _ _ _ _ _ _ sd Ec Ef HT Hl Hr W) as (P & Y & W0 & _ & H). destruct (H i s q Hs Hq) as (_ & _ & Fl).
      destruct (Fl Hn) as (s' & Te & x & w & y & dy & d & V & _ & _ & _ & _ & _ & _ & _ & Ve & _). exists (V t). apply Ve; [right|]; lra.
Qed.

(** The walks that are planned, and those that are replanned, can be read: the trunk at all times, and each foot while it flies. *)
Theorem C154_readable L g supports j ss : feet_walk (w_base (g_params g)) supports ->
  ((exists com t0, plan L g supports com t0 = Ok (j, ss)) \/ (exists old t0, replan L g supports old t0 = Ok (j, ss) /\ j_success j = true)) ->
  (forall t, reads_trunk j t) /\ (forall q, In q (j_parts j) -> exists d, default_duration (w_base (g_params g)) (pt_support q) d) /\
  (forall i s q t sd, nth_error supports i = Some s -> nth_error (j_parts j) i = Some q -> pt_start q < t < pt_end q -> ~ stands_on s sd -> reads_foot j sd t).
Proof.
  intros W [(com & t0 & E)|(old & t0 & E & Hs)].
  - destruct (plan_inv _ _ _ _ _ _ _ E) as (_ & j1 & Ec & Ef). exact (walk_readable _ _ _ _ _ _ _ _ _ _ _ Ec Ef eq_refl eq_refl eq_refl eq_refl W).
  - destruct (replan_inv _ _ _ _ _ _ _ E) as (_ & p & v & ac & _ & _ & _ & b & j1 & Ec & Ef). destruct b.
    2: { unfold trim_old_trajectory in Ef. bind Ef parts Ep. injection Ef as <-. discriminate Hs. }
    exact (walk_readable _ _ _ _ _ _ _ _ _ _ _ Ec Ef eq_refl eq_refl eq_refl eq_refl W).
Qed.
Print Assumptions C154_readable.

(** ** C155 *)

(** When the walk cannot be replanned the old walk goes on: from [t] on the motion is the same (but for the ends of the parts, where
    two parts can be used), the parts still follow each other, and each one lasts what remains of its support. *)
Theorem C155_goes_on L g supports old t j ss a b : contiguous a (j_parts old) b -> Forall (fun q => pt_start q < pt_end q) (j_parts old) -> a <= t < b ->
  replan L g supports old t = Ok (j, ss) -> j_success j = false ->
  j_start j = t /\ j_end j = j_end old /\ contiguous t (j_parts j) b /\ Forall (fun q => pt_start q < pt_end q) (j_parts j) /\
  (forall t', t <= t' -> (forall q, In q (j_parts old) -> t' <> pt_end q) -> same_motion L j old t') /\
  (clocked (w_base (g_params g)) old -> clocked (w_base (g_params g)) j).
Proof.
  intros C F Ht E Hs. destruct (replan_inv _ _ _ _ _ _ _ E) as (_ & p & v & ac & _ & _ & _ & pl & j1 & Ec & Ef). destruct pl.
  { destruct (planned_parts _ _ _ _ _ _ _ _ _ _ _ Ec Ef) as (_ & _ & _ & _ & Sc & _). rewrite Sc in Hs. cbn in Hs. discriminate Hs. }
  unfold trim_old_trajectory in Ef. bind Ef m Em. injection Ef as <-. cbn [j_start j_end j_parts]. split; [reflexivity|]. split; [reflexivity|].
  destruct (trim_split _ _ _ _ _ _ _ C F Ht Em) as (l1 & q & rest & d & El & Hq & Cr & Ed & ->). set (e := _ + _) in *.
  assert (Fr : lasting (part_from t e q :: rest)).
  { unfold lasting in *. rewrite El in F. apply Forall_app in F as [_ F]. inversion F; subst. constructor; [cbn; lra|assumption]. }
  assert (Cn : contiguous t (part_from t e q :: rest) b) by (split; [reflexivity|exact Cr]).
  split; [exact Cn|]. split; [exact Fr|]. split.
  - intros t' Ht' N. set (j := WTraj t _ _ _ _ _ _ _ _ _ _). assert (Tj : timeline t (j_parts j) b) by (split; [discriminate|]; split; [exact Cn|exact (lasting_le _ Fr)]).
    assert (To : timeline a (j_parts old) b) by (split; [rewrite El; now destruct l1|]; split; [exact C|exact (lasting_le _ F)]).
    destruct (find_part_right j _ _ t' Tj) as (i & x & Ex & _ & Rx). destruct (find_part_right old _ _ t' To) as (i' & y' & Ey & _ & Ry).
    destruct (part_from_right l1 q rest t e t' i x (proj1 Hq) Ht' Rx) as (y & Ry' & Hxy). rewrite <- El in Ry'. destruct (right_same _ _ _ _ _ _ _ _ C F N Ry' Ry) as [_ <-].
    apply (same_motion_parts L j old t' x y e t Ex Ey Hxy); try reflexivity.
  - intros K x Hx. cbn [j_parts j_start] in Hx |- *. assert (Iq : In q (j_parts old)) by (rewrite El; apply in_or_app; right; now left). destruct (K q Iq) as [(d0 & D1 & D2) S1].
    apply default_duration_ok in D1. rewrite Ed in D1. injection D1 as <-. pose proof (Rmax_l (j_start old) (u_t_start (pt_support q))) as M1. pose proof (Rmax_r (j_start old) (u_t_start (pt_support q))) as M2.
    destruct Hx as [<-|Hx].
    + split.
      * exists d. split; [apply default_duration_ok in Ed; exact Ed|]. cbn [part_from pt_support pt_end pt_start u_elapsed_ratio u_time_ratio]. unfold e. rewrite <- S1.
        assert (d * u_time_ratio (pt_support q) <> 0). { intros Z. rewrite Rmult_assoc, Z, Rmult_0_r in D2. lra. }
        transitivity ((1 - u_elapsed_ratio (pt_support q)) * d * u_time_ratio (pt_support q) - (t - pt_start q)); [lra|]. field. split; intros Z; apply H; rewrite Z; ring.
      * cbn [part_from pt_support pt_start u_t_start]. rewrite Rmax_left; [reflexivity|lra].
    + assert (Ix : In x (j_parts old)) by (rewrite El; apply in_or_app; right; now right). destruct (K x Ix) as [L1 S2]. split; [exact L1|].
      inversion Fr as [|? ? _ Fr']; subst. destruct (contiguous_starts _ _ _ _ Cr Fr' Hx) as [X1 _]. rewrite S2 in X1 |- *.
      unfold Rmax in X1 |- *. destruct (Rle_dec (j_start old) _); destruct (Rle_dec t _); lra.
Qed.
Print Assumptions C155_goes_on.

(** The walks that are planned or replanned are such walks when the supports are new: only the first one may have a start time, and this time is not later than the walk. *)
Theorem C155_clocked L g supports j ss t0 : (forall s, In s supports -> time_ok (w_base (g_params g)) s) ->
  (forall i s, nth_error supports i = Some s -> u_t_start s = -1 \/ (i = 0%nat /\ u_t_start s <= t0)) ->
  ((exists com, plan L g supports com t0 = Ok (j, ss)) \/ (exists old, replan L g supports old t0 = Ok (j, ss) /\ j_success j = true)) ->
  contiguous t0 (j_parts j) (j_end j) /\ Forall (fun q => pt_start q < pt_end q) (j_parts j) /\ clocked (w_base (g_params g)) j.
Proof.
  intros T U H. assert (X : j_start j = t0 /\ contiguous t0 (j_parts j) (j_end j) /\ Forall2 (carries (w_base (g_params g))) supports (j_parts j)).
  { destruct H as [(com & E)|(old & E & Hs)]; [exact (C55_plan _ _ _ _ _ _ _ E)|exact (C55_replan _ _ _ _ _ _ _ E Hs)]. }
  destruct X as (Sj & C & Ca). clear H. split; [exact C|].
  assert (F : lasting (j_parts j)).
  { apply Forall_forall. intros q Hq. apply In_nth_error in Hq as (i & Hq). destruct (Forall2_nth _ _ _ _ _ Ca Hq) as (s & Hs & _ & _ & _ & _ & _ & _ & C7).
    destruct (time_lasts _ _ (T s (nth_error_In _ _ Hs))) as (d & Hd & Hd0). rewrite (lasts_det _ _ _ _ Hd C7) in Hd0. lra. }
  split; [exact F|]. intros q Hq. destruct (contiguous_starts _ _ _ _ C F Hq) as [S1 _]. apply In_nth_error in Hq as (i & Hq).
  destruct (Forall2_nth _ _ _ _ _ Ca Hq) as (s & Hs & C1 & C2 & C3 & C4 & C5 & C6 & (d & D1 & D2)). split.
  - exists d. split; [unfold default_duration in *; now rewrite C1, C4, C5|]. now rewrite C2, C3.
  - rewrite C6, Sj. destruct (Req_EM_T (u_t_start s) (-1)); [now rewrite Rmax_right|]. destruct (U i s Hs) as [X|[-> X]]; [contradiction|]. rewrite Rmax_left by exact X.
    destruct (j_parts j); [discriminate Hq|]. cbn in Hq. injection Hq as ->. exact (proj1 C).
Qed.
Print Assumptions C155_clocked.

(** After the end of the old walk nothing of it is left: all the getters throw. *)
Theorem C155_over_behaviour L g supports old t j ss : Forall (fun q => pt_start q < pt_end q) (j_parts old) -> (forall q, In q (j_parts old) -> pt_end q <= t) ->
  replan L g supports old t = Ok (j, ss) -> j_success j = false ->
  forall t', get_p_world_CoM L j t' = Throw ERuntime /\ get_support j t' = Throw ERuntime /\ (forall sd, get_T_world_foot j sd t' = Throw ERuntime) /\
    forall supports', exists e, replan L g supports' j t' = Throw e.
Proof.
  intros F H E Hs t'. destruct (replan_inv _ _ _ _ _ _ _ E) as (_ & p & v & ac & _ & _ & _ & pl & j1 & Ec & Ef). destruct pl.
  { destruct (planned_parts _ _ _ _ _ _ _ _ _ _ _ Ec Ef) as (_ & _ & _ & _ & Sc & _). rewrite Sc in Hs. cbn in Hs. discriminate Hs. }
  unfold trim_old_trajectory in Ef. rewrite (trim_over _ _ _ _ F H) in Ef. cbn [obind] in Ef. injection Ef as <-. set (k := WTraj _ _ _ _ _ _ _ _ _ _ _).
  destruct (C54_empty L k t' 0 1 eq_refl) as (_ & _ & E1 & _ & _ & _ & E2 & _ & _ & _ & _ & E3). split; [exact E2|]. split; [exact E1|]. split; [intros sd; apply E3|].
  intros [|s r]; [exists ERuntime; reflexivity|]. exists ERuntime. unfold replan. cbv zeta. now rewrite E2.
Qed.
Print Assumptions C155_over_behaviour.

(** ** Examples: the walk on the spot of C151, replanned in the middle of the step of the right foot *)
Definition ex_rest : list support :=
  [Support [ex_left] 0 (1/2) 1 (0, 0) false false [] false; new_support [ex_left; ex_right]; new_support [ex_right]; new_support [ex_left; ex_right]].

Lemma ex_half : time_ok ex_gait (Support [ex_left] 0 (1/2) 1 (0, 0) false false [] false).
Proof. split; [|cbn; lra]. exists 1. split; [reflexivity|lra]. Qed.
Lemma ex_half_polygon : polygon_ok ex_hull (Support [ex_left] 0 (1/2) 1 (0, 0) false false [] false).
Proof. destruct (ex_support (new_support [ex_left])) as (_ & P & _); [left; right; now left|]. exact P. Qed.
Lemma ex_rest_ok : rewalk_ok ex_hull ex_gait ex_rest /\ feet_walk ex_gait ex_rest.
Proof.
  assert (F : forall s, In s ex_rest -> feet_ok s /\ polygon_ok ex_hull s /\ time_ok ex_gait s /\ (forall f, In f (u_footsteps s) -> only_turned (f_frame f))).
  { intros s [<-|Hs].
    - split; [left; eexists; reflexivity|]. split; [exact ex_half_polygon|]. split; [exact ex_half|]. intros f [<-|[]]. apply id_turned.
    - assert (Is : In s ex_steps) by (right; right; exact Hs). destruct (ex_support s (or_introl Is)) as (A & B & C & _). split; [exact A|]. split; [exact B|]. split; [exact C|]. intros f. apply (ex_turned s f). now left. }
  destruct ex_steps_ok as (_ & (_ & St) & _). destruct ex_feet_walk as (_ & K & _). split.
  - split; [intros s Hs; destruct (F s Hs) as (A & B & C & _); auto|]. split; [exact (proj2 (proj2 St))|].
    intros l s r E U. exfalso. assert (I : In s ex_rest) by (rewrite E; apply in_or_app; right; now left). destruct I as [<-|[<-|[<-|[<-|[]]]]]; discriminate U.
  - split; [intros s Hs; destruct (F s Hs) as (A & _ & C & D); auto|]. split; [exact (proj2 K)|]. intros i s Hi. destruct i as [|[|[|i]]]; cbn in Hi; try (injection Hi as <-; reflexivity). destruct i; discriminate Hi.
Qed.

(** What replanning reads in the old walk. *)
Lemma ex_reads g com t old ss : g_params g = ex_wparams (w_zmp_margin (g_params g)) -> g_omega_2 g <> 0 -> plan ex_libs g ex_steps com t = Ok (old, ss) ->
  (forall t', exists p v a, get_p_world_CoM ex_libs old t' = Ok p /\ get_v_world_CoM ex_libs old t' = Ok v /\ get_a_world_CoM ex_libs old t' = Ok a) /\
  (forall t', reads_trunk old t') /\ reads_foot old Right (t + 3/2) /\ (forall q, In q (j_parts old) -> exists d, default_duration ex_gait (pt_support q) d) /\ only_turned (j_T old).
Proof.
  intros Eg Ho E. assert (Eb : w_base (g_params g) = ex_gait) by (rewrite Eg; reflexivity). destruct ex_contracts as (He & _).
  assert (D : forall s d, In s ex_steps -> lasts (w_base (g_params g)) s d -> 0 < d).
  { intros s d Hs Hd. rewrite Eb in Hd. destruct (ex_support s (or_introl Hs)) as (_ & _ & _ & _ & L1 & _). rewrite (lasts_det _ _ _ _ Hd L1). lra. }
  destruct (C105_plan ex_libs g ex_steps com t old ss He Ho D E) as (_ & X & Y & _ & _ & G & _). split; [intros t'; destruct (G t') as (G1 & G2 & G3); eauto 6|].
  pose proof ex_feet_walk as Fw. rewrite <- Eb in Fw. destruct (C154_readable ex_libs g ex_steps old ss Fw) as (R1 & R2 & R3); [left; eauto|]. split; [exact R1|]. split; [|split; [rewrite <- Eb; exact R2|]].
  - destruct (ex_parts _ _ _ _ _ _ Eb E) as (Ln & _ & Pt). destruct (nth_error (j_parts old) 1) as [q|] eqn:Hq; [|apply nth_error_None in Hq; lia]. destruct (Pt 1%nat q Hq) as (A & B & _). cbn [INR] in A, B.
    apply (R3 1%nat (new_support [ex_left]) q (t + 3/2) Right eq_refl Hq); [lra|]. intros (f & [<-|[]] & Sf). discriminate Sf.
  - destruct (plan_inv _ _ _ _ _ _ _ E) as (_ & j1 & Ec & Ef). destruct (planned_parts _ _ _ _ _ _ _ _ _ _ _ Ec Ef) as (_ & _ & _ & _ & _ & T & _). cbn in T. exists 0. rewrite T. cbn [frame_id fr_R]. unfold m3_id, rot_z. rewrite cos_0, sin_0. f_equal; ring.
Qed.

(** A soft planner replans the walk; the one that wants a margin of one meter does not, and the old walk goes on. *)
Example C154_example com t : exists old ss, plan ex_libs ex_soft ex_steps com t = Ok (old, ss) /\
  (exists j ss', replan ex_libs ex_soft ex_rest old (t + 3/2) = Ok (j, ss') /\ j_success j = true /\ get_T_world_foot j Right (t + 3/2) = get_T_world_foot old Right (t + 3/2) /\
     get_T_world_foot j Right (t + 2) = Ok (f_frame ex_right)) /\
  (exists j ss', replan ex_libs (new_wpg (ex_wparams 1)) ex_steps old (t + 1/2) = Ok (j, ss') /\ j_success j = false /\ j_start j = t + 1/2 /\
     same_motion ex_libs j old (t + 3/2)).
Proof.
  destruct (C151_example com t) as (_ & _ & _ & (old & ss & E)). exists old, ss. split; [exact E|].
  destruct (ex_reads ex_soft com t old ss eq_refl ltac:(cbn; lra) E) as (Rc & Rt & Rf & Dd & Ut). destruct ex_contracts as (He & Hqr & Hqp & Hqr' & Hqp'). split.
  - destruct (Rc (t + 3/2)) as (p & v & a & Ep & Ev & Ea). destruct ex_rest_ok as [W Fw].
    destruct (C154_replanned_exactly_when_possible ex_libs ex_soft ex_rest old (t + 3/2) p v a He Hqr Hqp Hqr' Hqp' ltac:(cbn; lra) ltac:(cbn; lra) ltac:(cbn; lra) ltac:(cbn; lra) ltac:(cbn; lra) W Ep Ev Ea (Rt _))
      as (j & ss' & Er & Hs).
    { intros s r f Es Ef. injection Es as <- <-. injection Ef as <-. exact Rf. }
    { exact Dd. }
    assert (Sj : j_success j = true) by (apply Hs; now left). exists j, ss'. split; [exact Er|]. split; [exact Sj|].
    destruct (C153_feet ex_libs ex_soft ex_rest old (t + 3/2) j ss' Right Fw Ut Er Sj) as (P & Y & Wy & _ & H). destruct (C55_replan _ _ _ _ _ _ _ Er Sj) as (_ & Cn & Ca).
    destruct (Forall2_nth_l _ _ _ 0%nat _ Ca eq_refl) as (q & Hq & _ & _ & _ & _ & _ & _ & Lq). destruct (H 0%nat _ q eq_refl Hq) as [_ Fl].
    destruct Fl as (s2 & F1 & F2 & v' & dy & d & V & Hs2 & SF2 & _ & G1 & G2 & _ & _ & _ & _ & G3); [intros (f & [<-|[]] & Sf); discriminate Sf|]. destruct (G3 eq_refl) as (Q0 & G4 & _). injection Hs2 as <-.
    assert (F2 = f_frame ex_right) as -> by (destruct SF2 as (f & [<-|[<-|[]]] & Sf & <-); [discriminate Sf|reflexivity]).
    assert (Q1 : pt_end q = t + 2). { assert (L2 : lasts (w_base (g_params ex_soft)) (Support [ex_left] 0 (1/2) 1 (0, 0) false false [] false) (1/2)) by (exists 1; split; [reflexivity|cbn; lra]). pose proof (lasts_det _ _ _ _ Lq L2). lra. }
    rewrite Q0 in G1. rewrite Q1 in G2. split; [congruence|exact G2].
  - destruct (Rc (t + 1/2)) as (p & v & a & Ep & Ev & Ea). destruct (ex_weights 1) as (Ho & W1 & W2 & W3 & Wr).
    assert (W : rewalk_ok ex_hull ex_gait ex_steps) by (destruct ex_steps_ok as (A & (_ & B) & C); split; [exact A|split; [exact B|exact C]]).
    destruct (C154_replanned_exactly_when_possible ex_libs (new_wpg (ex_wparams 1)) ex_steps old (t + 1/2) p v a He Hqr Hqp Hqr' Hqp' Ho W1 W2 W3 Wr W Ep Ev Ea (Rt _)) as (j & ss' & Er & Hs).
    { intros s r f Es Ef. injection Es as <- <-. discriminate Ef. }
    { exact Dd. }
    assert (Sj : j_success j = false).
    { apply not_true_iff_false. intros X. apply Hs in X as [X|X]; [discriminate X|]. cbn [walkable ex_steps] in X. destruct X as (n & d & polygon & ux & uy & Hn & _ & Hp & Hz & _).
      assert (n1 : (1 <= n)%nat). { apply steps_remaining in Hn. subst n. apply remaining_timesteps_pos. }
      specialize (Hz 1%nat ltac:(lia)). destruct (ex_support (set_start (new_support [ex_left; ex_right]) true)) as (_ & _ & _ & _ & _ & x0 & x1 & y0 & y1 & Epo & Hx & Hy & Hw); [left; now left|].
      cbn [ex_libs l_hull] in Hp. rewrite Epo in Hp. injection Hp as <-. apply rectangle_inside in Hz; cbn [w_zmp_margin g_params new_wpg ex_wparams] in *; lra. }
    exists j, ss'. split; [exact Er|]. split; [exact Sj|]. destruct (ex_parts ex_libs ex_soft com t old ss eq_refl E) as (Ln & Ee & Pt). destruct (C55_plan _ _ _ _ _ _ _ E) as (_ & Cn & _).
    destruct (C155_goes_on ex_libs (new_wpg (ex_wparams 1)) ex_steps old (t + 1/2) j ss' t (j_end old) Cn) as (S1 & _ & _ & _ & Sm & _).
    { apply Forall_forall. intros q Hq. apply In_nth_error in Hq as (i & Hq). destruct (Pt i q Hq) as (A & B & _). lra. }
    { lra. } { exact Er. } { exact Sj. }
    split; [exact S1|]. apply Sm; [lra|]. intros q Hq. apply In_nth_error in Hq as (i & Hq). destruct (Pt i q Hq) as (A & B & _). intros X. rewrite B in X.
    destruct i as [|i]; [cbn in X; lra|]. rewrite S_INR in X. pose proof (pos_INR i). lra.
Qed.
