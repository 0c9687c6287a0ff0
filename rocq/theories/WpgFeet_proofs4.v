(** The motion of a foot in a planned walk. *)
From Coq Require Import Reals Lra Lia List ZArith Bool.
From Verif Require Import Base Angle Linalg Geom3 Tools_model Spline_model Spline_spec Spline_proofs Spline_props Swing_model Swing_spec Swing_proofs Swing_props
  Geometry_model Geometry_proofs Footsteps_model Wpg_model Wpg_spec Wpg_proofs Wpg_proofs2 Wpg_proofs3 Wpg_proofs5 WpgPlan_spec WpgFeet_spec WpgFeet_proofs WpgFeet_proofs2 WpgFeet_proofs3.
Import ListNotations.
Open Scope R_scope.

Lemma swing_flight a b D h r s e elapsed v w : make_cswing a D h r s e elapsed v = Ok w -> 0 < D -> elapsed < 1 -> b = a + (1 - elapsed) * D ->
  r < 1 /\ exists P V, (forall t, cswing_pos w t = Ok (P t) /\ cswing_vel w t = Ok (V t)) /\ continuous3 P /\ (forall t, t <= a -> P t = s) /\ (forall t, b <= t -> P t = e) /\
    flight h r (a - elapsed * D) a b s e v P V.
Proof.
  intros E HD He Hb. assert (Hr : r < 1). { destruct (Rlt_dec r 1) as [H|H]; [exact H|]. destruct (C59_success a D h r s e elapsed v HD He) as [_ X]. rewrite X in E by lra. discriminate E. }
  split; [exact Hr|]. destruct (C59_trajectory a D h r s e elapsed v HD He Hr) as (w' & P & V & E' & Q & A1 & A2 & C1 & C2 & Vel & H1 & H2 & H3 & H4 & H5).
  rewrite E in E'. injection E' as <-. set (begin := a - elapsed * D) in *. assert (Eb : begin + D = b) by (unfold begin; lra). rewrite Eb in *. assert (Db : b - begin = D) by lra.
  assert (Lt : a < b). { rewrite Hb. assert (0 < (1 - elapsed) * D) by (apply Rmult_lt_0_compat; lra). lra. }
  exists P, V. split; [exact Q|]. split; [exact C1|]. split; [intros t Ht; now apply A1|]. split; [intros t Ht; now apply A2|].
  unfold flight. rewrite Db. cbv zeta. replace ((begin + b) / 2) with (begin + D / 2) by lra.
  split; [apply A1; lra|]. split; [apply A2; lra|]. split; [apply A1; lra|]. split; [apply A2; lra|]. split; [exact C2|]. split; [exact Vel|].
  split; [intros R0 Ha t Ht; now apply H1|]. split; [intros R0 Ha; now apply H2|]. split; [intros R0 Ha; now apply H3|]. split; [exact H4|]. intros Z t _. now apply H5.
Qed.

Lemma flight_ext h r begin a b s e v P V P' : r < 1 -> begin <= b -> a < b -> (forall t, a <= t <= b -> P' t = P t) -> flight h r begin a b s e v P V -> flight h r begin a b s e v P' V.
Proof.
  intros Hr Hb Hab E (A1 & A2 & A3 & A4 & C & Vel & H1 & H2 & H3 & H4 & H5). unfold flight. cbv zeta in *.
  rewrite !E by lra. do 5 (split; [assumption|]). split.
  - intros t Ht. destruct (Vel t Ht) as (D1 & D2 & D3). assert (M : 0 < Rmin (t - a) (b - t)) by (apply Rmin_glb_lt; lra).
    assert (X : forall x, Rabs (x - t) < Rmin (t - a) (b - t) -> P' x = P x).
    { intros x Hx. apply E. pose proof (Rmin_l (t - a) (b - t)). pose proof (Rmin_r (t - a) (b - t)). apply Rabs_def2 in Hx. lra. }
    split; [|split]; (eapply derivable_local; [exact M| |eassumption]); intros x Hx; now rewrite X.
  - assert (Lm : begin + (b - begin) * (1 + r) / 2 <= b) by nra.
    assert (Lf : 0 < r -> begin + (b - begin) * (1 - r) / 2 <= begin + (b - begin) * (1 + r) / 2) by (intros; nra).
    split; [intros R0 Ha t Ht; rewrite E by lra; now apply H1|]. split; [intros R0 Ha; rewrite E by lra; now apply H2|].
    split; [intros R0 Ha; rewrite E by lra; now apply H3|]. split; [intros Vx Vy t Ht; rewrite E by exact Ht; now apply H4|]. intros Vz t Ht. rewrite E by exact Ht. now apply H5.
Qed.

Lemma cubic_turn a b y dy y' Y W A : a < b -> cubic_between a y dy b y' 0 Y W A -> continuity Y -> Rabs (y' - y) <= PI -> (forall t, a < t < b -> derivable_pt_lim Y t (W t)) -> turn a b dy Y W.
Proof.
  intros L H _ Pi D. pose proof H as (k0 & k1 & k2 & k3 & _ & _ & E1 & E2 & E3 & E4 & _). unfold turn. rewrite E1, E3. split; [exact Pi|]. split; [exact E2|]. split; [exact E4|]. split; [exact D|].
  intros -> t Ht. destruct (cubic_at_rest _ _ _ _ _ _ _ L H t Ht) as [F G]. eexists. split; [exact G|exact F].
Qed.

Section Motion.
Variables (p : wparams) (j k : wtraj) (old : option wtraj) (b : R).
Hypothesis E : plan_feet_trajectories p j old = Ok k.
Hypothesis HT : j_T j = frame_id.
Hypothesis Hl : j_left j = new_spline true.
Hypothesis Hr : j_right j = new_spline true.
Hypothesis C : contiguous (j_start j) (j_parts k) b.

Definition timed (i : nat) (q : part) : Prop :=
  feet_ok (pt_support q) /\ pt_start q < pt_end q /\ (i <> 0%nat -> length (u_footsteps (pt_support q)) = 1%nat -> u_elapsed_ratio (pt_support q) = 0) /\
  exists d, support_default_duration (w_base p) (pt_support q) = Ok d /\ 0 < d * u_time_ratio (pt_support q) /\ u_elapsed_ratio (pt_support q) < 1 /\
    pt_end q = pt_start q + (1 - u_elapsed_ratio (pt_support q)) * (d * u_time_ratio (pt_support q)).
Hypothesis T : forall i q, nth_error (j_parts k) i = Some q -> timed i q.
Hypothesis Kept : forall i q q' sd F F', nth_error (j_parts k) i = Some q -> nth_error (j_parts k) (S i) = Some q' ->
  footstep_frame (pt_support q) sd = Ok F -> footstep_frame (pt_support q') sd = Ok F' -> F = F'.

(** The swing of a part, and how it starts. *)
Definition swing_start (i : nat) (q : part) (sd : side) (s v : vec3) (y dy elapsed : R) : Prop :=
  match i with
  | S i' => v = v3_zero /\ elapsed = 0 /\ dy = 0 /\
      exists q' F, nth_error (j_parts k) i' = Some q' /\ footstep_frame (pt_support q') sd = Ok F /\ s = fr_t F /\ y = frame_yaw (fr_R F)
  | O => elapsed = u_elapsed_ratio (pt_support q) /\
      exists o F, old = Some o /\ get_T_world_foot o sd (j_start j) = Ok F /\ s = fr_t F /\ get_v_world_foot o sd (j_start j) = Ok v /\
        get_yaw_world_foot o sd (j_start j) = Ok y /\ snd (vel (foot_yaw o sd) (j_start j)) = Ok dy
  end.

Lemma same_angle_rot x y : same_angle x y -> rot_z x = rot_z y.
Proof. intros H. destruct (same_angle_cos_sin _ _ H) as [A B]. unfold rot_z. now rewrite A, B. Qed.
Lemma only_turned_rot F y : only_turned F -> same_angle y (frame_yaw (fr_R F)) -> rot_z y = fr_R F.
Proof. intros (a & ->) H. rewrite (same_angle_rot _ _ H). apply same_angle_rot. apply frame_yaw_rot_z. Qed.

Lemma foot_pos_stands q sd t F : feet_ok (pt_support q) -> footstep_frame (pt_support q) sd = Ok F -> foot_pos q sd t = Ok (fr_t F).
Proof.
  intros Hf HF. unfold foot_pos, is_both, support_side. destruct Hf as [(f & Ef)|(f & h & Ef & Hs)].
  - rewrite Ef. cbn. rewrite (single_frames _ _ _ Ef) in *. destruct (f_side f), sd; try discriminate HF; injection HF as <-; reflexivity.
  - rewrite Ef. cbn. rewrite HF. reflexivity.
Qed.
Lemma foot_pos_flies q f t : u_footsteps (pt_support q) = [f] -> foot_pos q (other_side (f_side f)) t = cswing_pos (pt_swing q) t.
Proof. intros Ef. unfold foot_pos, is_both, support_side. rewrite Ef. cbn. now destruct (f_side f). Qed.

Lemma stands_or_flies s sd : feet_ok s -> (exists F, footstep_frame s sd = Ok F) \/ (exists f, u_footsteps s = [f] /\ sd = other_side (f_side f)).
Proof.
  intros [(f & Ef)|(f & h & Ef & Hs)].
  - rewrite (single_frames _ _ _ Ef). destruct (f_side f) eqn:Es, sd; cbn; eauto; right; exists f; rewrite Es; auto.
  - left. unfold footstep_frame. rewrite Ef. cbn. rewrite Hs. destruct (f_side f), sd; cbn; eauto.
Qed.


Lemma right_unique l a c t i m q q' : contiguous a l c -> Forall (fun q => pt_start q < pt_end q) l -> right_part l t m q' -> nth_error l i = Some q ->
  (i = 0%nat \/ pt_start q < t) -> t < pt_end q -> m = i /\ q' = q.
Proof.
  intros Cl Fl (Hm & A & B) Hi L U. assert (F' : Forall (fun p => pt_start p <= pt_end p) l) by (eapply Forall_impl; [|exact Fl]; cbn; intros; lra).
  destruct (lt_eq_lt_dec m i) as [[Lt|Eq]|Gt].
  - exfalso. destruct B as [B|B]; [assert (i < length l)%nat by (apply nth_error_Some; congruence); lia|].
    pose proof (contiguous_later _ _ _ Cl F' (i - m - 1) m q' q Hm) as K. replace (m + S (i - m - 1))%nat with i in K by lia. specialize (K Hi). destruct L as [L|L]; [lia|lra].
  - subst m. split; [reflexivity|congruence].
  - exfalso. destruct A as [A|A]; [lia|]. pose proof (contiguous_later _ _ _ Cl F' (m - i - 1) i q q' Hi) as K. replace (i + S (m - i - 1))%nat with m in K by lia. specialize (K Hm). lra.
Qed.
Lemma contiguous_last : forall l a c q, contiguous a l c -> nth_error l (length l - 1) = Some q -> pt_end q = c.
Proof.
  induction l as [|q0 l IH]; intros a c q Cl H; [discriminate H|]. destruct Cl as [_ Cl]. destruct l as [|q1 l]; [cbn in *; injection H as <-; exact Cl|].
  apply (IH _ _ _ Cl). cbn [length] in *. replace (S (S (length l)) - 1)%nat with (S (S (length l) - 1)) in H by lia. exact H.
Qed.
Lemma part_at l a c t : timeline a l c -> exists i q, right_part l t i q.
Proof. intros H. destruct (find_right _ _ _ t H) as (i & q & _ & R). eauto. Qed.

Lemma foot_motion sd : (forall i q F, nth_error (j_parts k) i = Some q -> footstep_frame (pt_support q) sd = Ok F -> only_turned F) -> exists P Y W,
  (forall t, get_T_world_foot k sd t = Ok (Frame (rot_z (Y t)) (P t))) /\ continuous3 P /\ continuity Y /\ continuity W /\
  (forall t, t <= j_start j -> P t = P (j_start j) /\ Y t = Y (j_start j)) /\ (forall t, b <= t -> P t = P b /\ Y t = Y b) /\
  forall i q, nth_error (j_parts k) i = Some q ->
    (forall F, footstep_frame (pt_support q) sd = Ok F -> forall t, pt_start q <= t <= pt_end q -> P t = fr_t F /\ rot_z (Y t) = fr_R F) /\
    (forall f, u_footsteps (pt_support q) = [f] -> sd = other_side (f_side f) -> exists q' Te s v y dy elapsed d V,
       nth_error (j_parts k) (S i) = Some q' /\ footstep_frame (pt_support q') sd = Ok Te /\ swing_start i q sd s v y dy elapsed /\ support_default_duration (w_base p) (pt_support q) = Ok d /\
       w_rise_ratio p < 1 /\ flight (w_foot_height p) (w_rise_ratio p) (pt_start q - elapsed * (d * u_time_ratio (pt_support q))) (pt_start q) (pt_end q) s (fr_t Te) v P V /\
       turn (pt_start q) (pt_end q) dy Y W /\ same_angle (Y (pt_start q)) y /\ rot_z (Y (pt_end q)) = fr_R Te /\
       (forall t, (i = 0%nat \/ pt_start q < t) -> t < pt_end q -> get_v_world_foot k sd t = Ok (V t))).
Proof.
  intros Up. set (l := j_parts k) in *.
  pose proof (plan_feet_keeps _ _ _ _ E) as (Es & _ & _ & _ & _ & _ & ET & Sw). rewrite HT in ET. fold l in Sw.
  assert (Fk : forall q, In q l -> feet_ok (pt_support q)) by (intros q Hq; destruct (In_nth_error _ _ Hq) as (i & Hi); apply (T i q Hi)).
  destruct (plan_feet_pts p j old k E (same_feet _ _ (same_sym _ _ Sw) Fk) Hl Hr) as (q0 & ls & Hq0 & First & Yp & Go & Later). fold l in Hq0, First, Yp, Go, Later.
  assert (Ft : Forall (fun q => pt_start q < pt_end q) l) by (apply Forall_forall; intros q Hq; destruct (In_nth_error _ _ Hq) as (i & Hi); apply (T i q Hi)).
  assert (Nl : l <> []) by (intros X; rewrite X in Hq0; discriminate Hq0).
  assert (TL : timeline (j_start j) l b) by (split; [exact Nl|]; split; [exact C|]; eapply Forall_impl; [|exact Ft]; cbn; intros; lra).
  assert (S0 : pt_start q0 = j_start j) by (destruct l as [|x r]; [discriminate Hq0|]; cbn in Hq0; injection Hq0 as ->; exact (proj1 C)).
  (* how the foot starts *)
  assert (St : exists s0 v0 y0 dy0, ls sd = [(j_start j, y0, dy0)] /\
    (forall F, footstep_frame (pt_support q0) sd = Ok F -> s0 = fr_t F /\ y0 = frame_yaw (fr_R F) /\ dy0 = 0) /\
    (forall f, u_footsteps (pt_support q0) = [f] -> sd = other_side (f_side f) ->
       swing_start 0 q0 sd s0 v0 y0 dy0 (u_elapsed_ratio (pt_support q0)) /\ swing_made p l 0 q0 s0 v0 (u_elapsed_ratio (pt_support q0)))).
  { destruct First as [F1 F2]. destruct (Nat.eq_dec (length (u_footsteps (pt_support q0))) 1) as [L1|L1].
    - destruct (F2 L1) as (f & o & F & v & y & dy & Eo & Ef & G1 & G2 & G3 & G4 & G5 & G6 & G7). cbv zeta in *.
      destruct (T 0%nat q0 Hq0) as (Hf & _). destruct (stands_or_flies (pt_support q0) sd Hf) as [(F' & HF)|(f' & Ef' & Hs)].
      + exists (fr_t F'), v3_zero, (frame_yaw (fr_R F')), 0. pose proof HF as HF2. rewrite (single_frames _ _ _ Ef) in HF2. assert (sd = f_side f /\ F' = f_frame f) as [-> ->].
        { destruct (f_side f), sd; cbn in HF2; try discriminate HF2; injection HF2 as <-; auto. }
        split; [exact G7|]. split; [intros F0 HF0; rewrite HF in HF0; injection HF0 as <-; auto|]. intros f' Ef' Hs. rewrite Ef in Ef'. injection Ef' as <-. destruct (f_side f); discriminate Hs.
      + rewrite Ef in Ef'. injection Ef' as <-. subst sd. exists (fr_t F), v, y, dy. split; [exact G6|]. split.
        * intros F0 HF0. rewrite (single_frames _ _ _ Ef) in HF0. destruct (f_side f); discriminate HF0.
        * intros f' Ef' _. rewrite Ef in Ef'. injection Ef' as <-. split; [|exact G5]. cbn. split; [reflexivity|]. exists o, F. auto 10.
    - destruct (T 0%nat q0 Hq0) as (Hf & _). destruct (feet_double _ Hf L1 sd) as (F & HF). exists (fr_t F), v3_zero, (frame_yaw (fr_R F)), 0. rewrite (F1 L1 sd), HF. split; [reflexivity|].
      split; [intros F0 HF0; injection HF0 as <-; auto|]. intros f Ef. rewrite Ef in L1. cbn in L1. contradiction. }
  destruct St as (s0 & v0 & y0 & dy0 & Els & Sst & Sfl).
  set (A i := match i with O => s0 | S i' => match goes l i' sd with Ok F => fr_t F | _ => v3_zero end end).
  set (Ya i := match i with O => (y0, dy0) | S i' => (yaw_of (goes l i' sd), 0) end).
  assert (Stand : forall i q F, nth_error l i = Some q -> footstep_frame (pt_support q) sd = Ok F -> A i = fr_t F /\ A (S i) = fr_t F /\ Ya i = (frame_yaw (fr_R F), 0) /\ Ya (S i) = (frame_yaw (fr_R F), 0)).
  { intros i q F Hq HF. assert (G : goes l i sd = Ok F) by (unfold goes; rewrite Hq, HF; reflexivity).
    assert (X : A i = fr_t F /\ Ya i = (frame_yaw (fr_R F), 0)).
    { destruct i as [|i]; [replace q0 with q in Sst by congruence; destruct (Sst F HF) as (-> & -> & ->); split; reflexivity|].
      assert (G' : goes l i sd = Ok F).
      { unfold goes. destruct (nth_error l i) as [q'|] eqn:Hq'; [|apply nth_error_None in Hq'; assert (S i < length l)%nat by (apply nth_error_Some; congruence); lia].
        destruct (footstep_frame (pt_support q') sd) as [F'|e|] eqn:HF'; [f_equal; exact (Kept i q' q sd F' F Hq' Hq HF' HF)| |]; replace (i + 1)%nat with (S i) by lia; rewrite Hq; exact HF. }
      unfold A, Ya. rewrite G'. split; reflexivity. }
    unfold A at 2, Ya at 2. rewrite G. destruct X as [-> ->]. auto. }
  assert (Fly : forall i q f, nth_error l i = Some q -> u_footsteps (pt_support q) = [f] -> sd = other_side (f_side f) -> exists v,
     swing_start i q sd (A i) v (fst (Ya i)) (snd (Ya i)) (u_elapsed_ratio (pt_support q)) /\ swing_made p l i q (A i) v (u_elapsed_ratio (pt_support q))).
  { intros i q f Hq Ef Hs. destruct i as [|i]; [replace q0 with q in Sfl by congruence; exists v0; exact (Sfl f Ef Hs)|].
    assert (L1 : length (u_footsteps (pt_support q)) = 1%nat) by (rewrite Ef; reflexivity).
    destruct (Later i q Hq L1) as (f' & q' & F & Ef' & Hq' & HF & M). rewrite Ef in Ef'. injection Ef' as <-. rewrite <- Hs in HF. replace (S i - 1)%nat with i in Hq' by lia.
    destruct (T (S i) q Hq) as (_ & _ & El & _). rewrite (El ltac:(lia) L1). exists v3_zero.
    assert (G' : goes l i sd = Ok F) by (unfold goes; rewrite Hq', HF; reflexivity).
    assert (AF : A (S i) = fr_t F) by (unfold A; rewrite G'; reflexivity). assert (YF : Ya (S i) = (frame_yaw (fr_R F), 0)) by (unfold Ya; rewrite G'; reflexivity).
    rewrite AF, YF. split; [|exact M]. cbn [swing_start fst snd]. repeat (split; [reflexivity|]). exists q', F. auto. }
  (* the position *)
  assert (Pieces : forall i q, nth_error l i = Some q -> piece sd q (A i) (A (S i))).
  { intros i q Hq. destruct (T i q Hq) as (Hf & Lt & _ & d & Hd & HD & He & Hb). destruct (stands_or_flies (pt_support q) sd Hf) as [(F & HF)|(f & Ef & Hs)].
    - destruct (Stand i q F Hq HF) as (-> & -> & _). exists (fun _ => fr_t F). split; [intros t; now apply foot_pos_stands|]. split; [|split; reflexivity].
      split; [|split]; apply continuity_const; intros x y; reflexivity.
    - destruct (Fly i q f Hq Ef Hs) as (v & _ & f' & Te & d' & Ef' & Hg & Hd' & Hm). rewrite Ef in Ef'. injection Ef' as <-. rewrite Hd in Hd'. injection Hd' as <-. rewrite <- Hs in Hg.
      destruct (swing_flight _ _ _ _ _ _ _ _ _ _ Hm HD He Hb) as (_ & P & V & Q & CP & B1 & B2 & _). exists P. split; [intros t; rewrite Hs, (foot_pos_flies _ _ _ Ef); apply Q|].
      split; [exact CP|]. split; [exact B1|]. intros t Ht. unfold A. rewrite Hg. now apply B2. }
  destruct (glue_pieces sd l (j_start j) b A Nl C Ft Pieces) as (P & CP & P1 & P2 & P3).
  (* the yaw *)
  set (n := length l) in *. assert (Hn : (1 <= n)%nat) by (unfold n; destruct l; [congruence|cbn; lia]).
  specialize (Yp sd). cbv beta in Yp. rewrite Els in Yp. cbn [app] in Yp.
  assert (Ll : length ((j_start j, y0, dy0) :: map (stop l sd) (seq 0 n)) = S n) by (cbn; rewrite map_length, seq_length; reflexivity).
  destruct (yaw_curve _ _ Yp) as (Y & W & Q & CY & CW & Cub & B1 & B2 & Der); [rewrite Ll; lia|].
  assert (Nth : forall i, (i < n)%nat -> nth_error ((j_start j, y0, dy0) :: map (stop l sd) (seq 0 n)) (S i) = Some (stop l sd i)).
  { intros i Hi. cbn [nth_error]. rewrite (map_nth_error _ i (seq 0 n) (d := i)); [reflexivity|]. rewrite (nth_error_nth' _ 0%nat) by (rewrite seq_length; exact Hi). now rewrite seq_nth. }
  assert (At : forall i q, nth_error l i = Some q -> nth_error ((j_start j, y0, dy0) :: map (stop l sd) (seq 0 n)) i = Some (pt_start q, fst (Ya i), snd (Ya i)) /\
     nth_error ((j_start j, y0, dy0) :: map (stop l sd) (seq 0 n)) (S i) = Some (pt_end q, fst (Ya (S i)), snd (Ya (S i)))).
  { intros i q Hq. assert (Hi : (i < n)%nat) by (apply nth_error_Some; congruence). split; [|rewrite (Nth i Hi); unfold stop, Ya; rewrite Hq; reflexivity].
    destruct i as [|i]; [cbn; replace q with q0 by congruence; rewrite S0; reflexivity|]. rewrite (Nth i) by lia. unfold stop, Ya.
    destruct (nth_error l i) as [q'|] eqn:Hq'; [|apply nth_error_None in Hq'; unfold n in Hi; lia]. cbn [fst snd].
    pose proof (contiguous_later _ _ _ C (proj2 (proj2 TL)) 0 i q' q Hq') as K.
    assert (X : pt_start q = pt_end q').
    { clear -C Hq Hq'. revert C i Hq Hq'. generalize (j_start j). induction l as [|x r IHl]; intros a Cl i Hq Hq'; [destruct i; discriminate Hq'|]. destruct Cl as [_ Cl]. destruct i as [|i].
      - cbn in *. injection Hq' as ->. destruct r; [discriminate Hq|]. injection Hq as ->. exact (proj1 Cl).
      - exact (IHl _ Cl i Hq Hq'). }
    now rewrite X. }
  assert (Lq : exists qe, nth_error l (n - 1) = Some qe) by (destruct (nth_error l (n - 1)) as [qe|] eqn:Hqe; [eauto|apply nth_error_None in Hqe; unfold n in *; lia]).
  destruct Lq as (qe & Hqe). pose proof (contiguous_last _ _ _ _ C Hqe) as Eb.
  assert (Dy : forall t, j_start j < t < b -> derivable_pt_lim Y t (W t)).
  { apply Der; [exists (j_start j, y0, dy0); auto|]. exists (stop l sd (n - 1)). rewrite Ll. replace (S n - 1)%nat with (S (n - 1)) by lia. split; [apply Nth; lia|]. unfold stop. rewrite Hqe. exact Eb. }
  assert (Bnd : forall i q, nth_error l i = Some q -> j_start j <= pt_start q /\ pt_end q <= b).
  { intros i q Hq. split; [exact (start_before _ _ _ C (proj2 (proj2 TL)) i q Hq)|]. rewrite <- Eb. assert (Hi : (i < n)%nat) by (apply nth_error_Some; congruence).
    destruct (Nat.eq_dec i (n - 1)) as [->|Ne]; [replace qe with q by congruence; lra|].
    pose proof (contiguous_later _ _ _ C (proj2 (proj2 TL)) (n - 1 - i - 1) i q qe Hq) as K. replace (i + S (n - 1 - i - 1))%nat with (n - 1)%nat in K by lia. specialize (K Hqe).
    pose proof (proj1 (Forall_forall _ _) Ft qe (nth_error_In _ _ Hqe)) as K2. cbn in K2. lra. }
  exists P, Y, W. split; [|split; [exact CP|split; [exact CY|split; [exact CW|split; [|split]]]]].
  - intros t. destruct (find_part_right k (j_start j) b t TL) as (i & q & Fp & _ & Rp). unfold get_T_world_foot, is_flying. rewrite Fp. cbn [obind].
    pose proof (P3 t i q Rp) as Hp. unfold foot_pos in Hp. rewrite (proj1 (Q t)). rewrite ET.
    destruct (if is_both (pt_support q) then Ok false else s <- support_side (pt_support q) ;; Ok (side_eqb s (other_side sd))) as [fl|e|]; try discriminate Hp. cbn [obind] in *.
    rewrite Hp. cbn [obind]. f_equal. unfold build_frame, frame_mul, frame_id. cbn [fr_R fr_t]. rewrite m3_mul_id_l. f_equal. apply V3_ext; unfold v3_add, m3_vec, m3_id; cbn; ring.
  - intros t Ht. rewrite (P1 t Ht), (P1 (j_start j) (Rle_refl _)). split; [reflexivity|]. exact (B1 (j_start j, y0, dy0) eq_refl t Ht).
  - intros t Ht. rewrite (P2 t Ht), (P2 b (Rle_refl _)). split; [reflexivity|]. pose proof (B2 (stop l sd (n - 1))) as X. rewrite Ll in X. replace (S n - 1)%nat with (S (n - 1)) in X by lia.
    specialize (X (Nth (n - 1)%nat ltac:(lia))). unfold stop in X. rewrite Hqe in X. cbn [fst] in X. rewrite Eb in X. exact (X t Ht).
  - intros i q Hq. destruct (At i q Hq) as [N1 N2]. destruct (Cub i _ _ N1 N2) as (Lt & A1 & A2 & Pi & Acc & K). cbn [fst snd] in *. destruct (Bnd i q Hq) as [Bd1 Bd2].
    assert (Rp : forall t, pt_start q <= t <= pt_end q -> right_part l t i q) by (intros t Ht; split; [exact Hq|]; split; right; lra).
    split.
    + intros F HF t Ht. destruct (Stand i q F Hq HF) as (_ & _ & X1 & X2). rewrite X1, X2 in *. cbn [fst snd] in *.
      split; [pose proof (P3 t i q (Rp t Ht)) as Hp; rewrite (foot_pos_stands q sd t F (proj1 (T i q Hq)) HF) in Hp; now injection Hp|].
      assert (Eq : Y (pt_end q) = Y (pt_start q)) by (apply same_angle_close; [apply (same_angle_trans _ _ _ A2), same_angle_sym, A1|exact Pi]).
      apply only_turned_rot; [exact (Up i q F Hq HF)|]. destruct (cubic_at_rest _ _ _ _ _ _ _ Lt K t Ht) as [-> _]. rewrite Eq. rewrite Rminus_eq_0, Rmult_0_r, Rplus_0_r. exact A1.
    + intros f Ef Hs. destruct (T i q Hq) as (Hf & _ & _ & d & Hd & HD & He & Hb). destruct (Fly i q f Hq Ef Hs) as (v & Ss & f' & Te & d' & Ef' & Hg & Hd' & Hm).
      rewrite Ef in Ef'. injection Ef' as <-. rewrite Hd in Hd'. injection Hd' as <-. rewrite <- Hs in Hg.
      destruct (swing_flight _ _ _ _ _ _ _ _ _ _ Hm HD He Hb) as (Hrise & P' & V & Qw & _ & _ & _ & Fl).
      assert (Hnx : exists q', nth_error l (S i) = Some q' /\ footstep_frame (pt_support q') sd = Ok Te).
      { unfold goes in Hg. rewrite Hq, (single_frames _ _ _ Ef) in Hg. replace (side_eqb (f_side f) sd) with false in Hg by (rewrite Hs; now destruct (f_side f)).
        replace (i + 1)%nat with (S i) in Hg by lia. destruct (nth_error l (S i)) as [q'|]; [eauto|discriminate Hg]. }
      destruct Hnx as (q' & Hq' & HTe).
      exists q', Te, (A i), v, (fst (Ya i)), (snd (Ya i)), (u_elapsed_ratio (pt_support q)), d, V.
      split; [exact Hq'|]. split; [exact HTe|]. split; [exact Ss|]. split; [exact Hd|]. split; [exact Hrise|]. split.
      { apply (flight_ext _ _ _ _ _ _ _ _ P'); [exact Hrise| |exact Lt| |exact Fl].
        - rewrite Hb. assert (0 < (1 - u_elapsed_ratio (pt_support q)) * (d * u_time_ratio (pt_support q))) by (apply Rmult_lt_0_compat; lra). nra.
        - intros t Ht. pose proof (P3 t i q (Rp t Ht)) as Hp. rewrite Hs, (foot_pos_flies _ _ _ Ef), (proj1 (Qw t)) in Hp. now injection Hp. }
      split; [apply (cubic_turn _ _ _ _ _ _ _ _ Lt K CY Pi); intros t Ht; apply Dy; lra|]. split; [exact A1|]. split.
      { apply only_turned_rot; [exact (Up (S i) q' Te Hq' HTe)|]. unfold Ya in A2. rewrite Hg in A2. exact A2. }
      intros t Ht1 Ht2. destruct (find_part_right k (j_start j) b t TL) as (m & q1 & Fp & _ & R1). fold l in R1. destruct (right_unique l _ _ _ _ _ _ _ C Ft R1 Hq Ht1 Ht2) as [-> ->].
      unfold get_v_world_foot, support_side. rewrite Fp. cbn [obind]. rewrite Ef. cbn [length Nat.ltb Nat.leb obind]. rewrite ET.
      replace (side_eqb (f_side f) (other_side sd)) with true by (rewrite Hs; now destruct (f_side f)). rewrite (proj2 (Qw t)). cbn [obind frame_id fr_R]. f_equal. apply V3_ext; unfold m3_vec, m3_id; cbn; ring.
Qed.
End Motion.
