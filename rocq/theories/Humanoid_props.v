(** Properties C138 and C139: the support of a humanoid, and its IMU. *)
From Coq Require Import Reals List ZArith Bool String Lra Lia.
From Verif Require Import Base Linalg Angle Geom3 Tools_model Geometry_model Geometry_spec Geometry_proofs Geometry_props Footsteps_model Robot_model Robot_spec Robot_proofs Robot_props Humanoid_model Humanoid_spec Humanoid_proofs.
Import ListNotations.
Open Scope R_scope.

(** ** C138: the robot stays on its support *)

(** ensure_on_floor() puts the support frame where it should be; the joints do not move, so that the placement of a frame in another one is the same. *)
Theorem C138_on_floor pn moving h : hsound pn moving h ->
  exists h', ensure_on_floor pn h = Ok h' /\ hsound pn moving h' /\
    get_T_world_frame pn (hr_robot h') (hr_frame h') = Ok (hr_T h) /\ hr_frame h' = hr_frame h /\ hr_side h' = hr_side h /\ hr_T h' = hr_T h /\
    same_joints (st_q (r_state (hr_robot h'))) (st_q (r_state (hr_robot h))) /\ st_qd (r_state (hr_robot h')) = st_qd (r_state (hr_robot h)) /\
    (forall a b, moving a -> moving b -> frame_mul (frame_inv (at_frame pn h' a)) (at_frame pn h' b) = frame_mul (frame_inv (at_frame pn h a)) (at_frame pn h b)).
Proof.
  intros Hh. destruct (floor_spec pn moving h Hh) as (h' & E & P). pose proof Hh as (_ & _ & _ & (_ & M1) & _ & _ & _ & _ & RT). pose proof (body_rigid _ _ _ _ Hh M1) as R1.
  destruct P as (S & Em & U & Ef & Es & _ & _ & _ & ET & Hj & Ed & _ & Hf & Hg). exists h'. split; [exact E|]. split; [exact S|].
  split. { rewrite get_frame_ok by apply S. rewrite U. cbn [fst]. f_equal. exact Hf. }
  do 5 (split; [assumption|]). intros a b Ha Hb. rewrite (Hg a Ha), (Hg b Hb). set (W := frame_mul (hr_T h) (frame_inv (at_frame pn h (hr_frame h)))).
  assert (RW : rigid W) by (apply rigid_mul; [exact RT|now apply rigid_inv]). rewrite <- !(frame_mul_assoc (hr_T h)). fold W.
  rewrite (frame_inv_mul W _ RW (body_rigid _ _ _ _ Hh Ha)), frame_mul_assoc, <- (frame_mul_assoc (frame_inv W)), (frame_inv_l W RW). now rewrite frame_mul_id_l.
Qed.
Print Assumptions C138_on_floor.

Lemma hcall_spec pn moving h o : hsound pn moving h -> hop_ok moving (hr_robot h) o ->
  exists h', hcall pn h o = Ok h' /\ hsound pn moving h' /\ r_model (hr_robot h') = r_model (hr_robot h) /\ hr_left h' = hr_left h /\ hr_right h' = hr_right h /\
    (vz (fr_t (hr_T h)) = 0 -> vz (fr_t (hr_T h')) = 0) /\
    (places o = true -> get_T_world_frame pn (hr_robot h') (hr_frame h') = Ok (hr_T h')) /\
    (keeps_place o = true -> hr_T h' = hr_T h /\ hr_frame h' = hr_frame h) /\
    (by_side o = true -> hr_frame h = foot h (hr_side h) -> hr_frame h' = foot h' (hr_side h') /\ hr_side h' = last_side [o] (hr_side h)).
Proof.
  intros Hh Ho. pose proof Hh as (H1 & H2 & H3 & H4 & H5 & H6 & H7 & H8 & H9).
  assert (PL : forall h' T, placed pn moving h h' T -> get_T_world_frame pn (hr_robot h') (hr_frame h') = Ok (hr_T h')).
  { intros h' T (S & _ & U & _ & _ & _ & _ & _ & ET & _ & _ & _ & Hf & _). rewrite get_frame_ok by apply S. rewrite U, ET. cbn [fst]. f_equal. exact Hf. }
  assert (FT : forall h' T, placed pn moving h h' T -> hr_frame h = foot h (hr_side h) -> hr_frame h' = foot h' (hr_side h') /\ hr_side h' = hr_side h).
  { intros h' T (_ & _ & _ & Ef & Es & El & Er & _) F. unfold foot in *. rewrite Ef, Es, El, Er. auto. }
  assert (US : forall s f, body_frame moving (hr_robot h) f -> exists h', update_support_frame pn h s f = Ok h' /\ hsound pn moving h' /\
    r_model (hr_robot h') = r_model (hr_robot h) /\ hr_left h' = hr_left h /\ hr_right h' = hr_right h /\ (vz (fr_t (hr_T h)) = 0 -> vz (fr_t (hr_T h')) = 0) /\
    hr_frame h' = f /\ (hr_side h' = s \/ f = hr_frame h /\ h' = h)).
  { intros s f Hf. unfold update_support_frame. destruct (Nat.eqb_spec f (hr_frame h)) as [->|Hne].
    - exists h. auto 20.
    - rewrite get_frame_ok by apply Hf. cbn [obind]. eexists. split; [reflexivity|].
      split. { unfold hsound, with_support, body_frame in *. cbn [hr_robot hr_frame hr_left hr_right hr_trunk hr_T]. do 8 (split; [assumption|]). apply rotation_z. }
      do 4 (split; [reflexivity|]). auto. }
  destruct o as [s| |s|s f| |a|a]; cbn [hcall hop_ok places keeps_place by_side last_side] in *.
  - eexists. split; [reflexivity|]. split; [unfold hsound; cbn; auto 20|]. do 3 (split; [reflexivity|]). split; [auto|]. split; [discriminate|]. split; [auto|auto].
  - eexists. split; [reflexivity|]. split; [unfold hsound; cbn; auto 20|]. do 3 (split; [reflexivity|]). split; [auto|]. split; [discriminate|]. split; [auto|auto].
  - destruct (US s (foot h s)) as (h' & E & S & Em & El & Er & Hz & Ef & D); [destruct s; assumption|]. exists h'. split; [exact E|].
    do 5 (split; [assumption|]). do 2 (split; [discriminate|]). intros _ F. rewrite Ef. destruct D as [Es|[D ->]].
    + split; [|exact Es]. rewrite Es. unfold foot. now rewrite El, Er.
    + rewrite F in D. assert (s = hr_side h) by (destruct s, (hr_side h); cbn [foot] in D; congruence || (exfalso; cbn in D; congruence)). subst s. auto.
  - destruct (US s f Ho) as (h' & E & S & Em & El & Er & Hz & Ef & D). exists h'. split; [exact E|]. do 5 (split; [assumption|]). do 2 (split; [discriminate|]). discriminate.
  - destruct (floor_spec pn moving h Hh) as (h' & E & P). exists h'. split; [exact E|]. pose proof P as (S & Em & U & Ef & Es & El & Er & Et & ET & _).
    do 4 (split; [assumption|]). split; [now rewrite ET|]. split; [intros _; exact (PL _ _ P)|]. split; [auto|]. intros _ F. exact (FT _ _ P F).
  - destruct (oriented_spec pn moving h a Hh Ho) as (h' & T & _ & E & P & ETt & _). exists h'. split; [exact E|]. pose proof P as (S & Em & U & Ef & Es & El & Er & Et & ET & _).
    do 4 (split; [assumption|]). split; [now rewrite ET, ETt|]. split; [intros _; exact (PL _ _ P)|]. split; [discriminate|]. intros _ F. exact (FT _ _ P F).
  - destruct (oriented_spec pn moving h a Hh Ho) as (h' & T & E & _ & P & ETt & _). exists h'. split; [exact E|]. pose proof P as (S & Em & U & Ef & Es & El & Er & Et & ET & _).
    do 4 (split; [assumption|]). split; [now rewrite ET, ETt|]. split; [intros _; exact (PL _ _ P)|]. split; [discriminate|]. intros _ F. exact (FT _ _ P F).
Qed.

Lemma last_side_app l m s : last_side (l ++ m) s = last_side m (last_side l s).
Proof. revert s. induction l as [|[] l IH]; intros; cbn; auto. Qed.

(** Whatever the calls, they succeed, the support stays at the height of the floor, and after a call that places the robot, its support frame is exactly where
    T_world_support says. When the support is chosen by its side, it is always the foot of the last side that was asked for. As long as the support is not
    changed and no IMU is used, its place does not drift. *)
Theorem C138_history pn moving h l : hsound pn moving h -> (forall o, In o l -> hop_ok moving (hr_robot h) o) ->
  exists h', hcalls pn h l = Ok h' /\ hsound pn moving h' /\
    (vz (fr_t (hr_T h)) = 0 -> vz (fr_t (hr_T h')) = 0) /\
    (forall l' o, l = l' ++ [o] -> places o = true -> get_T_world_frame pn (hr_robot h') (hr_frame h') = Ok (hr_T h')) /\
    (forallb by_side l = true -> hr_frame h = foot h (hr_side h) -> hr_side h' = last_side l (hr_side h) /\ hr_frame h' = foot h' (hr_side h')) /\
    (forallb keeps_place l = true -> hr_T h' = hr_T h /\ hr_frame h' = hr_frame h).
Proof.
  intros Hh Hl. revert h Hh Hl. induction l as [|o l IH]; intros h Hh Hl.
  - exists h. split; [reflexivity|]. split; [exact Hh|]. split; [auto|]. split; [intros l' o E; destruct l'; discriminate|]. auto.
  - destruct (hcall_spec pn moving h o Hh (Hl o (or_introl eq_refl))) as (h1 & E1 & S1 & Em & El & Er & Z1 & P1 & K1 & B1).
    destruct (IH h1 S1) as (h' & E & S & Z & P & B & K).
    { intros o' Ho'. specialize (Hl o' (or_intror Ho')). destruct o'; cbn [hop_ok] in *; auto. unfold body_frame in *. now rewrite Em. }
    exists h'. cbn [hcalls]. rewrite E1. cbn [obind]. split; [exact E|]. split; [exact S|]. split; [auto|].
    split; [|split].
    + intros l' o' Eq Ho'. destruct l' as [|x l']; cbn in Eq.
      * injection Eq as <- ->. cbn in E. injection E as <-. auto.
      * injection Eq as <- Eq. eauto.
    + cbn [forallb]. intros Hb F. apply andb_true_iff in Hb as [Hb1 Hb2]. destruct (B1 Hb1 F) as [F1 Es]. destruct (B Hb2 F1) as [A C]. split; [|exact C].
      rewrite A, Es. change (o :: l) with ([o] ++ l). now rewrite last_side_app.
    + cbn [forallb]. intros Hb. apply andb_true_iff in Hb as [Hb1 Hb2]. destruct (K1 Hb1), (K Hb2). split; congruence.
Qed.
Print Assumptions C138_history.

(** Changing the support to another frame and placing the robot on it: the frame keeps its x, y and yaw, and is put flat on the floor. *)
Theorem C138_switch pn moving h s : hsound pn moving h -> up_to_date (hr_robot h) -> foot h s <> hr_frame h ->
  let f := foot h s in let x := m3_vec (fr_R (at_frame pn h f)) (V3 1 0 0) in (vx x <> 0 \/ vy x <> 0) ->
  exists h1 h2, update_support_side pn h s = Ok h1 /\ hr_robot h1 = hr_robot h /\ hr_side h1 = s /\ hr_frame h1 = f /\
    ensure_on_floor pn h1 = Ok h2 /\ flat (at_frame pn h2 f) /\ vx (fr_t (at_frame pn h2 f)) = vx (fr_t (at_frame pn h f)) /\ vy (fr_t (at_frame pn h2 f)) = vy (fr_t (at_frame pn h f)) /\
    (exists k, 0 < k /\ m3_vec (fr_R (at_frame pn h2 f)) (V3 1 0 0) = v3_scale k (V3 (vx x) (vy x) 0)) /\
    (flat (at_frame pn h f) -> forall g, moving g -> at_frame pn h2 g = at_frame pn h g).
Proof.
  intros Hh Hu Hne f x Hx. pose proof Hh as (H1 & H2 & H3 & H4 & H5 & H6 & H7 & H8 & H9).
  assert (Hf : body_frame moving (hr_robot h) f) by (unfold f; destruct s; assumption).
  pose proof (body_rigid _ _ _ f Hh (proj2 Hf)) as Rf. set (W := at_frame pn h f) in *.
  assert (Hx' : m00 (fr_R W) <> 0 \/ m10 (fr_R W) <> 0). { unfold x, m3_vec in Hx. cbn [vx vy vz] in Hx. rewrite !Rmult_1_r, !Rmult_0_r, !Rplus_0_r in Hx. exact Hx. }
  assert (E1 : update_support_side pn h s = Ok (with_support h f s (flatten_on_floor W))).
  { unfold update_support_side, update_support_frame. change (match s with Left => hr_left h | Right => hr_right h end) with f.
    destruct (Nat.eqb_spec f (hr_frame h)); [contradiction|]. rewrite get_frame_ok by apply Hf. rewrite Hu. reflexivity. }
  set (h1 := with_support h f s (flatten_on_floor W)) in *.
  assert (S1 : hsound pn moving h1). { unfold hsound, h1, with_support, body_frame in *. cbn [hr_robot hr_frame hr_left hr_right hr_trunk hr_T]. do 8 (split; [assumption|]). apply rotation_z. }
  destruct (floor_spec pn moving h1 S1) as (h2 & E2 & (S2 & _ & _ & Ef & _ & _ & _ & _ & _ & _ & _ & _ & Hf2 & Hg)).
  change (hr_T h1) with (flatten_on_floor W) in *. change (hr_frame h1) with f in *. rewrite Ef in Hf2.
  destruct (C43_flatten W Rf Hx') as (F1 & F2 & F3 & F4 & F5 & k & Kp & Ek).
  exists h1, h2. split; [exact E1|]. do 3 (split; [reflexivity|]). split; [exact E2|]. rewrite Hf2. split; [split; assumption|]. split; [exact F2|]. split; [exact F3|].
  split; [exists k; split; [exact Kp|exact Ek]|]. intros (Z1 & Z2) g Hg'. rewrite (Hg g Hg').
  assert (EW : flatten_on_floor W = W) by (apply flat_flatten; [exact Rf|split; assumption]).
  rewrite EW. change (at_frame pn h1 g) with (at_frame pn h g). change (at_frame pn h1 f) with W. rewrite <- frame_mul_assoc, frame_inv_r by exact Rf. apply frame_mul_id_l.
Qed.
Print Assumptions C138_switch.

(** The support of the same frame again: nothing happens. *)
Theorem C138_same_support pn h s : foot h s = hr_frame h -> update_support_side pn h s = Ok h.
Proof. intros H. unfold update_support_side, update_support_frame. change (match s with Left => hr_left h | Right => hr_right h end) with (foot h s). rewrite H, Nat.eqb_refl. reflexivity. Qed.
Print Assumptions C138_same_support.

(** The support frame is taken from the last data: when the joints have moved since, the new support is put where it was. *)
Theorem C138_stale_behaviour pn moving h s : hsound pn moving h -> foot h s <> hr_frame h ->
  exists h1 h2, update_support_side pn h s = Ok h1 /\ ensure_on_floor pn h1 = Ok h2 /\
    at_frame pn h2 (foot h s) = flatten_on_floor (pn_frame pn (fst (r_seen (hr_robot h))) (foot h s)).
Proof.
  intros Hh Hne. pose proof Hh as (H1 & H2 & H3 & H4 & H5 & H6 & H7 & H8 & H9). set (f := foot h s) in *.
  assert (Hf : body_frame moving (hr_robot h) f) by (unfold f; destruct s; assumption). set (W := pn_frame pn (fst (r_seen (hr_robot h))) f).
  assert (E1 : update_support_side pn h s = Ok (with_support h f s (flatten_on_floor W))).
  { unfold update_support_side, update_support_frame. change (match s with Left => hr_left h | Right => hr_right h end) with f.
    destruct (Nat.eqb_spec f (hr_frame h)); [contradiction|]. now rewrite get_frame_ok by apply Hf. }
  set (h1 := with_support h f s (flatten_on_floor W)) in *.
  assert (S1 : hsound pn moving h1). { unfold hsound, h1, with_support, body_frame in *. cbn [hr_robot hr_frame hr_left hr_right hr_trunk hr_T]. do 8 (split; [assumption|]). apply rotation_z. }
  destruct (floor_spec pn moving h1 S1) as (h2 & E2 & (S2 & _ & _ & Ef & _ & _ & _ & _ & _ & _ & _ & _ & Hf2 & Hg)).
  exists h1, h2. split; [exact E1|]. split; [exact E2|]. rewrite Ef in Hf2. exact Hf2.
Qed.
Print Assumptions C138_stale_behaviour.

(** A new humanoid stands on its left foot, which is at the origin of the world. *)
Lemma position_of_nth name : forall l i, position_of name l = Some i -> nth_error l i = Some name.
Proof.
  induction l as [|n l IH]; intros i H; [discriminate|]. cbn in H. destruct (String.eqb_spec n name) as [->|].
  - injection H as <-. reflexivity.
  - destruct (position_of name l) as [j|]; [|discriminate]. injection H as <-. cbn. now apply IH.
Qed.
Theorem C138_new pn moving r l e t : frames_correct pn (r_model r) moving -> rigid (m_root (r_model r)) -> unit_base (st_q (r_state r)) ->
  get_frame_index r "left_foot" = Ok l -> get_frame_index r "right_foot" = Ok e -> get_frame_index r "trunk" = Ok t -> moving l -> moving e -> moving t ->
  exists h, new_humanoid pn r = Ok h /\ hsound pn moving h /\ hr_side h = Left /\ hr_frame h = l /\ hr_left h = l /\ hr_right h = e /\ hr_trunk h = t /\
    get_T_world_left pn h = Ok frame_id /\ hr_T h = frame_id /\ up_to_date (hr_robot h).
Proof.
  intros Hc Hr Hq El Ee Et Ml Me Mt.
  assert (In_ : forall name i, get_frame_index r name = Ok i -> nth_error (m_frames (r_model r)) i = Some name).
  { intros name i H. unfold get_frame_index in H. destruct (position_of name (m_frames (r_model r))) eqn:E; [|discriminate]. injection H as <-. now apply position_of_nth. }
  assert (Lt : forall name i, get_frame_index r name = Ok i -> (i < List.length (m_frames (r_model r)))%nat).
  { intros name i H. apply In_ in H. apply nth_error_Some. congruence. }
  set (h0 := HRobot r l Left frame_id l e t None None None).
  assert (S0 : hsound pn moving h0).
  { unfold hsound, h0, body_frame. cbn [hr_robot hr_frame hr_left hr_right hr_trunk hr_T]. do 3 (split; [assumption|]). do 4 (split; [split; eauto|]). split; [|apply rotation_id].
    intros ->. pose proof (In_ _ _ El) as A. rewrite (In_ _ _ Ee) in A. discriminate. }
  destruct (floor_spec pn moving h0 S0) as (h1 & E1 & P). destruct P as (S & Em & U & Ef & Es & Ell & Er & Ett & ET & _ & _ & _ & Hf & _).
  assert (EX : forall name, exist_frame (hr_robot h1) name = true -> exists i, get_frame_index (hr_robot h1) name = Ok i /\ (i < List.length (m_frames (r_model (hr_robot h1))))%nat).
  { intros name H. unfold exist_frame, get_frame_index in *. destruct (position_of name (m_frames (r_model (hr_robot h1)))) as [i|] eqn:E; [|discriminate]. exists i. split; [reflexivity|].
    apply nth_error_Some. rewrite (position_of_nth _ _ _ E). discriminate. }
  assert (AB : forall a b, exist_frame (hr_robot h1) a = true -> exist_frame (hr_robot h1) b = true -> exists T, get_T_a_b_name pn (hr_robot h1) a b = Ok T).
  { intros a b Ha Hb. destruct (EX _ Ha) as (i & Ei & Li). destruct (EX _ Hb) as (j & Ej & Lj). unfold get_T_a_b_name. rewrite Ei, Ej. cbn [obind]. unfold get_T_a_b. rewrite !get_frame_ok by assumption. eexists. reflexivity. }
  assert (M1 : exists h2, measure_trunk pn h1 = Ok h2 /\ hr_robot h2 = hr_robot h1 /\ hr_frame h2 = hr_frame h1 /\ hr_side h2 = hr_side h1 /\ hr_T h2 = hr_T h1 /\ hr_left h2 = hr_left h1 /\ hr_right h2 = hr_right h1 /\ hr_trunk h2 = hr_trunk h1).
  { unfold measure_trunk. destruct (exist_frame (hr_robot h1) "trunk" && _) eqn:B; [|exists h1; auto 10]. apply andb_true_iff in B as [B1 B2]. destruct (AB _ _ B1 B2) as [T ->]. cbn [obind]. eexists. split; [reflexivity|]. cbn. auto 10. }
  destruct M1 as (h2 & E2 & A1 & A2 & A3 & A4 & A5 & A6 & A7).
  assert (M2 : exists h3, measure_head pn h2 = Ok h3 /\ hr_robot h3 = hr_robot h1 /\ hr_frame h3 = hr_frame h1 /\ hr_side h3 = hr_side h1 /\ hr_T h3 = hr_T h1 /\ hr_left h3 = hr_left h1 /\ hr_right h3 = hr_right h1 /\ hr_trunk h3 = hr_trunk h1).
  { unfold measure_head. rewrite A1. destruct (exist_frame (hr_robot h1) "head_base" && _ && _) eqn:B; [|exists h2; auto 10]. apply andb_true_iff in B as [B1 B3]. apply andb_true_iff in B1 as [B1 B2].
    destruct (AB _ _ B1 B2) as [T ->]. destruct (AB _ _ B1 B3) as [T' ->]. cbn [obind]. eexists. split; [reflexivity|]. cbn. auto 10. }
  destruct M2 as (h3 & E3 & B1 & B2 & B3 & B4 & B5 & B6 & B7).
  exists h3. unfold new_humanoid, init_config. rewrite El, Ee, Et. cbn [obind]. fold h0. rewrite E1. cbn [obind]. rewrite E2. cbn [obind]. split; [exact E3|].
  split. { unfold hsound. rewrite B1, B2, B4, B5, B6, B7. exact S. }
  rewrite B1, B2, B3, B4, B5, B6, B7, Es, Ef, Ell, Er, Ett, ET. do 5 (split; [reflexivity|]). split; [|split; [reflexivity|exact U]].
  unfold get_T_world_left. rewrite B1, B5, Ell. change (hr_left h0) with (hr_frame h0). rewrite <- Ef. rewrite get_frame_ok by apply S. rewrite U. cbn [fst]. f_equal. exact Hf.
Qed.
Print Assumptions C138_new.
(** A robot without these frames is refused. *)
Theorem C138_missing pn r : (exists n, In n ["left_foot"; "right_foot"; "trunk"]%string /\ get_frame_index r n = Throw ERuntime) -> new_humanoid pn r = Throw ERuntime.
Proof.
  assert (D : forall n, get_frame_index r n = Throw ERuntime \/ exists i, get_frame_index r n = Ok i) by (intros n; unfold get_frame_index; destruct (position_of _ _); eauto).
  intros (n & Hn & E). unfold new_humanoid, init_config.
  destruct (D "left_foot"%string) as [->|[i Ei]]; [reflexivity|]. rewrite Ei. cbn [obind].
  destruct (D "right_foot"%string) as [->|[j Ej]]; [reflexivity|]. rewrite Ej. cbn [obind].
  destruct (D "trunk"%string) as [->|[k Ek]]; [reflexivity|]. cbn in Hn. intuition (subst; congruence).
Qed.
Print Assumptions C138_missing.

(** ** C139: the IMU *)

(** Both calls do the same thing: the trunk gets the given orientation, the support frame stays where it is, the joints do not move. *)
Theorem C139_imu pn moving h a : hsound pn moving h -> rotation a ->
  exists h' T, update_from_imu pn h a = Ok h' /\ ensure_on_floor_oriented pn h a = Ok h' /\ hsound pn moving h' /\
    get_T_world_trunk pn h' = Ok T /\ fr_R T = a /\
    get_T_world_frame pn (hr_robot h') (hr_frame h') = Ok (hr_T h') /\ fr_t (hr_T h') = fr_t (hr_T h) /\
    hr_frame h' = hr_frame h /\ hr_side h' = hr_side h /\
    same_joints (st_q (r_state (hr_robot h'))) (st_q (r_state (hr_robot h))) /\ st_qd (r_state (hr_robot h')) = st_qd (r_state (hr_robot h)).
Proof.
  intros Hh Ha. destruct (oriented_spec pn moving h a Hh Ha) as (h' & T & E1 & E2 & P & ET & Hr). destruct P as (S & Em & U & Ef & Es & El & Er & Et & EhT & Hj & Ed & _ & Hf & _).
  exists h', (at_frame pn h' (hr_trunk h')). do 3 (split; [assumption|]). split.
  { unfold get_T_world_trunk. rewrite get_frame_ok by apply S. now rewrite U. }
  split; [exact Hr|]. split. { rewrite get_frame_ok by apply S. rewrite U, EhT. cbn [fst]. f_equal. exact Hf. }
  split; [now rewrite EhT|]. auto.
Qed.
Print Assumptions C139_imu.

(** With the orientation it already has, a robot that stands on its support does not move. *)
Theorem C139_same_orientation pn moving h : hsound pn moving h -> at_frame pn h (hr_frame h) = hr_T h ->
  exists h', update_from_imu pn h (fr_R (at_frame pn h (hr_trunk h))) = Ok h' /\ hr_T h' = hr_T h /\ forall g, moving g -> at_frame pn h' g = at_frame pn h g.
Proof.
  intros Hh Hs. pose proof Hh as (_ & _ & _ & (_ & M1) & _ & _ & (_ & M4) & _ & RT). pose proof (body_rigid _ _ _ _ Hh M4) as R4. pose proof (body_rigid _ _ _ _ Hh M1) as R1.
  destruct (oriented_spec pn moving h _ Hh R4) as (h' & T & _ & E & P & ET & Hr). pose proof P as (S & _ & _ & Ef & _ & _ & _ & Ett & EhT & _ & _ & _ & Hf & Hg).
  exists h'. split; [exact E|].
  assert (EqT : T = hr_T h).
  { destruct T as [A t]. cbn [fr_t] in ET. subst t. rewrite Ett, (Hg _ M4) in Hr. unfold frame_mul, frame_inv in Hr. cbn [fr_R] in Hr.
    set (K := fr_R (at_frame pn h (hr_trunk h))) in *. rewrite Hs in Hr. assert (Q : m3_mul A (m3_t (fr_R (hr_T h))) = m3_id).
    { transitivity (m3_mul (m3_mul A (m3_mul (m3_t (fr_R (hr_T h))) K)) (m3_t K)).
      - rewrite !m3_mul_assoc. rewrite (rotation_r K R4), m3_mul_id_r. reflexivity.
      - rewrite Hr. apply (rotation_r K R4). }
    assert (A = fr_R (hr_T h)). { transitivity (m3_mul (m3_mul A (m3_t (fr_R (hr_T h)))) (fr_R (hr_T h))); [|rewrite Q; apply m3_mul_id_l]. rewrite m3_mul_assoc, (proj1 RT). symmetry. apply m3_mul_id_r. }
    subst A. now destruct (hr_T h). }
  split; [congruence|]. intros g Hgm. rewrite (Hg g Hgm), EqT, <- Hs, <- frame_mul_assoc, frame_inv_r by exact R1. apply frame_mul_id_l.
Qed.
Print Assumptions C139_same_orientation.
