(** C151: a walk is planned exactly when the ZMP can be kept in the supports. *)
From Coq Require Import Reals Lra Lia List ZArith Bool Psatz.
From Verif Require Import Base Linalg Geom3 Tools_model Expression_model Expression_spec Expression_proofs Problem_model Problem_spec Problem_proofs
  Problem_proofs2 Problem_proofs3 Problem_props Polynom_model Polynom_spec Polynom_props Integrator_model Integrator_spec Integrator_proofs Integrator_props Backends_proofs Footsteps_proofs
  Lipm_model Lipm_spec Lipm_proofs Lipm_props Spline_model Swing_model Swing_props Geometry_model Footsteps_model Wpg_model Wpg_spec Wpg_proofs Wpg_proofs2
  Wpg_proofs3 Wpg_proofs4 Wpg_proofs5 Wpg_props WpgPlan_spec WpgPlan_proofs WpgPlan_proofs2 WpgPlan_proofs3 WpgPlan_proofs4.
Import ListNotations.
Open Scope R_scope.

Lemma feet_lands : forall l s i si f, steps_follow s l -> nth_error (s :: l) i = Some si -> u_footsteps si = [f] ->
  (exists sn, nth_error (s :: l) (i + 1) = Some sn /\ stands_on sn (other_side (f_side f))) /\
  (forall i', i = S i' -> exists sp, nth_error (s :: l) i' = Some sp /\ stands_on sp (other_side (f_side f))).
Proof.
  induction l as [|s' l IH]; intros s i si f H Hi Hf; cbn [steps_follow] in H.
  - destruct i as [|i]; cbn in Hi; [injection Hi as <-; rewrite Hf in H; discriminate H|destruct i; discriminate Hi].
  - destruct H as (L1 & L2 & H). destruct i as [|i].
    + cbn in Hi. injection Hi as <-. split; [exists s'; split; [reflexivity|exact (L1 f Hf)]|]. intros i' Ei. discriminate Ei.
    + cbn [nth_error] in Hi. destruct (IH s' i si f H Hi Hf) as [A B]. split; [exact A|]. intros i' Ei. injection Ei as <-.
      destruct i as [|i]; [|destruct (B i eq_refl) as (sp & Hsp & St); exists sp; auto].
      cbn in Hi. injection Hi as <-. exists s. split; [reflexivity|exact (L2 f Hf)].
Qed.

Lemma parts_of_walk p hull s r parts : walk_ok hull (w_base p) (s :: r) -> Forall2 (carries (w_base p)) (s :: r) parts -> parts_ok p parts.
Proof.
  intros (F & (H2 & St) & _) C i q Hq. destruct (Forall2_nth _ _ _ _ _ C Hq) as (si & Hsi & C1 & C2 & C3 & C4 & C5 & C6 & C7).
  destruct (F si (nth_error_In _ _ Hsi)) as (Hf & _ & Ht). destruct (time_lasts _ _ Ht) as (d & Hd & Hd0). pose proof (lasts_det _ _ _ _ C7 Hd) as Ed.
  destruct Ht as ((d0 & D0 & D1) & Htr & _).
  unfold part_ok. split; [unfold feet_ok; rewrite C1; exact Hf|]. split; [lra|]. split.
  { exists d0. split; [|exact D1]. apply default_duration_ok. unfold default_duration in *. now rewrite C1, C4, C5. }
  split; [lra|]. intros f Ef. rewrite C1 in Ef. destruct (feet_lands r s i si f St Hsi Ef) as [(sn & Hn & Sn) B].
  destruct i as [|i]. { cbn in Hsi. injection Hsi as <-. rewrite Ef in H2. discriminate H2. }
  destruct (B i eq_refl) as (sp & Hp & Sp). destruct (Forall2_nth_l _ _ _ _ _ C Hn) as (qn & Hqn & N1 & _). destruct (Forall2_nth_l _ _ _ _ _ C Hp) as (qp & Hqp & P1 & _).
  exists i, qn, qp. unfold stands_on in *. rewrite N1, P1. auto.
Qed.

(** A soft planner always plans the walk. A hard planner plans it exactly when jerks exist that keep the ZMP in the supports and stop
    the robot at the end, and throws otherwise. *)
Theorem C151_planned_exactly_when_possible L g supports com t :
  exp_correct (l_mexp L) -> qr_correct (l_qr L) -> qp_correct (l_qp L) -> ~ qr_fails (l_qr L) -> ~ qp_fails (l_qp L) ->
  g_omega_2 g <> 0 -> 0 < g_zmp_weight g -> 0 < g_stop_weight g -> 0 < w_zmp_weight (g_params g) -> w_rise_ratio (g_params g) < 1 ->
  walk_ok (l_hull L) (w_base (g_params g)) supports ->
  let possible := walkable (l_hull L) (g_params g) (g_omega_2 g) supports (fun d => nth d [vx com; 0; 0] 0) (fun d => nth d [vy com; 0; 0] 0) in
  (g_soft g = true \/ possible -> exists j ss, plan L g supports com t = Ok (j, ss)) /\
  (g_soft g = false -> ~ possible -> plan L g supports com t = Throw ERuntime).
Proof.
  intros He Hqr Hqp Hqr' Hqp' Ho Hw1 Hw2 Hw3 Hr W possible. destruct supports as [|s r]; [destruct W as (_ & [] & _)|].
  pose proof W as (F & _ & En).
  destruct (plan_com_total L He Hqr Hqp Hqr' Hqp' g Ho Hw1 Hw2 Hw3 (new_wtraj (w_com_height (g_params g)) t (w_trunk_pitch (g_params g)) 0) (s :: r) (vx com, vy com) (0, 0) (0, 0) F En)
    as (b & j1 & ss & E & Hb). cbn [fst snd] in Hb. fold possible in Hb. unfold plan. cbv zeta. rewrite E. cbn [obind]. split.
  - intros H. apply Hb in H. subst b.
    destruct (plan_com_inv L g _ _ _ _ _ _ _ E) as (pb & ls & qs & te & pb' & parts & E1 & E2 & E3 & ->).
    apply com_loop_parts in E1 as [C Fc]. pose proof (attribute_keeps L g _ _ _ _ E3) as K.
    assert (G : contiguous t parts te /\ Forall2 (carries (w_base (g_params g))) (s :: r) parts).
    { cbn [new_wtraj j_start] in C. clear -C Fc K. revert Fc C. generalize t. generalize (s :: r). induction K as [|q q' qs parts (tr & dcm & ->) K IH]; intros supports t0 Fq C; inversion Fq as [|s0 ? r0 ? Fs Fr]; subst.
      - split; [exact C|constructor].
      - destruct C as [C1 C2]. destruct (IH _ _ Fr C2) as [G1 G2]. split; [split; [exact C1|exact G1]|]. constructor; [|exact G2]. exact Fs. }
    destruct G as [G1 G2].
    destruct (plan_feet_total (g_params g) (WTraj t te parts (w_com_height (g_params g)) (w_trunk_pitch (g_params g)) 0 true (new_spline true) (new_spline true) (new_spline true) frame_id) true te Hr)
      as (k & Ek); try reflexivity; cbn [j_parts j_start].
    + intros N. subst parts. inversion G2.
    + exact (parts_of_walk _ _ _ _ _ W G2).
    + exact G1.
    + cbn [new_wtraj j_start j_com_z j_pitch j_roll j_success j_left j_right j_trunk j_T] in *. rewrite Ek. cbn [obind]. eauto.
  - intros Hs Hn. destruct b; [|reflexivity]. destruct (proj1 Hb eq_refl) as [H|H]; [congruence|contradiction].
Qed.

(** ** Without a stop *)

Lemma zmp_placed dt w s0 z : dt ^ 3 / 6 - dt / w <> 0 -> forall n, exists u, forall k, (1 <= k <= n)%nat -> jerk_run dt u s0 k 0%nat - jerk_run dt u s0 k 2%nat / w = z.
Proof.
  intros H. induction n as [|n (u & Hu)]; [exists (fun _ => 0); intros; lia|].
  set (s := jerk_run dt u s0 n). set (un := (z - (s 0%nat + dt * s 1%nat + dt ^ 2 / 2 * s 2%nat) + s 2%nat / w) / (dt ^ 3 / 6 - dt / w)).
  exists (fun k => if Nat.ltb k n then u k else un). intros k Hk.
  assert (X : forall m d, (m <= n)%nat -> (d < 3)%nat -> jerk_run dt (fun k => if Nat.ltb k n then u k else un) s0 m d = jerk_run dt u s0 m d).
  { intros m d Hm Hd. apply jerk_run_ext; auto. intros q Hq. now rewrite (proj2 (Nat.ltb_lt _ _)) by lia. }
  destruct (Nat.eq_dec k (S n)) as [->|Ne].
  - cbn [jerk_run]. rewrite !X by lia. fold s. rewrite Nat.ltb_irrefl.
    replace (s 0%nat + dt * s 1%nat + dt ^ 2 / 2 * s 2%nat + dt ^ 3 / 6 * un - (s 2%nat + dt * un) / w)
      with (s 0%nat + dt * s 1%nat + dt ^ 2 / 2 * s 2%nat - s 2%nat / w + (dt ^ 3 / 6 - dt / w) * un) by (unfold Rdiv; ring).
    assert (Q : forall a K, K <> 0 -> K * (a / K) = a) by (intros a K HK; field; exact HK).
    unfold un. rewrite Q by exact H. ring.
  - rewrite !X by lia. apply Hu. lia.
Qed.

(** When no support asks the robot to stop, a hard planner can always plan the walk: a ZMP inside each polygon is enough. *)
Theorem C151_possible_without_stop hull p omega_2 : omega_2 <> 0 -> forall supports sx sy,
  (forall s, In s supports -> u_end s = false /\
     exists n d polygon P, steps (w_base p) s n /\ lasts (w_base p) s d /\ 0 < d /\ (d / INR n) ^ 2 * omega_2 <> 6 /\
       snd (support_support_polygon hull s) = Ok polygon /\ inside polygon (w_zmp_margin p) P) ->
  walkable hull p omega_2 supports sx sy.
Proof.
  intros Ho. induction supports as [|s r IH]; intros sx sy H; cbn [walkable]; [exact I|].
  destruct (H s (or_introl eq_refl)) as (U & n & d & polygon & P & Hn & Hd & Hd0 & Hq & Hp & Hi).
  assert (N : (0 < n)%nat). { apply steps_remaining in Hn. subst n. apply remaining_timesteps_pos. }
  assert (D : 0 < d / INR n) by (apply Rdiv_lt_0_compat; [exact Hd0|now apply lt_0_INR]).
  assert (K : (d / INR n) ^ 3 / 6 - d / INR n / omega_2 <> 0).
  { set (dt := d / INR n) in *. intros Z. apply Hq. apply (Rmult_eq_reg_l (dt / 6 / omega_2)).
    - transitivity (dt ^ 3 / 6); [field; exact Ho|]. transitivity (dt / omega_2); [lra|field; exact Ho].
    - unfold Rdiv. apply Rmult_integral_contrapositive_currified; [apply Rmult_integral_contrapositive_currified|now apply Rinv_neq_0_compat].
      + intros Z0. rewrite Z0 in D. exact (Rlt_irrefl _ D).
      + apply Rinv_neq_0_compat. lra. }
  destruct (zmp_placed (d / INR n) omega_2 sx (fst P) K n) as (ux & Hx). destruct (zmp_placed (d / INR n) omega_2 sy (snd P) K n) as (uy & Hy).
  exists n, d, polygon, ux, uy. do 3 (split; [assumption|]). cbv zeta. split; [|split].
  - intros k Hk. rewrite Hx, Hy by exact Hk. destruct P. exact Hi.
  - rewrite U. discriminate.
  - apply IH. intros s' Hs'. apply H. now right.
Qed.

(** ** Examples *)

Definition ex_gait : params := Params 1 10 1 1 (1/10) (1/20) (1/10) (1/5) 0 (1/5) (1/10) (1/5).
Definition ex_wparams (margin : R) : wparams := WParams ex_gait (980665 / 1000000) 0 (1/20) (1/5) margin (1/1000) 0 0 [] [].
(** The hull of one foot, and of two feet side by side. *)
Definition ex_hull (l : list point) : list point :=
  match l with
  | [a; b; c; d] => [a; b; c; d; a]
  | [a; b; _; _; _; _; c; d] => [a; b; c; d; a]
  | _ => l
  end.
Definition ex_libs : libs := Libs ex_mexp perfect_qr perfect_qp ex_hull.
Definition ex_left : footstep := create_footstep ex_gait Left (Frame m3_id (V3 0 (1/10) 0)).
Definition ex_right : footstep := create_footstep ex_gait Right (Frame m3_id (V3 0 (- (1/10)) 0)).
(** A walk on the spot. *)
Definition ex_steps : list support :=
  [set_start (new_support [ex_left; ex_right]) true; new_support [ex_left]; new_support [ex_left; ex_right]; new_support [ex_right]; new_support [ex_left; ex_right]].
Definition ex_stand : list support := [set_end (set_start (new_support [ex_left; ex_right]) true) true].

Lemma ex_round : round (1 * 10) = 10%Z.
Proof.
  pose proof (round_half (1 * 10)) as H. assert (IZR 9 < IZR (round (1 * 10)) < IZR 11) as [A B] by (unfold Rabs in H; destruct (Rcase_abs _); split; lra).
  apply lt_IZR in A. apply lt_IZR in B. lia.
Qed.
Lemma ex_default s : u_elapsed_ratio s = 0 -> u_time_ratio s = 1 -> time_ok ex_gait s /\ steps ex_gait s 10 /\ lasts ex_gait s 1.
Proof.
  intros E T. assert (D : default_duration ex_gait s 1).
  { unfold default_duration, startend_double_support_duration, double_support_duration, dt, startend_double_support_timesteps, double_support_timesteps, ex_gait. cbn [p_single_support_timesteps p_single_support_duration p_double_support_ratio p_startend_double_support_ratio Z.eqb].
    rewrite ex_round. destruct (Nat.eqb _ 2), (u_start s || u_end s); try reflexivity; f_equal; lra. }
  split; [|split].
  - split; [exists 1; split; [exact D|lra]|]. lra.
  - unfold steps. rewrite E. replace (default_steps ex_gait s) with 10%Z.
    + rewrite Rmax_right by lra. cbn. lra.
    + unfold default_steps, startend_double_support_timesteps, double_support_timesteps, ex_gait. cbn [p_single_support_timesteps p_double_support_ratio p_startend_double_support_ratio]. rewrite ex_round.
      now destruct (Nat.eqb _ 2), (u_start s || u_end s).
  - exists 1. split; [exact D|]. rewrite E, T. lra.
Qed.

Definition rectangle (x0 x1 y0 y1 : R) : list point := [(x0, y1); (x1, y1); (x1, y0); (x0, y0)].
Lemma rectangle_eq a b c d e f h k x0 x1 y0 y1 : a = x0 /\ b = y1 /\ c = x1 /\ d = y1 /\ e = x1 /\ f = y0 /\ h = x0 /\ k = y0 ->
  Ok [(a, b); (c, d); (e, f); (h, k)] = Ok (rectangle x0 x1 y0 y1).
Proof. now intros (-> & -> & -> & -> & -> & -> & -> & ->). Qed.
Lemma ex_left_polygon : snd (support_support_polygon ex_hull (new_support [ex_left])) = Ok (rectangle (- (1/10)) (1/10) (1/20) (3/20)).
Proof. cbn. apply rectangle_eq. unfold ex_left, ex_right, ex_gait, create_footstep, frame_act, m3_vec, v3_add. cbn. repeat split; lra. Qed.
Lemma ex_right_polygon : snd (support_support_polygon ex_hull (new_support [ex_right])) = Ok (rectangle (- (1/10)) (1/10) (- (3/20)) (- (1/20))).
Proof. cbn. apply rectangle_eq. unfold ex_left, ex_right, ex_gait, create_footstep, frame_act, m3_vec, v3_add. cbn. repeat split; lra. Qed.
Lemma ex_both_polygon b e : snd (support_support_polygon ex_hull (set_end (set_start (new_support [ex_left; ex_right]) b) e)) = Ok (rectangle (- (1/10)) (1/10) (- (3/20)) (3/20)).
Proof. cbn. apply rectangle_eq. unfold ex_left, ex_right, ex_gait, create_footstep, frame_act, m3_vec, v3_add. cbn. repeat split; lra. Qed.

Lemma rectangle_edges x0 x1 y0 y1 i A B : edge (rectangle x0 x1 y0 y1) i A B ->
  (A, B) = ((x0, y1), (x1, y1)) \/ (A, B) = ((x1, y1), (x1, y0)) \/ (A, B) = ((x1, y0), (x0, y0)) \/ (A, B) = ((x0, y0), (x0, y1)).
Proof.
  intros [EA EB]. destruct i as [|[|[|[|i]]]]; cbn in EA, EB; try (injection EA as <-; injection EB as <-; auto). destruct i; discriminate EA.
Qed.
Lemma rectangle_ok x0 x1 y0 y1 i A B : x0 < x1 -> y0 < y1 -> edge (rectangle x0 x1 y0 y1) i A B -> A <> B.
Proof. intros Hx Hy E Q. subst B. destruct A as [u v]. apply rectangle_edges in E. destruct E as [E|[E|[E|E]]]; injection E; intros; lra. Qed.

Lemma length_of a b : a < b -> sqrt (Rsqr (a - b)) = b - a.
Proof. intros H. rewrite sqrt_Rsqr_abs, Rabs_left by lra. lra. Qed.
Lemma length_of' a b : b < a -> sqrt (Rsqr (a - b)) = a - b.
Proof. intros H. rewrite sqrt_Rsqr_abs, Rabs_right by lra. lra. Qed.
Lemma rectangle_inside x0 x1 y0 y1 m x y : x0 < x1 -> y0 < y1 -> (inside (rectangle x0 x1 y0 y1) m (x, y) <-> x0 + m <= x <= x1 - m /\ y0 + m <= y <= y1 - m).
Proof.
  intros Hx Hy.
  assert (T : keeps_margin m (x0, y1) (x1, y1) (x, y) <-> y <= y1 - m).
  { unfold keeps_margin, Polynom_spec.distance, right_area. cbn [fst snd]. replace (y1 - y1) with 0 by ring. rewrite Rsqr_0, Rplus_0_r, length_of by exact Hx. split; intros; nra. }
  assert (Rr : keeps_margin m (x1, y1) (x1, y0) (x, y) <-> x <= x1 - m).
  { unfold keeps_margin, Polynom_spec.distance, right_area. cbn [fst snd]. replace (x1 - x1) with 0 by ring. rewrite Rsqr_0, Rplus_0_l, length_of' by exact Hy. split; intros; nra. }
  assert (Bt : keeps_margin m (x1, y0) (x0, y0) (x, y) <-> y0 + m <= y).
  { unfold keeps_margin, Polynom_spec.distance, right_area. cbn [fst snd]. replace (y0 - y0) with 0 by ring. rewrite Rsqr_0, Rplus_0_r, length_of' by exact Hx. split; intros; nra. }
  assert (Lf : keeps_margin m (x0, y0) (x0, y1) (x, y) <-> x0 + m <= x).
  { unfold keeps_margin, Polynom_spec.distance, right_area. cbn [fst snd]. replace (x0 - x0) with 0 by ring. rewrite Rsqr_0, Rplus_0_l, length_of by exact Hy. split; intros; nra. }
  assert (N : forall i A B, edge (rectangle x0 x1 y0 y1) i A B -> A <> B) by (intros i A B; now apply rectangle_ok).
  split.
  - intros H. assert (K : forall i A B, edge (rectangle x0 x1 y0 y1) i A B -> keeps_margin m A B (x, y)) by (intros i A B E; exact (H i A B E (N i A B E))).
    pose proof (proj1 T (K 0%nat _ _ (conj eq_refl eq_refl))). pose proof (proj1 Rr (K 1%nat _ _ (conj eq_refl eq_refl))).
    pose proof (proj1 Bt (K 2%nat _ _ (conj eq_refl eq_refl))). pose proof (proj1 Lf (K 3%nat _ _ (conj eq_refl eq_refl))). lra.
  - intros (H1 & H2) i A B E _. apply rectangle_edges in E. destruct E as [E|[E|[E|E]]]; injection E as -> ->; [apply T|apply Rr|apply Bt|apply Lf]; lra.
Qed.

Lemma ex_omega margin : g_omega_2 (new_wpg (ex_wparams margin)) = 10.
Proof. cbn [new_wpg g_omega_2 ex_wparams w_com_height]. unfold compute_omega. rewrite pow2_sqrt; lra. Qed.

Lemma ex_support s : In s ex_steps \/ In s ex_stand -> feet_ok s /\ polygon_ok ex_hull s /\ time_ok ex_gait s /\ steps ex_gait s 10 /\ lasts ex_gait s 1 /\
  exists x0 x1 y0 y1, snd (support_support_polygon ex_hull s) = Ok (rectangle x0 x1 y0 y1) /\ x0 + 1/20 < x1 - 1/20 /\ y0 + 1/20 <= y1 - 1/20 /\ x1 - x0 < 1.
Proof.
  intros H. assert (E : u_elapsed_ratio s = 0 /\ u_time_ratio s = 1).
  { destruct H as [[<-|[<-|[<-|[<-|[<-|[]]]]]]|[<-|[]]]; split; reflexivity. }
  destruct (ex_default s (proj1 E) (proj2 E)) as (T & N & D).
  assert (Fe : feet_ok s).
  { destruct H as [[<-|[<-|[<-|[<-|[<-|[]]]]]]|[<-|[]]]; try (right; exists ex_left, ex_right; split; reflexivity); left; eexists; reflexivity. }
  assert (Po : exists x0 x1 y0 y1, snd (support_support_polygon ex_hull s) = Ok (rectangle x0 x1 y0 y1) /\ x0 + 1/20 < x1 - 1/20 /\ y0 + 1/20 <= y1 - 1/20 /\ x1 - x0 < 1).
  { destruct H as [[<-|[<-|[<-|[<-|[<-|[]]]]]]|[<-|[]]]; do 4 eexists;
      (split; [first [exact (ex_both_polygon true false)|exact ex_left_polygon|exact (ex_both_polygon false false)|exact ex_right_polygon|exact (ex_both_polygon true true)]|lra]). }
  split; [exact Fe|]. split; [|auto]. destruct Po as (x0 & x1 & y0 & y1 & Ep & Hx & Hy & _). exists (rectangle x0 x1 y0 y1). split; [exact Ep|]. split; [discriminate|].
  intros i A B Hb. apply (rectangle_ok x0 x1 y0 y1 i); [lra|lra|exact Hb].
Qed.

Lemma ex_steps_ok : walk_ok ex_hull ex_gait ex_steps.
Proof.
  split; [intros s Hs; destruct (ex_support s (or_introl Hs)) as (A & B & C & _); auto|]. split.
  - split; [reflexivity|]. cbn [steps_follow]. unfold lands, stands_on. cbn [u_footsteps set_start new_support].
    repeat (split; [intros f E; first [discriminate E|injection E as <-; cbn; eauto]|]). reflexivity.
  - intros l s r E U. exfalso. assert (I : In s ex_steps) by (rewrite E; apply in_or_app; right; now left).
    destruct I as [<-|[<-|[<-|[<-|[<-|[]]]]]]; discriminate U.
Qed.
Lemma ex_stand_ok : walk_ok ex_hull ex_gait ex_stand.
Proof.
  split; [intros s Hs; destruct (ex_support s (or_intror Hs)) as (A & B & C & _); auto|]. split; [split; reflexivity|].
  intros l s r E U. unfold ex_stand in E. destruct l as [|s0 l]; [|destruct l; discriminate E]. injection E as <- <-. split; [reflexivity|].
  intros n Hn. destruct (ex_support (set_end (set_start (new_support [ex_left; ex_right]) true) true)) as (_ & _ & _ & N & _); [right; now left|].
  apply steps_remaining in Hn. apply steps_remaining in N. lia.
Qed.

Lemma ex_contracts : exp_correct (l_mexp ex_libs) /\ qr_correct (l_qr ex_libs) /\ qp_correct (l_qp ex_libs) /\ ~ qr_fails (l_qr ex_libs) /\ ~ qp_fails (l_qp ex_libs).
Proof.
  split; [exact exp_correct_witness|]. split; [exact perfect_qr_correct|]. split; [exact perfect_qp_correct|]. split; [exact perfect_qr_never_fails|exact perfect_qp_never_fails].
Qed.
Lemma ex_weights margin : let g := new_wpg (ex_wparams margin) in g_omega_2 g <> 0 /\ 0 < g_zmp_weight g /\ 0 < g_stop_weight g /\ 0 < w_zmp_weight (g_params g) /\ w_rise_ratio (g_params g) < 1.
Proof. cbv zeta. rewrite ex_omega. cbn. lra. Qed.

(** A hard planner plans the walk on the spot from any position of the CoM, and standing still from the middle of the feet; with a
    margin of one meter it throws, and a soft planner does not. *)
Definition ex_soft : wpg := Wpg (ex_wparams 1) 3 9 true 1000 1000.
Example C151_example com t :
  (exists j ss, plan ex_libs (new_wpg (ex_wparams (1/50))) ex_steps com t = Ok (j, ss)) /\
  (exists j ss, plan ex_libs (new_wpg (ex_wparams (1/50))) ex_stand (V3 0 0 1) t = Ok (j, ss)) /\
  plan ex_libs (new_wpg (ex_wparams 1)) ex_steps com t = Throw ERuntime /\
  (exists j ss, plan ex_libs ex_soft ex_steps com t = Ok (j, ss)).
Proof.
  destruct ex_contracts as (He & Hqr & Hqp & Hqr' & Hqp').
  assert (K : forall margin supports com, walk_ok ex_hull ex_gait supports -> _) by
    (intros margin supports c W; destruct (ex_weights margin) as (Ho & W1 & W2 & W3 & Wr);
     exact (C151_planned_exactly_when_possible ex_libs (new_wpg (ex_wparams margin)) supports c t He Hqr Hqp Hqr' Hqp' Ho W1 W2 W3 Wr W)).
  split; [|split; [|split]].
  4: { apply (C151_planned_exactly_when_possible ex_libs ex_soft ex_steps com t He Hqr Hqp Hqr' Hqp'); first [left; reflexivity|exact ex_steps_ok|cbn; lra]. }
  - apply (K (1/50) ex_steps com ex_steps_ok). right. rewrite ex_omega. apply C151_possible_without_stop; [lra|]. intros s Hs.
    split; [destruct Hs as [<-|[<-|[<-|[<-|[<-|[]]]]]]; reflexivity|].
    destruct (ex_support s (or_introl Hs)) as (_ & _ & _ & N & D & x0 & x1 & y0 & y1 & Ep & Hx & Hy & _).
    exists 10%nat, 1, (rectangle x0 x1 y0 y1), ((x0 + x1) / 2, (y0 + y1) / 2). split; [exact N|]. split; [exact D|]. split; [lra|]. split; [cbn; lra|]. split; [exact Ep|].
    apply rectangle_inside; cbn; lra.
  - apply (K (1/50) ex_stand (V3 0 0 1) ex_stand_ok). right. rewrite ex_omega. cbn [walkable ex_stand].
    destruct (ex_support (set_end (set_start (new_support [ex_left; ex_right]) true) true)) as (_ & _ & _ & N & D & _); [right; now left|].
    exists 10%nat, 1, (rectangle (- (1/10)) (1/10) (- (3/20)) (3/20)), (fun _ => 0), (fun _ => 0). split; [exact N|]. split; [exact D|]. split; [exact (ex_both_polygon true true)|]. cbv zeta.
    assert (Z : forall k d, jerk_run (1 / INR 10) (fun _ => 0) (fun d => nth d [0; 0; 0] 0) k d = 0).
    { induction k as [|k IH]; intros d; [destruct d as [|[|[|d]]]; cbn [jerk_run nth]; try reflexivity; now destruct d|].
      cbn [jerk_run]. rewrite !IH. destruct d as [|[|d]]; ring. }
    cbn [vx vy]. split; [|split; [|exact I]].
    + intros k _. rewrite !Z. apply rectangle_inside; cbn; lra.
    + intros _. eexists. split; [reflexivity|]. rewrite !Z. cbn. repeat split; field.
  - apply (K 1 ex_steps com ex_steps_ok); [reflexivity|]. cbn [walkable ex_steps]. intros (n & d & polygon & ux & uy & Hn & _ & Hp & Hz & _).
    assert (n1 : (1 <= n)%nat). { apply steps_remaining in Hn. subst n. apply remaining_timesteps_pos. }
    specialize (Hz 1%nat ltac:(lia)). destruct (ex_support (set_start (new_support [ex_left; ex_right]) true)) as (_ & _ & _ & _ & _ & x0 & x1 & y0 & y1 & Ep & Hx & Hy & Hw); [left; now left|].
    cbn [ex_libs l_hull] in Hp. rewrite Ep in Hp. injection Hp as <-. apply rectangle_inside in Hz; cbn [w_zmp_margin g_params new_wpg ex_wparams] in *; lra.
Qed.

Print Assumptions C151_planned_exactly_when_possible.
Print Assumptions C151_possible_without_stop.
