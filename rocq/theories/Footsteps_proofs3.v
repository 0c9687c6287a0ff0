(** Lemmas about the naive planner, overlap_clip and the independence from the frame of the world. *)
From Coq Require Import Reals Lra Lia List ZArith Bool.
From Verif Require Import Base Linalg Angle Geom3 Tools_model Geometry_model Geometry_spec Geometry_proofs Footsteps_model Footsteps_spec Footsteps_proofs Footsteps_proofs2.
Import ListNotations.
Open Scope R_scope.

(** ** The naive planner *)
Lemma quot_range a b : 0 <= a -> a < b -> 0 <= a / b < 1 /\ a / b * b = a.
Proof.
  intros A B. assert (E : a / b * b = a) by (field; lra). split; auto. split.
  - apply Rmult_le_pos; [auto|]. left. apply Rinv_0_lt_compat. lra.
  - apply (Rmult_lt_reg_r b); lra.
Qed.

Lemma window_spec limit error r : 0 <= limit -> 0 <= r <= 1 -> let (r', out) := window limit error r in
  0 <= r' <= r /\ Rabs (r' * error) <= limit /\ (out = false -> r' = r).
Proof.
  intros L R. unfold window.
  destruct (Rlt_dec error (- limit)) as [A|A].
  - destruct (Rlt_dec limit error) as [B|B]; [lra|].
    destruct (quot_range limit (- error)) as (Q & E); [auto|lra|].
    replace (- limit / error) with (limit / (- error)) by (field; lra).
    set (q := limit / - error) in *.
    destruct (Rlt_dec q r); (split; [lra|split; [|discriminate]]); apply Rabs_le; nra.
  - destruct (Rlt_dec limit error) as [B|B].
    + destruct (quot_range limit error) as (Q & E); [auto|lra|]. set (q := limit / error) in *.
      destruct (Rlt_dec q r); (split; [lra|split; [|discriminate]]); apply Rabs_le; nra.
    + split; [lra|]. split; auto. apply Rabs_le. nra.
Qed.

Lemma abs_scale_le r r' e l : 0 <= r' <= r -> Rabs (r * e) <= l -> Rabs (r' * e) <= l.
Proof.
  intros R H. rewrite Rabs_mult, Rabs_right in * by lra. pose proof (Rabs_pos e). nra.
Qed.

Definition state_frame (s : nstate) (sd : side) : frame := match sd with Left => ns_left s | Right => ns_right s end.
Definition flag (s : nstate) (sd : side) : bool := match sd with Left => ns_left_arrived s | Right => ns_right_arrived s end.
Definition accessible (n : naive) : Prop := 0 <= n_length n /\ 0 <= n_width n /\ 0 <= n_yaw n.

Lemma naive_step_spec p n tl tr s : positive_limits p -> accessible n ->
  exists f s' w yw, naive_step p n tl tr s = Some (f, s') /\
  (forall u, f_side u = ns_support s -> f_frame u = state_frame s (ns_support s) ->
     naive_move p n u f (target_of tl tr (f_side f)) w yw) /\
  f_side f = other_side (ns_support s) /\ f = create_footstep p (f_side f) (f_frame f) /\
  ns_support s' = f_side f /\ state_frame s' (f_side f) = f_frame f /\ state_frame s' (ns_support s) = state_frame s (ns_support s) /\
  flag s' (f_side f) = w && yw /\ flag s' (ns_support s) = flag s (ns_support s).
Proof.
  intros P (AL & AW & AY). unfold naive_step.
  set (S := match ns_support s with Left => ns_left s | Right => ns_right s end).
  set (T := frame_mul (frame_inv S) (match ns_support s with Left => tr | Right => tl end)).
  set (idle := match ns_support s with Left => V3 0 (- p_feet_spacing p) 0 | Right => V3 0 (p_feet_spacing p) 0 end).
  set (center := match ns_support s with Left => V3 0 (- p_feet_spacing p / 2) 0 | Right => V3 0 (p_feet_spacing p / 2) 0 end).
  set (e := v3_sub (V3 (vx (fr_t T)) (vy (fr_t T)) 0) idle).
  pose proof (window_spec (n_length n) (vx e) 1 AL ltac:(lra)) as W1. destruct (window (n_length n) (vx e) 1) as [r1 o1].
  destruct W1 as (R1 & B1 & O1).
  pose proof (window_spec (n_width n) (vy e) r1 AW ltac:(lra)) as W2. destruct (window (n_width n) (vy e) r1) as [r2 o2].
  destruct W2 as (R2 & B2 & O2).
  set (y0 := if Rlt_dec (n_place_threshold n) (v3_norm e) then _ else _).
  set (lo := if Rlt_dec y0 (- n_yaw n) then true else false).
  set (y1 := if lo then - n_yaw n else y0).
  set (hi := if Rlt_dec (n_yaw n) y1 then true else false).
  set (y2 := if hi then n_yaw n else y1).
  assert (Y : Rabs y2 <= n_yaw n /\ (lo || hi = false -> y2 = y0)).
  { unfold y2, hi, y1, lo. destruct (Rlt_dec y0 (- n_yaw n)) as [A|A], (Rlt_dec (n_yaw n) _) as [B|B]; cbn [orb]; try apply Rnot_lt_le in A; try apply Rnot_lt_le in B; (split; [apply Rabs_le; split; try lra|]); auto; try discriminate. }
  destruct Y as [Y1 Y2].
  change (vx (v3_scale r2 e)) with (r2 * vx e). change (vy (v3_scale r2 e)) with (r2 * vy e).
  destruct (clip_factor Ellipsoid p (V3 (r2 * vx e) (r2 * vy e) y2) P) as (k & K & -> & A1 & A2 & _).
  eexists. eexists. exists (negb (o1 || o2)), (negb (lo || hi)). split; [reflexivity|]. cbn [create_footstep f_side f_frame].
  split; [|split; [reflexivity|split; [reflexivity|]]].
  - intros u Us Uf. change (match ns_support s with Left => ns_left s | Right => ns_right s end) with S in Uf.
    fold (state_frame s (ns_support s)) in S. 
    assert (TE : frame_mul (frame_inv (f_frame u)) (target_of tl tr (other_side (ns_support s))) = T).
    { rewrite Uf. unfold T, target_of, S. destruct (ns_support s); reflexivity. }
    exists k, r2, (vx e), (vy e), y2. rewrite TE.
    split; [auto|]. split; [lra|]. split; [unfold e, idle; destruct (ns_support s); cbn; ring|].
    split; [unfold e, idle; rewrite Us; destruct (ns_support s); cbn; ring|].
    split.
    { unfold steps_by. cbn [f_side f_frame]. rewrite Us, Uf. split; [reflexivity|].
      change (state_frame s (ns_support s)) with S. apply (f_equal (frame_mul S)). unfold planar. apply (f_equal2 Frame); [reflexivity|]. unfold idle, lateral.
      destruct (ns_support s); apply V3_ext; m3; ring. }
    split; [apply (abs_scale_le r1); auto|]. split; [auto|]. split; [auto|]. split; [auto|]. split; [auto|]. split.
    + intros E. apply negb_true_iff, orb_false_iff in E as [E1 E2]. rewrite O2, O1; auto.
    + intros E D. apply negb_true_iff in E. rewrite (Y2 E). unfold y0. destruct Rlt_dec as [G|G]; auto.
      exfalso. apply (Rlt_not_le _ _ G). unfold v3_norm, v3_dot.
      replace (vz e) with 0 by (unfold e, idle; destruct (ns_support s); cbn; ring). rewrite Rmult_0_r, Rplus_0_r. exact D.
  - rewrite <- (orb_assoc (o1 || o2) lo hi), (negb_orb (o1 || o2)).
    destruct (ns_support s); cbn [other_side ns_support state_frame flag ns_left ns_right ns_left_arrived ns_right_arrived]; auto.
Qed.

(** The loop: [h] are the footsteps so far, the last one first. *)
Definition history_ok (p : params) (n : naive) (tl tr : frame) (h : list footstep) (s : nstate) : Prop :=
  exists w v rest, h = w :: v :: rest /\ f_side w = ns_support s /\ f_side v = other_side (f_side w) /\
    f_frame w = state_frame s (f_side w) /\
    (flag s (f_side w) = true -> naive_move p n v w (target_of tl tr (f_side w)) true true) /\
    (flag s (f_side v) = true -> exists u rest', rest = u :: rest' /\ naive_move p n u v (target_of tl tr (f_side v)) true true).

Lemma other_other s : other_side (other_side s) = s.
Proof. now destruct s. Qed.

Lemma flags_both s sd : ns_left_arrived s && ns_right_arrived s = flag s sd && flag s (other_side sd).
Proof. destruct sd; cbn; auto using andb_comm. Qed.

Lemma naive_loop_spec p n tl tr : positive_limits p -> accessible n -> forall k s h, history_ok p n tl tr h s ->
  exists l s', naive_loop k p n tl tr s = Some (l, s') /\ (length l <= k)%nat /\ history_ok p n tl tr (rev l ++ h) s' /\
  ((length l < k)%nat -> ns_left_arrived s' && ns_right_arrived s' = true) /\
  (forall w rest, h = w :: rest -> alternating (other_side (f_side w)) l /\
     (forall i u v, nth_error (w :: l) i = Some u -> nth_error l i = Some v ->
        exists a b, naive_move p n u v (target_of tl tr (f_side v)) a b) /\
     (forall f, In f l -> f = create_footstep p (f_side f) (f_frame f))).
Proof.
  intros P A. induction k as [|k IH]; intros s h H.
  - exists [], s. cbn [naive_loop]. split; [now destruct (_ && _)|]. split; [auto|]. split; [exact H|]. split; [cbn; lia|].
    intros w rest _. split; [exact I|]. split; [|intros f []]. intros i u v _ E. now destruct i.
  - cbn [naive_loop]. destruct (ns_left_arrived s && ns_right_arrived s) eqn:F.
    + exists [], s. split; [reflexivity|]. split; [cbn; lia|]. split; [exact H|]. split; [auto|].
      intros w rest _. split; [exact I|]. split; [|intros f []]. intros i u v _ E. now destruct i.
    + destruct (naive_step_spec p n tl tr s P A) as (f & s' & a & b & -> & M & Sf & Cf & S' & F' & G' & Fl & Gl).
      destruct H as (w & v & rest & -> & Sw & Sv & Fw & Lw & Lv).
      assert (Mw : naive_move p n w f (target_of tl tr (f_side f)) a b) by (apply M; auto; now rewrite Fw, Sw).
      assert (H' : history_ok p n tl tr (f :: w :: v :: rest) s').
      { exists f, w, (v :: rest). split; [reflexivity|]. split; [auto|]. split; [now rewrite Sf, other_other|].
        split; [auto|]. split.
        - rewrite Fl. intros E. apply andb_true_iff in E as [-> ->]. exact Mw.
        - rewrite Sw, Gl, <- Sw. intros E. exists v, rest. split; auto. }
      destruct (IH s' _ H') as (l & s'' & -> & L & Hl & Fi & Al). exists (f :: l), s''.
      split; [reflexivity|]. split; [cbn; lia|]. split; [cbn [rev]; now rewrite <- app_assoc|]. split; [intros Q; apply Fi; cbn in Q; lia|].
      intros w0 rest0 E. injection E as <- _. destruct (Al f (w :: v :: rest) eq_refl) as (A1 & A2 & A3).
      split; [cbn [alternating]; rewrite Sw; split; auto; now rewrite <- Sf|]. split.
      * intros [|i] u0 v0 U V; cbn in U, V; [injection U as <-; injection V as <-; eauto|]. eapply A2; eauto.
      * intros f0 [<-|I0]; auto.
Qed.

(** ** Moving the world *)
Lemma frame_inv_mul_l t a : rigid t -> frame_inv (frame_mul t a) = frame_mul (frame_inv a) (frame_inv t).
Proof.
  intros T. unfold frame_inv, frame_mul. cbn [fr_R fr_t]. apply Frame_ext; cbn [fr_R fr_t]; [apply m3_t_mul|].
  rewrite m3_t_mul, m3_vec_mul, m3_vec_add, <- (m3_vec_mul (m3_t (fr_R t))), (rotation_l _ T), m3_vec_id, m3_vec_add, m3_vec_scale.
  apply V3_ext; m3; ring.
Qed.

Lemma inv_moved t a b : rigid t -> frame_mul (frame_inv (frame_mul t a)) (frame_mul t b) = frame_mul (frame_inv a) b.
Proof.
  intros T. rewrite frame_inv_mul_l, <- frame_mul_assoc by auto. rewrite (frame_mul_assoc (frame_inv a)), frame_inv_l by auto. now rewrite frame_mul_id_r.
Qed.

Lemma fr_t_mul a b : fr_t (frame_mul a b) = frame_act a (fr_t b).
Proof. reflexivity. Qed.

Lemma interpolate_t_moved t a b x : fr_t (interpolate_frames (frame_mul t a) (frame_mul t b) x) = frame_act t (fr_t (interpolate_frames a b x)).
Proof. unfold interpolate_frames, frame_mul, frame_act. cbn [fr_t]. apply V3_ext; m3; ring. Qed.

Definition moved_state (t : frame) (s : nstate) : nstate :=
  NState (frame_mul t (ns_left s)) (frame_mul t (ns_right s)) (ns_support s) (ns_left_arrived s) (ns_right_arrived s).

Lemma naive_step_moved p n t tl tr s : rigid t ->
  naive_step p n (frame_mul t tl) (frame_mul t tr) (moved_state t s) =
  option_map (fun q => (moved t (fst q), moved_state t (snd q))) (naive_step p n tl tr s).
Proof.
  intros T. unfold naive_step. cbn [moved_state ns_support].
  replace (match ns_support s with Left => ns_left (moved_state t s) | Right => ns_right (moved_state t s) end)
    with (frame_mul t (match ns_support s with Left => ns_left s | Right => ns_right s end)) by (now destruct (ns_support s)).
  replace (match ns_support s with Left => frame_mul t tr | Right => frame_mul t tl end)
    with (frame_mul t (match ns_support s with Left => tr | Right => tl end)) by (now destruct (ns_support s)).
  set (S := match ns_support s with Left => ns_left s | Right => ns_right s end).
  rewrite (inv_moved t S) by auto.
  replace (fr_t (frame_mul (frame_inv (frame_mul t S)) (interpolate_frames (frame_mul t tl) (frame_mul t tr) (1 / 2))))
    with (fr_t (frame_mul (frame_inv S) (interpolate_frames tl tr (1 / 2)))).
  2:{ rewrite !fr_t_mul, interpolate_t_moved. change (frame_act t (fr_t (interpolate_frames tl tr (1 / 2)))) with
      (fr_t (frame_mul t (interpolate_frames tl tr (1 / 2)))).
      change (fr_t (frame_mul (frame_inv S) (interpolate_frames tl tr (1 / 2))) =
              fr_t (frame_mul (frame_inv (frame_mul t S)) (frame_mul t (interpolate_frames tl tr (1 / 2))))). now rewrite inv_moved. }
  destruct (window (n_length n) _ 1) as [r1 o1]. destruct (window (n_width n) _ r1) as [r2 o2].
  destruct clip as [st|]; [|reflexivity]. cbn [option_map fst snd]. rewrite frame_mul_assoc. f_equal. f_equal.
  destruct (ns_support s); reflexivity.
Qed.

Lemma naive_loop_moved p n t tl tr : rigid t -> forall k s,
  naive_loop k p n (frame_mul t tl) (frame_mul t tr) (moved_state t s) =
  option_map (fun q => (map (moved t) (fst q), moved_state t (snd q))) (naive_loop k p n tl tr s).
Proof.
  intros T. induction k as [|k IH]; intros s; cbn [naive_loop]; cbn [moved_state ns_left_arrived ns_right_arrived].
  - now destruct (_ && _).
  - destruct (_ && _); [reflexivity|]. change (NState (frame_mul t (ns_left s)) (frame_mul t (ns_right s)) (ns_support s) (ns_left_arrived s) (ns_right_arrived s)) with (moved_state t s).
    rewrite naive_step_moved by auto. destruct naive_step as [[f s']|]; [|reflexivity]. cbn [option_map fst snd]. rewrite IH.
    destruct naive_loop as [[l s'']|]; reflexivity.
Qed.

Lemma initial_moved p t s l r : initial_footsteps p s (frame_mul t l) (frame_mul t r) = map (moved t) (initial_footsteps p s l r).
Proof. destruct s; reflexivity. Qed.

Lemma repeat_moved c p t x y a : floor_motion t -> forall n f,
  repeat_steps n c p (moved t f) x y a = option_map (fun q => (moved t (fst q), map (moved t) (snd q))) (repeat_steps n c p f x y a).
Proof.
  intros T. induction n as [|n IH]; intros f; cbn [repeat_steps]; [reflexivity|].
  rewrite clipped_moved by auto. destruct clipped_opposite_footstep as [f'|]; [|reflexivity]. cbn [option_map]. rewrite IH.
  destruct repeat_steps as [[g l]|]; reflexivity.
Qed.

Lemma repetitive_moved c p t x y a n s l r : floor_motion t ->
  repetitive_plan c p x y a n s (frame_mul t l) (frame_mul t r) = option_map (map (moved t)) (repetitive_plan c p x y a n s l r).
Proof.
  intros T. unfold repetitive_plan. rewrite initial_moved.
  rewrite (create_moved p s t l), map_nth.
  destruct (Z.ltb 0 n); [|reflexivity]. rewrite repeat_moved by auto. destruct repeat_steps as [[g m]|]; [|reflexivity]. cbn [option_map fst snd].
  rewrite clipped_moved by auto. destruct clipped_opposite_footstep; [|reflexivity]. cbn [option_map]. now rewrite !map_app.
Qed.

(** ** overlap_clip *)
Lemma allowed_yaw c p s : positive_limits p -> allowed c p s -> Rabs (vz s) <= p_max_dtheta p.
Proof.
  intros P. pose proof (max_dx_pos p (vx s) P) as X. destruct P as (_ & _ & Y & Z). unfold allowed.
  set (x := vx s / _). set (y := vy s / _).
  assert (E : vz s = (vz s / p_max_dtheta p) * p_max_dtheta p) by (field; lra). set (z := vz s / p_max_dtheta p) in *.
  assert (G : Rabs z <= 1 -> Rabs (vz s) <= p_max_dtheta p).
  { intros G. rewrite E, Rabs_mult, (Rabs_right (p_max_dtheta p)) by lra. nra. }
  intros A. apply G. destruct c.
  - pose proof (Rle_0_sqr x). pose proof (Rle_0_sqr y). unfold Rsqr in *. apply Rabs_le. nra.
  - pose proof (Rabs_pos x). pose proof (Rabs_pos y). lra.
  - pose proof (sqrt_pos (x * x + y * y)). lra.
Qed.

Lemma planar_same x y a b : same_angle a b -> planar x y a = planar x y b.
Proof. intros H. unfold planar. now rewrite (rot_z_same a b H). Qed.

Lemma overlap_clip_spec c p sd st : positive_limits p -> exists g s s',
  clipped_opposite_footstep c p (create_footstep p sd (translate frame_id (V3 0 (- lateral sd (p_feet_spacing p / 2)) 0))) (vx st) (vy st) (vz st) = Some g /\
  steps_by p (create_footstep p sd (translate frame_id (V3 0 (- lateral sd (p_feet_spacing p / 2)) 0))) g s /\ allowed c p s /\
  overlap_clip c p sd st = Some s' /\ vx s' = vx s /\ vy s' = vy s /\ same_angle (vz s') (vz s) /\ - PI < vz s' <= PI.
Proof.
  intros P. set (f := create_footstep p sd _).
  destruct (clipped_ok c p f (vx st) (vy st) (vz st) P) as (g & s & E & St & A).
  set (t_left := translate frame_id (V3 0 (p_feet_spacing p / 2) 0)).
  set (t_right := translate frame_id (V3 0 (- p_feet_spacing p / 2) 0)).
  set (init := initial_footsteps p (match sd with Left => Right | Right => Left end) t_left t_right).
  assert (N : forall d l, nth 1 (init ++ l) d = f).
  { intros d l. unfold init, f, initial_footsteps, lateral. destruct sd; cbn [nth app other_side]; apply (f_equal (create_footstep p _));
      unfold t_left, t_right; apply (f_equal (translate frame_id)); apply V3_ext; cbn; lra. }
  assert (PL : exists l, repetitive_plan c p (vx st) (vy st) (vz st) 3 (match sd with Left => Right | Right => Left end) t_left t_right = Some (init ++ g :: l)).
  { unfold repetitive_plan. fold init. change (Z.ltb 0 3) with true. change (Z.to_nat (3 - 1)) with 2%nat. cbv beta iota zeta.
    assert (N0 : forall d, nth 1 init d = f) by (intros d; rewrite <- (N d []); now rewrite app_nil_r).
    rewrite N0. cbn [repeat_steps]. rewrite E.
    destruct (clipped_ok c p g (vx st) (vy st) (vz st) P) as (g' & s1 & -> & _). rewrite (clipped_zero c p g' P). eexists. reflexivity. }
  destruct PL as (l & PL).
  exists g, s. unfold overlap_clip. fold t_left t_right. rewrite PL. cbv zeta. rewrite N.
  assert (N2 : forall d, nth 2 (init ++ g :: l) d = g) by (intros; unfold init; reflexivity). rewrite N2.
  pose proof St as [_ Sg]. rewrite Sg.
  assert (F : rigid (f_frame f)) by (unfold f; cbn; apply rotation_id).
  rewrite <- frame_mul_assoc, frame_inv_l, frame_mul_id_l by auto.
  eexists. split; [exact E|]. split; [exact St|]. split; [exact A|]. split; [reflexivity|]. cbn [vx vy vz planar fr_R fr_t].
  split; [reflexivity|]. split; [change (f_side f) with sd; unfold lateral; destruct sd; ring|].
  split; [apply frame_yaw_rot_z|]. rewrite frame_yaw_first. apply atan2_range.
Qed.

(** ** Frames of supports *)
Lemma frame_loop_mean (c : vec3 -> R) (lin : forall a u b v, c (v3_add (v3_scale a u) (v3_scale b v)) = a * c u + b * c v) :
  forall l f n, (0 < n)%Z ->
  IZR (n + Z.of_nat (length l)) * c (fr_t (frame_loop f n l)) =
  IZR n * c (fr_t f) + fold_right Rplus 0 (map (fun g => c (fr_t (f_frame g))) l).
Proof.
  induction l as [|g l IH]; intros f n N; cbn [frame_loop length map fold_right].
  - rewrite Z.add_0_r. ring.
  - replace (n + Z.of_nat (S (length l)))%Z with (n + 1 + Z.of_nat (length l))%Z by lia.
    rewrite IH by lia. unfold interpolate_frames at 1. cbn [fr_t]. rewrite lin.
    rewrite plus_IZR. assert (0 < IZR n) by (now apply IZR_lt). field. lra.
Qed.
