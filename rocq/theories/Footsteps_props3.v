(** Properties of the naive planner, of transformations and of truncated walks (C99 to C102). *)
From Coq Require Import Reals Lra Lia List ZArith Bool.
From Verif Require Tools_proofs.
From Verif Require Import Base Linalg Angle Geom3 Tools_model Geometry_model Geometry_spec Geometry_proofs Footsteps_model Footsteps_spec Footsteps_proofs
  Footsteps_proofs2 Footsteps_proofs3 Footsteps_props Footsteps_props2.
Import ListNotations.
Open Scope R_scope.

(** ** C99 *)
Lemma window_in l e r : Rabs e <= l -> window l e r = (r, false).
Proof.
  intros H. unfold window. assert (- l <= e <= l) by (revert H; unfold Rabs; destruct Rcase_abs; lra).
  destruct Rlt_dec; [lra|]. destruct Rlt_dec; [lra|]. reflexivity.
Qed.

Lemma yaw_id : frame_yaw m3_id = 0.
Proof. rewrite frame_yaw_first. cbn. replace 1 with (cos 0) by apply cos_0. replace 0 with (sin 0) at 1 by apply sin_0. apply atan2_cos_sin. pose proof PI_RGT_0. lra. Qed.

(** One step of the planner when the target is within the accessible window and nothing is rotated. *)
Lemma naive_step_level p n tl tr s ex ey :
  let S := state_frame s (ns_support s) in
  let T := frame_mul (frame_inv S) (target_of tl tr (other_side (ns_support s))) in
  fr_R T = m3_id -> vx (fr_t T) = ex -> vy (fr_t T) = lateral (ns_support s) (p_feet_spacing p) + ey ->
  Rabs ex <= n_length n -> Rabs ey <= n_width n -> 0 <= n_yaw n -> sqrt (ex * ex + ey * ey) <= n_place_threshold n ->
  forall st, clip Ellipsoid p (V3 ex ey 0) = Some st ->
  exists f s', naive_step p n tl tr s = Some (f, s') /\ f = create_footstep p (other_side (ns_support s))
      (frame_mul S (planar (vx st) (lateral (ns_support s) (p_feet_spacing p) + vy st) (vz st))) /\
    ns_support s' = other_side (ns_support s) /\ state_frame s' (other_side (ns_support s)) = f_frame f /\
    state_frame s' (ns_support s) = S /\
    flag s' (other_side (ns_support s)) = true /\ flag s' (ns_support s) = flag s (ns_support s).
Proof.
  intros S T TR TX TY LX LY LZ LT st C. unfold naive_step.
  change (match ns_support s with Left => ns_left s | Right => ns_right s end) with S.
  replace (frame_mul (frame_inv S) (match ns_support s with Left => tr | Right => tl end)) with T by (unfold T, target_of; now destruct (ns_support s)).
  set (idle := match ns_support s with Left => V3 0 (- p_feet_spacing p) 0 | Right => V3 0 (p_feet_spacing p) 0 end).
  assert (E : v3_sub (V3 (vx (fr_t T)) (vy (fr_t T)) 0) idle = V3 ex ey 0).
  { rewrite TX, TY. unfold idle, lateral. destruct (ns_support s); apply V3_ext; m3; ring. }
  rewrite E. cbn [vx vy]. rewrite (window_in (n_length n) ex 1 LX), (window_in (n_width n) ey 1 LY), TR, yaw_id.
  replace (v3_norm (V3 ex ey 0)) with (sqrt (ex * ex + ey * ey)) by (unfold v3_norm, v3_dot; cbn [vx vy vz]; f_equal; ring).
  destruct (Rlt_dec (n_place_threshold n) (sqrt (ex * ex + ey * ey))) as [G|G]; [lra|].
  destruct (Rlt_dec 0 (- n_yaw n)); [lra|]. destruct (Rlt_dec (n_yaw n) 0); [lra|].
  replace (V3 (vx (v3_scale 1 (V3 ex ey 0))) (vy (v3_scale 1 (V3 ex ey 0))) 0) with (V3 ex ey 0) by (apply V3_ext; m3; ring).
  rewrite C. eexists. eexists. split; [reflexivity|]. cbn [negb orb].
  assert (F : Frame (rot_z (vz st)) (v3_add idle (V3 (vx st) (vy st) 0)) = planar (vx st) (lateral (ns_support s) (p_feet_spacing p) + vy st) (vz st)).
  { unfold planar. apply Frame_ext; cbn [fr_R fr_t]; [reflexivity|]. unfold idle, lateral. destruct (ns_support s); apply V3_ext; m3; ring. }
  rewrite F. split; [reflexivity|].
  unfold S. destruct (ns_support s); cbn; auto.
Qed.

Definition ex_params2 : params := Params 1 10 (1 / 4) 1 (1 / 10) (1 / 10) (1 / 10) 1 (1 / 10) (1 / 5) (1 / 20) (1 / 20).
Lemma ex_limits2 : positive_limits ex_params2.
Proof. unfold positive_limits, ex_params2. cbn. lra. Qed.
Definition level (x y : R) : frame := Frame m3_id (V3 x y 0).
Lemma level_rel x y u v : frame_mul (frame_inv (level x y)) (level u v) = level (u - x) (v - y).
Proof. unfold level, frame_mul, frame_inv. cbn [fr_R fr_t]. apply Frame_ext; cbn [fr_R fr_t]; [apply M3_ext|apply V3_ext]; m3; ring. Qed.
Lemma level_planar x y u v : frame_mul (level x y) (planar u v 0) = level (x + u) (y + v).
Proof. unfold level, planar, frame_mul. rewrite rot_z_0. cbn [fr_R fr_t]. apply Frame_ext; cbn [fr_R fr_t]; [apply M3_ext|apply V3_ext]; m3; ring. Qed.

(** The planner stops, well before max_steps, with a foot 2.5 cm away from its target: the last step was shortened by the
    ellipsoid but considered as an arrival. *)
Theorem C99_refuted : exists p n target_left target_right l f, positive_limits p /\ n = new_naive p /\
  naive_plan p n target_left target_right Left (level 0 (1 / 10)) (level 0 (- (1 / 10))) = Some l /\ length l = 4%nat /\
  nth_error l 2 = Some f /\ f_side f = Left /\ fr_t (f_frame f) = V3 (8 / 100) (16 / 100) 0 /\ target_left = level (10 / 100) (175 / 1000).
Proof.
  exists ex_params2, (new_naive ex_params2), (level (10 / 100) (175 / 1000)), (level (8 / 100) (- (4 / 100))).
  set (tl := level (10 / 100) (175 / 1000)). set (tr := level (8 / 100) (- (4 / 100))).
  set (s0 := NState (level 0 (1 / 10)) (level 0 (- (1 / 10))) Right false false).
  assert (C1 : clip Ellipsoid ex_params2 (V3 (1 / 10) (75 / 1000) 0) = Some (V3 (8 / 100) (6 / 100) 0)).
  { rewrite clip_spec by apply ex_limits2.
    assert (G : gauge Ellipsoid ex_params2 (V3 (1 / 10) (75 / 1000) 0) = 5 / 4).
    { unfold gauge, max_dx, clip_norm, v3_norm, v3_dot. cbn [vx vy vz ex_params2 p_max_dx_forward p_max_dx_backward p_max_dy p_max_dtheta].
      destruct Rle_dec as [H|H]; [|lra]. replace (_ + _) with ((5 / 4) * (5 / 4)) by lra. apply sqrt_square. lra. }
    rewrite G. destruct Rlt_dec; [|lra]. f_equal. apply V3_ext; m3; lra. }
  assert (C2 : clip Ellipsoid ex_params2 (V3 0 0 0) = Some v3_zero) by (apply (clip_0 Ellipsoid ex_params2 ex_limits2)).
  destruct (naive_step_level ex_params2 (new_naive ex_params2) tl tr s0 (1 / 10) (75 / 1000)) with (st := V3 (8 / 100) (6 / 100) 0) as (f & s1 & E1 & F1 & S1 & P1 & Q1 & A1 & B1).
  all: try (cbn [ns_support s0 state_frame ns_right target_of other_side]; unfold tl; rewrite level_rel; cbn; lra || reflexivity).
  { cbn [new_naive n_length ex_params2 p_max_dx_forward]. rewrite Rabs_right; lra. }
  { cbn [new_naive n_width ex_params2 p_max_dy]. rewrite Rabs_right; lra. }
  { cbn. lra. }
  { cbn [new_naive n_place_threshold]. replace (1 / 10 * (1 / 10) + 75 / 1000 * (75 / 1000)) with ((1 / 8) * (1 / 8)) by lra. rewrite sqrt_square; lra. }
  { exact C1. }
  cbn [ns_support s0 other_side state_frame ns_right] in F1, S1, P1, Q1, A1, B1. cbn [vx vy vz] in F1. rewrite level_planar in F1.
  assert (Ff : f_frame f = level (8 / 100) (16 / 100)) by (rewrite F1; cbn [create_footstep f_frame]; unfold level; f_equal; f_equal; cbn; lra).
  destruct (naive_step_level ex_params2 (new_naive ex_params2) tl tr s1 0 0) with (st := v3_zero) as (g & s2 & E2 & F2 & S2 & P2 & Q2 & A2 & B2).
  all: try (rewrite S1; cbn [state_frame target_of other_side]; rewrite P1, Ff; unfold tr; rewrite level_rel; cbn; lra || reflexivity).
  { cbn [new_naive n_length ex_params2 p_max_dx_forward]. rewrite Rabs_R0; lra. }
  { cbn [new_naive n_width ex_params2 p_max_dy]. rewrite Rabs_R0; lra. }
  { cbn. lra. }
  { cbn [new_naive n_place_threshold]. replace (0 * 0 + 0 * 0) with 0 by ring. rewrite sqrt_0; lra. }
  { exact C2. }
  rewrite S1 in *. cbn [other_side flag] in A2, B2.
  exists (initial_footsteps ex_params2 Left (level 0 (1 / 10)) (level 0 (- (1 / 10))) ++ [f; g]), f.
  split; [apply ex_limits2|]. split; [reflexivity|]. split.
  { unfold naive_plan. change (Z.to_nat (n_max_steps (new_naive ex_params2))) with (S (S (S 97))).
    change (other_side Left) with Right. fold s0. cbn [naive_loop]. change (ns_left_arrived s0 && ns_right_arrived s0) with false. cbv iota. rewrite E1.
    replace (ns_left_arrived s1 && ns_right_arrived s1) with false by (cbn [flag] in B1; rewrite B1; now rewrite andb_false_r). cbv iota. rewrite E2.
    replace (ns_left_arrived s2 && ns_right_arrived s2) with true; [reflexivity|]. cbn [flag] in A1. now rewrite A2, B2, A1. }
  split; [reflexivity|]. split; [reflexivity|]. split; [rewrite F1; reflexivity|]. split; [now rewrite Ff|reflexivity].
Qed.
Print Assumptions C99_refuted.

(** What is true when the planner stops early: the last two steps, one for each foot, went towards the targets, which
    were in the accessible window, and reached them unless they had to be clipped. *)
Theorem C99_partial p n target_left target_right flying tl tr l : positive_limits p -> 0 <= n_length n -> 0 <= n_width n -> 0 <= n_yaw n ->
  naive_plan p n target_left target_right flying tl tr = Some l -> (length l < 2 + Z.to_nat (n_max_steps n))%nat ->
  exists l0 u v w, l = l0 ++ [u; v; w] /\ f_side w = other_side (f_side v) /\
    naive_move p n u v (target_of target_left target_right (f_side v)) true true /\
    naive_move p n v w (target_of target_left target_right (f_side w)) true true.
Proof.
  intros P A B C E L. unfold naive_plan in E. set (s0 := NState _ _ _ _ _) in E. set (f0 := create_footstep p flying (target_of tl tr flying)).
  set (f1 := create_footstep p (other_side flying) (target_of tl tr (other_side flying))).
  change (initial_footsteps p flying tl tr) with [f0; f1] in E.
  assert (H : history_ok p n target_left target_right [f1; f0] s0).
  { exists f1, f0, []. split; [reflexivity|]. split; [reflexivity|]. split; [cbn; now rewrite other_other|].
    split; [unfold f1, s0; destruct flying; reflexivity|]. split; unfold s0; destruct flying; discriminate. }
  destruct (naive_loop_spec p n target_left target_right P (conj A (conj B C)) (Z.to_nat (n_max_steps n)) s0 _ H) as (l1 & s' & E1 & L1 & H1 & Fl & _).
  rewrite E1 in E. injection E as <-. cbn [app length] in L. specialize (Fl ltac:(lia)).
  destruct H1 as (w & v & rest & Eh & Sw & Sv & Fw & Mw & Mv).
  assert (F2 : flag s' (f_side w) = true /\ flag s' (f_side v) = true).
  { rewrite Sv. rewrite (flags_both s' (f_side w)) in Fl. now apply andb_true_iff in Fl. }
  destruct F2 as [F2 F3]. destruct (Mv F3) as (u & rest' & -> & Mv'). exists (rev rest'), u, v, w.
  split.
  { apply (f_equal (@rev footstep)) in Eh. rewrite rev_app_distr, rev_involutive in Eh. cbn [rev app] in Eh. rewrite <- !app_assoc in Eh. exact Eh. }
  split; [now rewrite Sv, other_other|]. auto.
Qed.
Print Assumptions C99_partial.

(** In particular a foot is exactly at its target when the last step to it is allowed and short enough. *)
Theorem C99_exact p n u v a x y b x' y' : f_frame u = planar x y a -> naive_move p n u v (planar x' y' b) true true ->
  (forall ex ey yaw, planar x' y' b = frame_mul (planar x y a) (planar ex (lateral (f_side u) (p_feet_spacing p) + ey) yaw) -> - PI < yaw <= PI ->
     allowed Ellipsoid p (V3 ex ey yaw) /\ sqrt (ex * ex + ey * ey) <= n_place_threshold n) ->
  f_frame v = planar x' y' b.
Proof.
  intros U (k & r & ex & ey & yaw & K & R & X & Y & [_ S] & _ & _ & _ & _ & A & W & V) H.
  rewrite U in *. specialize (W eq_refl). subst r. specialize (V eq_refl). rewrite !Rmult_1_l in *.
  set (T := frame_mul (frame_inv (planar x y a)) (planar x' y' b)) in *.
  assert (TE : planar x' y' b = frame_mul (planar x y a) T) by (unfold T; rewrite <- frame_mul_assoc, frame_inv_r, frame_mul_id_l; [reflexivity|apply rotation_z]).
  assert (TR : fr_R T = rot_z (frame_yaw (fr_R T))).
  { assert (E : fr_R T = rot_z (b - a)).
    { unfold T, planar, frame_mul, frame_inv. cbn [fr_R]. replace b with (a + (b - a)) at 1 by ring. rewrite <- rot_z_mul, <- m3_mul_assoc, (rotation_l _ (rotation_z a)). apply m3_mul_id_l. }
    rewrite E. symmetry. apply rot_z_same, frame_yaw_rot_z. }
  assert (TP : T = planar ex (lateral (f_side u) (p_feet_spacing p) + ey) (frame_yaw (fr_R T))).
  { unfold planar. apply Frame_ext; cbn [fr_R fr_t]; [exact TR|]. apply V3_ext; cbn [vx vy vz]; auto. unfold T, planar, frame_mul, frame_inv. cbn [fr_R fr_t]. m3. cbn. ring. }
  assert (RY : - PI < frame_yaw (fr_R T) <= PI) by (rewrite frame_yaw_first; apply atan2_range).
  destruct (H ex ey (frame_yaw (fr_R T))) as [H1 H2]; [now rewrite <- TP|auto|].
  rewrite (V H2) in *. specialize (A H1). subst k. rewrite S, v3_scale_1. cbn [vx vy vz]. rewrite <- TP. now symmetry.
Qed.
Print Assumptions C99_exact.

(** ** C100 *)
Theorem C100_transform t s :
  (forall d, footstep_frame (transform_support t s) d = match footstep_frame s d with Ok f => Ok (frame_mul t f) | o => o end) /\
  support_side (transform_support t s) = support_side s /\ is_both (transform_support t s) = is_both s /\
  u_start (transform_support t s) = u_start s /\ u_end (transform_support t s) = u_end s /\ u_t_start (transform_support t s) = u_t_start s /\
  (forall t', transform_support t' (transform_support t s) = transform_support (frame_mul t' t) s) /\
  (floor_motion t -> corners (transform_support t s) =
     map (fun q => let v := frame_act t (V3 (fst q) (snd q) 0) in (vx v, vy v)) (corners s)).
Proof.
  split; [|split; [|split; [|split; [|split; [|split; [|split]]]]]]; try reflexivity.
  - intros d. unfold footstep_frame, transform_support. cbn [u_footsteps]. induction (u_footsteps s) as [|f l IH]; [reflexivity|]. cbn [map find f_side].
    destruct (side_eqb (f_side f) d); [reflexivity|exact IH].
  - unfold support_side, transform_support. cbn [u_footsteps]. rewrite map_length. destruct (u_footsteps s); reflexivity.
  - unfold is_both, transform_support. cbn [u_footsteps]. now rewrite map_length.
  - intros t'. unfold transform_support. cbn [u_footsteps u_t_start u_elapsed_ratio u_time_ratio u_target_world_dcm u_start u_end u_polygon]. rewrite map_map. f_equal.
    apply map_ext. intros f. cbn [f_width f_length f_side f_frame f_polygon]. now rewrite frame_mul_assoc.
  - intros T. unfold corners, transform_support. cbn [u_footsteps]. induction (u_footsteps s) as [|f l IH]; [reflexivity|].
    cbn [map flat_map]. rewrite IH, map_app. f_equal. change (compute_polygon _ 0) with (compute_polygon (moved t f) 0) at 1. rewrite polygon_moved by auto.
    apply map_ext. intros [q1 q2]. unfold move2, frame_act. m3. cbn [fst snd]. f_equal; ring.
Qed.
Print Assumptions C100_transform.

Theorem C100_offset s o : apply_offset s o = transform_support (Frame m3_id (V3 (fst o) (snd o) 0)) s.
Proof.
  unfold apply_offset, transform_support. f_equal. apply map_ext. intros f. f_equal. unfold frame_mul. cbn [fr_R fr_t].
  apply Frame_ext; cbn [fr_R fr_t]; [now rewrite m3_mul_id_l|]. apply V3_ext; m3; ring.
Qed.
Print Assumptions C100_offset.

Example C100_example : footstep_frame (transform_support (planar 1 0 0) (new_support [create_footstep ex_params Left (level 0 1)])) Left = Ok (frame_mul (planar 1 0 0) (level 0 1)).
Proof. reflexivity. Qed.

(** ** C101 *)
Theorem C101_repetitive c p t x y a nb flying tl tr : floor_motion t ->
  repetitive_plan c p x y a nb flying (frame_mul t tl) (frame_mul t tr) = option_map (map (moved t)) (repetitive_plan c p x y a nb flying tl tr).
Proof. apply repetitive_moved. Qed.
Print Assumptions C101_repetitive.

Theorem C101_naive p n t target_left target_right flying tl tr : rigid t ->
  naive_plan p n (frame_mul t target_left) (frame_mul t target_right) flying (frame_mul t tl) (frame_mul t tr) =
  option_map (map (moved t)) (naive_plan p n target_left target_right flying tl tr).
Proof.
  intros T. unfold naive_plan. change (NState (frame_mul t tl) (frame_mul t tr) (other_side flying) false false) with (moved_state t (NState tl tr (other_side flying) false false)).
  rewrite naive_loop_moved by auto. destruct naive_loop as [[l s]|]; [|reflexivity]. cbn [option_map fst snd]. now rewrite initial_moved, map_app.
Qed.
Print Assumptions C101_naive.

Example C101_example : floor_motion (planar 1 2 3) /\ rigid (planar 1 2 3).
Proof. split; [now exists 3, 1, 2, 0|apply rotation_z]. Qed.

(** ** C102 *)
Lemma linked_nth ph : linked ph -> forall i a b, nth_error ph i = Some a -> nth_error ph (S i) = Some b -> follows a b.
Proof.
  induction ph as [|x ph IH]; intros L i a b A B; [destruct i; discriminate|]. destruct ph as [|y ph]; [destruct i as [|[|i]]; discriminate|].
  cbn [linked] in L. destruct L as [L1 L2]. destruct i as [|i]; [cbn in A, B; injection A as <-; injection B as <-; exact L1|]. eapply IH; eauto.
Qed.

Lemma alternating_nth s l : alternating s l -> forall i a b, nth_error l i = Some a -> nth_error l (S i) = Some b -> f_side b = other_side (f_side a).
Proof.
  revert s. induction l as [|x l IH]; intros s A i a b Ha Hb; [destruct i; discriminate|]. destruct A as [A1 A2]. destruct i as [|i].
  - destruct l as [|y l]; [discriminate|]. cbn in Ha, Hb. injection Ha as <-. injection Hb as <-. destruct A2 as [-> _]. now rewrite A1.
  - eapply IH; eauto.
Qed.

Lemma rev_last_cases {A} (l : list A) b m : rev l = b :: m -> nth_error l (length l - 1) = Some b.
Proof.
  intros E. apply (f_equal (@rev A)) in E. rewrite rev_involutive in E. rewrite E. cbn [rev]. rewrite app_length. cbn [length].
  rewrite nth_error_app2 by lia. replace (_ - _)%nat with 0%nat by lia. reflexivity.
Qed.

Lemma nth_error_firstn {A} (l : list A) n i : (i < n)%nat -> nth_error (firstn n l) i = nth_error l i.
Proof. revert n i. induction l as [|x l IH]; intros [|n] i H; try lia; [now destruct i|]. destruct i; cbn; [reflexivity|]. apply IH. lia. Qed.

Lemma one_inj {A} (a b : A) : [a] = [b] -> a = b.
Proof. congruence. Qed.
Lemma two_inj {A} (a a' b b' : A) : [a; a'] = [b; b'] -> a = b /\ a' = b'.
Proof. split; congruence. Qed.

Theorem C102_plain l i : 
  ((Z.of_nat (length l) < i)%Z -> forall e, truncate_supports l i e = Throw ELogic) /\
  ((0 <= i <= Z.of_nat (length l))%Z -> truncate_supports l i false = Ok (firstn (Z.to_nat i) l)) /\
  (forall b, (0 < i <= Z.of_nat (length l))%Z -> nth_error l (Z.to_nat i - 1) = Some b -> u_end b = true -> truncate_supports l i true = Ok (firstn (Z.to_nat i) l)).
Proof.
  unfold truncate_supports. split; [|split].
  - intros H e. now rewrite (proj2 (Z.ltb_lt _ _) H).
  - intros H. rewrite (proj2 (Z.ltb_ge _ _)) by lia. reflexivity.
  - intros b H B E. rewrite (proj2 (Z.ltb_ge _ _)) by lia.
    assert (L : length (firstn (Z.to_nat i) l) = Z.to_nat i) by (apply firstn_length_le; lia).
    destruct (rev (firstn (Z.to_nat i) l)) as [|b' m] eqn:R.
    + apply (f_equal (@length support)) in R. rewrite rev_length, L in R. cbn in R. lia.
    + apply rev_last_cases in R. rewrite L in R. rewrite nth_error_firstn in R by lia. rewrite B in R. injection R as <-. now rewrite E.
Qed.
Print Assumptions C102_plain.

(** A walk can be cut anywhere inside: it then ends with both feet, those of the last support or the last support and
    the next one. *)
Theorem C102_truncated fs t start middle end_ s0 l i : alternating s0 fs -> (2 < length fs)%nat ->
  make_supports fs t start middle end_ = Ok l -> (0 < i < Z.of_nat (length l))%Z ->
  exists k e b, truncate_supports l i true = Ok (firstn (Z.to_nat i) l ++ [e]) /\ has_feet fs e (Double k) /\ u_end e = true /\ u_start e = false /\
    nth_error l (Z.to_nat i - 1) = Some b /\ (has_feet fs b (Single k) \/ has_feet fs b (Double k)).
Proof.
  intros Al N Ml I. destruct (C51_make_supports fs t start middle end_ N) as (l' & ph & Ml' & F & Lk & _ & _ & Fl).
  rewrite Ml in Ml'. injection Ml' as <-.
  unfold truncate_supports. rewrite (proj2 (Z.ltb_ge _ _)) by lia.
  assert (L : length (firstn (Z.to_nat i) l) = Z.to_nat i) by (apply firstn_length_le; lia).
  destruct (rev (firstn (Z.to_nat i) l)) as [|b m] eqn:R.
  { apply (f_equal (@length support)) in R. rewrite rev_length, L in R. cbn in R. lia. }
  apply rev_last_cases in R. rewrite L, nth_error_firstn in R by lia.
  assert (ub : u_end b = false).
  { destruct (Fl _ _ R) as (_ & Fe & _). destruct (u_end b); auto. destruct (proj1 Fe eq_refl) as [_ W]. lia. }
  rewrite ub.
  destruct (nth_error l (Z.to_nat i)) as [nx|] eqn:Nx; [|apply nth_error_None in Nx; lia].
  assert (FN : forall j q, nth_error l j = Some q -> exists a, nth_error ph j = Some a /\ has_feet fs q a).
  { intros j q Q. clear - F Q. revert j Q. induction F as [|x y l1 l2 H F IH]; intros j Q; [destruct j; discriminate|].
    destruct j; [injection Q as <-; exists y; now split|]. now apply IH. }
  destruct (FN _ _ R) as (pa & Pa & Ha). destruct (FN _ _ Nx) as (pb & Pb & Hb).
  assert (Fo : follows pa pb) by (apply (linked_nth ph Lk (Z.to_nat i - 1)); auto; now replace (S (Z.to_nat i - 1)) with (Z.to_nat i) by lia).
  assert (SN : side_eqb (other_side Left) Left = false /\ side_eqb (other_side Right) Right = false) by (split; reflexivity).
  assert (SE : forall s, side_eqb (other_side (other_side s)) s = true) by (intros []; reflexivity).
  assert (SX : forall s, side_eqb (other_side s) s = false) by (intros []; reflexivity).
  unfold has_feet in Ha, Hb. destruct pa as [k|k], pb as [k'|k']; cbn [follows] in Fo; try contradiction; subst k'; unfold feet in Ha, Hb.
  - (* single k, then single k + 1 *)
    destruct (u_footsteps b) as [|f [|? ?]] eqn:Ub; try discriminate Ha. destruct (u_footsteps nx) as [|g [|? ?]] eqn:Un; try discriminate Hb.
    cbn [map] in Ha, Hb. apply one_inj in Ha. apply one_inj in Hb.
    assert (Sg : f_side g = other_side (f_side f)) by (eapply alternating_nth; eauto; congruence). rewrite Sg, SE.
    exists k, (set_end (new_support [f; g]) true), b. split; [reflexivity|]. split; [unfold has_feet, feet; cbn [set_end new_support u_footsteps map]; congruence|].
    split; [reflexivity|]. split; [reflexivity|]. split; [exact R|]. left. unfold has_feet, feet. rewrite Ub. cbn [map]. congruence.
  - (* single k, then double k *)
    destruct (u_footsteps b) as [|f [|? ?]] eqn:Ub; try discriminate Ha. destruct (u_footsteps nx) as [|g [|h [|? ?]]] eqn:Un; try discriminate Hb.
    cbn [map] in Ha, Hb. apply one_inj in Ha. apply two_inj in Hb as [Hb Hb'].
    assert (g = f) as -> by congruence. rewrite SX. cbn [nth_error].
    exists k, (set_end (new_support [f; h]) true), b. split; [reflexivity|]. split; [unfold has_feet, feet; cbn [set_end new_support u_footsteps map]; congruence|].
    split; [reflexivity|]. split; [reflexivity|]. split; [exact R|]. left. unfold has_feet, feet. rewrite Ub. cbn [map]. congruence.
  - (* double k, then single k + 1 *)
    destruct (u_footsteps b) as [|f [|f' [|? ?]]] eqn:Ub; try discriminate Ha. destruct (u_footsteps nx) as [|g [|? ?]] eqn:Un; try discriminate Hb.
    cbn [map] in Ha, Hb. apply two_inj in Ha as [Ha Ha']. apply one_inj in Hb.
    assert (Sg : f_side g = other_side (f_side f)) by (eapply alternating_nth; eauto; congruence). rewrite Sg, SE.
    exists k, (set_end (new_support [f; g]) true), b. split; [reflexivity|]. split; [unfold has_feet, feet; cbn [set_end new_support u_footsteps map]; congruence|].
    split; [reflexivity|]. split; [reflexivity|]. split; [exact R|]. right. unfold has_feet, feet. rewrite Ub. cbn [map]. congruence.
Qed.
Print Assumptions C102_truncated.

(** At both ends, asking for a final double support is an access out of bounds. *)
Theorem C102_refuted : 
  (forall l, truncate_supports l 0 true = UB) /\
  (forall l b, nth_error l (length l - 1) = Some b -> u_end b = false -> truncate_supports l (Z.of_nat (length l)) true = UB).
Proof.
  split.
  - intros l. unfold truncate_supports. rewrite (proj2 (Z.ltb_ge _ _)) by lia. reflexivity.
  - intros l b B E. unfold truncate_supports. rewrite Z.ltb_irrefl, Nat2Z.id, firstn_all.
    destruct (rev l) as [|b' m] eqn:R; [reflexivity|]. apply rev_last_cases in R. rewrite B in R. injection R as <-. rewrite E.
    destruct (u_footsteps b); [reflexivity|]. now rewrite (proj2 (nth_error_None l (length l)) (le_n _)).
Qed.
Print Assumptions C102_refuted.

Example C102_example : exists l, make_supports ex_walk 3 true true true = Ok l /\ exists e, truncate_supports l 2 true = Ok (firstn 2 l ++ [e]) /\ is_both e = true.
Proof. eexists. split; [reflexivity|]. eexists. split; [reflexivity|]. reflexivity. Qed.
