(** Properties of the walk parameters, footsteps, supports and planners (C45 to C53, C61, C97 to C101). *)
From Coq Require Import Reals Lra Lia List ZArith Bool.
From Verif Require Import Base Linalg Angle Geom3 Tools_model Geometry_model Geometry_spec Geometry_proofs Footsteps_model Footsteps_spec Footsteps_proofs
  Footsteps_proofs2 Footsteps_proofs3.
Import ListNotations.
Open Scope R_scope.

(** Parameters for the examples: 0.2 m between the feet, soles of 0.1 m x 0.2 m. *)
Definition ex_params : params := Params 1 10 (1 / 4) 1 (1 / 10) (1 / 20) (1 / 10) 1 (1 / 10) (1 / 5) (1 / 10) (1 / 5).
Lemma ex_limits : positive_limits ex_params.
Proof. unfold positive_limits, ex_params. cbn. lra. Qed.
Lemma upright_id : upright frame_id.
Proof. split; [apply rotation_id|cbn; lra]. Qed.

(** ** C45 *)
Theorem C45_clip c p s : positive_limits p -> exists k,
  0 < k <= 1 /\ clip c p s = Some (v3_scale k s) /\ allowed c p (v3_scale k s) /\
  (allowed c p s -> clip c p s = Some s) /\
  (forall k', 0 <= k' <= 1 -> allowed c p (v3_scale k' s) -> k' <= k).
Proof.
  intros P. destruct (clip_factor c p s P) as (k & K & E & A & I & M). exists k. split; [auto|]. split; [auto|]. split; [auto|].
  split; [|auto]. intros H. rewrite E, (I H), v3_scale_1. reflexivity.
Qed.
Print Assumptions C45_clip.

Theorem C45_idempotent c p s r : positive_limits p -> clip c p s = Some r -> clip c p r = Some r.
Proof.
  intros P E. destruct (C45_clip c p s P) as (k & _ & E' & A & _). rewrite E in E'. injection E' as ->.
  destruct (C45_clip c p (v3_scale k s) P) as (k' & _ & _ & _ & I & _). now apply I.
Qed.
Print Assumptions C45_idempotent.

(** A limit set to 0 (say, a robot that cannot turn) does not give a step of 0 in that direction but a result that is not finite. *)
Theorem C45_zero_limit c p s : max_dx p (vx s) = 0 \/ p_max_dy p = 0 \/ p_max_dtheta p = 0 -> clip c p s = None.
Proof. apply clip_zero. Qed.
Print Assumptions C45_zero_limit.

(** Backwards the limit is 1/20: a step of -1/10 is halved, whatever the clipping; one of 1/10 is kept. *)
Example C45_example c : clip c ex_params (V3 (-1 / 10) 0 0) = Some (V3 (-1 / 20) 0 0) /\ clip c ex_params (V3 (1 / 10) 0 0) = Some (V3 (1 / 10) 0 0).
Proof.
  assert (A : gauge c ex_params (V3 (-1 / 10) 0 0) = 2).
  { unfold gauge, max_dx, ex_params. cbn [vx vy vz p_max_dx_forward p_max_dx_backward p_max_dy p_max_dtheta]. destruct Rle_dec as [H|H]; [lra|].
    replace (V3 _ _ _) with (v3_scale 2 (V3 (-1) 0 0)) by (unfold v3_scale; cbn [vx vy vz]; apply V3_ext; cbn [vx vy vz]; lra).
    rewrite clip_norm_scale by lra. assert (clip_norm c (V3 (-1) 0 0) = 1); [|lra].
    unfold clip_norm, v3_norm, v3_dot. cbn [vx vy vz]. destruct c.
    - replace (-1 * -1 + 0 * 0 + 0 * 0) with 1 by ring. apply sqrt_1.
    - rewrite Rabs_R0, Rabs_left; lra.
    - replace (-1 * -1 + 0 * 0) with 1 by ring. rewrite sqrt_1, Rabs_R0. ring. }
  assert (B : gauge c ex_params (V3 (1 / 10) 0 0) = 1).
  { unfold gauge, max_dx, ex_params. cbn [vx vy vz p_max_dx_forward p_max_dx_backward p_max_dy p_max_dtheta]. destruct Rle_dec as [H|H]; [|lra].
    replace (V3 _ _ _) with (V3 1 0 0) by (apply V3_ext; cbn [vx vy vz]; lra).
    unfold clip_norm, v3_norm, v3_dot. cbn [vx vy vz]. destruct c.
    - replace (1 * 1 + 0 * 0 + 0 * 0) with 1 by ring. apply sqrt_1.
    - rewrite Rabs_R0, Rabs_R1; lra.
    - replace (1 * 1 + 0 * 0) with 1 by ring. rewrite sqrt_1, Rabs_R0. ring. }
  rewrite !clip_spec, A, B by apply ex_limits. destruct (Rlt_dec 1 2); [|lra]. destruct (Rlt_dec 1 1); [lra|].
  split; f_equal; apply V3_ext; m3; lra.
Qed.

(** ** C46 *)
Theorem C46_opposite_frame p s t x y a :
  opposite_frame p s t x y a = frame_mul t (planar x (lateral s (p_feet_spacing p) + y) a) /\
  opposite_frame p (other_side s) (opposite_frame p s t 0 0 0) 0 0 0 = t.
Proof.
  split; [apply opposite_frame_planar|].
  rewrite !opposite_frame_planar, lateral_other, frame_mul_assoc, planar_mul_y.
  replace (lateral s (p_feet_spacing p) + 0 + (- lateral s (p_feet_spacing p) + 0)) with 0 by ring. rewrite planar_0. apply frame_mul_id_r.
Qed.
Print Assumptions C46_opposite_frame.

Theorem C46_neutral_frame p s t :
  (forall x y a, neutral_frame p s t x y a = frame_mul t (planar x (lateral s (p_feet_spacing p / 2) + y) a)) /\
  neutral_frame p (other_side s) (opposite_frame p s t 0 0 0) 0 0 0 = neutral_frame p s t 0 0 0.
Proof.
  split; [intros; apply neutral_frame_planar|].
  rewrite !neutral_frame_planar, opposite_frame_planar, lateral_other, frame_mul_assoc, planar_mul_y. f_equal. f_equal.
  unfold lateral. destruct s; field.
Qed.
Print Assumptions C46_neutral_frame.

(** The right foot of a robot whose left foot is at (0, 0.1): on the other side of the x axis. *)
Example C46_example : opposite_frame ex_params Left (planar 0 (1 / 10) 0) 0 0 0 = planar 0 (- (1 / 10)) 0 /\
  neutral_frame ex_params Left (planar 0 (1 / 10) 0) 0 0 0 = frame_id.
Proof.
  split.
  - rewrite opposite_frame_planar, planar_mul_y. f_equal. cbn. lra.
  - rewrite neutral_frame_planar, planar_mul_y, <- planar_0. f_equal. cbn. lra.
Qed.

(** ** C47 *)
Theorem C47_polygon f m : upright (f_frame f) -> 0 < f_length f / 2 + m -> 0 < f_width f / 2 + m ->
  (exists l w, l = f_length f / 2 + m /\ w = f_width f / 2 + m /\
     compute_polygon f m = map (fun c => let q := frame_act (f_frame f) (V3 (fst c) (snd c) 0) in (vx q, vy q)) [(- l, w); (l, w); (l, - w); (- l, - w)]) /\
  convex_clockwise (compute_polygon f m) /\
  (forall p, polygon_contains (compute_polygon f m) p = Ok true <-> on_sole f m p).
Proof.
  intros U L W. split; [|split].
  - exists (f_length f / 2 + m), (f_width f / 2 + m). split; [reflexivity|]. split; [reflexivity|].
    unfold compute_polygon, corner. cbn [map fst snd].
    repeat match goal with |- ?a :: _ = ?b :: _ => apply (f_equal2 cons); [f_equal; m3; unfold frame_act; m3; ring|] end. reflexivity.
  - now apply sole_clockwise.
  - intros p. now apply contains_sole.
Qed.
Print Assumptions C47_polygon.

(** polygon_contains is also offered for any polygon. *)
Theorem C47_contains l p :
  (convex_clockwise l -> (3 <= length l)%nat -> (polygon_contains l p = Ok true <-> in_hull l p)) /\
  (polygon_contains l p = UB <-> l = []) /\ (forall e, polygon_contains l p <> Throw e).
Proof.
  split; [apply contains_hull|]. split; [|intros e; destruct l; discriminate].
  destruct l; split; intros H; try reflexivity; discriminate.
Qed.
Print Assumptions C47_contains.

Definition ex_foot : footstep := create_footstep ex_params Left (planar 1 0 (PI / 2)).
Lemma ex_foot_upright : upright (f_frame ex_foot).
Proof. split; [apply rotation_z|cbn; lra]. Qed.
Example C47_example : polygon_contains (compute_polygon ex_foot 0) (1 + 1 / 25, 9 / 100) = Ok true /\
  polygon_contains (compute_polygon ex_foot 0) (1 + 9 / 100, 1 / 25) <> Ok true.
Proof.
  split; [|intros H]; [|revert H]; rewrite (proj2 (proj2 (C47_polygon ex_foot 0 ex_foot_upright ltac:(cbn; lra) ltac:(cbn; lra)))).
  - exists (9 / 100), (- (1 / 25)). split; [rewrite Rabs_right; cbn; lra|]. split; [rewrite Rabs_left; cbn; lra|].
    cbn. rewrite cos_PI2, sin_PI2. f_equal; ring.
  - intros (u & v & A & B & E). cbn in E. rewrite cos_PI2, sin_PI2 in E. injection E as E1 E2.
    assert (V : v = - (9 / 100)) by lra. rewrite V, Rabs_left in B by lra. cbn in B. lra.
Qed.

(** ** C48 *)
(** The polygon is kept when a footstep is copied by opposite_footstep, or when its frame is assigned. *)
Theorem C48_refuted : exists p f, planned p f /\
  (let g := opposite_footstep p (fst (support_polygon f)) 0 0 0 in snd (support_polygon g) <> compute_polygon g 0) /\
  (let g := assign_frame (fst (support_polygon f)) (planar 1 0 0) in snd (support_polygon g) <> compute_polygon g 0).
Proof.
  exists ex_params, (create_footstep ex_params Left frame_id). split; [constructor|]. split.
  - cbn. intros E. injection E as E. lra.
  - cbn. intros E. injection E as E. rewrite cos_0, sin_0 in E. lra.
Qed.
Print Assumptions C48_refuted.

Theorem C48_behaviour p f x y a t : snd (support_polygon f) = compute_polygon f 0 ->
  snd (support_polygon (opposite_footstep p (fst (support_polygon f)) x y a)) = compute_polygon f 0 /\
  snd (support_polygon (assign_frame (fst (support_polygon f)) t)) = compute_polygon f 0.
Proof. intros H. unfold support_polygon in *. destruct (f_computed f) eqn:E; cbn in *; rewrite ?E; auto. Qed.
Print Assumptions C48_behaviour.

(** It is right for the footsteps and supports obtained by planning, then by queries, offsets and transformations. *)
Theorem C48_partial p hull :
  (forall f, handled p hull f -> snd (support_polygon f) = compute_polygon f 0) /\
  (forall s, handled_s p hull s -> hull (corners s) <> [] ->
     snd (support_support_polygon hull s) = Ok (removelast (hull (corners s)))).
Proof.
  destruct (handled_good p hull) as [A B]. split.
  - intros f H. now apply support_polygon_good, A.
  - intros s H N. pose proof (B s H) as G. destruct (support_support_polygon hull s) as [s' [q|e|]] eqn:E; cbn [snd].
    + now rewrite (support_query_result hull s s' q G E).
    + unfold support_support_polygon in E. destruct (u_computed s); [discriminate|]. destruct (polygons _) as [l pts]. destruct (hull pts); discriminate.
    + exfalso. unfold support_support_polygon in E. destruct (u_computed s) eqn:C; [discriminate|].
      pose proof (polygons_good (u_footsteps s) (proj1 G)) as (_ & D & _). destruct (polygons (u_footsteps s)) as [l pts]. cbn [snd] in D.
      unfold corners in N. rewrite <- D in N. destruct (hull pts); [congruence|discriminate].
Qed.
Print Assumptions C48_partial.

Example C48_example hull : handled_s ex_params hull
  (apply_offset (fst (support_support_polygon hull (new_support [opposite_footstep ex_params (create_footstep ex_params Left frame_id) 0 0 0]))) (1, 0)).
Proof. apply handled_offset, handled_query, handled_new. intros f [<-|[]]. apply handled_planned, planned_opposite, planned_create. Qed.

(** ** C49 *)
Definition long_foot (a : R) : footstep := Footstep 1 4 Left (planar 0 0 a) [] false.
(** Two soles that cross, like a plus sign. *)
Theorem C49_refuted : exists a b p, upright (f_frame a) /\ upright (f_frame b) /\ 0 < f_length a /\ 0 < f_width a /\ 0 < f_length b /\ 0 < f_width b /\
  on_sole a 0 p /\ on_sole b 0 p /\ overlap a b 0 = false.
Proof.
  exists (long_foot 0), (long_foot (PI / 2)), (0, 0).
  assert (U : forall a, upright (f_frame (long_foot a))) by (intros; split; [apply rotation_z|cbn; lra]).
  split; [apply U|]. split; [apply U|]. cbn [long_foot f_length f_width]. do 4 (split; [lra|]).
  assert (O : forall a, on_sole (long_foot a) 0 (0, 0)).
  { intros a. exists 0, 0. rewrite Rabs_R0. cbn. split; [lra|]. split; [lra|]. f_equal; ring. }
  split; [apply O|]. split; [apply O|].
  apply not_true_is_false. rewrite overlap_iff.
  assert (S : forall a p, polygon_contains (compute_polygon (long_foot a) 0) p = Ok true -> on_sole (long_foot a) 0 p)
    by (intros a p; apply contains_sole; [apply U|cbn; lra|cbn; lra]).
  intros [(p & I & C)|(p & I & C)]; apply S in C as (u & v & Hu & Hv & E); cbn in Hu, Hv, E.
  - rewrite cos_PI2, sin_PI2 in E. unfold compute_polygon, corner, frame_act in I. m3. cbn [f_frame long_foot planar fr_R fr_t rot_z m00 m01 m10 m11 m02 m12 f_length f_width vx vy] in I.
    rewrite cos_0, sin_0 in I. revert Hv. subst p. unfold Rabs. destruct I as [I|[I|[I|[I|[]]]]]; injection I as I1 I2; destruct Rcase_abs; lra.
  - rewrite cos_0, sin_0 in E. unfold compute_polygon, corner, frame_act in I. m3. cbn [f_frame long_foot planar fr_R fr_t rot_z m00 m01 m10 m11 m02 m12 f_length f_width vx vy] in I.
    rewrite cos_PI2, sin_PI2 in I. revert Hv. subst p. unfold Rabs. destruct I as [I|[I|[I|[I|[]]]]]; injection I as I1 I2; destruct Rcase_abs; lra.
Qed.
Print Assumptions C49_refuted.

(** It is exact for feet of the same size and orientation, and never reports an overlap that does not exist. *)
Theorem C49_partial a b m : upright (f_frame a) -> upright (f_frame b) ->
  0 < f_length a / 2 + m -> 0 < f_width a / 2 + m -> 0 < f_length b / 2 + m -> 0 < f_width b / 2 + m ->
  (overlap a b m = true -> exists p, on_sole a m p /\ on_sole b m p) /\
  (fr_R (f_frame a) = fr_R (f_frame b) -> f_length a = f_length b -> f_width a = f_width b ->
     ((exists p, on_sole a m p /\ on_sole b m p) -> overlap a b m = true)) /\
  overlap a b m = overlap b a m.
Proof.
  intros Ua Ub La Wa Lb Wb. split; [now apply overlap_sound|]. split; [|apply overlap_sym]. intros R L W. now apply overlap_complete.
Qed.
Print Assumptions C49_partial.

Example C49_example : exists p, on_sole (create_footstep ex_params Left frame_id) 0 p /\ on_sole (create_footstep ex_params Left (planar (1 / 5) (1 / 10) 0)) 0 p.
Proof.
  exists (1 / 10, 1 / 20). split; [exists (1 / 10), (1 / 20)|exists (- (1 / 10)), (- (1 / 20))]; cbn; rewrite ?Rabs_Ropp, !Rabs_right by lra;
    (split; [lra|split; [lra|]]); rewrite ?cos_0, ?sin_0; f_equal; lra.
Qed.

(** ** C50 *)
(** The step asked for, moved outwards according to the rotation. *)
Definition spaced (p : params) (s : side) (x y a : R) : vec3 := V3 x (y + lateral s (p_dtheta_spacing p * Rabs a)) a.

Theorem C50_clipped_opposite_footstep c p f x y a : positive_limits p ->
  exists g r j, clip c p (spaced p (f_side f) x y a) = Some r /\ clipped_opposite_footstep c p f x y a = Some g /\
    let s i := v3_scale ((9 / 10) ^ i) r in
    let foot i := opposite_footstep p f (vx (s i)) (vy (s i)) (vz (s i)) in
    (j <= 32)%nat /\ g = foot j /\ steps_by p f g (s j) /\ allowed c p (s j) /\
    (forall i, (i < j)%nat -> overlap (foot i) f (/ 100) = true) /\
    ((j < 32)%nat -> overlap g f (/ 100) = false).
Proof.
  intros P. unfold clipped_opposite_footstep.
  replace (V3 x (match f_side f with Left => y - p_dtheta_spacing p * Rabs a | Right => y + p_dtheta_spacing p * Rabs a end) a)
    with (spaced p (f_side f) x y a) by (unfold spaced, lateral; destruct (f_side f); f_equal; ring).
  destruct (clip_factor c p (spaced p (f_side f) x y a) P) as (k & K & -> & A & _). set (r := v3_scale k _) in *.
  destruct (reduce_spec p f 32 r) as (j & J & E & B & C). exists (reduce_step 32 p f r), r, j. cbn zeta in *.
  split; [reflexivity|]. split; [reflexivity|]. split; [exact J|]. split; [exact E|]. split; [rewrite E; apply opposite_steps|].
  split; [apply allowed_scale; auto; pose proof (pow_9_10 j); lra|]. split; auto.
Qed.
Print Assumptions C50_clipped_opposite_footstep.

(** When no rotation is asked for, the feet do not touch unless 32 reductions were not enough. *)
Theorem C50_no_collision c p f x y g : positive_limits p -> upright (f_frame f) -> 0 < f_length f -> 0 < f_width f ->
  clipped_opposite_footstep c p f x y 0 = Some g ->
  (forall q, ~ (on_sole g (/ 100) q /\ on_sole f (/ 100) q)) \/
  (forall i, (i < 32)%nat -> exists r, clip c p (V3 x y 0) = Some r /\
     let s := v3_scale ((9 / 10) ^ i) r in overlap (opposite_footstep p f (vx s) (vy s) (vz s)) f (/ 100) = true).
Proof.
  intros P U L W E. destruct (C50_clipped_opposite_footstep c p f x y 0 P) as (g' & r & j & R & E' & H). cbn zeta in H.
  rewrite E in E'. injection E' as <-. destruct H as (J & G & [_ F] & A & B & C).
  replace (spaced p (f_side f) x y 0) with (V3 x y 0) in R by (unfold spaced; rewrite Rabs_R0, Rmult_0_r; unfold lateral; destruct (f_side f); f_equal; ring).
  destruct (Nat.eq_dec j 32) as [->|N].
  - right. intros i I. exists r. split; [exact R|exact (B i I)].
  - left. intros q [Q1 Q2].
    assert (V : vz r = 0) by (destruct (clip_factor c p (V3 x y 0) P) as (k & _ & K & _); rewrite R in K; injection K as ->; cbn; ring).
    assert (RR : fr_R (f_frame g) = fr_R (f_frame f)).
    { rewrite F. unfold planar, frame_mul. cbn [fr_R]. change (vz (v3_scale ((9 / 10) ^ j) r)) with ((9 / 10) ^ j * vz r). rewrite V, Rmult_0_r, rot_z_0. apply m3_mul_id_r. }
    assert (Z : overlap g f (/ 100) = true).
    { apply overlap_complete; auto; [| | | | |exists q; auto].
      - destruct U as [U1 U2]. split; unfold rigid in *; now rewrite RR.
      - now rewrite G.
      - now rewrite G.
      - rewrite G. cbn. lra.
      - rewrite G. cbn. lra. }
    rewrite C in Z by lia. discriminate.
Qed.
Print Assumptions C50_no_collision.

Example C50_example : exists g, clipped_opposite_footstep Conic ex_params (create_footstep ex_params Left frame_id) (1 / 10) 0 0 = Some g /\
  f_side g = Right /\ overlap g (create_footstep ex_params Left frame_id) (/ 100) = false.
Proof.
  destruct (C50_clipped_opposite_footstep Conic ex_params (create_footstep ex_params Left frame_id) (1 / 10) 0 0 ex_limits) as (g & r & j & R & E & H).
  cbn zeta in H. destruct H as (J & G & [S F] & A & B & C). exists g. split; [exact E|]. split; [exact S|].
  replace (spaced ex_params (f_side (create_footstep ex_params Left frame_id)) (1 / 10) 0 0) with (V3 (1 / 10) 0 0) in R
    by (unfold spaced; rewrite Rabs_R0; cbn; f_equal; ring).
  rewrite (proj2 (C45_example Conic)) in R. injection R as <-.
  destruct j as [|j]; [apply C; lia|]. exfalso. specialize (B 0%nat ltac:(lia)). apply overlap_sound in B.
  - destruct B as (q & (u & v & Hu & Hv & Eq) & (u' & v' & Hu' & Hv' & Eq')). cbn zeta in *. rewrite Eq in Eq'. cbn in Eq', Hv, Hv'.
    rewrite !Rmult_0_r, cos_0, sin_0 in Eq'. injection Eq' as E1 E2. revert Hv Hv'. unfold Rabs. destruct Rcase_abs, Rcase_abs; lra.
  - split; [|cbn; rewrite ?Rmult_0_r; cbn; lra].
    unfold rigid. cbn [opposite_footstep f_frame]. rewrite opposite_frame_planar. apply rotation_mul; [apply rotation_id|apply rotation_z].
  - apply upright_id.
  - cbn; lra.
  - cbn; lra.
  - cbn; lra.
  - cbn; lra.
Qed.
