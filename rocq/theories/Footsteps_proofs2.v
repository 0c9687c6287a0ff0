(** Lemmas about overlaps, supports and planners. *)
From Coq Require Import Reals Lra Lia List ZArith Bool.
From Verif Require Import Base Linalg Angle Geom3 Tools_model Geometry_model Geometry_spec Geometry_proofs Footsteps_model Footsteps_spec Footsteps_proofs.
Import ListNotations.
Open Scope R_scope.

(** ** Overlap *)
Lemma overlap_iff a b m : overlap a b m = true <->
  (exists p, In p (compute_polygon a m) /\ polygon_contains (compute_polygon b m) p = Ok true) \/
  (exists p, In p (compute_polygon b m) /\ polygon_contains (compute_polygon a m) p = Ok true).
Proof.
  unfold overlap. rewrite orb_true_iff, !existsb_exists.
  assert (E : forall l p, (match polygon_contains l p with Ok true => true | _ => false end) = true <-> polygon_contains l p = Ok true).
  { intros l p. destruct (polygon_contains l p) as [[|]| |]; split; congruence. }
  split; intros [(p & A & B)|(p & A & B)]; [left|right|left|right]; exists p; split; auto; now apply E.
Qed.

Lemma corner_on_sole f m p : 0 <= f_length f / 2 + m -> 0 <= f_width f / 2 + m -> In p (compute_polygon f m) -> on_sole f m p.
Proof.
  intros L W H.
  assert (G : exists sx sy, Rabs sx = 1 /\ Rabs sy = 1 /\ p = corner f m sx sy).
  { destruct H as [<-|[<-|[<-|[<-|[]]]]]; eexists; eexists; (split; [|split; [|reflexivity]]); unfold Rabs; destruct Rcase_abs; lra. }
  destruct G as (sx & sy & X & Y & ->). exists (sx * (m + f_length f / 2)), (sy * (m + f_width f / 2)).
  rewrite !Rabs_mult, X, Y, !Rabs_right by lra. split; [lra|]. split; [lra|]. reflexivity.
Qed.

Lemma overlap_sound a b m : upright (f_frame a) -> upright (f_frame b) ->
  0 < f_length a / 2 + m -> 0 < f_width a / 2 + m -> 0 < f_length b / 2 + m -> 0 < f_width b / 2 + m ->
  overlap a b m = true -> exists p, on_sole a m p /\ on_sole b m p.
Proof.
  intros Ua Ub La Wa Lb Wb. rewrite overlap_iff. intros [(p & I & C)|(p & I & C)]; exists p.
  - split; [apply corner_on_sole; auto; lra|]. now apply contains_sole.
  - split; [|apply corner_on_sole; auto; lra]. now apply contains_sole.
Qed.

Lemma overlap_complete a b m : upright (f_frame a) -> fr_R (f_frame a) = fr_R (f_frame b) ->
  f_length a = f_length b -> f_width a = f_width b -> 0 < f_length a / 2 + m -> 0 < f_width a / 2 + m ->
  (exists p, on_sole a m p /\ on_sole b m p) -> overlap a b m = true.
Proof.
  intros U R L W Pl Pw (p & (u & v & Hu & Hv & E) & (u' & v' & Hu' & Hv' & E')).
  assert (Ub : upright (f_frame b)) by (destruct U; split; unfold rigid in *; now rewrite <- R).
  rewrite overlap_iff. left. cbn zeta in E, E'. subst p. injection E' as E1 E2.
  set (sx := if Rle_dec 0 (u - u') then 1 else -1). set (sy := if Rle_dec 0 (v - v') then 1 else -1).
  exists (corner a m sx sy). split.
  - unfold compute_polygon, sx, sy. destruct Rle_dec, Rle_dec; cbn [In]; tauto.
  - apply contains_sole; auto; [now rewrite <- L|now rewrite <- W|].
    exists (sx * (m + f_length a / 2) - (u - u')), (sy * (m + f_width a / 2) - (v - v')).
    rewrite <- L, <- W in *.
    assert (forall x, Rabs x <= f_length a / 2 + m -> - (f_length a / 2 + m) <= x <= f_length a / 2 + m) as Al
      by (intros x; unfold Rabs; destruct Rcase_abs; lra).
    assert (forall x, Rabs x <= f_width a / 2 + m -> - (f_width a / 2 + m) <= x <= f_width a / 2 + m) as Aw
      by (intros x; unfold Rabs; destruct Rcase_abs; lra).
    apply Al in Hu, Hu'. apply Aw in Hv, Hv'.
    split; [apply Rabs_le; unfold sx; destruct Rle_dec as [G|G]; [|apply Rnot_le_lt in G]; split; lra|].
    split; [apply Rabs_le; unfold sy; destruct (Rle_dec 0 (v - v')) as [G|G]; [|apply Rnot_le_lt in G]; split; lra|].
    unfold corner, frame_act in *. m3. rewrite <- R in *.
    f_equal; [replace (vx (fr_t (f_frame b))) with (vx (fr_t (f_frame a)) + (m00 (fr_R (f_frame a)) * (u - u') + m01 (fr_R (f_frame a)) * (v - v'))) by lra; ring|
              replace (vy (fr_t (f_frame b))) with (vy (fr_t (f_frame a)) + (m10 (fr_R (f_frame a)) * (u - u') + m11 (fr_R (f_frame a)) * (v - v'))) by lra; ring].
Qed.

Lemma overlap_sym a b m : overlap a b m = overlap b a m.
Proof. unfold overlap. apply orb_comm. Qed.

(** Motions along the floor. *)
Definition move2 (t : frame) (p : point) : point :=
  (m00 (fr_R t) * fst p + m01 (fr_R t) * snd p + vx (fr_t t), m10 (fr_R t) * fst p + m11 (fr_R t) * snd p + vy (fr_t t)).

Lemma floor_rigid t : floor_motion t -> rigid t.
Proof. intros (a & x & y & z & ->). apply rotation_z. Qed.

Lemma corner_moved t f m sx sy : floor_motion t -> corner (moved t f) m sx sy = move2 t (corner f m sx sy).
Proof.
  intros (a & x & y & z & ->). unfold corner, moved, assign_frame, move2, frame_mul, frame_act, rot_z. cbn [f_frame f_length f_width fr_R fr_t]. m3. cbn [fst snd]. f_equal; ring.
Qed.

Lemma polygon_moved t f m : floor_motion t -> compute_polygon (moved t f) m = map (move2 t) (compute_polygon f m).
Proof. intros H. unfold compute_polygon. cbn [map]. now rewrite !corner_moved. Qed.

Lemma turn_moved t a b c : floor_motion t -> turn (move2 t a) (move2 t b) (move2 t c) = turn a b c.
Proof.
  intros (q & x & y & z & ->). unfold turn, v2_cross, v2_sub, move2, rot_z. cbn [fst snd fr_R fr_t m00 m01 m10 m11 vx vy].
  pose proof (sin2_cos2 q) as S. unfold Rsqr in S.
  transitivity ((sin q * sin q + cos q * cos q) * ((fst b - fst a) * (snd c - snd a) - (snd b - snd a) * (fst c - fst a))); [ring|]. rewrite S. ring.
Qed.

Lemma contains_moved t l p : floor_motion t -> (0 < length l)%nat ->
  (polygon_contains (map (move2 t) l) (move2 t p) = Ok true <-> polygon_contains l p = Ok true).
Proof.
  intros T L. rewrite !contains_edges by (rewrite ?map_length; auto). rewrite map_length.
  assert (E : forall i, (i < length l)%nat -> vtx (map (move2 t) l) i = move2 t (vtx l i)).
  { intros i I. unfold vtx. rewrite (nth_indep _ (0, 0) (move2 t (0, 0))) by (now rewrite map_length). apply map_nth. }
  rewrite !E, turn_moved by (auto; lia).
  split; intros [A B]; (split; [auto|]); intros i I; specialize (B i I); rewrite ?E, ?turn_moved in * by (auto; lia); auto.
Qed.

Lemma overlap_moved t a b m : floor_motion t -> overlap (moved t a) (moved t b) m = overlap a b m.
Proof.
  intros T. apply eq_true_iff_eq. rewrite !overlap_iff, !polygon_moved by auto.
  assert (E : forall f g, (exists p, In p (map (move2 t) (compute_polygon f m)) /\ polygon_contains (map (move2 t) (compute_polygon g m)) p = Ok true)
              <-> (exists p, In p (compute_polygon f m) /\ polygon_contains (compute_polygon g m) p = Ok true)).
  { intros f g. split.
    - intros (p & I & C). apply in_map_iff in I as (q & <- & I). exists q. split; auto.
      revert C. apply contains_moved; auto. unfold compute_polygon. cbn. lia.
    - intros (q & I & C). exists (move2 t q). split; [now apply in_map|]. apply contains_moved; auto. unfold compute_polygon. cbn. lia. }
  now rewrite !E.
Qed.

(** ** Steps *)
Lemma opposite_moved p t f x y a : opposite_footstep p (moved t f) x y a = moved t (opposite_footstep p f x y a).
Proof.
  unfold opposite_footstep, moved, assign_frame. cbn [f_width f_length f_side f_frame f_polygon f_computed].
  now rewrite !opposite_frame_planar, frame_mul_assoc.
Qed.

Lemma reduce_moved p t f : floor_motion t -> forall k s, reduce_step k p (moved t f) s = moved t (reduce_step k p f s).
Proof.
  intros T. induction k as [|k IH]; intros s; cbn [reduce_step]; rewrite opposite_moved; auto.
  rewrite overlap_moved by auto. destruct overlap; auto.
Qed.

Lemma clipped_moved c p t f x y a : floor_motion t ->
  clipped_opposite_footstep c p (moved t f) x y a = option_map (moved t) (clipped_opposite_footstep c p f x y a).
Proof.
  intros T. unfold clipped_opposite_footstep. change (f_side (moved t f)) with (f_side f).
  destruct clip; [|reflexivity]. cbn [option_map]. f_equal. now apply reduce_moved.
Qed.

Lemma create_moved p s t u : create_footstep p s (frame_mul t u) = moved t (create_footstep p s u).
Proof. reflexivity. Qed.

Lemma opposite_steps p f s : steps_by p f (opposite_footstep p f (vx s) (vy s) (vz s)) s.
Proof. unfold steps_by, opposite_footstep. cbn [f_side f_frame]. split; auto. apply opposite_frame_planar. Qed.

Lemma reduce_spec p f : forall k s, exists j, (j <= k)%nat /\
  (let s' := v3_scale ((9 / 10) ^ j) s in reduce_step k p f s = opposite_footstep p f (vx s') (vy s') (vz s')) /\
  (forall i, (i < j)%nat -> let s' := v3_scale ((9 / 10) ^ i) s in overlap (opposite_footstep p f (vx s') (vy s') (vz s')) f (/ 100) = true) /\
  ((j < k)%nat -> overlap (reduce_step k p f s) f (/ 100) = false).
Proof.
  induction k as [|k IH]; intros s; cbn [reduce_step].
  - exists 0%nat. split; [lia|]. split; [cbn [pow]; now rewrite v3_scale_1|]. split; intros; lia.
  - destruct overlap eqn:E.
    + destruct (IH (v3_scale (9 / 10) s)) as (j & J & A & B & C). exists (S j). split; [lia|]. split; [|split].
      * cbn zeta in *. rewrite v3_scale_scale in A. cbn [pow]. now replace (9 / 10 * (9 / 10) ^ j) with ((9 / 10) ^ j * (9 / 10)) by ring.
      * intros [|i] I; cbn zeta.
        -- cbn [pow]. now rewrite v3_scale_1.
        -- specialize (B i ltac:(lia)). cbn zeta in B. rewrite v3_scale_scale in B. cbn [pow]. now replace (9 / 10 * (9 / 10) ^ i) with ((9 / 10) ^ i * (9 / 10)) by ring.
      * intros K. apply C. lia.
    + exists 0%nat. split; [lia|]. split; [cbn [pow]; now rewrite v3_scale_1|]. split; [intros; lia|]. intros _. exact E.
Qed.

Lemma pow_9_10 j : 0 < (9 / 10) ^ j <= 1.
Proof. induction j as [|j IH]; cbn [pow]; lra. Qed.

Lemma reduce_zero p f : forall k, reduce_step k p f v3_zero = opposite_footstep p f 0 0 0.
Proof.
  intros k. destruct (reduce_spec p f k v3_zero) as (j & _ & E & _). cbn zeta in E. rewrite E. unfold v3_scale, v3_zero. cbn [vx vy vz].
  now rewrite !Rmult_0_r.
Qed.

Lemma clipped_zero c p f : positive_limits p -> clipped_opposite_footstep c p f 0 0 0 = Some (opposite_footstep p f 0 0 0).
Proof.
  intros P. unfold clipped_opposite_footstep.
  replace (match f_side f with Left => 0 - p_dtheta_spacing p * Rabs 0 | Right => 0 + p_dtheta_spacing p * Rabs 0 end) with 0
    by (rewrite Rabs_R0; destruct (f_side f); ring).
  rewrite (clip_0 c p P : clip c p (V3 0 0 0) = _). now rewrite reduce_zero.
Qed.

Lemma clipped_ok c p f x y a : positive_limits p -> exists g s, clipped_opposite_footstep c p f x y a = Some g /\ steps_by p f g s /\ allowed c p s.
Proof.
  intros P. unfold clipped_opposite_footstep.
  set (y' := match f_side f with Left => _ | Right => _ end).
  destruct (clip_factor c p (V3 x y' a) P) as (k & K & -> & A & _).
  destruct (reduce_spec p f 32 (v3_scale k (V3 x y' a))) as (j & J & E & _). cbn zeta in E.
  eexists. exists (v3_scale ((9 / 10) ^ j) (v3_scale k (V3 x y' a))). split; [reflexivity|]. rewrite E. split; [apply opposite_steps|].
  apply allowed_scale; auto. pose proof (pow_9_10 j). lra.
Qed.

Lemma clipped_side c p f x y a g : clipped_opposite_footstep c p f x y a = Some g ->
  f_side g = other_side (f_side f) /\ f_width g = f_width f /\ f_length g = f_length f /\ f_computed g = f_computed f.
Proof.
  unfold clipped_opposite_footstep. destruct clip as [s|]; [|discriminate].
  destruct (reduce_spec p f 32 s) as (j & _ & E & _). cbn zeta in E. rewrite E. clear E. intros E. injection E as <-. repeat split.
Qed.

(** ** Caches *)
Definition good (f : footstep) : Prop := f_computed f = true -> f_polygon f = compute_polygon f 0.
Definition good_s (hull : list point -> list point) (s : support) : Prop :=
  (forall f, In f (u_footsteps s) -> good f) /\ (u_computed s = true -> u_polygon s = removelast (hull (corners s))).

Lemma planned_fresh p f : planned p f -> f_computed f = false.
Proof.
  induction 1 as [| |c f g x y a _ IH E]; auto. apply clipped_side in E as (_ & _ & _ & ->). exact IH.
Qed.

Lemma support_polygon_good f : good f -> good (fst (support_polygon f)) /\ snd (support_polygon f) = compute_polygon f 0 /\
  compute_polygon (fst (support_polygon f)) 0 = compute_polygon f 0.
Proof.
  intros G. unfold support_polygon, good in *. destruct (f_computed f) eqn:E; cbn [fst snd f_computed f_polygon]; [rewrite E|]; auto.
Qed.

Lemma polygons_good l : (forall f, In f l -> good f) ->
  (forall f, In f (fst (polygons l)) -> good f) /\ snd (polygons l) = flat_map (fun f => compute_polygon f 0) l /\
  flat_map (fun f => compute_polygon f 0) (fst (polygons l)) = flat_map (fun f => compute_polygon f 0) l.
Proof.
  induction l as [|f l IH]; intros G; [cbn; auto|].
  destruct IH as (A & B & C); [intros g I; apply G; now right|].
  destruct (support_polygon_good f (G f (or_introl eq_refl))) as (D & E & F).
  cbn [polygons flat_map]. destruct (support_polygon f) as [f' q]. destruct (polygons l) as [m r]. cbn [fst snd flat_map] in *.
  split; [|split].
  - intros g [<-|I]; auto.
  - now rewrite E, B.
  - now rewrite F, C.
Qed.

Lemma support_query_good hull s : good_s hull s -> good_s hull (fst (support_support_polygon hull s)).
Proof.
  intros [A B]. unfold support_support_polygon. destruct (u_computed s) eqn:E; [split; cbn [fst]; [exact A|intros _; now apply B]|].
  destruct (polygons_good (u_footsteps s) A) as (C & D & F). destruct (polygons (u_footsteps s)) as [l pts]. cbn [fst snd] in *.
  destruct (hull pts) eqn:H; [split; cbn [fst]; [exact A|rewrite E; discriminate]|].
  split; [exact C|]. intros _. cbn [fst u_polygon]. unfold corners. cbn [u_footsteps]. rewrite F, <- D, H. reflexivity.
Qed.

Scheme handled_ind2 := Induction for handled Sort Prop with handled_s_ind2 := Induction for handled_s Sort Prop.
Combined Scheme handled_mutual from handled_ind2, handled_s_ind2.

Lemma handled_good p hull : (forall f, handled p hull f -> good f) /\ (forall s, handled_s p hull s -> good_s hull s).
Proof.
  apply (handled_mutual p hull (fun f _ => good f) (fun s _ => good_s hull s)).
  - intros f P E. apply planned_fresh in P. congruence.
  - intros f _ G. now apply support_polygon_good.
  - intros f s _ [G _] I. now apply G.
  - intros l _ G. split; [exact G|]. discriminate.
  - intros s o _ [G _]. split; [|discriminate]. intros f I. cbn [apply_offset u_footsteps] in I. apply in_map_iff in I as (g & <- & _). discriminate.
  - intros s o _ [G _]. split; [|discriminate]. intros f I. cbn [transform_support u_footsteps] in I. apply in_map_iff in I as (g & <- & _). discriminate.
  - intros s b _ G. exact G.
  - intros s b _ G. exact G.
  - intros s b _ G. exact G.
  - intros s _ G. now apply support_query_good.
Qed.

Lemma support_query_result hull s s' q : good_s hull s -> support_support_polygon hull s = (s', Ok q) -> q = removelast (hull (corners s)).
Proof.
  intros [A B]. unfold support_support_polygon. destruct (u_computed s) eqn:E; [intros H; injection H as _ <-; auto|].
  destruct (polygons_good (u_footsteps s) A) as (_ & D & _). destruct (polygons (u_footsteps s)) as [l pts]. cbn [snd] in D.
  unfold corners. rewrite <- D. destruct (hull pts); intros H; [discriminate|]. now injection H.
Qed.

(** ** Supports *)
Fixpoint loop_phases (k step n : nat) (middle : bool) : list phase :=
  match k with
  | O => []
  | S k' => (if negb (Nat.eqb step (n - 2)) && middle then [Single step; Double step] else [Single step]) ++ loop_phases k' (step + 1) n middle
  end.

Lemma single_feet l d i : (i < length l)%nat -> map Some [nth i l d] = feet l (Single i).
Proof. intros H. cbn. now rewrite (nth_error_nth' l d H). Qed.
Lemma double_feet l d i : (S i < length l)%nat -> map Some [nth i l d; nth (i + 1) l d] = feet l (Double i).
Proof. intros H. unfold feet. cbn [map]. rewrite Nat.add_1_r, (nth_error_nth' l d H), (nth_error_nth' l d (n := i)) by lia. reflexivity. Qed.

Lemma loop_feet l middle : forall k step, (step + k < length l)%nat -> Forall2 (has_feet l) (steps_loop k step l middle) (loop_phases k step (length l) middle).
Proof.
  induction k as [|k IH]; intros step H; cbn [steps_loop loop_phases]; [constructor|].
  apply Forall2_app; [|apply IH; lia].
  destruct (negb (step =? length l - 2) && middle); repeat constructor; unfold has_feet, new_support; cbn [u_footsteps];
    try (apply single_feet; lia); apply double_feet; lia.
Qed.

Lemma loop_flags l middle : forall k step s, In s (steps_loop k step l middle) -> u_start s = false /\ u_end s = false /\ u_t_start s = -1.
Proof.
  induction k as [|k IH]; intros step s H; cbn [steps_loop] in H; [destruct H|].
  apply in_app_iff in H as [H|H]; [|eapply IH; eauto].
  destruct (negb (step =? length l - 2) && middle); cbn [In] in H; repeat (destruct H as [<-|H]; [cbn; now auto|]); destruct H.
Qed.

Lemma loop_singles n middle : forall k step, singles (loop_phases k step n middle) = seq step k.
Proof.
  induction k as [|k IH]; intros step; cbn [loop_phases]; [reflexivity|]. unfold singles in *. rewrite flat_map_app, IH.
  cbn [seq]. rewrite Nat.add_1_r. destruct (negb _ && middle); reflexivity.
Qed.

Lemma loop_doubles n middle : forall k step, (step + k = n - 1)%nat -> doubles (loop_phases k step n middle) = if middle then seq step (k - 1) else [].
Proof.
  induction k as [|k IH]; intros step H; cbn [loop_phases].
  - now destruct middle.
  - unfold doubles in *. rewrite flat_map_app, IH by lia. destruct middle.
    + rewrite andb_true_r. destruct (Nat.eqb_spec step (n - 2)) as [E|E]; cbn [negb].
      * replace k with 0%nat by lia. reflexivity.
      * cbn [flat_map app]. replace (S k - 1)%nat with (S (k - 1)) by lia. cbn [seq]. now rewrite Nat.add_1_r.
    + rewrite andb_false_r. reflexivity.
Qed.

Definition tail_ok (n : nat) (tail : list phase) : Prop := tail = [] \/ tail = [Double (n - 2)].

Lemma loop_linked n middle tail : tail_ok n tail -> forall k step, (step + S k = n - 1)%nat ->
  linked (loop_phases (S k) step n middle ++ tail) /\ exists r, loop_phases (S k) step n middle ++ tail = Single step :: r.
Proof.
  intros T. induction k as [|k IH]; intros step H.
  - cbn [loop_phases]. replace (step =? n - 2) with true by (symmetry; apply Nat.eqb_eq; lia). cbn [negb andb app].
    split; [|eauto]. destruct T as [-> | ->]; cbn; auto. split; auto. lia.
  - destruct (IH (step + 1)%nat) as (A & r & B); [lia|].
    change (loop_phases (S (S k)) step n middle) with
      ((if negb (Nat.eqb step (n - 2)) && middle then [Single step; Double step] else [Single step]) ++ loop_phases (S k) (step + 1) n middle).
    rewrite <- app_assoc. rewrite B in *. clear IH B. destruct (negb _ && middle); cbn [app]; (split; [|eauto]); cbn [linked follows];
      repeat match goal with |- _ /\ _ => split end; auto; lia.
Qed.

(** ** Planners *)
Lemma alternating_app s l m : alternating s l -> alternating (if Nat.even (length l) then s else other_side s) m -> alternating s (l ++ m).
Proof.
  revert s. induction l as [|f l IH]; intros s A M; [exact M|]. cbn [app alternating] in *. destruct A as [A B]. split; auto. apply IH; auto.
  change (length (f :: l)) with (S (length l)) in M. rewrite Nat.even_succ, <- Nat.negb_even in M.
  destruct (Nat.even (length l)); cbn [negb] in M; auto. destruct s; exact M.
Qed.

Lemma last_indep {A} (l : list A) : forall x d d', last (x :: l) d = last (x :: l) d'.
Proof. induction l as [|y l IH]; intros x d d'; [reflexivity|]. apply (IH y). Qed.

Lemma repeat_spec c p x y a : positive_limits p -> forall n f, exists g l,
  repeat_steps n c p f x y a = Some (g, l) /\ length l = n /\ alternating (other_side (f_side f)) l /\
  last (f :: l) f = g /\
  (forall i u v, nth_error (f :: l) i = Some u -> nth_error l i = Some v -> clipped_opposite_footstep c p u x y a = Some v).
Proof.
  intros P. induction n as [|n IH]; intros f; cbn [repeat_steps].
  - exists f, []. repeat (split; [cbn; auto|]). intros i u v _ E. now destruct i.
  - destruct (clipped_ok c p f x y a P) as (f' & s & E & _ & _). rewrite E.
    destruct (IH f') as (g & l & -> & L & A & La & St). exists g, (f' :: l). split; [reflexivity|]. split; [cbn; lia|].
    pose proof (clipped_side _ _ _ _ _ _ _ E) as (Sd & _).
    split; [cbn [alternating]; split; auto; now rewrite <- Sd|]. split.
    + rewrite <- La. exact (last_indep l f' f f').
    + intros [|i] u v U V; cbn in U, V.
      * injection U as <-. injection V as <-. exact E.
      * eapply St; eauto.
Qed.

Lemma initial_alternating p s l r : alternating s (initial_footsteps p s l r).
Proof. cbn. auto. Qed.
