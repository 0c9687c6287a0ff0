(** Lemmas about the model of the walk parameters and footsteps. *)
From Coq Require Import Reals Lra Lia List ZArith Bool.
From Verif Require Import Base Linalg Angle Geom3 Tools_model Geometry_model Geometry_spec Geometry_proofs Footsteps_model Footsteps_spec.
Import ListNotations.
Open Scope R_scope.

(** ** Rounding *)
Lemma round_half x : Rabs (IZR (round x) - x) <= / 2.
Proof.
  unfold round. apply Rabs_le. destruct (Rle_dec 0 x) as [H|H].
  - destruct (archimed (x + / 2)). rewrite minus_IZR. lra.
  - destruct (archimed (- x + / 2)). rewrite opp_IZR, minus_IZR. lra.
Qed.

Lemma round_pos x : (0 < round x)%Z <-> / 2 <= x.
Proof.
  unfold round. destruct (Rle_dec 0 x) as [H|H].
  - destruct (archimed (x + / 2)) as [A B]. split; intros G.
    + assert (2 <= up (x + / 2))%Z as K by lia. apply IZR_le in K. lra.
    + assert (1 < up (x + / 2))%Z; [|lia]. apply lt_IZR. lra.
  - destruct (archimed (- x + / 2)) as [A B]. split; intros G; [|lra].
    assert (up (- x + / 2) <= 0)%Z as K by lia. apply IZR_le in K. lra.
Qed.

(** ** Clipping *)
Definition factors (p : params) (s : vec3) : vec3 := V3 (max_dx p (vx s)) (p_max_dy p) (p_max_dtheta p).
Definition gauge (c : clipping) (p : params) (s : vec3) : R :=
  clip_norm c (V3 (vx s / max_dx p (vx s)) (vy s / p_max_dy p) (vz s / p_max_dtheta p)).

Lemma sqrt_le_1_iff a : 0 <= a -> (sqrt a <= 1 <-> a <= 1).
Proof.
  intros A. split; intros H.
  - rewrite <- (sqrt_sqrt a A). pose proof (sqrt_pos a). nra.
  - rewrite <- sqrt_1. now apply sqrt_le_1_alt.
Qed.

Lemma allowed_gauge c p s : allowed c p s <-> gauge c p s <= 1.
Proof.
  unfold allowed, gauge, clip_norm, v3_norm, v3_dot. destruct c; cbn [vx vy vz]; try reflexivity.
  symmetry. apply sqrt_le_1_iff.
  set (a := vx s / _). set (b := vy s / _). set (d := vz s / _).
  pose proof (Rle_0_sqr a). pose proof (Rle_0_sqr b). pose proof (Rle_0_sqr d). unfold Rsqr in *. lra.
Qed.

Lemma clip_norm_scale c k s : 0 <= k -> clip_norm c (v3_scale k s) = k * clip_norm c s.
Proof.
  intros K. unfold clip_norm, v3_norm, v3_dot, v3_scale. cbn [vx vy vz]. destruct c.
  - replace (k * vx s * (k * vx s) + k * vy s * (k * vy s) + k * vz s * (k * vz s)) with ((k * k) * (vx s * vx s + vy s * vy s + vz s * vz s)) by ring.
    rewrite sqrt_mult_alt, sqrt_square; auto; nra.
  - rewrite !Rabs_mult, (Rabs_right k) by lra. ring.
  - replace (k * vx s * (k * vx s) + k * vy s * (k * vy s)) with ((k * k) * (vx s * vx s + vy s * vy s)) by ring.
    rewrite sqrt_mult_alt, sqrt_square, Rabs_mult, (Rabs_right k) by (try lra; nra). ring.
Qed.

Lemma clip_norm_nonneg c s : 0 <= clip_norm c s.
Proof.
  unfold clip_norm, v3_norm. destruct c; [apply sqrt_pos| |].
  - pose proof (Rabs_pos (vx s)). pose proof (Rabs_pos (vy s)). pose proof (Rabs_pos (vz s)). lra.
  - pose proof (sqrt_pos (vx s * vx s + vy s * vy s)). pose proof (Rabs_pos (vz s)). lra.
Qed.

Lemma max_dx_pos p x : positive_limits p -> 0 < max_dx p x.
Proof. intros (A & B & _). unfold max_dx. destruct Rle_dec; auto. Qed.

Lemma max_dx_scale p k x : 0 < k -> max_dx p (k * x) = max_dx p x.
Proof.
  intros K. unfold max_dx. destruct (Rle_dec 0 (k * x)) as [A|A], (Rle_dec 0 x) as [B|B]; auto; exfalso; nra.
Qed.

Lemma gauge_scale c p k s : positive_limits p -> 0 <= k -> gauge c p (v3_scale k s) = k * gauge c p s.
Proof.
  intros P [K|<-].
  - unfold gauge. rewrite <- clip_norm_scale by lra. f_equal. unfold v3_scale. cbn [vx vy vz].
    rewrite max_dx_scale by auto. f_equal; unfold Rdiv; ring.
  - replace (v3_scale 0 s) with (v3_scale 0 v3_zero) by (apply V3_ext; m3; ring).
    replace (gauge c p (v3_scale 0 v3_zero)) with (0 * clip_norm c v3_zero); [ring|].
    rewrite <- clip_norm_scale by lra. unfold gauge, v3_scale, v3_zero. cbn [vx vy vz]. f_equal.
    unfold Rdiv. apply V3_ext; cbn [vx vy vz]; ring.
Qed.

Lemma clip_spec c p s : positive_limits p ->
  clip c p s = Some (v3_scale (if Rlt_dec 1 (gauge c p s) then / gauge c p s else 1) s).
Proof.
  intros P. pose proof (max_dx_pos p (vx s) P) as X. destruct P as (_ & _ & Y & Z).
  unfold clip. fold (max_dx p (vx s)). cbn [vx vy vz].
  destruct (Req_EM_T (max_dx p (vx s)) 0); [lra|]. destruct (Req_EM_T (p_max_dy p) 0); [lra|].
  destruct (Req_EM_T (p_max_dtheta p) 0); [lra|].
  fold (gauge c p s). f_equal.
  destruct (Rlt_dec 1 (gauge c p s)); apply V3_ext; unfold v3_scale; cbn [vx vy vz]; field; try split; lra.
Qed.

Lemma clip_zero c p s : max_dx p (vx s) = 0 \/ p_max_dy p = 0 \/ p_max_dtheta p = 0 -> clip c p s = None.
Proof.
  intros H. unfold clip. fold (max_dx p (vx s)). cbn [vx vy vz].
  destruct (Req_EM_T (max_dx p (vx s)) 0); auto. destruct (Req_EM_T (p_max_dy p) 0); auto.
  destruct (Req_EM_T (p_max_dtheta p) 0); auto. tauto.
Qed.

Lemma v3_scale_1 s : v3_scale 1 s = s.
Proof. apply V3_ext; m3; ring. Qed.
Lemma v3_scale_scale a b s : v3_scale a (v3_scale b s) = v3_scale (a * b) s.
Proof. apply V3_ext; m3; ring. Qed.

(** Everything at once. *)
Lemma clip_factor c p s : positive_limits p -> exists k, 0 < k <= 1 /\ clip c p s = Some (v3_scale k s) /\
  allowed c p (v3_scale k s) /\ (allowed c p s -> k = 1) /\ (forall k', 0 <= k' <= 1 -> allowed c p (v3_scale k' s) -> k' <= k).
Proof.
  intros P. rewrite clip_spec by auto. pose proof (allowed_gauge c p s) as AG.
  destruct (Rlt_dec 1 (gauge c p s)) as [H|H].
  - exists (/ gauge c p s). assert (I : 0 < / gauge c p s) by (apply Rinv_0_lt_compat; lra).
    assert (J : gauge c p s * / gauge c p s = 1) by (field; lra).
    split; [split; [auto|nra]|]. split; [reflexivity|]. split; [|split].
    + rewrite allowed_gauge, gauge_scale by (auto; lra). lra.
    + intros A. apply AG in A. lra.
    + intros k' K. rewrite allowed_gauge, gauge_scale by (auto; lra). intros L. nra.
  - exists 1. split; [lra|]. split; [reflexivity|]. split; [|split]; auto.
    + rewrite v3_scale_1, allowed_gauge. lra.
    + intros; lra.
Qed.

Lemma allowed_scale c p k s : positive_limits p -> 0 <= k <= 1 -> allowed c p s -> allowed c p (v3_scale k s).
Proof.
  intros P K. rewrite !allowed_gauge, gauge_scale by (auto; lra). intros H.
  pose proof (clip_norm_nonneg c (V3 (vx s / max_dx p (vx s)) (vy s / p_max_dy p) (vz s / p_max_dtheta p))) as N.
  fold (gauge c p s) in N. nra.
Qed.

Lemma clip_0 c p : positive_limits p -> clip c p v3_zero = Some v3_zero.
Proof. intros P. rewrite clip_spec by auto. f_equal. apply V3_ext; m3; ring. Qed.

(** ** Frames *)
Lemma planar_0 : planar 0 0 0 = frame_id.
Proof. unfold planar, frame_id. rewrite rot_z_0. reflexivity. Qed.

Lemma opposite_frame_planar p s t x y a :
  opposite_frame p s t x y a = frame_mul t (planar x (lateral s (p_feet_spacing p) + y) a).
Proof.
  unfold opposite_frame, rotate_z, translate, frame_mul, planar, lateral.
  destruct s; cbn [fr_R fr_t]; f_equal; apply V3_ext; m3; ring.
Qed.

Lemma neutral_frame_planar p s t x y a :
  neutral_frame p s t x y a = frame_mul t (planar x (lateral s (p_feet_spacing p / 2) + y) a).
Proof.
  unfold neutral_frame, rotate_z, translate, frame_mul, planar, lateral.
  destruct s; cbn [fr_R fr_t]; f_equal; apply V3_ext; m3; ring.
Qed.

Lemma lateral_other s d : lateral (other_side s) d = - lateral s d.
Proof. destruct s; cbn; ring. Qed.

Lemma planar_mul_y y y' a : frame_mul (planar 0 y 0) (planar 0 y' a) = planar 0 (y + y') a.
Proof.
  unfold frame_mul, planar. cbn [fr_R fr_t]. rewrite rot_z_0, m3_mul_id_l, m3_vec_id. f_equal. apply V3_ext; m3; ring.
Qed.

(** ** Polygons *)
Lemma sole_det f : upright f -> m00 (fr_R f) * m11 (fr_R f) - m01 (fr_R f) * m10 (fr_R f) = m22 (fr_R f).
Proof.
  intros [[O D] _]. pose proof (orthogonal_adj _ O) as E. rewrite D in E. apply (f_equal m22) in E.
  unfold m3_scale, m3_adj, m3_t in E. cbn [m22] in E. lra.
Qed.

Lemma contains_loop_spec l : forall a p, contains_loop a l p = true <->
  (forall i b c, nth_error (a :: l) i = Some b -> nth_error l i = Some c -> turn b c p <= 0).
Proof.
  induction l as [|x l IH]; intros a p; cbn [contains_loop].
  - split; auto. intros _ i b c _ E. now destruct i.
  - assert (K : snd (v2_sub x a) * fst (v2_sub p a) + - fst (v2_sub x a) * snd (v2_sub p a) = - turn a x p) by (unfold turn, v2_cross; ring).
    destruct Rlt_dec as [H|H]; unfold v2_dot in H; cbn [fst snd] in H; rewrite K in H.
    + split; [discriminate|]. intros G. specialize (G 0%nat a x eq_refl eq_refl). lra.
    + rewrite IH. split; intros G.
      * intros [|i] b c Eb Ec; cbn in Eb, Ec; [injection Eb as <-; injection Ec as <-; lra|]. eapply G; eauto.
      * intros i b c Eb Ec. apply (G (S i)); auto.
Qed.

(** The test on a rectangle. *)
Lemma contains_rectangle a b c d p : polygon_contains [a; b; c; d] p = Ok true <->
  turn d a p <= 0 /\ turn a b p <= 0 /\ turn b c p <= 0 /\ turn c d p <= 0.
Proof.
  unfold polygon_contains. change (last [a; b; c; d] a) with d.
  transitivity (contains_loop d [a; b; c; d] p = true); [split; [intros E; now injection E|now intros ->]|].
  rewrite contains_loop_spec. split.
  - intros H. split; [apply (H 0%nat); reflexivity|]. split; [apply (H 1%nat); reflexivity|].
    split; [apply (H 2%nat); reflexivity|apply (H 3%nat); reflexivity].
  - intros (A & B & C & D) [|[|[|[|i]]]] u v Eu Ev; cbn in Eu, Ev; try (now destruct i);
      injection Eu as <-; injection Ev as <-; auto.
Qed.

Lemma polygon_contains_total a l p : exists b, polygon_contains (a :: l) p = Ok b.
Proof. eexists. reflexivity. Qed.

Lemma contains_sole f m p : upright (f_frame f) -> 0 < f_length f / 2 + m -> 0 < f_width f / 2 + m ->
  (polygon_contains (compute_polygon f m) p = Ok true <-> on_sole f m p).
Proof.
  intros U L W. pose proof (sole_det _ U) as D. destruct U as [_ Z].
  unfold compute_polygon. rewrite contains_rectangle.
  assert (exists u v, p = (vx (frame_act (f_frame f) (V3 u v 0)), vy (frame_act (f_frame f) (V3 u v 0)))) as (u & v & ->).
  { destruct p as [x y]. unfold frame_act. m3.
    destruct (fr_R (f_frame f)) as [r00 r01 r02 r10 r11 r12 r20 r21 r22]. destruct (fr_t (f_frame f)) as [tx ty tz]. cbn [m00 m01 m10 m11 m22 vx vy] in *.
    exists ((r11 * (x - tx) - r01 * (y - ty)) / r22), ((r00 * (y - ty) - r10 * (x - tx)) / r22).
    rewrite <- D in Z. rewrite <- D. f_equal; field; lra. }
  set (hl := f_length f / 2 + m) in *. set (hw := f_width f / 2 + m) in *.
  assert (E : forall sx sy sx' sy', turn (corner f m sx sy) (corner f m sx' sy')
                 (vx (frame_act (f_frame f) (V3 u v 0)), vy (frame_act (f_frame f) (V3 u v 0))) =
              m22 (fr_R (f_frame f)) * ((sx' - sx) * hl * (v - sy * hw) - (sy' - sy) * hw * (u - sx * hl))).
  { intros. rewrite <- D. unfold turn, v2_cross, v2_sub, corner, frame_act, hl, hw. m3. cbn [fst snd]. field. }
  rewrite !E. clear E.
  transitivity (-hl <= u <= hl /\ -hw <= v <= hw).
  - generalize (m22 (fr_R (f_frame f))) Z. intros k K. clear D. split.
    + intros (A & B & C & F).
      assert (0 <= k * hw * (u + hl)) by nra. assert (0 <= k * hl * (hw - v)) by nra.
      assert (0 <= k * hw * (hl - u)) by nra. assert (0 <= k * hl * (v + hw)) by nra.
      assert (0 < k * hw) by nra. assert (0 < k * hl) by nra. clear A B C F.
      split; split; apply Rnot_lt_le; intros G; nra.
    + intros ((A & B) & C & F). assert (0 < k * hw) by nra. assert (0 < k * hl) by nra.
      split; [|split; [|split]].
      * replace (k * _) with (- (2 * ((k * hw) * (u + hl)))) by ring. nra.
      * replace (k * _) with (- (2 * ((k * hl) * (hw - v)))) by ring. nra.
      * replace (k * _) with (- (2 * ((k * hw) * (hl - u)))) by ring. nra.
      * replace (k * _) with (- (2 * ((k * hl) * (v + hw)))) by ring. nra.
  - split.
    + intros (A & B). exists u, v. split; [now apply Rabs_le|]. split; [now apply Rabs_le|]. reflexivity.
    + intros (u' & v' & A & B & E). injection E as E1 E2. unfold frame_act in *. m3.
      destruct (fr_R (f_frame f)) as [r00 r01 r02 r10 r11 r12 r20 r21 r22]. cbn [m00 m01 m10 m11 m22] in *.
      assert (r22 * (u - u') = 0 /\ r22 * (v - v') = 0) as [F G].
      { rewrite <- D. split.
        - transitivity (r11 * ((r00 * u + r01 * v) - (r00 * u' + r01 * v')) - r01 * ((r10 * u + r11 * v) - (r10 * u' + r11 * v'))); [ring|].
          replace (r00 * u + r01 * v) with (r00 * u' + r01 * v') by lra.
          replace (r10 * u + r11 * v) with (r10 * u' + r11 * v') by lra. ring.
        - transitivity (r00 * ((r10 * u + r11 * v) - (r10 * u' + r11 * v')) - r10 * ((r00 * u + r01 * v) - (r00 * u' + r01 * v'))); [ring|].
          replace (r00 * u + r01 * v) with (r00 * u' + r01 * v') by lra.
          replace (r10 * u + r11 * v) with (r10 * u' + r11 * v') by lra. ring. }
      apply Rmult_integral in F as [F|F]; [lra|]. apply Rmult_integral in G as [G|G]; [lra|].
      replace u with u' by lra. replace v with v' by lra. fold hl in A. fold hw in B. revert A B. unfold Rabs. destruct Rcase_abs, Rcase_abs; lra.
Qed.

(** ** Convex polygons *)
Lemma turn_rot a b c : turn a b c = turn b c a.
Proof. unfold turn, v2_cross, v2_sub. cbn [fst snd]. ring. Qed.
Lemma turn_swap a b c : turn a b c = - turn b a c.
Proof. unfold turn, v2_cross, v2_sub. cbn [fst snd]. ring. Qed.

Definition vtx (l : list point) (i : nat) : point := nth i l (0, 0).

Lemma vtx_error l i : (i < length l)%nat -> nth_error l i = Some (vtx l i).
Proof. intros H. unfold vtx. now apply nth_error_nth'. Qed.

Lemma contains_edges l p : (0 < length l)%nat -> (polygon_contains l p = Ok true <->
  turn (vtx l (length l - 1)) (vtx l 0) p <= 0 /\ (forall i, (S i < length l)%nat -> turn (vtx l i) (vtx l (S i)) p <= 0)).
Proof.
  intros N. destruct l as [|a l]; [cbn in N; lia|]. unfold polygon_contains.
  assert (E : last (a :: l) a = vtx (a :: l) (length (a :: l) - 1)).
  { clear N. assert (G : forall m b, last (b :: m) a = nth (length m) (b :: m) (0, 0)).
    { induction m as [|c m IH]; intros b; [reflexivity|]. change (last (b :: c :: m) a) with (last (c :: m) a). rewrite IH. reflexivity. }
    unfold vtx. rewrite G. f_equal. cbn [length]. lia. }
  rewrite E. set (n := (length (a :: l) - 1)%nat).
  transitivity (contains_loop (vtx (a :: l) n) (a :: l) p = true); [split; [intros G; now injection G|now intros ->]|].
  rewrite contains_loop_spec. split.
  - intros H. split.
    + apply (H 0%nat); reflexivity.
    + intros i I. apply (H (S i)); [cbn [nth_error]|]; apply vtx_error; lia.
  - intros [H0 H] [|i] b c B C.
    + cbn in B, C. injection B as <-. injection C as <-. exact H0.
    + assert (I : (S i < length (a :: l))%nat) by (apply nth_error_Some; congruence).
      rewrite vtx_error in C by lia. change (nth_error (a :: l) i = Some b) in B. rewrite vtx_error in B by lia.
      injection B as <-. injection C as <-. now apply H.
Qed.

Lemma hull_turn l p a b : in_hull l p -> (forall j, (j < length l)%nat -> turn a b (vtx l j) <= 0) -> turn a b p <= 0.
Proof.
  intros (w & W & S & X & Y) H.
  assert (E : turn a b p = Rsum (length l) (fun i => w i * turn a b (vtx l i))).
  { transitivity ((fst b - fst a) * (Rsum (length l) (fun i => w i * snd (vtx l i)) - snd a * Rsum (length l) w)
                  - (snd b - snd a) * (Rsum (length l) (fun i => w i * fst (vtx l i)) - fst a * Rsum (length l) w)).
    - unfold vtx. rewrite <- X, <- Y, S. unfold turn, v2_cross, v2_sub. cbn [fst snd]. ring.
    - rewrite <- !Rsum_scal_l, <- !Rsum_minus, <- !Rsum_scal_l, <- Rsum_minus. apply Rsum_ext. intros i _.
      unfold turn, v2_cross, v2_sub. cbn [fst snd]. ring. }
  rewrite E. apply (Rle_trans _ (Rsum (length l) (fun _ => 0))).
  - apply Rsum_le. intros i I. specialize (H i I). specialize (W i). nra.
  - rewrite Rsum_zero. lra.
Qed.

Lemma sign_change (s : nat -> R) : forall k i, s i <= 0 -> 0 <= s (i + S k)%nat -> exists j, (i <= j <= i + k)%nat /\ s j <= 0 /\ 0 <= s (S j).
Proof.
  induction k as [|k IH]; intros i A B.
  - exists i. split; [lia|]. split; auto. now replace (S i) with (i + 1)%nat by lia.
  - destruct (Rle_lt_dec 0 (s (S i))) as [C|C].
    + exists i. split; [lia|]. auto.
    + destruct (IH (S i)) as (j & J & K); [lra|now replace (S i + S k)%nat with (i + S (S k))%nat by lia|].
      exists j. split; [lia|auto].
Qed.

Lemma triangle_hull l i j k p : (i < length l)%nat -> (j < length l)%nat -> (k < length l)%nat ->
  turn (vtx l i) (vtx l j) (vtx l k) < 0 -> turn (vtx l i) (vtx l j) p <= 0 -> turn (vtx l j) (vtx l k) p <= 0 ->
  turn (vtx l k) (vtx l i) p <= 0 -> in_hull l p.
Proof.
  intros I J K T A B C.
  set (t := turn (vtx l i) (vtx l j) (vtx l k)) in *.
  set (wi := turn (vtx l j) (vtx l k) p / t). set (wj := turn (vtx l k) (vtx l i) p / t). set (wk := turn (vtx l i) (vtx l j) p / t).
  assert (P : forall x, x <= 0 -> 0 <= x / t).
  { intros x X. unfold Rdiv. pose proof (Rinv_lt_0_compat t T). nra. }
  exists (fun m => wi * (if Nat.eqb i m then 1 else 0) + wj * (if Nat.eqb j m then 1 else 0) + wk * (if Nat.eqb k m then 1 else 0)).
  split; [|].
  { intros m. pose proof (P _ A) as PA. pose proof (P _ B) as PB. pose proof (P _ C) as PC. fold wk in PA. fold wi in PB. fold wj in PC. destruct (Nat.eqb i m), (Nat.eqb j m), (Nat.eqb k m); lra. }
  assert (D : forall f : nat -> R, Rsum (length l) (fun m => (wi * (if Nat.eqb i m then 1 else 0) + wj * (if Nat.eqb j m then 1 else 0)
       + wk * (if Nat.eqb k m then 1 else 0)) * f m) = wi * f i + wj * f j + wk * f k).
  { intros f. assert (D1 : forall w q, (q < length l)%nat -> Rsum (length l) (fun m => w * (if Nat.eqb q m then 1 else 0) * f m) = w * f q).
    { intros w q Q. rewrite (Rsum_delta _ q); [rewrite Nat.eqb_refl; ring|auto|]. intros m _ M. destruct (Nat.eqb_spec q m); [lia|ring]. }
    rewrite <- (D1 wi i I), <- (D1 wj j J), <- (D1 wk k K), <- !Rsum_plus. apply Rsum_ext. intros m _. ring. }
  assert (S1 : wi + wj + wk = 1).
  { unfold wi, wj, wk. transitivity ((turn (vtx l j) (vtx l k) p + turn (vtx l k) (vtx l i) p + turn (vtx l i) (vtx l j) p) / t); [unfold Rdiv; ring|].
    replace (turn (vtx l j) (vtx l k) p + turn (vtx l k) (vtx l i) p + turn (vtx l i) (vtx l j) p) with t; [field; lra|].
    unfold t, turn, v2_cross, v2_sub. cbn [fst snd]. ring. }
  split; [|split].
  - transitivity (wi * 1 + wj * 1 + wk * 1); [|lra]. rewrite <- (D (fun _ => 1)). apply Rsum_ext. intros; ring.
  - etransitivity; [|symmetry; apply (D (fun m => fst (vtx l m)))]. unfold wi, wj, wk. apply (Rmult_eq_reg_r t); [|lra].
    transitivity (turn (vtx l j) (vtx l k) p * fst (vtx l i) + turn (vtx l k) (vtx l i) p * fst (vtx l j) + turn (vtx l i) (vtx l j) p * fst (vtx l k)); [|field; lra].
    unfold t, turn, v2_cross, v2_sub. cbn [fst snd]. ring.
  - etransitivity; [|symmetry; apply (D (fun m => snd (vtx l m)))]. unfold wi, wj, wk. apply (Rmult_eq_reg_r t); [|lra].
    transitivity (turn (vtx l j) (vtx l k) p * snd (vtx l i) + turn (vtx l k) (vtx l i) p * snd (vtx l j) + turn (vtx l i) (vtx l j) p * snd (vtx l k)); [|field; lra].
    unfold t, turn, v2_cross, v2_sub. cbn [fst snd]. ring.
Qed.

Lemma contains_hull l p : convex_clockwise l -> (3 <= length l)%nat -> (polygon_contains l p = Ok true <-> in_hull l p).
Proof.
  intros H N. rewrite contains_edges by lia.
  assert (V : forall i j k, (i < j < k)%nat -> (k < length l)%nat -> turn (vtx l i) (vtx l j) (vtx l k) < 0).
  { intros i j k I K. apply (H i j k); auto; apply vtx_error; lia. }
  split.
  - intros [L E].
    destruct (sign_change (fun i => turn (vtx l 0) (vtx l i) p) (length l - 3) 1) as (j & J & A & B).
    + apply E. lia.
    + replace (1 + S (length l - 3))%nat with (length l - 1)%nat by lia. rewrite turn_swap. lra.
    + apply (triangle_hull l 0 j (S j)); try lia; auto; [apply V; lia|apply E; lia|]. rewrite turn_swap. lra.
  - intros P. split; [|intros i I]; apply (hull_turn l p _ _ P); intros j J.
    + destruct (Nat.eq_dec j 0) as [->|J0]; [unfold turn, v2_cross, v2_sub; cbn [fst snd]; lra|].
      destruct (Nat.eq_dec j (length l - 1)) as [->|J1]; [unfold turn, v2_cross, v2_sub; cbn [fst snd]; lra|].
      rewrite turn_rot. left. apply V; lia.
    + destruct (Nat.eq_dec j i) as [->|J0]; [unfold turn, v2_cross, v2_sub; cbn [fst snd]; lra|].
      destruct (Nat.eq_dec j (S i)) as [->|J1]; [unfold turn, v2_cross, v2_sub; cbn [fst snd]; lra|].
      left. destruct (Nat.lt_ge_cases j i); [rewrite <- turn_rot; apply V; lia|apply V; lia].
Qed.

Lemma sole_clockwise f m : upright (f_frame f) -> 0 < f_length f / 2 + m -> 0 < f_width f / 2 + m -> convex_clockwise (compute_polygon f m).
Proof.
  intros U L W. pose proof (sole_det _ U) as D. destruct U as [_ Z].
  assert (E : forall sx sy sx' sy' sx'' sy'', turn (corner f m sx sy) (corner f m sx' sy') (corner f m sx'' sy'') =
     (m22 (fr_R (f_frame f)) * (f_length f / 2 + m) * (f_width f / 2 + m)) * ((sx' - sx) * (sy'' - sy) - (sy' - sy) * (sx'' - sx))).
  { intros. rewrite <- D. unfold turn, v2_cross, v2_sub, corner, frame_act. m3. cbn [fst snd]. field. }
  assert (K : 0 < m22 (fr_R (f_frame f)) * (f_length f / 2 + m) * (f_width f / 2 + m)) by (repeat apply Rmult_lt_0_compat; auto).
  revert K E. generalize (m22 (fr_R (f_frame f)) * (f_length f / 2 + m) * (f_width f / 2 + m)). intros r K E.
  intros i j k a b c I A B C. unfold compute_polygon in *.
  destruct i as [|[|[|[|i]]]]; try (destruct i; discriminate A); destruct j as [|[|[|[|j]]]]; try (exfalso; lia); try (destruct j; discriminate B);
    destruct k as [|[|[|[|k]]]]; try (exfalso; lia); try (destruct k; discriminate C);
    cbn in A, B, C; injection A as <-; injection B as <-; injection C as <-; rewrite E; lra.
Qed.
