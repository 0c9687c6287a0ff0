(** C166: comparing footsteps and supports. C167: kicks. *)
From Coq Require Import Reals List Arith Bool Lra Lia.
From Verif Require Import Base Linalg Geom3 Geometry_model Geometry_proofs Footsteps_model Spline_model SameSteps_model.
Import ListNotations.
Open Scope R_scope.

(** ** C166 *)

Lemma dist_sym s t : affine_sqdist s t = affine_sqdist t s.
Proof. unfold affine_sqdist, m3_sqnorm, m3_sub, v3_dot, v3_sub. cbn. ring. Qed.
Lemma approx_iff s t : frame_is_approx s t = true <-> affine_sqdist s t <= 1e-12 * 1e-12 * Rmin (affine_sqnorm s) (affine_sqnorm t).
Proof. unfold frame_is_approx. destruct (Rle_dec _ _); split; intros; (reflexivity || discriminate || assumption || contradiction). Qed.
Lemma sqnorm_pos t : 0 <= affine_sqnorm t.
Proof. unfold affine_sqnorm, m3_sqnorm, v3_dot. nra. Qed.
Lemma approx_refl t : frame_is_approx t t = true.
Proof.
  apply approx_iff. rewrite Rmin_left by lra. replace (affine_sqdist t t) with 0 by (unfold affine_sqdist, m3_sqnorm, m3_sub, v3_dot, v3_sub; cbn; ring).
  apply Rmult_le_pos; [lra|apply sqnorm_pos].
Qed.
Lemma approx_sym s t : frame_is_approx s t = frame_is_approx t s.
Proof. unfold frame_is_approx. rewrite dist_sym, Rmin_comm. reflexivity. Qed.
Lemma footstep_refl f : footstep_eq f f = true.
Proof. unfold footstep_eq. rewrite approx_refl. destruct (f_side f); reflexivity. Qed.
Lemma footstep_sym f g : footstep_eq f g = footstep_eq g f.
Proof. unfold footstep_eq. rewrite approx_sym. destruct (f_side f), (f_side g); reflexivity. Qed.

(** The comparisons are reflexive and symmetric; supports are equal when they have as many footsteps, equal one by one. *)
Theorem C166_comparison :
  (forall f, footstep_eq f f = true) /\ (forall f g, footstep_eq f g = footstep_eq g f) /\
  (forall s, support_eq s s = true) /\ (forall s u, support_eq s u = support_eq u s) /\
  (forall s u, support_eq s u = true <-> Forall2 (fun f g => footstep_eq f g = true) (u_footsteps s) (u_footsteps u)).
Proof.
  assert (A : forall l m, List.length l = List.length m -> (footsteps_eq l m = true <-> Forall2 (fun f g => footstep_eq f g = true) l m)).
  { induction l as [|f l IH]; intros [|g m] L; try discriminate; cbn [footsteps_eq]; [split; auto|]. cbn in L. destruct (footstep_eq f g) eqn:E; cbn [negb].
    - rewrite IH by lia. split; [auto|]. intros H. now inversion H.
    - split; [discriminate|]. intros H. inversion H. congruence. }
  assert (B : forall s u, support_eq s u = true <-> Forall2 (fun f g => footstep_eq f g = true) (u_footsteps s) (u_footsteps u)).
  { intros s u. unfold support_eq. destruct (Nat.eqb_spec (List.length (u_footsteps s)) (List.length (u_footsteps u))) as [L|L]; cbn [negb]; [now apply A|]. split; [discriminate|].
    intros H. exfalso. apply L. clear - H. induction H; cbn; congruence. }
  split; [exact footstep_refl|]. split; [exact footstep_sym|]. split; [|split; [|exact B]].
  - intros s. apply B. induction (u_footsteps s); constructor; auto using footstep_refl.
  - intros s u. apply eq_true_iff_eq. rewrite !B. split; intros H; induction H; constructor; auto; now rewrite footstep_sym.
Qed.
Print Assumptions C166_comparison.

(** The size, the polygon, the times and the flags are not compared. *)
Theorem C166_ignored w l s t p c w' l' p' c' : footstep_eq (Footstep w l s t p c) (Footstep w' l' s t p' c') = true.
Proof. unfold footstep_eq. cbn [f_side f_frame]. rewrite approx_refl. destruct s; reflexivity. Qed.
Print Assumptions C166_ignored.
Theorem C166_times_ignored l t e r d a b p c t' e' r' d' a' b' p' c' : support_eq (Support l t e r d a b p c) (Support l t' e' r' d' a' b' p' c') = true.
Proof.
  apply (proj2 (proj2 (proj2 (proj2 C166_comparison)))). cbn [u_footsteps]. induction l; constructor; auto using footstep_refl.
Qed.
Print Assumptions C166_times_ignored.

(** Footsteps that are equal are of the same foot; their entries differ by 1e-12 times two plus the distance to the origin, at most. *)
Lemma rotation_sqnorm a : rotation a -> m3_sqnorm a = 3.
Proof.
  intros [H _]. unfold orthogonal in H. unfold m3_mul, m3_t, m3_id in H. injection H. intros. unfold m3_sqnorm. cbn in *. lra.
Qed.
Lemma sq_le_abs x y : 0 <= y -> x * x <= y * y -> Rabs x <= y.
Proof. intros Hy H. apply Rabs_le. split; nra. Qed.
Theorem C166_equal f g : rigid (f_frame f) -> rigid (f_frame g) -> footstep_eq f g = true ->
  f_side f = f_side g /\
  let eps := 1e-12 * (2 + v3_norm (fr_t (f_frame f))) in
  (forall e, In e [vx; vy; vz] -> Rabs (e (fr_t (f_frame f)) - e (fr_t (f_frame g))) <= eps) /\
  (forall e, In e [m00; m01; m02; m10; m11; m12; m20; m21; m22] -> Rabs (e (fr_R (f_frame f)) - e (fr_R (f_frame g))) <= eps).
Proof.
  intros Rf Rg H. unfold footstep_eq in H. apply andb_true_iff in H as [Hs H]. split; [destruct (f_side f), (f_side g); (reflexivity || discriminate)|]. intros eps.
  apply approx_iff in H. set (s := f_frame f) in *. set (t := f_frame g) in *.
  assert (N : v3_norm (fr_t s) * v3_norm (fr_t s) = v3_dot (fr_t s) (fr_t s)) by (unfold v3_norm; apply sqrt_sqrt; unfold v3_dot; nra).
  assert (N0 : 0 <= v3_norm (fr_t s)) by apply sqrt_pos.
  assert (B : affine_sqdist s t <= eps * eps).
  { eapply Rle_trans; [exact H|]. eapply Rle_trans; [apply Rmult_le_compat_l; [lra|apply Rmin_l]|]. unfold affine_sqnorm. rewrite (rotation_sqnorm _ Rf), <- N. unfold eps. set (x := v3_norm (fr_t s)) in *.
    replace (1e-12 * (2 + x) * (1e-12 * (2 + x))) with (1e-12 * 1e-12 * ((2 + x) * (2 + x))) by ring. apply Rmult_le_compat_l; [lra|]. nra. }
  assert (E0 : 0 <= eps) by (unfold eps; nra).
  unfold affine_sqdist, m3_sqnorm, m3_sub, v3_dot, v3_sub in B. cbn [m00 m01 m02 m10 m11 m12 m20 m21 m22 vx vy vz] in B.
  repeat match type of B with context [?a * ?a] => lazymatch a with _ - _ => idtac end; pose proof (Rle_0_sqr a); unfold Rsqr in *; let q := fresh "q" in remember (a * a) as q end.
  split; intros e He; apply sq_le_abs; try exact E0; cbn [In] in He; repeat (destruct He as [<-|He]; [lra|]); destruct He.
Qed.
Print Assumptions C166_equal.
(** Different feet, or feet that are farther apart, are not equal. *)
Theorem C166_different f g : f_side f <> f_side g \/ (rigid (f_frame f) /\ rigid (f_frame g) /\ 1e-12 * (2 + v3_norm (fr_t (f_frame f))) < Rabs (vx (fr_t (f_frame f)) - vx (fr_t (f_frame g)))) -> footstep_eq f g = false.
Proof.
  intros H. apply not_true_iff_false. intros E. destruct H as [H|(Rf & Rg & H)].
  - apply H. unfold footstep_eq in E. apply andb_true_iff in E as [E _]. destruct (f_side f), (f_side g); (reflexivity || discriminate).
  - destruct (C166_equal f g Rf Rg E) as (_ & A & _). specialize (A vx (or_introl eq_refl)). cbv zeta in A. lra.
Qed.
Print Assumptions C166_different.

(** It is not an equivalence: a is equal to b and b to c, and a is not equal to c. *)
Definition step_at (x : R) : footstep := Footstep 1 1 Left (Frame m3_id (V3 x 0 0)) [] false.
Theorem C166_transitive_refuted : ~ (forall f g h, footstep_eq f g = true -> footstep_eq g h = true -> footstep_eq f h = true).
Proof.
  intros H. assert (D : forall x y, footstep_eq (step_at x) (step_at y) = true <-> (x - y) * (x - y) <= 1e-12 * 1e-12 * Rmin (4 + x * x) (4 + y * y)).
  { intros x y. unfold footstep_eq, step_at. cbn [f_side f_frame andb]. rewrite approx_iff. unfold affine_sqdist, affine_sqnorm, m3_sqnorm, m3_sub, v3_dot, v3_sub. cbn [fr_R fr_t m3_id m00 m01 m02 m10 m11 m12 m20 m21 m22 vx vy vz].
    match goal with |- ?a <= _ * Rmin ?b ?c <-> _ => replace a with ((x - y) * (x - y)) by ring; replace b with (4 + x * x) by ring; replace c with (4 + y * y) by ring end. reflexivity. }
  assert (X : footstep_eq (step_at 0) (step_at (15 * / 10 * 1e-12)) = true) by (apply D; rewrite Rmin_left by lra; lra).
  assert (Y : footstep_eq (step_at (15 * / 10 * 1e-12)) (step_at (30 * / 10 * 1e-12)) = true) by (apply D; rewrite Rmin_left by lra; lra).
  pose proof (H _ _ _ X Y) as Z. apply D in Z. rewrite Rmin_left in Z by lra. lra.
Qed.
Print Assumptions C166_transitive_refuted.

Example C166_example : rigid (f_frame (step_at 1)) /\ rigid (f_frame (step_at 2)) /\ footstep_eq (step_at 1) (step_at 1) = true /\ footstep_eq (step_at 1) (step_at 2) = false.
Proof.
  split; [apply rotation_id|]. split; [apply rotation_id|]. split; [apply footstep_refl|]. apply C166_different. right. split; [apply rotation_id|]. split; [apply rotation_id|].
  unfold step_at. cbn [f_frame fr_t vx]. replace (v3_norm (V3 1 0 0)) with 1. { rewrite Rabs_left by lra. lra. } unfold v3_norm, v3_dot. cbn. replace (1 * 1 + 0 * 0 + 0 * 0) with 1 by ring. symmetry. apply sqrt_1.
Qed.

(** ** C167 *)

(** The foot of a kick does not leave its start, nor reach its target: its position is null at all times. *)
Theorem C167_kick_behaviour side t_start t_end start target T t : let k := make_kick side t_start t_end start target T in
  kt_t_start k = t_start /\ kt_t_end k = t_end /\ snd (kick_pos k t) = Ok (0, 0, 0) /\ snd (kick_vel k t) = Ok (0, 0, 0) /\
  (forall u, snd (kick_pos (fst (kick_pos k u)) t) = Ok (0, 0, 0)).
Proof. intros k. repeat split. Qed.
Print Assumptions C167_kick_behaviour.
Theorem C167_kick_refuted : ~ (forall side t_start t_end start target T, t_start < t_end ->
  let k := make_kick side t_start t_end start target T in
  snd (kick_pos k t_start) = Ok (vx start, vy start, vz start) /\ snd (kick_pos k t_end) = Ok (vx target, vy target, vz target)).
Proof. intros H. destruct (H Left 0 1 (V3 1 0 0) v3_zero frame_id ltac:(lra)) as [A _]. cbn in A. injection A. lra. Qed.
Print Assumptions C167_kick_refuted.
(** It does when both are the origin. *)
Theorem C167_kick_partial side t_start t_end T : let k := make_kick side t_start t_end v3_zero v3_zero T in
  snd (kick_pos k t_start) = Ok (0, 0, 0) /\ snd (kick_pos k t_end) = Ok (0, 0, 0).
Proof. repeat split. Qed.
Print Assumptions C167_kick_partial.
