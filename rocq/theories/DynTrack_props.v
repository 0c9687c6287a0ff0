(** Theorems about a joint held at a target by a hard task, over solves of DynamicsSolver that integrate: C198. *)
From Coq Require Import Reals List ZArith Bool String Lra Lia.
From Verif Require Import Base Linalg Geom3 Tools_model Expression_model Robot_model Robot_spec Problem_model Problem_spec Backends_proofs KinTasks_model Kin_model Kin_proofs6 DynTasks_model Dyn_model Dyn_spec
  Dyn_example Dyn_props DynTrack_spec DynTrack_proofs.
Import ListNotations.
Open Scope R_scope.

(** If dt sqrt(kp) < 2 sqrt(2) - 2, the joint converges to its target: the error is at most a constant, which depends on the first state, times rho^n after n solves, with a rho < 1
    that depends only on dt and kp. *)
Theorem C198_converges dt kp : 0 < dt -> 0 < kp -> dt * sqrt kp < 2 * sqrt 2 - 2 -> exists rho, 0 <= rho < 1 /\
  forall pn log3 jlog qr qp name target r0 iq iv, qr_correct qr -> qp_correct qp -> named_joint r0 name iq iv -> integrates pn (r_model r0) ->
  exists C, forall n r, held pn log3 jlog qr qp dt kp name target r0 n r -> Rabs (vat (st_q (r_state r)) iq - target) <= C * rho ^ n.
Proof.
  intros T K H. set (X := dt * sqrt kp). assert (XP : 0 < X) by (apply Rmult_lt_0_compat; [exact T|now apply sqrt_lt_R0]). destruct (modes_inside X (conj XP H)) as (F & S).
  set (f := fast X) in *. set (s := slow X) in *. pose proof (spread_pos X XP) as Sp. exists (Rmax (Rabs f) (Rabs s)). split.
  { split; [apply Rle_trans with (Rabs f); [apply Rabs_pos|apply Rmax_l]|]. apply Rmax_lub_lt; apply Rabs_def1; lra. }
  set (rho := Rmax (Rabs f) (Rabs s)). intros pn log3 jlog qr qp name target r0 iq iv Qr Qp Hj Hi. set (e0 := error target iq r0). set (w0 := advance dt iv r0).
  set (k := 1 - X * X - f). exists ((Rabs (mode X f e0 w0) + Rabs k * ((Rabs (mode X f e0 w0) + Rabs (mode X s e0 w0)) / spread X)) / (X * X)). intros n r Hh.
  destruct (held_modes pn log3 jlog qr qp dt kp name target Qr Qp iq iv K r0 n r f T Hj Hi (or_introl eq_refl) Hh) as (_ & E1).
  destruct (held_modes pn log3 jlog qr qp dt kp name target Qr Qp iq iv K r0 n r s T Hj Hi (or_intror eq_refl) Hh) as (_ & E2). fold X e0 w0 in E1, E2. change (vat (st_q (r_state r)) iq - target) with (error target iq r).
  set (e := error target iq r) in *. set (w := advance dt iv r) in *.
  assert (Pw : forall l, Rabs l <= rho -> Rabs (l ^ n) <= rho ^ n) by (intros l Hl; rewrite <- RPow_abs; apply pow_incr; split; [apply Rabs_pos|exact Hl]).
  assert (B1 : Rabs (mode X f e w) <= rho ^ n * Rabs (mode X f e0 w0)) by (rewrite E1, Rabs_mult; apply Rmult_le_compat_r; [apply Rabs_pos|apply Pw, Rmax_l]).
  assert (B2 : Rabs (mode X s e w) <= rho ^ n * Rabs (mode X s e0 w0)) by (rewrite E2, Rabs_mult; apply Rmult_le_compat_r; [apply Rabs_pos|apply Pw, Rmax_r]).
  assert (Ew : spread X * w = mode X f e w - mode X s e w) by (unfold mode, f, s, fast, slow; field).
  assert (Bw : Rabs w <= rho ^ n * ((Rabs (mode X f e0 w0) + Rabs (mode X s e0 w0)) / spread X)).
  { apply Rmult_le_reg_l with (spread X); [exact Sp|]. replace (spread X * Rabs w) with (Rabs (spread X * w)) by (rewrite Rabs_mult, (Rabs_right (spread X)); lra). rewrite Ew.
    replace (spread X * (rho ^ n * ((Rabs (mode X f e0 w0) + Rabs (mode X s e0 w0)) / spread X))) with (rho ^ n * Rabs (mode X f e0 w0) + rho ^ n * Rabs (mode X s e0 w0)) by (field; lra).
    unfold Rminus. eapply Rle_trans; [apply Rabs_triang|]. rewrite Rabs_Ropp. lra. }
  assert (X2 : 0 < X * X) by now apply Rmult_lt_0_compat. apply Rmult_le_reg_l with (X * X); [exact X2|].
  replace (X * X * Rabs e) with (Rabs (mode X f e w - k * w)).
  2:{ replace (mode X f e w - k * w) with (X * X * e) by (unfold mode, k; ring). rewrite Rabs_mult, (Rabs_right (X * X)); lra. }
  set (c := (Rabs (mode X f e0 w0) + Rabs (mode X s e0 w0)) / spread X) in *.
  replace (X * X * ((Rabs (mode X f e0 w0) + Rabs k * c) / (X * X) * rho ^ n)) with (rho ^ n * Rabs (mode X f e0 w0) + Rabs k * (rho ^ n * c)) by (field; lra).
  unfold Rminus. eapply Rle_trans; [apply Rabs_triang|]. rewrite Rabs_Ropp, Rabs_mult. assert (Rabs k * Rabs w <= Rabs k * (rho ^ n * c)) by (apply Rmult_le_compat_l; [apply Rabs_pos|exact Bw]). lra.
Qed.
Print Assumptions C198_converges.

(** If dt sqrt(kp) >= 2 sqrt(2) - 2, there are speeds, arbitrarily small near the target, from which the joint goes from one side of its target to the other at each solve, as far from
    it, and further each time if the inequality is strict. *)
Theorem C198_diverges dt kp : 0 < dt -> 0 < kp -> 2 * sqrt 2 - 2 <= dt * sqrt kp -> exists rate m, rate <= -1 /\ (2 * sqrt 2 - 2 < dt * sqrt kp -> rate < -1) /\
  forall pn log3 jlog qr qp name target r0 iq iv, qr_correct qr -> qp_correct qp -> named_joint r0 name iq iv -> integrates pn (r_model r0) ->
  vat (st_qd (r_state r0)) iv = m * (vat (st_q (r_state r0)) iq - target) ->
  forall n r, held pn log3 jlog qr qp dt kp name target r0 n r -> vat (st_q (r_state r)) iq - target = rate ^ n * (vat (st_q (r_state r0)) iq - target).
Proof.
  intros T K H. set (X := dt * sqrt kp). assert (XP : 0 < X) by (apply Rmult_lt_0_compat; [exact T|now apply sqrt_lt_R0]). destruct (modes_outside X H) as (F & F' & S).
  pose proof (spread_pos X XP) as Sp. exists (fast X), (- (X * X) / (1 - X * X - slow X) / dt). split; [exact F|]. split; [exact F'|].
  intros pn log3 jlog qr qp name target r0 iq iv Qr Qp Hj Hi V n r Hh.
  destruct (held_modes pn log3 jlog qr qp dt kp name target Qr Qp iq iv K r0 n r (fast X) T Hj Hi (or_introl eq_refl) Hh) as (_ & E1).
  destruct (held_modes pn log3 jlog qr qp dt kp name target Qr Qp iq iv K r0 n r (slow X) T Hj Hi (or_intror eq_refl) Hh) as (_ & E2). fold X in E1, E2.
  change (error target iq r = fast X ^ n * error target iq r0). change (vat (st_qd (r_state r0)) iv = - (X * X) / (1 - X * X - slow X) / dt * error target iq r0) in V.
  assert (W0 : (1 - X * X - slow X) * advance dt iv r0 = - (X * X) * error target iq r0) by (unfold advance; rewrite V; field; lra).
  set (e := error target iq r) in *. set (w := advance dt iv r) in *. set (e0 := error target iq r0) in *. set (w0 := advance dt iv r0) in *. set (p := fast X ^ n) in *. set (p' := slow X ^ n) in *.
  unfold mode in E1, E2. rewrite W0 in E2. set (ks := 1 - X * X - slow X) in *. set (kf := 1 - X * X - fast X) in *.
  assert (W : ks * w = - (X * X) * e) by (ring_simplify in E2; lra). assert (D : ks - kf = - spread X) by (unfold ks, kf, fast, slow; field).
  assert (X2 : 0 < X * X) by now apply Rmult_lt_0_compat. apply Rmult_eq_reg_l with (X * X * (ks - kf)); [|rewrite D; apply Rmult_integral_contrapositive; split; lra].
  assert (A : ks * (X * X * e + kf * w) = X * X * (ks - kf) * e) by (replace (ks * (X * X * e + kf * w)) with (ks * (X * X) * e + kf * (ks * w)) by ring; rewrite W; ring).
  assert (B : ks * (X * X * e0 + kf * w0) = X * X * (ks - kf) * e0) by (replace (ks * (X * X * e0 + kf * w0)) with (ks * (X * X) * e0 + kf * (ks * w0)) by ring; rewrite W0; ring).
  rewrite <- A, E1. replace (X * X * (ks - kf) * (p * e0)) with (p * (X * X * (ks - kf) * e0)) by ring. rewrite <- B. ring.
Qed.
Print Assumptions C198_diverges.

(** The robot of C72, whose head is asked to go to 8/10 with dt = 0.1 and kp = 1, meets the hypotheses of C198_converges. *)
Example C198_example : named_joint dex_robot "head" 7 6 /\ integrates dex_pin (r_model dex_robot) /\ qr_correct perfect_qr /\ qp_correct perfect_qp /\ 1 / 10 * sqrt 1 < 2 * sqrt 2 - 2 /\
  exists r, held dex_pin dex_log dex_jlog perfect_qr perfect_qp (1 / 10) 1 "head" (8 / 10) dex_robot 1 r /\ vat (st_qd (r_state r)) 6 = 11 / 100.
Proof.
  destruct C72_example as (Ds & Hi & _ & s' & r' & res & E & Hs & V). split.
  { split; [reflexivity|]. split; [reflexivity|]. eexists. split; [right; left; reflexivity|]. repeat split. }
  split; [exact Hi|]. split; [exact perfect_qr_correct|]. split; [exact perfect_qp_correct|]. split.
  { destruct limit_X_sq as (_ & L & _). unfold limit_X in L. rewrite sqrt_1. lra. }
  exists r'. split; [|exact V]. apply (held_solve _ _ _ _ _ _ _ _ _ _ 0 dex_robot (dex true 1) dex_task [("head"%string, (8 / 10, 0, 0))] s' r' res); try reflexivity.
  - constructor.
  - exact Ds.
  - left. reflexivity.
  - left. reflexivity.
  - cbn. lra.
  - exact E.
  - exact Hs.
Qed.

(** The hypotheses of C198_diverges on dt and kp are met by dt = 0.03 and kp = 1000 (the gain that a task has when it is made is 1000). *)
Example C198_diverges_example : 2 * sqrt 2 - 2 < 3 / 100 * sqrt 1000 /\ exists e w e' w', tracks (3 / 100 * sqrt 1000) e w e' w' /\ e' = fast (3 / 100 * sqrt 1000) * e /\ e <> 0.
Proof.
  assert (L : 2 * sqrt 2 - 2 < 3 / 100 * sqrt 1000).
  { assert (sqrt 2 < 142 / 100) by (apply less_by_square; [lra|rewrite sqrt_sqrt; lra]). assert (31 < sqrt 1000) by (apply less_by_square; [apply sqrt_lt_R0; lra|rewrite sqrt_sqrt; lra]). lra. }
  split; [exact L|]. set (X := 3 / 100 * sqrt 1000) in *. assert (XP : 0 < X) by (unfold X; pose proof (sqrt_lt_R0 1000 ltac:(lra)); lra). destruct (modes_outside X (Rlt_le _ _ L)) as (_ & _ & S).
  exists 1, (- (X * X) / (1 - X * X - slow X)). eexists. eexists. split; [split; reflexivity|]. split; [|lra]. unfold next_w. pose proof (spread_sq X XP) as Q. unfold slow, fast in *.
  apply Rmult_eq_reg_r with (1 - X * X - (2 - 2 * X - X * X + spread X) / 2); [|lra]. set (p := spread X) in *. field_simplify; [|lra]. replace (p ^ 2) with (X * X * X * X + 4 * X * X * X) by (rewrite <- Q; ring). field.
Qed.
