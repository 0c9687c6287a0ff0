(** The convergence of a joint held at a target by a hard task with any damping: C198. *)
From Coq Require Import Reals List ZArith Bool String Lra Lia.
From Verif Require Import Base Linalg Geom3 Tools_model Expression_model Robot_model Robot_spec Problem_model Problem_spec Backends_proofs KinTasks_model Kin_model Kin_proofs6 DynTasks_model Dyn_model Dyn_spec
  Tasks_spec DynTasks_props Dyn_example Dyn_props DynTrack_spec DynTrack_proofs DynDamp_spec DynDamp_proofs.
Import ListNotations.
Open Scope R_scope.

(** Whatever the coefficient c of damping, the joint converges to its target if it is positive and 2 dt c + dt^2 kp < 4. *)
Theorem C198_damped pn log3 jlog qr qp dt kp c name target r0 iq iv : 0 < dt -> 0 < kp -> 0 < c -> 2 * (dt * c) + dt * dt * kp < 4 ->
  qr_correct qr -> qp_correct qp -> named_joint r0 name iq iv -> integrates pn (r_model r0) ->
  forall eps, 0 < eps -> exists N, forall n r, (N <= n)%nat -> held_damped pn log3 jlog qr qp dt kp c name target r0 n r -> Rabs (vat (st_q (r_state r)) iq - target) < eps.
Proof.
  intros T K C AB Qr Qp Hj Hi eps He. assert (B : 0 < dt * dt * kp) by (repeat apply Rmult_lt_0_compat; assumption). assert (A : 0 < dt * c < 2) by (split; [now apply Rmult_lt_0_compat|lra]). pose proof (det_pos _ _ B AB) as Dp. destruct (factor_range _ _ A B AB) as (F0 & F1).
  set (f := factor (dt * c) (dt * dt * kp)) in *. set (E0 := energy (dt * c) (dt * dt * kp) (error target iq r0) (error target iq r0 - advance dt iv r0)).
  pose proof (energy_pos _ _ A B AB (error target iq r0) (error target iq r0 - advance dt iv r0)) as P0. fold E0 in P0. set (D := det (dt * c) (dt * dt * kp)) in *.
  assert (G : 0 < D * (eps * eps) / (2 * (E0 + 1))) by (apply Rmult_lt_0_compat; [repeat apply Rmult_lt_0_compat; assumption|apply Rinv_0_lt_compat; lra]).
  destruct (pow_lt_1_zero f ltac:(rewrite Rabs_right; lra) _ G) as (M & HM). exists (2 * M)%nat. intros n r Hn Hh.
  destruct (damped_energy pn log3 jlog qr qp dt kp c name target Qr Qp iq iv r0 n r A B AB Hj Hi Hh) as (_ & I & _). fold f E0 in I.
  assert (M2 : (Nat.div2 n >= M)%nat) by (rewrite Nat.div2_div; apply Nat.div_le_lower_bound; lia). specialize (HM _ M2). rewrite Rabs_right in HM by (apply Rle_ge, pow_le; exact F0).
  pose proof (energy_low _ _ (error target iq r) (error target iq r - advance dt iv r) : det (dt * c) (dt * dt * kp) * _ <= _) as L. fold D in L.
  change (vat (st_q (r_state r)) iq - target) with (error target iq r). set (x := error target iq r) in *. set (E := energy (dt * c) (dt * dt * kp) x (x - advance dt iv r)) in *. set (p := f ^ Nat.div2 n) in *.
  assert (X : D * (x * x) < D * (eps * eps)).
  { assert (0 <= p) by (apply pow_le; exact F0). assert (Y : p * (2 * (E0 + 1)) < D * (eps * eps)).
    { apply Rmult_lt_reg_r with (/ (2 * (E0 + 1))); [apply Rinv_0_lt_compat; lra|]. replace (p * (2 * (E0 + 1)) * / (2 * (E0 + 1))) with p by (field; lra). exact HM. }
    assert (0 <= E) by (apply (energy_pos _ _ A B AB)). assert ((2 - dt * c) * E <= 2 * E) by (apply Rmult_le_compat_r; lra). lra. }
  apply Rmult_lt_reg_l in X; [|exact Dp]. apply less_by_square; [exact He|]. rewrite <- Rabs_mult, Rabs_right; [exact X|apply Rle_ge, Rle_0_sqr].
Qed.
Print Assumptions C198_damped.

(** From 2 dt c + dt^2 kp = 4 on, there are first states, as close to the target as one wants, from which it does not: the error is multiplied by the same number, at most -1, at each solve. *)
Theorem C198_damped_diverges dt kp c : 0 < dt -> 0 < kp -> 0 <= c -> 4 <= 2 * (dt * c) + dt * dt * kp -> exists rate m, rate <= -1 /\ (4 < 2 * (dt * c) + dt * dt * kp -> rate < -1) /\
  forall pn log3 jlog qr qp name target r0 iq iv, qr_correct qr -> qp_correct qp -> named_joint r0 name iq iv -> integrates pn (r_model r0) ->
  vat (st_qd (r_state r0)) iv = m * (vat (st_q (r_state r0)) iq - target) ->
  forall n r, held_damped pn log3 jlog qr qp dt kp c name target r0 n r -> vat (st_q (r_state r)) iq - target = rate ^ n * (vat (st_q (r_state r0)) iq - target).
Proof.
  intros T K C H. assert (B : 0 < dt * dt * kp) by (repeat apply Rmult_lt_0_compat; assumption). assert (A : 0 <= dt * c) by (apply Rmult_le_pos; lra).
  destruct (rate_low _ _ A B H) as (L & L' & N). set (l := rate (dt * c) (dt * dt * kp)) in *. exists l, ((1 - / l) / dt). split; [exact L|]. split; [exact L'|].
  intros pn log3 jlog qr qp name target r0 iq iv Qr Qp Hj Hi V n r Hh. change (vat (st_qd (r_state r0)) iv = (1 - / l) / dt * error target iq r0) in V. change (error target iq r = l ^ n * error target iq r0).
  apply (damped_keeps pn log3 jlog qr qp dt kp c name target Qr Qp iq iv (fun n x z => x = l ^ n * error target iq r0 /\ x = l * z) r0 n r); [|exact Hj|exact Hi| |exact Hh].
  - intros k x z (X & Z). split; [|rewrite Z at 1; rewrite N, Z; reflexivity]. rewrite Z at 1. rewrite N, <- Z, X. cbn [pow]. ring.
  - split; [cbn [pow]; ring|]. unfold advance. rewrite V. field. lra.
Qed.
Print Assumptions C198_damped_diverges.

(** With kd = 0 the joint never converges, unless it is at its target and at rest. *)
Theorem C198_undamped pn log3 jlog qr qp dt kp name target r0 iq iv : 0 < dt -> 0 < kp -> dt * dt * kp < 4 -> qr_correct qr -> qp_correct qp -> named_joint r0 name iq iv -> integrates pn (r_model r0) ->
  vat (st_q (r_state r0)) iq <> target \/ vat (st_qd (r_state r0)) iv <> 0 ->
  exists eps, 0 < eps /\ forall n r, held_damped pn log3 jlog qr qp dt kp 0 name target r0 n r -> eps <= Rsqr (vat (st_q (r_state r)) iq - target) + Rsqr (dt * vat (st_qd (r_state r)) iv).
Proof.
  intros T K B4 Qr Qp Hj Hi N. assert (B : 0 < dt * dt * kp < 4) by (split; [repeat apply Rmult_lt_0_compat; assumption|exact B4]). set (b := dt * dt * kp) in *.
  assert (P : 0 < energy 0 b (error target iq r0) (error target iq r0 - advance dt iv r0)).
  { apply undamped_low; [exact B|]. destruct (Req_EM_T (error target iq r0) 0) as [Z|Z]; [right|now left]. rewrite Z. unfold advance. unfold error in Z. destruct N as [N|N]; [lra|].
    intros Y. assert (W : dt * vat (st_qd (r_state r0)) iv = 0) by lra. apply Rmult_integral in W. destruct W; [lra|contradiction]. }
  set (E0 := energy 0 b (error target iq r0) (error target iq r0 - advance dt iv r0)) in *. exists (E0 / 24). split; [lra|]. intros n r Hh.
  destruct (damped_keeps pn log3 jlog qr qp dt kp 0 name target Qr Qp iq iv (fun _ x z => energy 0 b x z = E0) r0 n r) as (_ & E); [|exact Hj|exact Hi|reflexivity|exact Hh|].
  - intros k x z X. rewrite Rmult_0_r. fold b. rewrite undamped_energy. exact X.
  - pose proof (undamped_high b (error target iq r) (advance dt iv r) B) as H. rewrite E in H. unfold Rsqr. change (vat (st_q (r_state r)) iq - target) with (error target iq r).
    change (dt * vat (st_qd (r_state r)) iv) with (advance dt iv r). lra.
Qed.
Print Assumptions C198_undamped.

(** The robot of C198_example, whose task has the coefficient of damping 2, meets the hypotheses. *)
Example C198_damped_example : 0 < 2 /\ 2 * (1 / 10 * 2) + 1 / 10 * (1 / 10) * 1 < 4 /\ named_joint dex_robot "head" 7 6 /\ integrates dex_pin (r_model dex_robot) /\
  exists r, held_damped dex_pin dex_log dex_jlog perfect_qr perfect_qp (1 / 10) 1 2 "head" (8 / 10) dex_robot 1 r /\ vat (st_qd (r_state r)) 6 = 11 / 100.
Proof.
  destruct C72_example as (Ds & Hi & _ & s' & r' & res & E & Hs & V). split; [lra|]. split; [lra|]. split.
  { split; [reflexivity|]. split; [reflexivity|]. eexists. split; [right; left; reflexivity|]. repeat split. }
  split; [exact Hi|]. exists r'. split; [|exact V]. apply (damped_solve _ _ _ _ _ _ _ _ _ _ _ 0 dex_robot (dex true 1) dex_task [("head"%string, (8 / 10, 0, 0))] s' r' res); try reflexivity.
  - constructor.
  - exact Ds.
  - left. reflexivity.
  - left. reflexivity.
  - split; intros H; [rewrite sqrt_1; ring|cbn in H; lra].
  - exact E.
  - exact Hs.
Qed.

(** Values of dt, kp and kd that meet the hypotheses of C198_damped_diverges (dt = 0.03, kp = 1000, kd = 60) and of C198_undamped (dt = 0.01, kp = 1000). *)
Example C198_damped_diverges_example : 4 < 2 * (3 / 100 * 60) + 3 / 100 * (3 / 100) * 1000 /\ 1 / 100 * (1 / 100) * 1000 < 4 /\
  vat (st_q (r_state dex_robot)) 7 <> 8 / 10 /\ vat (st_qd (r_state dex_robot)) 6 <> 0.
Proof. split; [lra|]. split; [lra|]. cbn. lra. Qed.
