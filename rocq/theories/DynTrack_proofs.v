(** Proofs about a joint held at a target. *)
From Coq Require Import Reals List ZArith Bool String Lra Lia Psatz.
From Verif Require Import Base Linalg Geom3 Tools_model Expression_model Robot_model Robot_spec Robot_proofs Problem_model Problem_spec KinTasks_model Kin_model DynTasks_model Dyn_model Dyn_spec Dyn_props
  Kin_proofs Tasks_spec DynTasks_proofs DynTasks_props Dyn_proofs3 DynTrack_spec.
Import ListNotations.
Open Scope R_scope.

(** ** The recurrence *)

(** X = dt sqrt(kp), e: the position minus the target, w = dt * speed. *)
Definition next_w (X e w : R) : R := (1 - 2 * X) * w - X * X * e.
Definition tracks (X e w e' w' : R) : Prop := w' = next_w X e w /\ e' = e + w'.
Definition spread (X : R) : R := sqrt (X * X * X * X + 4 * X * X * X).
Definition fast (X : R) : R := (2 - 2 * X - X * X - spread X) / 2.
Definition slow (X : R) : R := (2 - 2 * X - X * X + spread X) / 2.
Definition mode (X l e w : R) : R := X * X * e + (1 - X * X - l) * w.

Lemma spread_sq X : 0 < X -> spread X * spread X = X * X * X * X + 4 * X * X * X.
Proof. intros H. apply sqrt_sqrt. assert (0 < X * X) by nra. assert (0 < X * X * X) by nra. nra. Qed.
Lemma spread_pos X : 0 < X -> 0 < spread X.
Proof. intros H. apply sqrt_lt_R0. assert (0 < X * X) by nra. assert (0 < X * X * X) by nra. nra. Qed.
Lemma eigen X l : 0 < X -> l = fast X \/ l = slow X -> l * l = (2 - 2 * X - X * X) * l - (1 - 2 * X).
Proof. intros H. pose proof (spread_sq X H) as S. intros [-> | ->]; unfold fast, slow; nra. Qed.
Lemma mode_step X l e w e' w' : 0 < X -> l = fast X \/ l = slow X -> tracks X e w e' w' -> mode X l e' w' = l * mode X l e w.
Proof. intros H L (-> & ->). apply (eigen X l H) in L. unfold mode, next_w. apply Rminus_diag_uniq.
  replace (X * X * (e + ((1 - 2 * X) * w - X * X * e)) + (1 - X * X - l) * ((1 - 2 * X) * w - X * X * e) - l * (X * X * e + (1 - X * X - l) * w)) with ((l * l - ((2 - 2 * X - X * X) * l - (1 - 2 * X))) * w) by ring.
  rewrite L. ring. Qed.

(** Squares are compared. *)
Lemma less_by_square x y : 0 < y -> x * x < y * y -> x < y.
Proof. intros P H. apply Rnot_le_lt. intros N. assert (y * y <= x * x) by (apply Rmult_le_compat; lra). lra. Qed.

Definition limit_X : R := 2 * sqrt 2 - 2.
Lemma limit_X_sq : limit_X * limit_X + 4 * limit_X = 4 /\ 4 / 5 < limit_X < 1.
Proof. unfold limit_X. pose proof (sqrt_sqrt 2 ltac:(lra)) as S. split; [nra|]. assert (7 / 5 < sqrt 2) by (apply less_by_square; [apply sqrt_lt_R0; lra|lra]). assert (sqrt 2 < 3 / 2) by (apply less_by_square; lra). lra. Qed.

Lemma modes_inside X : 0 < X < limit_X -> -1 < fast X < 1 /\ -1 < slow X < 1.
Proof.
  intros (P & H). destruct limit_X_sq as (L & L1 & L2). pose proof (spread_sq X P) as S. pose proof (spread_pos X P) as Sp. assert (Q : X * X + 4 * X < 4) by nra.
  assert (A : spread X < 2 * X + X * X) by (apply less_by_square; [nra|]; rewrite S; nra).
  assert (B : spread X < 4 - 2 * X - X * X) by (apply less_by_square; [nra|]; rewrite S; nra). unfold fast, slow. lra.
Qed.

Lemma modes_outside X : limit_X <= X -> fast X <= -1 /\ (limit_X < X -> fast X < -1) /\ 1 - X * X - slow X < 0.
Proof.
  intros H. destruct limit_X_sq as (L & L1 & L2). assert (P : 0 < X) by lra. pose proof (spread_sq X P) as S. pose proof (spread_pos X P) as Sp. assert (Q : 4 <= X * X + 4 * X) by nra. split; [|split].
  - assert (4 - 2 * X - X * X <= spread X); [|unfold fast; lra]. apply Rnot_lt_le. intros N. assert (spread X * spread X < (4 - 2 * X - X * X) * (4 - 2 * X - X * X)) by (apply Rmult_le_0_lt_compat; lra). rewrite S in *. nra.
  - intros H'. assert (Q' : 4 < X * X + 4 * X) by nra. assert (4 - 2 * X - X * X < spread X); [|unfold fast; lra]. destruct (Rle_dec (4 - 2 * X - X * X) 0); [lra|]. apply less_by_square; [exact Sp|]. rewrite S. nra.
  - assert (2 * X - X * X < spread X); [|unfold slow; lra]. apply less_by_square; [exact Sp|]. rewrite S. assert (0 < X * X) by nra. nra.
Qed.

(** ** One solve *)

Section Robot.
Context (pn : pin) (log3 : mat3 -> vec3) (jlog : mat3 -> mat3) (qr : mat -> qr_result) (qp : qp_problem -> qp_result) (dt kp : R) (name : string) (target : R).
Context (Qr : qr_correct qr) (Qp : qp_correct qp) (iq iv : nat) (Kp : 0 < kp).

Definition error (r : robot) : R := vat (st_q (r_state r)) iq - target.
Definition advance (r : robot) : R := dt * vat (st_qd (r_state r)) iv.

Lemma solve_tracks r s t l s' r' res : named_joint r name iq iv -> integrates pn (r_model r) -> dsound pn log3 jlog s r -> ds_dt s = dt ->
  In t (ds_tasks s) -> dt_priority t = PHard -> dt_kind t = DJoints l -> In (name, (target, 0, 0)) l -> dt_kp t = kp -> dt_kd t < 0 ->
  dsolve pn log3 jlog qr qp s r true = (s', r', Ok res) -> dr_success res = true ->
  r_model r' = r_model r /\ tracks (dt * sqrt kp) (error r) (advance r) (error r') (advance r').
Proof.
  intros (Ho & Hv & j & Ij & Jq & Jv & Iq & Iv) Hi Hd Ht It Pt Kt Il Ek Ed E Hs.
  destruct (C73_satisfied pn log3 jlog qr qp s r true s' r' res t Hd Qr Qp E Hs It Pt) as (Q & e & He & Hr).
  unfold dtask_update in He. rewrite Kt in He. destruct (In_nth_error _ _ Il) as [n Hn].
  destruct (joints_residual _ _ _ _ _ _ _ _ _ _ _ (vat (dr_qdd res)) He Hn) as (L & k' & q0 & Hk' & Hq0 & Hlt & Ee). rewrite Hv in Hk'. injection Hk' as <-.
  unfold get_joint in Hq0. rewrite Ho in Hq0. cbn [obind] in Hq0. apply vec_get_spec in Hq0. destruct Hq0 as [_ ->].
  specialize (Hr n). unfold dresidual in Hr. rewrite Kt in Hr. cbn [about_tau] in Hr. rewrite Ee in Hr. specialize (Hr ltac:(rewrite L; apply nth_error_Some; congruence)).
  destruct (C72_integrated pn log3 jlog qr qp s r s' r' res Hd ltac:(lia) Hi Qr Qp E Hs) as (_ & Em & _ & V & P). split; [exact Em|].
  specialize (P j Ij Jq Jv). rewrite Iq, Iv in P. destruct (V iv Hlt) as (_ & V'). rewrite Ht in *. rewrite Ek in Hr.
  assert (G : get_kd kp (dt_kd t) = 2 * sqrt kp) by (symmetry; apply damping_get_kd; split; intros; [reflexivity|lra]). rewrite G in Hr.
  pose proof (sqrt_sqrt kp ltac:(lra)) as S. unfold tracks, next_w, error, advance. rewrite P, V'. split; [|ring].
  set (a := vat (dr_qdd res) iv) in *. set (v := vat (st_qd (r_state r)) iv) in *. set (q := vat (st_q (r_state r)) iq) in *.
  assert (A : a = kp * (target - q) - 2 * sqrt kp * v) by lra. rewrite A. replace (dt * sqrt kp * (dt * sqrt kp)) with (dt * dt * kp) by (rewrite <- S at 1; ring). ring.
Qed.

Lemma held_modes r0 n r l : 0 < dt -> named_joint r0 name iq iv -> integrates pn (r_model r0) -> l = fast (dt * sqrt kp) \/ l = slow (dt * sqrt kp) ->
  held pn log3 jlog qr qp dt kp name target r0 n r -> r_model r = r_model r0 /\ mode (dt * sqrt kp) l (error r) (advance r) = l ^ n * mode (dt * sqrt kp) l (error r0) (advance r0).
Proof.
  intros T Hj Hi Hl H. induction H as [|n r s t ll s' r' res H (M & IH) Hd Ht It Pt Kt Il Ek Ed E Hs]; [split; [reflexivity|ring]|].
  assert (Hj' : named_joint r name iq iv). { unfold named_joint, get_joint_offset, get_joint_v_offset in *. rewrite M. exact Hj. }
  destruct (solve_tracks r s t ll s' r' res Hj' ltac:(rewrite M; exact Hi) Hd Ht It Pt Kt Il Ek Ed E Hs) as (M' & Tr). split; [congruence|].
  assert (XP : 0 < dt * sqrt kp) by (apply Rmult_lt_0_compat; [exact T|apply sqrt_lt_R0; exact Kp]). rewrite (mode_step _ l _ _ _ _ XP Hl Tr), IH. cbn [pow]. ring.
Qed.
End Robot.
