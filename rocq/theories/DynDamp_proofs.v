(** Proofs about a joint held at a target with any damping. *)
From Coq Require Import Reals List ZArith Bool String Lra Lia Psatz.
From Verif Require Import Base Linalg Geom3 Tools_model Expression_model Robot_model Robot_spec Robot_proofs Problem_model Problem_spec KinTasks_model Kin_model DynTasks_model Dyn_model Dyn_spec Dyn_props
  Kin_proofs Tasks_spec DynTasks_proofs DynTasks_props Dyn_proofs3 DynTrack_spec DynTrack_proofs DynDamp_spec.
Import ListNotations.
Open Scope R_scope.

(** ** The recurrence *)

(** a = dt c, b = dt^2 kp; x: the error, z: the error before the last solve. *)
Section Recurrence.
Context (a b : R) (A : 0 < a < 2) (B : 0 < b) (AB : 2 * a + b < 4).
Definition next_x (x z : R) : R := (2 - a - b) * x - (1 - a) * z.
Definition energy (x z : R) : R := (2 - a) * (x * x + z * z) - 2 * (2 - a - b) * x * z.
Definition gap (x z : R) : R := (2 - a - b) * x - (2 - a) * z.
Definition det : R := (2 - a) * (2 - a) - (2 - a - b) * (2 - a - b).

Lemma det_pos : 0 < det.
Proof. unfold det. replace ((2 - a) * (2 - a) - (2 - a - b) * (2 - a - b)) with (b * (4 - 2 * a - b)) by ring. apply Rmult_lt_0_compat; lra. Qed.
Lemma energy_step x z : energy (next_x x z) x = energy x z - a * (gap x z * gap x z).
Proof. unfold energy, next_x, gap. ring. Qed.
Lemma energy_low x z : det * (x * x) <= (2 - a) * energy x z.
Proof.
  unfold det, energy. set (s := 2 - a). set (t := s - b). replace (2 - a - b) with t by (unfold t, s; ring). pose proof (Rle_0_sqr (s * z - t * x)) as Q. unfold Rsqr in Q. nra.
Qed.
Lemma energy_pos x z : 0 <= energy x z.
Proof. pose proof (energy_low x z) as L. pose proof det_pos. pose proof (Rle_0_sqr x) as Q. unfold Rsqr in Q. assert (0 <= det * (x * x)) by (apply Rmult_le_pos; lra).
  apply Rmult_le_reg_l with (2 - a); lra. Qed.
Lemma energy_high x z : energy x z <= 4 * (x * x + z * z).
Proof.
  unfold energy. set (s := 2 - a). set (t := 2 - a - b). assert (Hs : 0 < s < 2) by (unfold s; lra). assert (Ht : - s < t < s) by (unfold s, t; lra).
  pose proof (Rle_0_sqr (x - z)) as Q1. pose proof (Rle_0_sqr (x + z)) as Q2. unfold Rsqr in *. assert (P1 : 0 <= (s - t) * ((x + z) * (x + z))) by (apply Rmult_le_pos; lra).
  assert (P2 : 0 <= (s + t) * ((x - z) * (x - z))) by (apply Rmult_le_pos; lra). pose proof (Rle_0_sqr x). pose proof (Rle_0_sqr z). unfold Rsqr in *.
  assert (s * (x * x + z * z) <= 2 * (x * x + z * z)) by (apply Rmult_le_compat_r; lra). nra.
Qed.

Lemma two_gaps x z : det * det * (x * x + z * z) <= 40 * (gap x z * gap x z + gap (next_x x z) x * gap (next_x x z) x).
Proof.
  set (u := gap x z). set (v := gap (next_x x z) x). set (s := 2 - a). set (t := 2 - a - b). set (k := 1 - a).
  assert (Hs : 0 < s < 2) by (unfold s; lra). assert (Ht : -2 < t < 2) by (unfold t; lra). assert (Hk : -1 < k < 1) by (unfold k; lra).
  assert (X : det * x = t * k * u - s * v) by (unfold det, u, v, gap, next_x, s, t, k; ring). assert (Z : det * z = (t * t - s) * u - t * v) by (unfold det, u, v, gap, next_x, s, t, k; ring).
  assert (Sq : forall p q, p * p <= q -> 0 <= q -> forall y, p * p * (y * y) <= q * (y * y)) by (intros p q Hp Hq y; apply Rmult_le_compat_r; [apply Rle_0_sqr|exact Hp]).
  assert (Sum : forall p q, (p - q) * (p - q) <= 2 * (p * p) + 2 * (q * q)) by (intros p q; pose proof (Rle_0_sqr (p + q)) as H; unfold Rsqr in H; lra).
  assert (T2 : t * t <= 4) by nra. assert (K2 : k * k <= 1) by nra. assert (S2 : s * s <= 4) by nra. assert (T0 : 0 <= t * t) by apply Rle_0_sqr.
  assert (TK : t * k * (t * k) <= 4). { replace (t * k * (t * k)) with (t * t * (k * k)) by ring. assert (0 <= k * k) by apply Rle_0_sqr. assert (t * t * (k * k) <= 4 * 1) by (apply Rmult_le_compat; lra). lra. }
  assert (TS : (t * t - s) * (t * t - s) <= 16) by nra.
  assert (U0 : 0 <= u * u) by apply Rle_0_sqr. assert (V0 : 0 <= v * v) by apply Rle_0_sqr.
  pose proof (Sum (t * k * u) (s * v)) as S1. pose proof (Sum ((t * t - s) * u) (t * v)) as S3. rewrite <- X in S1. rewrite <- Z in S3.
  pose proof (Sq (t * k) 4 TK ltac:(lra) u) as Q1. pose proof (Sq s 4 S2 ltac:(lra) v) as Q2. pose proof (Sq (t * t - s) 16 TS ltac:(lra) u) as Q3. pose proof (Sq t 4 T2 ltac:(lra) v) as Q4.
  replace (det * det * (x * x + z * z)) with (det * x * (det * x) + det * z * (det * z)) by ring.
  replace (t * k * u * (t * k * u)) with (t * k * (t * k) * (u * u)) in S1 by ring. replace (s * v * (s * v)) with (s * s * (v * v)) in S1 by ring.
  replace ((t * t - s) * u * ((t * t - s) * u)) with ((t * t - s) * (t * t - s) * (u * u)) in S3 by ring. replace (t * v * (t * v)) with (t * t * (v * v)) in S3 by ring. lra.
Qed.

(** Two solves multiply the energy by a number under 1. *)
Definition factor : R := Rmax 0 (1 - a * (det * det) / 160).
Lemma factor_range : 0 <= factor < 1.
Proof.
  split; [apply Rmax_l|]. apply Rmax_lub_lt; [lra|]. pose proof det_pos. assert (0 < a * (det * det)) by (apply Rmult_lt_0_compat; [lra|now apply Rmult_lt_0_compat]). lra.
Qed.
Lemma energy_two x z : energy (next_x (next_x x z) x) (next_x x z) <= factor * energy x z.
Proof.
  rewrite (energy_step (next_x x z) x), (energy_step x z). pose proof (two_gaps x z) as G. pose proof (energy_high x z) as H. pose proof (energy_pos x z) as P. set (g := gap x z * gap x z) in *.
  set (h := gap (next_x x z) x * gap (next_x x z) x) in *. set (E := energy x z) in *. set (n := x * x + z * z) in *. set (dd := det * det) in *. assert (0 <= dd) by apply Rle_0_sqr.
  apply Rle_trans with ((1 - a * dd / 160) * E); [|apply Rmult_le_compat_r; [exact P|apply Rmax_r]].
  assert (K : dd * E <= 160 * (g + h)) by (assert (dd * E <= dd * (4 * n)) by (apply Rmult_le_compat_l; assumption); lra).
  assert (a * (dd * E) <= a * (160 * (g + h))) by (apply Rmult_le_compat_l; lra). lra.
Qed.
End Recurrence.

(** With a smaller period the two errors are multiplied by the same number, at most -1. *)
Definition rate (a b : R) : R := (2 - a - b - sqrt ((a + b) * (a + b) - 4 * b)) / 2.
Lemma rate_low a b : 0 <= a -> 0 < b -> 4 <= 2 * a + b -> rate a b <= -1 /\ (4 < 2 * a + b -> rate a b < -1) /\ forall z, next_x a b (rate a b * z) z = rate a b * (rate a b * z).
Proof.
  intros A B H. set (d := (a + b) * (a + b) - 4 * b). assert (D : 0 <= d). { pose proof (Rle_0_sqr (2 - b / 2)) as Q. unfold Rsqr in Q. assert ((2 + b / 2) * (2 + b / 2) <= (a + b) * (a + b)) by (apply Rmult_le_compat; lra). unfold d. lra. }
  pose proof (sqrt_sqrt d D) as S. pose proof (sqrt_pos d) as P. unfold rate. fold d. set (q := sqrt d) in *. split; [|split].
  - assert (4 - a - b <= q); [|lra]. apply Rnot_lt_le. intros N. assert (q * q < (4 - a - b) * (4 - a - b)) by (apply Rmult_le_0_lt_compat; lra). rewrite S in *. unfold d in *. lra.
  - intros H'. assert (4 - a - b < q); [|lra]. apply Rnot_le_lt. intros N. assert (q * q <= (4 - a - b) * (4 - a - b)) by (apply Rmult_le_compat; lra). rewrite S in *. unfold d in *. lra.
  - intros z. unfold next_x. set (l := (2 - a - b - q) / 2). assert (L : l * l = (2 - a - b) * l - (1 - a)). { unfold l. unfold d in S. apply Rminus_diag_uniq.
      replace ((2 - a - b - q) / 2 * ((2 - a - b - q) / 2) - ((2 - a - b) * ((2 - a - b - q) / 2) - (1 - a))) with ((q * q - ((a + b) * (a + b) - 4 * b)) / 4) by field. rewrite S. field. }
    replace (l * (l * z)) with (l * l * z) by ring. rewrite L. ring.
Qed.

(** Without damping the energy is kept. *)
Lemma undamped_energy b x z : energy 0 b (next_x 0 b x z) x = energy 0 b x z.
Proof. rewrite energy_step. ring. Qed.
Lemma undamped_low b x z : 0 < b < 4 -> x <> 0 \/ z <> 0 -> 0 < energy 0 b x z.
Proof.
  intros B N. assert (D : 0 < det 0 b) by (apply det_pos; lra). pose proof (energy_low 0 b x z) as L1. pose proof (energy_low 0 b z x) as L2. replace (energy 0 b z x) with (energy 0 b x z) in L2 by (unfold energy; ring).
  destruct N as [N|N]; apply Rsqr_pos_lt in N; unfold Rsqr in N; pose proof (Rmult_lt_0_compat _ _ D N); lra.
Qed.
Lemma undamped_high b x w : 0 < b < 4 -> energy 0 b x (x - w) <= 24 * (x * x + w * w).
Proof.
  intros B. unfold energy. set (z := x - w). pose proof (Rle_0_sqr (x - z)) as Q1. pose proof (Rle_0_sqr (x + z)) as Q2. pose proof (Rle_0_sqr (x + w)) as Q3. unfold Rsqr in *.
  assert (P1 : 0 <= b * ((x - z) * (x - z))) by (apply Rmult_le_pos; lra). assert (P2 : 0 <= (4 - b) * ((x + z) * (x + z))) by (apply Rmult_le_pos; lra).
  assert (z * z = x * x - 2 * (x * w) + w * w) by (unfold z; ring). pose proof (Rle_0_sqr x). pose proof (Rle_0_sqr w). unfold Rsqr in *. nra.
Qed.

(** ** The robot *)

Section Robot.
Context (pn : pin) (log3 : mat3 -> vec3) (jlog : mat3 -> mat3) (qr : mat -> qr_result) (qp : qp_problem -> qp_result) (dt kp c : R) (name : string) (target : R).
Context (Qr : qr_correct qr) (Qp : qp_correct qp) (iq iv : nat).
Notation error := (error target iq).
Notation advance := (advance dt iv).

Lemma solve_damped r s t l s' r' res : named_joint r name iq iv -> integrates pn (r_model r) -> dsound pn log3 jlog s r -> ds_dt s = dt ->
  In t (ds_tasks s) -> dt_priority t = PHard -> dt_kind t = DJoints l -> In (name, (target, 0, 0)) l -> dt_kp t = kp -> damping kp (dt_kd t) c ->
  dsolve pn log3 jlog qr qp s r true = (s', r', Ok res) -> dr_success res = true ->
  r_model r' = r_model r /\ error r' = next_x (dt * c) (dt * dt * kp) (error r) (error r - advance r) /\ error r' - advance r' = error r.
Proof.
  intros (Ho & Hv & j & Ij & Jq & Jv & Iq & Iv) Hi Hd Ht It Pt Kt Il Ek Ed E Hs.
  destruct (C73_satisfied pn log3 jlog qr qp s r true s' r' res t Hd Qr Qp E Hs It Pt) as (Q & e & He & Hr).
  unfold dtask_update in He. rewrite Kt in He. destruct (In_nth_error _ _ Il) as [n Hn].
  destruct (joints_residual _ _ _ _ _ _ _ _ _ _ _ (vat (dr_qdd res)) He Hn) as (L & k' & q0 & Hk' & Hq0 & Hlt & Ee). rewrite Hv in Hk'. injection Hk' as <-.
  unfold get_joint in Hq0. rewrite Ho in Hq0. cbn [obind] in Hq0. apply vec_get_spec in Hq0. destruct Hq0 as [_ ->].
  specialize (Hr n). unfold dresidual in Hr. rewrite Kt in Hr. cbn [about_tau] in Hr. rewrite Ee in Hr. specialize (Hr ltac:(rewrite L; apply nth_error_Some; congruence)).
  destruct (C72_integrated pn log3 jlog qr qp s r s' r' res Hd ltac:(lia) Hi Qr Qp E Hs) as (_ & Em & _ & V & P). split; [exact Em|].
  specialize (P j Ij Jq Jv). rewrite Iq, Iv in P. destruct (V iv Hlt) as (_ & V'). rewrite Ht in *. rewrite Ek in Hr. apply damping_get_kd in Ed. rewrite <- Ed in Hr.
  unfold next_x, DynTrack_proofs.error, DynTrack_proofs.advance. rewrite P, V'.
  set (a := vat (dr_qdd res) iv) in *. set (v := vat (st_qd (r_state r)) iv) in *. set (q := vat (st_q (r_state r)) iq) in *.
  assert (A : a = kp * (target - q) - c * v) by lra. rewrite A. split; ring.
Qed.

Lemma damped_energy r0 n r : 0 < dt * c < 2 -> 0 < dt * dt * kp -> 2 * (dt * c) + dt * dt * kp < 4 -> named_joint r0 name iq iv -> integrates pn (r_model r0) ->
  held_damped pn log3 jlog qr qp dt kp c name target r0 n r ->
  let E x z := energy (dt * c) (dt * dt * kp) x z in
  r_model r = r_model r0 /\ E (error r) (error r - advance r) <= factor (dt * c) (dt * dt * kp) ^ Nat.div2 n * E (error r0) (error r0 - advance r0) /\
  E (next_x (dt * c) (dt * dt * kp) (error r) (error r - advance r)) (error r) <= factor (dt * c) (dt * dt * kp) ^ Nat.div2 (S n) * E (error r0) (error r0 - advance r0).
Proof.
  intros A B AB Hj Hi H E. set (f := factor (dt * c) (dt * dt * kp)). destruct (factor_range _ _ A B AB) as (F0 & F1). fold f in F0, F1.
  induction H as [|n r s t ll s' r' res H (M & I1 & I2) Hd Ht It Pt Kt Il Ek Ed Ev Hs].
  - split; [reflexivity|]. cbn [Nat.div2 pow]. unfold E. rewrite energy_step, Rmult_1_l. split; [lra|]. assert (0 <= dt * c * (gap (dt * c) (dt * dt * kp) (error r0) (error r0 - advance r0) * gap (dt * c) (dt * dt * kp) (error r0) (error r0 - advance r0))) by (apply Rmult_le_pos; [lra|apply Rle_0_sqr]). lra.
  - assert (Hj' : named_joint r name iq iv). { unfold named_joint, get_joint_offset, get_joint_v_offset in *. rewrite M. exact Hj. }
    destruct (solve_damped r s t ll s' r' res Hj' ltac:(rewrite M; exact Hi) Hd Ht It Pt Kt Il Ek Ed Ev Hs) as (M' & X' & Z'). split; [congruence|]. rewrite Z', X'. split; [exact I2|].
    pose proof (energy_two _ _ A B AB (error r) (error r - advance r)) as T. fold f in T. change (Nat.div2 (S (S n))) with (S (Nat.div2 n)). cbn [pow]. unfold E in *.
    eapply Rle_trans; [exact T|]. rewrite (Rmult_assoc f). apply Rmult_le_compat_l; [exact F0|exact I1].
Qed.

(** A relation between two successive errors that the recurrence keeps is kept by the solves. *)
Lemma damped_keeps (R : nat -> R -> R -> Prop) r0 n r : (forall n x z, R n x z -> R (S n) (next_x (dt * c) (dt * dt * kp) x z) x) -> named_joint r0 name iq iv -> integrates pn (r_model r0) ->
  R 0%nat (error r0) (error r0 - advance r0) -> held_damped pn log3 jlog qr qp dt kp c name target r0 n r -> r_model r = r_model r0 /\ R n (error r) (error r - advance r).
Proof.
  intros St Hj Hi H0 H. induction H as [|n r s t ll s' r' res H (M & I) Hd Ht It Pt Kt Il Ek Ed Ev Hs]; [auto|].
  assert (Hj' : named_joint r name iq iv). { unfold named_joint, get_joint_offset, get_joint_v_offset in *. rewrite M. exact Hj. }
  destruct (solve_damped r s t ll s' r' res Hj' ltac:(rewrite M; exact Hi) Hd Ht It Pt Kt Il Ek Ed Ev Hs) as (M' & X' & Z'). split; [congruence|]. rewrite Z', X'. now apply St.
Qed.
End Robot.
