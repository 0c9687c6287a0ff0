(** The position of a joint of constant acceleration. *)
From Coq Require Import Reals ZArith List Bool Lia Lra.
From Verif Require Import Base Doubles_model Doubles_spec Doubles_proofs DoublesSwing_proofs DoublesLimits_proofs DoublesIntegrate_model DoublesIntegrate_spec DoublesIntegrate_proofs.
Open Scope R_scope.

Lemma grow_le k n : (k <= n)%nat -> (1 + unit_error) ^ k <= (1 + unit_error) ^ n.
Proof. intros H. apply Rle_pow; [pose proof unit_bounds; lra|exact H]. Qed.

(** The displacement of the call [k]. *)
Lemma call_error k v a dt : is_double v -> sized a -> sized dt ->
  Rabs (d_mul (adds k v (d_mul dt a)) dt - (v + INR k * (dt * a)) * dt) <= ((1 + unit_error) ^ (k + 2) - 1) * ((Rabs v + INR k * Rabs (dt * a)) * Rabs dt) + / 2 ^ 1075.
Proof.
  intros V A D. pose proof (adds_drift_mul k v dt a V D A) as H. unfold drifts in H. fold unit_error in H. pose proof unit_bounds as (u0 & _).
  set (w := adds k v (d_mul dt a)) in *. set (e := v + INR k * (dt * a)) in *. pose proof (pow_grow (S k)) as G. replace (k + 2)%nat with (S (S k)) by lia. change ((1 + unit_error) ^ S (S k)) with ((1 + unit_error) * (1 + unit_error) ^ S k).
  set (g := (1 + unit_error) ^ S k) in *. pose proof (pos_INR k) as K0. assert (Ee : Rabs e <= Rabs v + INR k * Rabs (dt * a)).
  { unfold e. refine (Rle_trans _ _ _ (Rabs_triang _ _) _). rewrite (Rabs_mult (INR k)), (Rabs_right (INR k)) by lra. lra. }
  set (s := Rabs v + INR k * Rabs (dt * a)) in *. pose proof (Rabs_pos dt) as T0. pose proof (Rabs_pos e) as E0.
  assert (Wb : Rabs w <= g * s). { replace w with ((w - e) + e) by ring. refine (Rle_trans _ _ _ (Rabs_triang _ _) _). lra. }
  pose proof (double_error (w * dt)) as F. rewrite Rabs_mult in F.
  unfold d_mul. replace (double (w * dt) - e * dt) with ((double (w * dt) - w * dt) + (w - e) * dt) by ring. refine (Rle_trans _ _ _ (Rabs_triang _ _) _). rewrite (Rabs_mult (w - e)).
  assert (X1 : unit_error * (Rabs w * Rabs dt) <= unit_error * (g * s * Rabs dt)) by (apply Rmult_le_compat_l; [lra|apply Rmult_le_compat_r; lra]).
  assert (X2 : Rabs (w - e) * Rabs dt <= (g - 1) * s * Rabs dt) by (apply Rmult_le_compat_r; lra). lra.
Qed.

Definition travelled (k : nat) (q v a dt : R) : R := q + INR k * v * dt + INR k * (INR k + 1) / 2 * a * dt * dt.
Definition travel_size (k : nat) (q v a dt : R) : R := Rabs q + INR k * Rabs (v * dt) + INR k * (INR k + 1) / 2 * Rabs (a * dt * dt).

Lemma size_pos k q v a dt : 0 <= travel_size k q v a dt /\ Rabs (travelled k q v a dt) <= travel_size k q v a dt.
Proof.
  pose proof (pos_INR k) as K. pose proof (Rabs_pos q). pose proof (Rabs_pos (v * dt)). pose proof (Rabs_pos (a * dt * dt)). assert (M : 0 <= INR k * (INR k + 1) / 2) by nra.
  unfold travel_size, travelled. set (m := INR k * (INR k + 1) / 2) in *. split; [assert (0 <= INR k * Rabs (v * dt)) by (apply Rmult_le_pos; lra); assert (0 <= m * Rabs (a * dt * dt)) by (apply Rmult_le_pos; lra); lra|].
  replace (q + INR k * v * dt + m * a * dt * dt) with (q + INR k * (v * dt) + m * (a * dt * dt)) by ring. refine (Rle_trans _ _ _ (Rabs_triang _ _) _).
  rewrite (Rabs_mult m), (Rabs_right m) by lra. apply Rplus_le_compat_r. refine (Rle_trans _ _ _ (Rabs_triang _ _) _). rewrite (Rabs_mult (INR k)), (Rabs_right (INR k)) by lra. lra.
Qed.

Lemma after_accelerated n dt q v a : is_double q -> is_double v -> sized a -> sized dt -> forall k, (k <= n)%nat ->
  is_double (dq (after k dt (DJState q (Some v) (Some a)))) /\
  Rabs (dq (after k dt (DJState q (Some v) (Some a))) - travelled k q v a dt) <=
    ((1 + unit_error) ^ k * (1 + unit_error) ^ (n + 2) - 1) * travel_size k q v a dt + (1 + unit_error) ^ k * (INR k * / 2 ^ 1075).
Proof.
  intros Q V A D. assert (t0 : 0 < / 2 ^ 1075) by (apply Rinv_0_lt_compat, pow_lt; lra). pose proof (pow_grow (n + 2)) as G. pose proof unit_bounds as (u0 & _).
  induction k as [|k IH]; intros K.
  - cbn [after dq pow INR]. split; [exact Q|]. unfold travelled, travel_size. cbn [INR]. replace (q - _) with 0 by field. rewrite Rabs_R0. pose proof (Rabs_pos q).
    replace (Rabs q + 0 * Rabs (v * dt) + 0 * (0 + 1) / 2 * Rabs (a * dt * dt)) with (Rabs q) by field. assert (0 <= (1 * (1 + unit_error) ^ (n + 2) - 1) * Rabs q) by (apply Rmult_le_pos; lra). lra.
  - destruct (IH ltac:(lia)) as (Dk & E). clear IH. destruct (after_speed k dt q v a) as (S1 & S2). set (s := after k dt _) in *. cbn [after]. fold s. unfold d_integrate. rewrite S1, S2. cbn [dq].
    change (d_add (adds k v (d_mul dt a)) (d_mul dt a)) with (adds (S k) v (d_mul dt a)). split; [apply double_is|].
    pose proof (call_error (S k) v a dt V A D) as C. set (d := d_mul (adds (S k) v (d_mul dt a)) dt) in *. pose proof (grow_le (S k + 2) (n + 2) ltac:(lia)) as L.
    pose proof (add_error (dq s) d Dk (double_is _)) as F. set (x := dq s) in *. set (y := d_add x d) in *. set (p := travelled k q v a dt) in *.
    set (w := (v + INR (S k) * (dt * a)) * dt) in *. set (W := (Rabs v + INR (S k) * Rabs (dt * a)) * Rabs dt) in *.
    assert (P' : travelled (S k) q v a dt = p + w) by (unfold p, w, travelled; rewrite S_INR; field).
    assert (S' : travel_size (S k) q v a dt = travel_size k q v a dt + W). { unfold W, travel_size. rewrite S_INR, !Rabs_mult. field. }
    destruct (size_pos k q v a dt) as (z0 & _). destruct (size_pos (S k) q v a dt) as (_ & z1). rewrite P', S' in *. set (z := travel_size k q v a dt) in *.
    assert (W0 : 0 <= W) by (unfold W; pose proof (pos_INR (S k)); pose proof (Rabs_pos v); pose proof (Rabs_pos (dt * a)); pose proof (Rabs_pos dt); apply Rmult_le_pos; [|lra]; assert (0 <= INR (S k) * Rabs (dt * a)) by (apply Rmult_le_pos; lra); lra).
    pose proof (pow_grow k) as Gk. change ((1 + unit_error) ^ S k) with ((1 + unit_error) * (1 + unit_error) ^ k). set (g := (1 + unit_error) ^ k) in *. set (h := (1 + unit_error) ^ (n + 2)) in *. set (h' := (1 + unit_error) ^ (S k + 2)) in *.
    rewrite S_INR. pose proof (pos_INR k) as K0. set (c := INR k) in *. set (t := / 2 ^ 1075) in *.
    assert (T : Rabs (x + d) <= Rabs (p + w) + Rabs (x - p) + Rabs (d - w)).
    { replace (x + d) with ((p + w) + (x - p) + (d - w)) by ring. refine (Rle_trans _ _ _ (Rabs_triang _ _) _). apply Rplus_le_compat_r, Rabs_triang. }
    assert (B : Rabs (y - (p + w)) <= unit_error * Rabs (x + d) + Rabs (x - p) + Rabs (d - w)).
    { replace (y - (p + w)) with ((y - (x + d)) + (x - p) + (d - w)) by ring. refine (Rle_trans _ _ _ (Rabs_triang _ _) _). apply Rplus_le_compat_r. refine (Rle_trans _ _ _ (Rabs_triang _ _) _). lra. }
    assert (T' : unit_error * Rabs (x + d) <= unit_error * (z + W + Rabs (x - p) + Rabs (d - w))) by (apply Rmult_le_compat_l; lra).
    set (e1 := Rabs (x - p)) in *. set (e2 := Rabs (d - w)) in *.
    assert (C' : e2 <= (g * h - 1) * W + g * t).
    { apply Rle_trans with (1 := C). assert (h' - 1 <= g * h - 1) by nra. assert ((h' - 1) * W <= (g * h - 1) * W) by (apply Rmult_le_compat_r; lra). assert (1 * t <= g * t) by (apply Rmult_le_compat_r; lra). lra. }
    assert (Y : (1 + unit_error) * (e1 + e2) <= (1 + unit_error) * ((g * h - 1) * z + g * (c * t) + ((g * h - 1) * W + g * t))) by (apply Rmult_le_compat_l; lra).
    apply Rle_trans with (1 := B). lra.
Qed.
