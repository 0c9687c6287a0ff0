(** Theorems about the displacement of one step of FootstepsPlannerNaive with doubles: C194. *)
From Coq Require Import Reals ZArith List Bool Lia Lra.
From Flocq Require Import Core.
From Verif Require Import Base Doubles_model Doubles_spec Doubles_proofs DoublesClip_props DoublesLimits_proofs DoublesReach_model DoublesReach_spec DoublesReach_proofs.
Open Scope R_scope.

(** The target is found accessible exactly if the error is in the accessible area, and then the displacement is the error itself. *)
Theorem C194_accessible length width ex ey : sound_length length -> sound_length width -> is_double ex -> is_double ey ->
  let (d, arrived) := d_displacement length width ex ey in
  (arrived = true <-> Rabs ex <= length /\ Rabs ey <= width) /\ (arrived = true -> d = (ex, ey)).
Proof.
  intros (_ & L) (_ & W) X Y. assert (P0 : 0 < / 2 ^ 100) by (apply Rinv_0_lt_compat, pow_lt; lra). pose proof (displacement_spec length width ex ey ltac:(lra) ltac:(lra)) as E. cbv zeta in E. rewrite E.
  unfold factor. destruct (Rle_dec (Rabs ex) length) as [A|A]; [|split; [split; [discriminate|tauto]|discriminate]]. destruct (Rle_dec (Rabs ey) width) as [B|B]; [|split; [split; [discriminate|tauto]|discriminate]].
  split; [tauto|]. intros _. rewrite Rmin_left, double_1 by lra. unfold d_mul. now rewrite !Rmult_1_r, !double_id.
Qed.
Print Assumptions C194_accessible.

(** In all cases the displacement is the error reduced by the largest factor that makes it accessible, up to two roundings on each coordinate. It is thus accessible up to
    2^-51; a coordinate that is accessible without the factor is never beyond. *)
Theorem C194_scaled_partial length width ex ey : sound_length length -> sound_length width -> sound_error ex -> sound_error ey ->
  exists r, largest_factor length width ex ey r /\
  let (dx, dy) := fst (d_displacement length width ex ey) in
  scaled r ex dx /\ scaled r ey dy /\ Rabs dx <= length * (1 + / 2 ^ 51) /\ Rabs dy <= width * (1 + / 2 ^ 51) /\ (Rabs ex <= length -> Rabs dx <= Rabs ex) /\ (Rabs ey <= width -> Rabs dy <= Rabs ey).
Proof.
  intros SL SW SX SY. pose proof SL as (_ & L). pose proof SW as (_ & W). assert (P0 : 0 < / 2 ^ 100) by (apply Rinv_0_lt_compat, pow_lt; lra).
  pose proof (displacement_spec length width ex ey ltac:(lra) ltac:(lra)) as E. cbv zeta in E. rewrite E. cbn [fst].
  pose proof (largest_min length width ex ey ltac:(lra) ltac:(lra)) as M. set (r := Rmin _ _) in *. exists r. split; [exact M|].
  assert (Hr : / 2 ^ 200 <= r) by (apply Rmin_glb; now apply factor_big).
  pose proof (scaled_mul r ex (proj1 SX) ltac:(destruct SX as (_ & [?|?]); [now left|right; lra]) Hr) as S1. pose proof (scaled_mul r ey (proj1 SY) ltac:(destruct SY as (_ & [?|?]); [now left|right; lra]) Hr) as S2.
  split; [exact S1|]. split; [exact S2|]. destruct M as (((R0 & R1) & F1 & F2) & _). destruct S1 as (_ & _ & U1). destruct S2 as (_ & _ & U2).
  pose proof (Rabs_pos (r * ex)). pose proof (Rabs_pos (r * ey)).
  split; [nra|]. split; [nra|].
  assert (G : forall e, is_double e -> Rabs (d_mul e (double r)) <= Rabs e).
  { intros e D. assert (Q0 : 0 <= double r) by (apply double_pos; lra). assert (Q1 : double r <= 1) by (rewrite <- double_1; now apply double_le). unfold d_mul.
    destruct (Rle_dec 0 e) as [Ge|Ge].
    - rewrite !Rabs_right; [rewrite <- (double_id e D) at 2; apply double_le; nra|lra|apply Rle_ge, double_pos; nra].
    - assert (N : double (e * double r) <= 0) by (rewrite <- double_0; apply double_le; nra). rewrite (Rabs_left1 _ N), (Rabs_left e) by lra.
      assert (e <= double (e * double r)) by (rewrite <- (double_id e D) at 1; apply double_le; nra). lra. }
  split; intros _; apply G; [apply SX|apply SY].
Qed.
Print Assumptions C194_scaled_partial.

(** With an accessible length of 0.1 and an error of 2.75, the displacement is over 0.1. *)
Lemma ex_sound : double (1 / 10) = 7205759403792794 / 2 ^ 56 /\ sound_length (7205759403792794 / 2 ^ 56) /\ sound_error (11 / 4) /\ sound_error 0.
Proof.
  assert (E : double (1 / 10) = 7205759403792794 / 2 ^ 56) by (at_double 56%nat 7205759403792794%Z; reflexivity). split; [exact E|]. split; [|split].
  - split; [rewrite <- E; apply double_is|]. split; lra.
  - split; [exists 11%Z, (-2)%Z; split; [|split; lia]; change (-2)%Z with (- Z.of_nat 2)%Z; rewrite <- bpow_power, bpow_inv; lra|]. right. rewrite Rabs_right by lra. split; lra.
  - split; [apply is_double_0|now left].
Qed.
Theorem C194_refuted : ~ (forall length width ex ey, sound_length length -> sound_length width -> sound_error ex -> sound_error ey ->
  let (dx, dy) := fst (d_displacement length width ex ey) in Rabs dx <= length /\ Rabs dy <= width).
Proof.
  intros H. destruct ex_sound as (_ & L & X & Y). specialize (H _ _ _ _ L L X Y). pose proof (displacement_spec (7205759403792794 / 2 ^ 56) (7205759403792794 / 2 ^ 56) (11 / 4) 0 ltac:(lra) ltac:(lra)) as E.
  cbv zeta in E. rewrite E in H. cbn [fst] in H. clear E. unfold factor in H. rewrite Rabs_R0, (Rabs_right (11 / 4)) in H by lra.
  destruct (Rle_dec (11 / 4) _) as [A|A]; [lra|]. destruct (Rle_dec 0 _) as [B|B]; [|lra]. rewrite Rmin_left in H by lra.
  assert (D : double (7205759403792794 / 2 ^ 56 / (11 / 4)) = 5240552293667487 / 2 ^ 57) by (at_double 57%nat 5240552293667487%Z; reflexivity). rewrite D in H.
  assert (M : d_mul (11 / 4) (5240552293667487 / 2 ^ 57) = 7205759403792795 / 2 ^ 56) by (unfold d_mul; at_double 56%nat 7205759403792795%Z; reflexivity). rewrite M in H.
  destruct H as (H & _). rewrite Rabs_right in H by lra. lra.
Qed.
Print Assumptions C194_refuted.

(** The hypotheses of C194_accessible and C194_scaled_partial are met by these lengths, with an error that is accessible and one that is not. *)
Example C194_example : let l := 7205759403792794 / 2 ^ 56 in sound_length l /\ sound_error (11 / 4) /\ sound_error 0 /\ ~ Rabs (11 / 4) <= l /\ Rabs 0 <= l.
Proof. cbv zeta. destruct ex_sound as (_ & L & X & Y). split; [exact L|]. split; [exact X|]. split; [exact Y|]. rewrite Rabs_R0, Rabs_right by lra. split; lra. Qed.
