(** Theorems about the clipping of a step with doubles: C190. *)
From Coq Require Import Reals ZArith List Bool Lia Lra.
From Flocq Require Import Core.
From Verif Require Import Base Geom3 Footsteps_model Footsteps_spec Footsteps_proofs Doubles_model Doubles_spec Doubles_proofs DoublesReplan_proofs DoublesClip_model DoublesClip_spec DoublesClip_proofs.
Import ListNotations.
Open Scope R_scope.

(** No component of the clipped step is over its limit, not even by a rounding, and none changes its sign. *)
Theorem C190_limits c p s : moderate_limits p -> moderate_step s ->
  let r := d_clip c p s in
  Rabs (vx r) <= max_dx p (vx s) /\ Rabs (vy r) <= p_max_dy p /\ Rabs (vz r) <= p_max_dtheta p /\
  0 <= vx s * vx r /\ 0 <= vy s * vy r /\ 0 <= vz s * vz r.
Proof.
  intros L M r. destruct (clip_limits c p s L M) as (A & B & C). destruct (clip_signs c p s L M) as (D & E & F). auto 10.
Qed.
Print Assumptions C190_limits.

Lemma zero_div x : 0 / x = 0.
Proof. unfold Rdiv. ring. Qed.
Lemma same_limit p x y : 0 <= x * y -> y = 0 \/ x <> 0 -> Rabs y / max_dx p y = Rabs y / max_dx p x.
Proof.
  intros H [->|X]; [rewrite Rabs_R0; unfold Rdiv; ring|]. unfold max_dx. destruct (Rle_dec 0 x), (Rle_dec 0 y); try reflexivity.
  - exfalso. nra.
  - assert (y = 0) as -> by nra. rewrite Rabs_R0. unfold Rdiv. ring.
Qed.

(** The clipped step is the exact one up to 13 roundings of each component: with the step itself when it is allowed. It is in the allowed set up to a part
    in 2^50. *)
Theorem C190_partial c p s : moderate_limits p -> moderate_step s ->
  let r := d_clip c p s in
  (exists k, 0 < k <= 1 /\ (allowed c p s -> k = 1) /\ allowed c p (v3_scale k s) /\ (forall k', 0 <= k' <= 1 -> allowed c p (v3_scale k' s) -> k' <= k) /\
    nearly 13 (k * vx s) (vx r) /\ nearly 13 (k * vy s) (vy r) /\ nearly 13 (k * vz s) (vz r)) /\
  allowed c (enlarged (1 + / 2 ^ 50) p) r.
Proof.
  intros L M r. pose proof L as (P & _). destruct (clip_signs c p s L M) as (Sx & Sy & Sz). split.
  - destruct (clip_factor c p s P) as (k & K & E & A & A1 & A2). exists k. split; [exact K|]. split; [exact A1|]. split; [exact A|]. split; [exact A2|].
    destruct (clip_close c p s L M _ E) as (Cx & Cy & Cz). cbn [v3_scale vx vy vz] in Cx, Cy, Cz. fold r in Sx, Sy, Sz, Cx, Cy, Cz.
    repeat split; try (rewrite Rmult_assoc; apply Rmult_le_pos; [lra|assumption]); [apply Cx|apply Cx|apply Cy|apply Cy|apply Cz|apply Cz].
  - pose proof (clip_enlarged c p s L M) as H. fold r in H, Sx. set (K := 1 + / 2 ^ 50). assert (K0 : 0 < K) by (unfold K; assert (0 < / 2 ^ 50) by (apply Rinv_0_lt_compat, pow_lt; lra); lra).
    rewrite eight_units in H. fold K in H.
    assert (PE : positive_limits (enlarged K p)). { destruct P as (P1 & P2 & P3 & P4). repeat split; cbn; apply Rmult_lt_0_compat; assumption. }
    apply (proj2 (allowed_norm c (enlarged K p) r PE)). pose proof (max_dx_pos p (vx r) P) as F.
    assert (Q : forall x f, 0 < f -> x / (K * f) = / K * (x / f)) by (intros; field; lra). destruct P as (P1 & P2 & P3 & P4).
    replace (max_dx (enlarged K p) (vx r)) with (K * max_dx p (vx r)) by (unfold max_dx; cbn; now destruct Rle_dec). cbn [enlarged p_max_dy p_max_dtheta]. rewrite !Q by assumption.
    rewrite norm_scale by (apply Rlt_le, Rinv_0_lt_compat, K0). apply (Rmult_le_reg_l K); [exact K0|]. rewrite <- Rmult_assoc, Rinv_r, Rmult_1_l, Rmult_1_r by lra.
    rewrite (same_limit p (vx s) (vx r) Sx); [exact H|]. destruct (Req_dec (vx s) 0) as [Z|Z]; [left|now right].
    unfold r. rewrite d_clip_is by apply L. cbn [vx]. rewrite Z. unfold d_part, d_div, d_mul. rewrite zero_div, double_0, zero_div, double_0, Rmult_0_l. apply double_0.
Qed.
Print Assumptions C190_partial.

(** ** The default limits *)

Lemma double_at x k n : (k <= 1074)%nat -> 4503599627370496 <= x * 2 ^ k < 9007199254740992 -> Rabs (x * 2 ^ k - IZR n) < / 2 -> double x = IZR n / 2 ^ k.
Proof.
  intros K B N. assert (P : 0 < 2 ^ k) by (apply pow_lt; lra). pose proof (bpow_inv k) as I1. assert (I2 : bpow radix2 (Z.of_nat k) = 2 ^ k) by (rewrite bpow_power, <- pow_powerRZ; reflexivity).
  assert (C : forall a, a * 2 ^ k * / 2 ^ k = a) by (intros; field; lra). assert (i0 : 0 < / 2 ^ k) by now apply Rinv_0_lt_compat.
  rewrite (double_near x (53 - Z.of_nat k) n).
  - replace (53 - Z.of_nat k - 53)%Z with (- Z.of_nat k)%Z by lia. now rewrite I1.
  - replace (53 - Z.of_nat k - 1)%Z with (52 + - Z.of_nat k)%Z by lia. replace (53 - Z.of_nat k)%Z with (53 + - Z.of_nat k)%Z by lia. rewrite !bpow_plus, I1. change (bpow radix2 52) with 4503599627370496. change (bpow radix2 53) with 9007199254740992.
    rewrite <- (C x). split; [apply Rmult_le_compat_r|apply Rmult_lt_compat_r]; lra.
  - lia.
  - replace (53 - (53 - Z.of_nat k))%Z with (Z.of_nat k) by lia. now rewrite I2.
Qed.
Ltac at_double k n := rewrite (double_at _ k n); [|lia|lra|apply Rabs_def1; lra].
Lemma fx_val : double (8 / 100) = 5764607523034235 / 2 ^ 56. Proof. at_double 56%nat 5764607523034235%Z. reflexivity. Qed.
Lemma bx_val : double (3 / 100) = 8646911284551352 / 2 ^ 58. Proof. at_double 58%nat 8646911284551352%Z. reflexivity. Qed.
Lemma fy_val : double (4 / 100) = 5764607523034235 / 2 ^ 57. Proof. at_double 57%nat 5764607523034235%Z. reflexivity. Qed.
Lemma fz_val : double (35 / 100) = 6305039478318694 / 2 ^ 54. Proof. at_double 54%nat 6305039478318694%Z. reflexivity. Qed.
Lemma x_val : double (7 / 1000) = 8070450532247929 / 2 ^ 60. Proof. at_double 60%nat 8070450532247929%Z. reflexivity. Qed.
Lemma z_val : double (5 / 100) = 7205759403792794 / 2 ^ 57. Proof. at_double 57%nat 7205759403792794%Z. reflexivity. Qed.

Lemma moderate_double x : / 2 ^ 100 <= Rabs x <= 2 ^ 100 -> is_double x -> moderate x.
Proof. intros (A & B) D. split; [exact D|]. split; [now right|exact B]. Qed.
Lemma moderate_0 : moderate 0.
Proof. split; [apply is_double_0|]. rewrite Rabs_R0. split; [now left|apply pow_le; lra]. Qed.
Lemma simple x k n : (k <= 1074)%nat -> 4503599627370496 <= x * 2 ^ k < 9007199254740992 -> Rabs (x * 2 ^ k - IZR n) < / 2 -> / 1000 <= IZR n / 2 ^ k <= 1 -> moderate (double x).
Proof.
  intros A B C D. apply moderate_double; [|apply double_is]. rewrite (double_at _ _ _ A B C). rewrite Rabs_right by lra.
  assert (P : 1000 <= 2 ^ 100) by (apply Rle_trans with (2 ^ 10); [lra|apply Rle_pow; [lra|lia]]). assert (/ 2 ^ 100 <= / 1000) by (apply Rinv_le_contravar; lra). lra.
Qed.
Ltac simple k n := apply (simple _ k n); [lia|lra|apply Rabs_def1; lra|lra].
Lemma default_moderate p : default_limits p -> moderate_limits p.
Proof.
  intros (A & B & C & D). split; [unfold positive_limits; rewrite A, B, C, D, fx_val, bx_val, fy_val, fz_val; lra|]. rewrite A, B, C, D.
  split; [simple 56%nat 5764607523034235%Z|]. split; [simple 58%nat 8646911284551352%Z|]. split; [simple 57%nat 5764607523034235%Z|simple 54%nat 6305039478318694%Z].
Qed.

Lemma div_self x : 0 < x -> d_div x x = 1.
Proof. intros X. unfold d_div, Rdiv. rewrite Rinv_r by lra. apply double_id, is_double_1. Qed.
Lemma div_zero x : d_div 0 x = 0.
Proof. unfold d_div. rewrite zero_div. apply double_0. Qed.
Lemma add_zero x : is_double x -> d_add x 0 = x.
Proof. intros D. unfold d_add. rewrite Rplus_0_r. now apply double_id. Qed.

(** With the default limits a step of 7 mm forwards, well within the limit of 80 mm, is shortened by a rounding. *)
Theorem C190_kept_behaviour c p : default_limits p ->
  let s := V3 (double (7 / 1000)) 0 0 in
  allowed c p s /\ moderate_step s /\ vx (d_clip c p s) = vx s - / 2 ^ 60 /\ vx (d_clip c p s) < vx s.
Proof.
  intros D s. pose proof (default_moderate p D) as M. pose proof M as (P & _). destruct D as (Ax & _ & Ay & Az).
  assert (E : max_dx p (vx s) = 5764607523034235 / 2 ^ 56). { unfold max_dx, s. cbn [vx]. rewrite x_val. destruct Rle_dec; [now rewrite Ax, fx_val|exfalso; lra]. }
  assert (Y : Rabs (vx s) = 8070450532247929 / 2 ^ 60) by (unfold s; cbn [vx]; rewrite x_val; apply Rabs_right; lra).
  split; [|split; [split; [simple 60%nat 8070450532247929%Z|split; apply moderate_0]|]].
  - apply (proj2 (allowed_norm c p s P)). rewrite E, Y. cbn [s vy vz]. rewrite Rabs_R0, !zero_div. refine (Rle_trans _ _ _ (norm_sum c _ _ _ _ _ _) _); lra.
  - assert (Q : d_div (8070450532247929 / 2 ^ 60) (5764607523034235 / 2 ^ 56) = 6305039478318694 / 2 ^ 56) by (unfold d_div; at_double 56%nat 6305039478318694%Z; reflexivity).
    assert (F1 : d_factor c p s = 1).
    { unfold d_factor. apply Rmax_left. rewrite E, Y, Q. cbn [s vy vz]. rewrite Rabs_R0, !div_zero.
      assert (C0 : comp 0) by (split; [apply is_double_0|now left]). assert (CX : comp (6305039478318694 / 2 ^ 56)).
      { rewrite <- Q. split; [apply double_is|]. right. rewrite Q. apply Rle_trans with (/ 2 ^ 100); [apply Rinv_le_contravar; [apply pow_lt; lra|apply Rle_pow; [lra|lia]]|]. apply Rle_trans with (/ 2 ^ 10); [apply Rinv_le_contravar; [apply pow_lt; lra|apply Rle_pow; [lra|lia]]|lra]. }
      destruct (norm_close c _ 0 0 CX C0 C0) as ((_ & W) & _). refine (Rle_trans _ _ _ W _). fold unit_error.
      pose proof (norm_sum c (6305039478318694 / 2 ^ 56) 0 0 ltac:(lra) ltac:(lra) ltac:(lra)) as NS. assert ((1 + unit_error) ^ 4 <= 2) by (pose proof unit_bounds; cbn [pow]; nra).
      assert (NP : 0 <= norm_exact c (6305039478318694 / 2 ^ 56) 0 0) by (apply (norm_close c _ 0 0 CX C0 C0)). pose proof (pow_hi 4). nra. }
    rewrite d_clip_is by exact P. cbn [vx]. rewrite F1, E. unfold d_part. replace (vx s) with (8070450532247929 / 2 ^ 60) by (unfold s; cbn [vx]; now rewrite x_val). rewrite Q.
    assert (Q1 : d_div (6305039478318694 / 2 ^ 56) 1 = 6305039478318694 / 2 ^ 56). { unfold d_div, Rdiv. rewrite Rinv_1, Rmult_1_r. apply double_id. fold (6305039478318694 / 2 ^ 56). rewrite <- Q. apply double_is. }
    rewrite Q1. assert (R1 : d_mul (6305039478318694 / 2 ^ 56) (5764607523034235 / 2 ^ 56) = 8070450532247928 / 2 ^ 60) by (unfold d_mul; at_double 60%nat 8070450532247928%Z; reflexivity).
    rewrite R1. split; lra.
Qed.
Print Assumptions C190_kept_behaviour.

(** A step over the limits, 40 mm to the side while turning by 0.05 rad, is clipped with the box to a step that is outside the allowed set. *)
Theorem C190_outside_behaviour p : default_limits p ->
  let s := V3 0 (double (4 / 100)) (double (5 / 100)) in
  moderate_step s /\ d_clip Box p s = V3 0 (5044031582654956 / 2 ^ 57) (6305039478318695 / 2 ^ 57) /\ ~ allowed Box p (d_clip Box p s).
Proof.
  intros D s. pose proof (default_moderate p D) as M. pose proof M as (P & _). destruct D as (Ax & _ & Ay & Az).
  split; [split; [apply moderate_0|split; [simple 57%nat 5764607523034235%Z|simple 57%nat 7205759403792794%Z]]|].
  assert (E : max_dx p (vx s) = 5764607523034235 / 2 ^ 56) by (unfold max_dx, s; cbn [vx]; destruct Rle_dec; [now rewrite Ax, fx_val|lra]).
  assert (Vy : vy s = 5764607523034235 / 2 ^ 57) by apply fy_val. assert (Vz : vz s = 7205759403792794 / 2 ^ 57) by apply z_val.
  assert (Ly : p_max_dy p = 5764607523034235 / 2 ^ 57) by (now rewrite Ay, fy_val). assert (Lz : p_max_dtheta p = 6305039478318694 / 2 ^ 54) by (now rewrite Az, fz_val).
  assert (Q : d_div (7205759403792794 / 2 ^ 57) (6305039478318694 / 2 ^ 54) = 5146971002709139 / 2 ^ 55) by (unfold d_div; at_double 55%nat 5146971002709139%Z; reflexivity).
  assert (F : d_factor Box p s = 5146971002709138 / 2 ^ 52).
  { unfold d_factor. rewrite Vy, Vz, Ly, Lz. rewrite (Rabs_right (5764607523034235 / 2 ^ 57)), (Rabs_right (7205759403792794 / 2 ^ 57)), div_self, Q by lra. cbn [s vx]. rewrite Rabs_R0, div_zero. cbn [norm_double].
    replace (d_add 0 1) with 1 by (unfold d_add; rewrite Rplus_0_l; symmetry; apply double_id, is_double_1).
    assert (N : d_add 1 (5146971002709139 / 2 ^ 55) = 5146971002709138 / 2 ^ 52) by (unfold d_add; at_double 52%nat 5146971002709138%Z; reflexivity). rewrite N. apply Rmax_right. lra. }
  assert (RE : d_clip Box p s = V3 0 (5044031582654956 / 2 ^ 57) (6305039478318695 / 2 ^ 57)).
  { rewrite d_clip_is by exact P. rewrite F, Vy, Vz, Ly, Lz. unfold d_part. rewrite div_self by lra. rewrite Q. replace (vx s) with 0 by reflexivity. rewrite !div_zero.
    assert (By : d_div 1 (5146971002709138 / 2 ^ 52) = 7881299347898368 / 2 ^ 53) by (unfold d_div; at_double 53%nat 7881299347898368%Z; reflexivity).
    assert (Bz : d_div (5146971002709139 / 2 ^ 55) (5146971002709138 / 2 ^ 52) = 4503599627370497 / 2 ^ 55) by (unfold d_div; at_double 55%nat 4503599627370497%Z; reflexivity).
    rewrite By, Bz. apply V3_ext; cbn [vx vy vz].
    - unfold d_mul. rewrite Rmult_0_l. apply double_0.
    - unfold d_mul. at_double 57%nat 5044031582654956%Z. reflexivity.
    - unfold d_mul. at_double 57%nat 6305039478318695%Z. reflexivity. }
  split; [exact RE|]. rewrite RE. unfold allowed. cbn [vx vy vz]. rewrite Ly, Lz, zero_div, Rabs_R0. rewrite !Rabs_right by lra. lra.
Qed.
Print Assumptions C190_outside_behaviour.

(** What C45 says of exact numbers is false of doubles: an allowed step is not always kept, and a clipped step not always allowed. *)
Theorem C190_refuted :
  ~ (forall c p s, moderate_limits p -> moderate_step s -> allowed c p s -> d_clip c p s = s) /\
  ~ (forall c p s, moderate_limits p -> moderate_step s -> allowed c p (d_clip c p s)).
Proof.
  set (p := Params 1 10 (1 / 4) 1 (double (8 / 100)) (double (3 / 100)) (double (4 / 100)) (double (35 / 100)) (1 / 10) (1 / 5) (1 / 10) (1 / 5)).
  assert (D : default_limits p) by (repeat split). split; intros H.
  - destruct (C190_kept_behaviour Box p D) as (A & B & _ & C). rewrite (H Box p _ (default_moderate p D) B A) in C. lra.
  - destruct (C190_outside_behaviour p D) as (A & _ & B). apply B, H; [now apply default_moderate|exact A].
Qed.
Print Assumptions C190_refuted.

(** The hypotheses hold for a robot with the default limits, and the backward limit is the one used backwards: a step of 40 mm back becomes one of at most 30 mm. *)
Example C190_example p : default_limits p -> moderate_limits p /\ moderate_step (V3 (double (- (4 / 100))) 0 0) /\ Rabs (vx (d_clip Conic p (V3 (double (- (4 / 100))) 0 0))) <= double (3 / 100).
Proof.
  intros D. pose proof (default_moderate p D) as M. assert (S : moderate_step (V3 (double (- (4 / 100))) 0 0)).
  { split; [|split; apply moderate_0]. cbn [vx]. rewrite double_opp. assert (A : moderate (double (4 / 100))) by simple 57%nat 5764607523034235%Z. destruct A as (A & B & C). split; [now apply is_double_opp|]. rewrite Rabs_Ropp. split; [destruct B as [B|B]; [left; lra|now right]|exact C]. }
  split; [exact M|]. split; [exact S|]. destruct (C190_limits Conic p _ M S) as (A & _). refine (Rle_trans _ _ _ A _). cbn [vx]. unfold max_dx. rewrite double_opp, fy_val. destruct D as (_ & D & _).
  destruct Rle_dec; [exfalso; lra|lra].
Qed.
