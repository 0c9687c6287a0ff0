(** Proofs about the limits of a joint with doubles. *)
From Coq Require Import Reals ZArith List Bool Lia Lra.
From Flocq Require Import Core.
From Verif Require Import Base Doubles_model Doubles_spec Doubles_proofs DoublesSwing_proofs DoublesLimits_model DoublesLimits_spec.
Import ListNotations.
Open Scope R_scope.

Lemma double_nearest x y : is_double y -> Rabs (double x - x) <= Rabs (y - x).
Proof. intros H. apply is_double_format in H. refine (proj2 (round_N_pt radix2 fexp64 (fun n => negb (Z.even n)) x) y H). apply FLT_exp_valid. reflexivity. Qed.
Lemma double_opp x : double (- x) = - double x.
Proof. apply round_NE_opp. Qed.
Lemma sub_error x y : is_double x -> is_double y -> Rabs (d_sub x y - (x - y)) <= unit_error * Rabs (x - y).
Proof.
  intros Dx Dy. unfold d_sub. pose proof (is_double_opp _ Dy) as Dy'. destruct (Rle_dec 0 (x - y)) as [P|P].
  - rewrite (Rabs_right (x - y)) by lra. exact (sum_error x (- y) Dx Dy' P).
  - rewrite (Rabs_left (x - y)) by lra. replace (x - y) with (- (y - x)) at 1 2 by ring. rewrite double_opp. replace (- double (y - x) - - (y - x)) with (- (double (y - x) - (y - x))) by ring.
    rewrite Rabs_Ropp. replace (- (x - y)) with (y + - x) by ring. exact (sum_error y (- x) Dy (is_double_opp _ Dx) ltac:(lra)).
Qed.

(** ** The rows *)
Lemma one_opp : d_mul 1 (-1) = -1 /\ d_mul (-1) (-1) = 1 /\ d_mul 0 (-1) = 0 /\ d_add 1 0 = 1 /\ d_add 0 (-1) = -1.
Proof.
  unfold d_mul, d_add. pose proof is_double_1 as D. pose proof (is_double_opp _ D) as D'. repeat split.
  - replace (1 * -1) with (- (1)) by ring. now rewrite double_id.
  - replace (-1 * -1) with 1 by ring. now rewrite double_id.
  - rewrite Rmult_0_l. apply double_0.
  - rewrite Rplus_0_r. now apply double_id.
  - replace (0 + -1) with (- (1)) by ring. now rewrite double_id.
Qed.
Lemma mul_opp x : is_double x -> d_mul x (-1) = - x.
Proof. intros H. unfold d_mul. replace (x * -1) with (- x) by ring. apply double_id, is_double_opp, H. Qed.

Lemma upper_row j q : is_double q -> is_double (dj_upper j) -> d_row_le (d_row_add (1, 0) (0, q)) (0, dj_upper j) = (-1, d_sub (dj_upper j) q).
Proof.
  intros Q U. destruct one_opp as (A & B & C & E & G). unfold d_row_le, d_row_opp, d_row_sub, d_row_add, d_row_mul. cbn [fst snd]. rewrite C, E, E, A. f_equal. rewrite (mul_opp _ U).
  assert (d_add 0 q = q) as -> by (unfold d_add; rewrite Rplus_0_l; now apply double_id). rewrite mul_opp by apply double_is.
  unfold d_add, d_sub. rewrite <- double_opp. f_equal. ring.
Qed.
Lemma lower_row j q : is_double q -> is_double (dj_lower j) -> d_row_le (0, dj_lower j) (d_row_add (1, 0) (0, q)) = (1, d_sub q (dj_lower j)).
Proof.
  intros Q U. destruct one_opp as (A & B & C & E & G). unfold d_row_le, d_row_opp, d_row_sub, d_row_add, d_row_mul. cbn [fst snd]. rewrite E, A, G, B. f_equal.
  assert (d_add 0 q = q) as -> by (unfold d_add; rewrite Rplus_0_l; now apply double_id). rewrite (mul_opp _ Q), mul_opp by apply double_is.
  unfold d_add, d_sub. rewrite <- double_opp. f_equal. ring.
Qed.
Lemma fast_row v : is_double v -> d_row_le (1, 0) (0, v) = (-1, v) /\ d_row_le (0, - v) (1, 0) = (1, v).
Proof.
  intros V. destruct one_opp as (A & B & C & E & G). pose proof (is_double_opp _ V) as V'. unfold d_row_le, d_row_opp, d_row_sub, d_row_add, d_row_mul. cbn [fst snd].
  rewrite C, E, A, G, B, (mul_opp _ V). unfold d_add. rewrite Rplus_0_l, Rplus_0_r, !double_id by assumption. rewrite !mul_opp by assumption. split; f_equal; ring.
Qed.

Lemma limits_rows jl vl dt j q rows : is_double q -> is_double (dj_upper j) -> is_double (dj_lower j) -> d_limits jl vl dt j q = Ok rows ->
  (vl = true -> dt <> 0) /\
  rows = (if jl then [(-1, d_sub (dj_upper j) q); (1, d_sub q (dj_lower j))] else []) ++ (if vl then [(-1, d_mul dt (dj_velocity j)); (1, d_mul dt (dj_velocity j))] else []).
Proof.
  intros Q U L. unfold d_limits. assert (X : vl && (if Req_EM_T dt 0 then true else false) = false -> vl = true -> dt <> 0) by (destruct vl, (Req_EM_T dt 0); cbn; congruence).
  destruct (vl && _); [discriminate|]. intros [= <-]. split; [auto|]. rewrite (upper_row j q Q U), (lower_row j q Q L).
  assert (d_mul (- dt) (dj_velocity j) = - d_mul dt (dj_velocity j)) as ->. { unfold d_mul. rewrite <- double_opp. f_equal. ring. }
  destruct (fast_row (d_mul dt (dj_velocity j)) (double_is _)) as (-> & ->). reflexivity.
Qed.

Lemma satisfies_iff jl vl dt j q rows tol delta : is_double q -> is_double (dj_upper j) -> is_double (dj_lower j) -> d_limits jl vl dt j q = Ok rows ->
  satisfies tol rows delta <-> (jl = true -> - d_sub q (dj_lower j) - tol <= delta <= d_sub (dj_upper j) q + tol) /\
    (vl = true -> - d_mul dt (dj_velocity j) - tol <= delta <= d_mul dt (dj_velocity j) + tol).
Proof.
  intros Q U L E. destruct (limits_rows _ _ _ _ _ _ Q U L E) as (_ & ->). unfold satisfies. rewrite Forall_app. split.
  - intros (A & B). split; intros ->.
    + pose proof (Forall_inv A) as A1. pose proof (Forall_inv (Forall_inv_tail A)) as A2. cbn [fst snd] in *. lra.
    + pose proof (Forall_inv B) as A1. pose proof (Forall_inv (Forall_inv_tail B)) as A2. cbn [fst snd] in *. lra.
  - intros (A & B). split; [destruct jl|destruct vl]; try apply Forall_nil; (apply Forall_cons; [|apply Forall_cons; [|apply Forall_nil]]); cbn [fst snd]; try specialize (A eq_refl); try specialize (B eq_refl); lra.
Qed.

(** ** One solve *)
Lemma above_limit q l delta tol : is_double q -> is_double l -> 0 <= tol -> delta <= d_sub l q + tol -> d_apply q delta <= l + 2 * (unit_error * Rabs (l - q) + tol).
Proof.
  intros Q L T H. pose proof (sub_error l q L Q) as E. apply Rabs_le_inv in E. assert (P : 0 <= unit_error * Rabs (l - q)) by (apply Rmult_le_pos; [pose proof unit_bounds; lra|apply Rabs_pos]).
  set (e := unit_error * Rabs (l - q)) in *. unfold d_apply, d_add. apply Rle_trans with (double (l + (e + tol))); [apply double_le; lra|].
  pose proof (double_nearest (l + (e + tol)) l L) as D. replace (l - (l + (e + tol))) with (- (e + tol)) in D by ring. rewrite Rabs_Ropp, (Rabs_right (e + tol)) in D by lra. apply Rabs_le_inv in D. lra.
Qed.
Lemma below_limit q l delta tol : is_double q -> is_double l -> 0 <= tol -> - d_sub q l - tol <= delta -> l - 2 * (unit_error * Rabs (l - q) + tol) <= d_apply q delta.
Proof.
  intros Q L T H. pose proof (above_limit (- q) (- l) (- delta) tol (is_double_opp _ Q) (is_double_opp _ L) T) as X.
  assert (S1 : d_sub (- l) (- q) = d_sub q l) by (unfold d_sub; f_equal; ring). rewrite S1 in X. specialize (X ltac:(lra)).
  assert (S2 : d_apply (- q) (- delta) = - d_apply q delta) by (unfold d_apply, d_add; rewrite <- double_opp; f_equal; ring). rewrite S2 in X.
  replace (- l - - q) with (- (l - q)) in X by ring. rewrite Rabs_Ropp in X. lra.
Qed.
Lemma at_limit q l delta : is_double q -> is_double l -> is_double (l - q) -> delta <= d_sub l q -> d_apply q delta <= l.
Proof.
  intros Q L D H. unfold d_sub in H. rewrite (double_id _ D) in H. unfold d_apply, d_add. rewrite <- (double_id l L) at 1. apply double_le. lra.
Qed.

(** ** A history of solves *)
Lemma moves_double jl vl dt j tol q0 q : is_double q0 -> moves jl vl dt j tol q0 q -> is_double q.
Proof. intros D [|q' rows delta _ _ _ _]; [exact D|]. apply double_is. Qed.

Lemma moves_between vl dt j tol q0 q : sound_joint j -> is_double q0 -> 0 <= tol -> between j 0 q0 -> moves true vl dt j tol q0 q ->
  between j ((dj_upper j - dj_lower j) / 2 ^ 51 + 3 * tol) q.
Proof.
  intros (L & U & O) D T B M. set (m := (dj_upper j - dj_lower j) / 2 ^ 51 + 3 * tol). assert (m0 : 0 <= m) by (unfold m; lra).
  induction M as [|q rows delta M IH E Dd S]; [unfold between in *; lra|]. pose proof (moves_double _ _ _ _ _ _ _ D M) as Q.
  apply (satisfies_iff _ _ _ _ _ _ _ _ Q U L E) in S as (S & _). specialize (S eq_refl). destruct IH as (I1 & I2).
  pose proof (above_limit q (dj_upper j) delta tol Q U T ltac:(lra)) as X. pose proof (below_limit q (dj_lower j) delta tol Q L T ltac:(lra)) as Y.
  assert (A1 : Rabs (dj_upper j - q) <= dj_upper j - dj_lower j + m) by (apply Rabs_le; lra). assert (A2 : Rabs (dj_lower j - q) <= dj_upper j - dj_lower j + m) by (apply Rabs_le; lra).
  unfold unit_error in *. unfold between, m in *. lra.
Qed.
