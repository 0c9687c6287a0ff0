From Coq Require Import Reals Lra Lia List ZArith Bool Arith.
From Coquelicot Require Import Coquelicot.
From Verif Require Import Base Linalg Expression_model Expression_spec Expression_proofs Polynom_model Polynom_spec.
Import ListNotations.
Open Scope R_scope.

(** Falling factorial m (m-1) ... (m-d+1). *)
Fixpoint falling (m d : nat) : nat :=
  match d with O => 1 | S d' => m * falling (m - 1) d' end.

Lemma falling_last m d : (d < m)%nat -> falling m (S d) = (falling m d * (m - d))%nat.
Proof.
  revert m. induction d as [|d IH]; intros m H; [simpl; lia|].
  replace (falling m (S (S d))) with (m * falling (m - 1) (S d))%nat by reflexivity.
  rewrite IH by lia. replace (falling m (S d)) with (m * falling (m - 1) d)%nat by reflexivity.
  replace (m - S d)%nat with (m - 1 - d)%nat by lia. lia.
Qed.

Lemma coefficient_loop_spec d : forall m c, (d <= m)%nat ->
  coefficient_loop d (Z.of_nat m) c = (c * Z.of_nat (falling m d))%Z.
Proof.
  induction d as [|d IH]; intros m c H; cbn [coefficient_loop falling]; [lia|].
  replace (Z.of_nat m - 1)%Z with (Z.of_nat (m - 1)) by lia. rewrite IH by lia. lia.
Qed.

Lemma derivative_coefficient_spec m d :
  derivative_coefficient (Z.of_nat m) (Z.of_nat d) = if Nat.ltb m d then 0%Z else Z.of_nat (falling m d).
Proof.
  unfold derivative_coefficient. rewrite Z.gtb_ltb. destruct (Nat.ltb_spec m d) as [L|L].
  - replace (Z.of_nat m <? Z.of_nat d)%Z with true by (symmetry; apply Z.ltb_lt; lia). reflexivity.
  - replace (Z.of_nat m <? Z.of_nat d)%Z with false by (symmetry; apply Z.ltb_ge; lia).
    rewrite Nat2Z.id, coefficient_loop_spec by lia. lia.
Qed.

(** The value computed. *)
Definition dvalue (c : vec) (d : nat) (x : R) : R :=
  Rsum (vlen c - d) (fun k => INR (falling (d + k) d) * vat c (vlen c - 1 - (d + k))%nat * x ^ k).

Lemma polynom_loop_spec c d x : forall n o p xp, (n + o <= vlen c)%nat -> (d <= o)%nat ->
  polynom_loop n (Z.of_nat o) (Z.of_nat d) c x p xp =
  Ok (p + Rsum n (fun k => INR (falling (o + k) d) * vat c (vlen c - 1 - (o + k))%nat * (xp * x ^ k))).
Proof.
  induction n as [|n IH]; intros o p xp Hn Ho; cbn [polynom_loop]; [simpl; f_equal; ring|].
  replace (Z.of_nat (vlen c) - Z.of_nat o - 1)%Z with (Z.of_nat (vlen c - 1 - o)) by lia.
  replace (0 <=? Z.of_nat (vlen c - 1 - o))%Z with true by (symmetry; apply Z.leb_le; lia).
  replace (Z.of_nat (vlen c - 1 - o) <? Z.of_nat (vlen c))%Z with true by (symmetry; apply Z.ltb_lt; lia).
  cbn [guard andb]. replace (Z.of_nat o + 1)%Z with (Z.of_nat (S o)) by lia. rewrite IH by lia. f_equal.
  rewrite derivative_coefficient_spec. replace (Nat.ltb o d) with false by (symmetry; apply Nat.ltb_ge; lia).
  rewrite Nat2Z.id, <- INR_IZR_INZ. change (S n) with (1 + n)%nat. rewrite Rsum_split. cbn [Rsum].
  rewrite Nat.add_0_r. cbn [pow]. rewrite Rplus_0_l, Rmult_1_r, Rplus_assoc. f_equal. f_equal.
  apply Rsum_ext. intros k Hk. replace (S o + k)%nat with (o + (1 + k))%nat by lia. cbn [Nat.add pow]. ring.
Qed.

Lemma polynom_value_spec c x d : polynom_value c x (Z.of_nat d) = Ok (dvalue c d x).
Proof.
  unfold polynom_value. replace (Z.to_nat (Z.of_nat (vlen c) - Z.of_nat d)) with (vlen c - d)%nat by lia.
  destruct (le_lt_dec d (vlen c)) as [H|H].
  - rewrite polynom_loop_spec by lia. f_equal. rewrite Rplus_0_l. apply Rsum_ext. intros k Hk. ring.
  - replace (vlen c - d)%nat with 0%nat by lia. cbn. unfold dvalue. now replace (vlen c - d)%nat with 0%nat by lia.
Qed.

Lemma dvalue_0 c x : dvalue c 0 x = polynomial c x.
Proof.
  unfold dvalue, polynomial. rewrite Nat.sub_0_r. apply Rsum_ext. intros k _. cbn [falling Nat.add]. simpl (INR 1). ring.
Qed.

Lemma dlim_Rsum n (f g : nat -> R -> R) x :
  (forall k, (k < n)%nat -> derivable_pt_lim (f k) x (g k x)) ->
  derivable_pt_lim (fun y => Rsum n (fun k => f k y)) x (Rsum n (fun k => g k x)).
Proof.
  induction n as [|n IH]; intros H; cbn [Rsum]; [apply derivable_pt_lim_const|].
  apply (derivable_pt_lim_plus (fun y => Rsum n (fun k => f k y)) (f n)); [apply IH; intros; apply H; lia|apply H; lia].
Qed.

Lemma dvalue_derive c d x : derivable_pt_lim (dvalue c d) x (dvalue c (S d) x).
Proof.
  unfold dvalue at 1.
  replace (dvalue c (S d) x) with
    (Rsum (vlen c - d) (fun k => INR (falling (d + k) d) * vat c (vlen c - 1 - (d + k))%nat * (INR k * x ^ pred k))).
  - apply (dlim_Rsum (vlen c - d) (fun k y => INR (falling (d + k) d) * vat c (vlen c - 1 - (d + k))%nat * y ^ k)
      (fun k y => INR (falling (d + k) d) * vat c (vlen c - 1 - (d + k))%nat * (INR k * y ^ pred k))).
    intros k Hk. apply (derivable_pt_lim_scal (fun y => y ^ k)). apply derivable_pt_lim_pow.
  - unfold dvalue. destruct (le_lt_dec (vlen c) d) as [H|H].
    { replace (vlen c - d)%nat with 0%nat by lia. now replace (vlen c - S d)%nat with 0%nat by lia. }
    replace (vlen c - d)%nat with (1 + (vlen c - S d))%nat by lia. rewrite Rsum_split. cbn [Rsum].
    rewrite Nat.add_0_r. simpl (INR 0). rewrite Rmult_0_l, Rmult_0_r, Rplus_0_l, Rplus_0_l.
    apply Rsum_ext. intros k Hk. replace (d + (1 + k))%nat with (S d + k)%nat by lia. cbn [Nat.add pred].
    replace (falling (S (d + k)) (S d)) with (falling (S (d + k)) d * S k)%nat.
    + rewrite mult_INR. ring.
    + rewrite falling_last by lia. f_equal. lia.
Qed.

Lemma dvalue_is_derive_n c d x : is_derive_n (polynomial c) d x (dvalue c d x).
Proof.
  assert (E : forall d x, Derive_n (polynomial c) d x = dvalue c d x).
  { induction d0 as [|k IH]; intros y; cbn [Derive_n]; [symmetry; apply dvalue_0|].
    rewrite (Derive_ext _ (dvalue c k)) by exact IH. apply is_derive_unique, is_derive_Reals, dvalue_derive. }
  destruct d as [|d]; [symmetry; apply dvalue_0|].
  cbn [is_derive_n]. apply (is_derive_ext (dvalue c d)); [intros; symmetry; apply E|].
  apply is_derive_Reals, dvalue_derive.
Qed.

(** A negative derivative reads past the end. *)
Lemma polynom_value_negative c x d : (d < 0)%Z -> polynom_value c x d = UB.
Proof.
  intros H. unfold polynom_value. destruct (Z.to_nat (Z.of_nat (vlen c) - d)) as [|n] eqn:E; [lia|].
  cbn [polynom_loop]. replace (Z.of_nat (vlen c) - d - 1 <? Z.of_nat (vlen c))%Z with false by (symmetry; apply Z.ltb_ge; lia).
  now rewrite andb_false_r.
Qed.

(** ProblemPolynom. *)
Lemma row_loop_spec size d x : forall n o xp row, (n + o <= size)%nat -> (d <= o)%nat ->
  exists r, row_loop n (Z.of_nat o) (Z.of_nat d) size x xp row = Ok r /\
    (forall k, (k < n)%nat -> r (size - 1 - (o + k))%nat = INR (falling (o + k) d) * (xp * x ^ k)) /\
    (forall j, ((j < size)%nat -> (o + n <= size - 1 - j)%nat \/ (size - 1 - j < o)%nat) -> r j = row j).
Proof.
  induction n as [|n IH]; intros o xp row Hn Ho; cbn [row_loop].
  - exists row. split; [reflexivity|]. split; [intros; lia|auto].
  - replace (Z.of_nat size - Z.of_nat o - 1)%Z with (Z.of_nat (size - 1 - o)) by lia.
    replace (0 <=? Z.of_nat (size - 1 - o))%Z with true by (symmetry; apply Z.leb_le; lia).
    replace (Z.of_nat (size - 1 - o) <? Z.of_nat size)%Z with true by (symmetry; apply Z.ltb_lt; lia).
    cbn [guard andb]. replace (Z.of_nat o + 1)%Z with (Z.of_nat (S o)) by lia.
    rewrite derivative_coefficient_spec. replace (Nat.ltb o d) with false by (symmetry; apply Nat.ltb_ge; lia).
    rewrite <- INR_IZR_INZ.
    destruct (IH (S o) (xp * x) (fun j => if (Z.of_nat j =? Z.of_nat (size - 1 - o))%Z then INR (falling o d) * xp else row j)
      ltac:(lia) ltac:(lia)) as (r & E & H1 & H2).
    exists r. split; [exact E|]. split.
    + intros [|k] Hk.
      * rewrite Nat.add_0_r. rewrite H2 by (intros; lia). rewrite Z.eqb_refl. simpl. ring.
      * specialize (H1 k ltac:(lia)). replace (o + S k)%nat with (S o + k)%nat by lia. rewrite H1. simpl. ring.
    + intros j Hj. rewrite H2 by lia. destruct (Z.eqb_spec (Z.of_nat j) (Z.of_nat (size - 1 - o))); [lia|reflexivity].
Qed.

Lemma Rsum_reverse n f : Rsum n f = Rsum n (fun k => f (n - 1 - k)%nat).
Proof.
  induction n as [|n IH]; [reflexivity|]. change (Rsum (S n) f) with (Rsum n f + f n). rewrite IH.
  replace (Rsum (S n) (fun k => f (S n - 1 - k)%nat)) with (Rsum (1 + n) (fun k => f (S n - 1 - k)%nat)) by reflexivity.
  rewrite Rsum_split. cbn [Rsum]. replace (S n - 1 - 0)%nat with n by lia. rewrite Rplus_0_l, Rplus_comm. f_equal.
  apply Rsum_ext. intros k Hk. f_equal. lia.
Qed.

Lemma problem_polynom_denotes v x d : (k_start v <= k_end v)%nat ->
  exists e, problem_polynom_expr v x (Z.of_nat d) = Ok e /\
    denotes e 1 (k_end v) (fun y _ => dvalue (Vec (var_size v) (fun i => y (k_start v + i)%nat)) d x).
Proof.
  intros Hv. unfold problem_polynom_expr.
  replace (Z.to_nat (Z.of_nat (var_size v) - Z.of_nat d)) with (var_size v - d)%nat by lia.
  assert (R : exists r, row_loop (var_size v - d) (Z.of_nat d) (Z.of_nat d) (var_size v) x 1 (fun _ => 0) = Ok r /\
    (forall k, (k < var_size v - d)%nat -> r (var_size v - 1 - (d + k))%nat = INR (falling (d + k) d) * x ^ k) /\
    (forall k, (k < var_size v)%nat -> (k < d)%nat -> r (var_size v - 1 - k)%nat = 0)).
  { destruct (le_lt_dec d (var_size v)) as [H|H].
    - destruct (row_loop_spec (var_size v) d x (var_size v - d) d 1 (fun _ => 0) ltac:(lia) ltac:(lia)) as (r & E & H1 & H2).
      exists r. split; [exact E|]. split.
      + intros k Hk. rewrite H1 by exact Hk. ring.
      + intros k Hk Hk'. rewrite H2; [reflexivity|lia].
    - replace (var_size v - d)%nat with 0%nat by lia. exists (fun _ => 0). split; [reflexivity|].
      split; [intros; lia|reflexivity]. }
  destruct R as (r & -> & R1 & R2). cbn [obind]. rewrite var_expr_default_start.
  destruct (var_expr_denotes v 0 (var_size v) Hv ltac:(lia)) as (e & E & D).
  rewrite (var_expr_default_rows v 0 Hv ltac:(lia) : var_expr v 0 (-1) = var_expr v (Z.of_nat 0) (Z.of_nat (var_size v - 0))).
  rewrite Nat.sub_0_r, E. cbn [obind]. unfold left_multiply.
  destruct (m_mul_e_denotes (Mat 1 (var_size v) (fun _ j => r j)) e _ _ _ D eq_refl) as (q & Eq & Dq).
  exists q. split; [exact Eq|]. eapply denotes_ext; [|exact Dq]. intros y i _. cbn [mcols mat_at].
  rewrite Rsum_reverse. unfold dvalue. cbn [vlen vat].
  destruct (le_lt_dec d (var_size v)) as [H|H].
  - replace (var_size v) with (d + (var_size v - d))%nat at 1 by lia. rewrite Rsum_split, Rsum_zero_ext.
    + rewrite Rplus_0_l. apply Rsum_ext. intros k Hk. rewrite R1 by lia.
      replace (k_start v + 0 + (var_size v - 1 - (d + k)))%nat with (k_start v + (var_size v - 1 - (d + k)))%nat by lia. ring.
    + intros k Hk. rewrite R2 by lia. ring.
  - replace (var_size v - d)%nat with 0%nat by lia. cbn [Rsum]. apply Rsum_zero_ext.
    intros k Hk. rewrite R2 by lia. ring.
Qed.

Lemma problem_polynom_negative v x d : (d < 0)%Z -> problem_polynom_expr v x d = UB.
Proof.
  intros H. unfold problem_polynom_expr. destruct (Z.to_nat (Z.of_nat (var_size v) - d)) as [|n] eqn:E; [lia|].
  cbn [row_loop]. replace (Z.of_nat (var_size v) - d - 1 <? Z.of_nat (var_size v))%Z with false by (symmetry; apply Z.ltb_ge; lia).
  now rewrite andb_false_r.
Qed.

(** Polygons. *)
Lemma edge_value_denotes e m f A B margin : denotes e 2 m f ->
  exists r, edge_value e A B margin = Ok r /\
    denotes r 1 m (fun x _ => let n := normalize2 (snd B - snd A, fst A - fst B) in
      fst n * (f x 0%nat - fst A) + snd n * (f x 1%nat - snd A) - margin).
Proof.
  intros D. unfold edge_value. set (n := normalize2 _).
  destruct (e_sub_v_denotes e 2 m f (Vec 2 (fun i => match i with O => fst A | _ => snd A end)) D eq_refl) as (d & E & Dd).
  rewrite E. cbn [obind].
  destruct (m_mul_e_denotes (Mat 1 2 (fun _ j => match j with O => fst n | _ => snd n end)) d 2 m _ Dd eq_refl) as (p & Ep & Dp).
  rewrite Ep. cbn [obind]. cbn [mrows] in Dp.
  destruct (e_sub_v_denotes p 1 m _ (Vec 1 (fun _ => margin)) Dp eq_refl) as (q & Eq & Dq).
  exists q. split; [exact Eq|]. eapply denotes_ext; [|exact Dq]. intros x i Hi. cbn. ring.
Qed.

Lemma edges_loop_spec e m f polygon margin : denotes e 2 m f -> (0 < length polygon)%nat ->
  forall n i, (i + n = length polygon)%nat ->
  exists l, edges_loop n i e polygon margin = Ok l /\ length l = n /\
    forall k, (k < n)%nat -> exists A B r, edge polygon (i + k) A B /\ nth_error l k = Some r /\
      denotes r 1 m (fun x _ => let n := normalize2 (snd B - snd A, fst A - fst B) in
        fst n * (f x 0%nat - fst A) + snd n * (f x 1%nat - snd A) - margin).
Proof.
  intros D Hp. induction n as [|n IH]; intros i Hi; cbn [edges_loop].
  - exists []. split; [reflexivity|]. split; [reflexivity|intros; lia].
  - destruct (nth_error polygon i) as [A|] eqn:EA; [|apply nth_error_None in EA; lia].
    assert (Em : ((i + 1) mod length polygon)%nat = (if Nat.eqb (S i) (length polygon) then 0 else S i)%nat).
    { destruct (Nat.eqb_spec (S i) (length polygon)) as [Heq|Hne].
      - replace (i + 1)%nat with (length polygon) by lia. apply Nat.mod_same. lia.
      - rewrite Nat.mod_small by lia. lia. }
    rewrite Em. destruct (nth_error polygon (if Nat.eqb (S i) (length polygon) then 0 else S i)) as [B|] eqn:EB;
      [|apply nth_error_None in EB; destruct (Nat.eqb_spec (S i) (length polygon)); lia].
    destruct (edge_value_denotes e m f A B margin D) as (r & Er & Dr). rewrite Er. cbn [obind].
    destruct (IH (S i) ltac:(lia)) as (l & El & Ll & Hl). rewrite El. cbn [obind].
    exists (r :: l). split; [reflexivity|]. split; [simpl; lia|]. intros [|k] Hk.
    + exists A, B, r. rewrite Nat.add_0_r. split; [split; [exact EA|exact EB]|]. split; [reflexivity|exact Dr].
    + destruct (Hl k ltac:(lia)) as (A' & B' & r' & He & Hr & Dr'). exists A', B', r'.
      replace (i + S k)%nat with (S i + k)%nat by lia. auto.
Qed.

Lemma normalize2_inner A B px py margin : A <> B ->
  let n := normalize2 (snd B - snd A, fst A - fst B) in
  0 <= fst n * (px - fst A) + snd n * (py - snd A) - margin <-> keeps_margin margin A B (px, py).
Proof.
  intros Hne n. unfold keeps_margin, right_area, distance. cbn [fst snd].
  assert (Hz : 0 < (snd B - snd A) * (snd B - snd A) + (fst A - fst B) * (fst A - fst B)).
  { destruct A as [ax ay], B as [bx b_y]. cbn [fst snd].
    assert (bx <> ax \/ b_y <> ay) as [H|H].
    { destruct (Req_dec bx ax); [right|left; assumption]. intros ->. apply Hne. congruence. }
    - assert (Hn : ax - bx <> 0) by lra. pose proof (Rsqr_pos_lt _ Hn). pose proof (Rle_0_sqr (b_y - ay)). unfold Rsqr in *. lra.
    - assert (Hn : b_y - ay <> 0) by lra. pose proof (Rsqr_pos_lt _ Hn). pose proof (Rle_0_sqr (ax - bx)). unfold Rsqr in *. lra. }
  unfold n, normalize2. cbn [fst snd]. destruct (Rlt_dec 0 _) as [_|]; [cbn [fst snd]|contradiction].
  replace ((fst A - fst B)² + (snd A - snd B)²) with ((snd B - snd A) * (snd B - snd A) + (fst A - fst B) * (fst A - fst B))
    by (unfold Rsqr; ring).
  set (s := sqrt _). assert (Hs : 0 < s) by (apply sqrt_lt_R0; exact Hz).
  replace ((snd B - snd A) / s * (px - fst A) + (fst A - fst B) / s * (py - snd A) - margin) with
    (((snd B - snd A) * (px - fst A) - (fst B - fst A) * (py - snd A) - margin * s) * / s) by (field; lra).
  pose proof (Rinv_0_lt_compat s Hs) as Hi. split; intros H.
  - apply Rmult_le_compat_r with (r := s) in H; [|lra]. rewrite Rmult_assoc, Rinv_l in H by lra. lra.
  - apply Rmult_le_pos; lra.
Qed.

Lemma normalize2_zero A px py margin : 
  let n := normalize2 (snd A - snd A, fst A - fst A) in
  0 <= fst n * (px - fst A) + snd n * (py - snd A) - margin <-> margin <= 0.
Proof.
  intros n. unfold n, normalize2. cbn [fst snd]. destruct (Rlt_dec 0 _) as [H|_]; [exfalso; lra|]. cbn [fst snd].
  replace ((snd A - snd A) * (px - fst A) + (fst A - fst A) * (py - snd A) - margin) with (- margin) by ring. lra.
Qed.
