(** Proofs about trajectories: values, continuity, derivatives. *)
From Coq Require Import Reals Lra Lia List ZArith Bool.
From Coquelicot Require Import Coquelicot.
From Verif Require Import Base Linalg Mexp Expression_model Expression_spec Expression_proofs
  Problem_model Integrator_model Integrator_spec Integrator_proofs.
Import ListNotations.
Open Scope R_scope.

Lemma Int_part_eq x k : IZR k <= x < IZR k + 1 -> Int_part x = k.
Proof.
  intros [H1 H2]. destruct (base_Int_part x) as [A B].
  assert (IZR (Int_part x) < IZR (k + 1)) by (rewrite plus_IZR; simpl; lra).
  assert (IZR k < IZR (Int_part x + 1)) by (rewrite plus_IZR; simpl; lra).
  apply lt_IZR in H. apply lt_IZR in H0. lia.
Qed.

Lemma Int_part_le x k : IZR k <= x -> (k <= Int_part x)%Z.
Proof.
  intros H. destruct (base_Int_part x) as [A B].
  assert (IZR k < IZR (Int_part x + 1)) by (rewrite plus_IZR; simpl; lra). apply lt_IZR in H0. lia.
Qed.

Lemma Int_part_lt x k : x < IZR k -> (Int_part x < k)%Z.
Proof. intros H. destruct (base_Int_part x) as [A B]. apply lt_IZR. lra. Qed.

Lemma dlim_scal_r f a x l : derivable_pt_lim f x l -> derivable_pt_lim (fun y => f y * a) x (l * a).
Proof.
  intros H eps He. destruct (derivable_pt_lim_scal f a x l H eps He) as [d Hd]. exists d. intros h Hh Hb.
  specialize (Hd h Hh Hb). unfold mult_real_fct in Hd.
  now rewrite (Rmult_comm (f (x + h))), (Rmult_comm (f x)), (Rmult_comm l).
Qed.

Lemma dlim_ext_loc f g x l eps : 0 < eps -> (forall y, Rabs (y - x) < eps -> f y = g y) ->
  derivable_pt_lim f x l -> derivable_pt_lim g x l.
Proof.
  intros Hp Hfg H e He. destruct (H e He) as [d Hd].
  exists (mkposreal (Rmin d eps) (Rmin_pos _ _ (cond_pos d) Hp)). intros h Hh Hb. simpl in Hb.
  rewrite <- (Hfg (x + h)), <- (Hfg x).
  - apply Hd; [exact Hh|]. eapply Rlt_le_trans; [exact Hb|apply Rmin_l].
  - replace (x - x) with 0 by ring. now rewrite Rabs_R0.
  - replace (x + h - x) with h by ring. eapply Rlt_le_trans; [exact Hb|apply Rmin_r].
Qed.

Section Traj.
Variables (mexp : mat -> mat) (M : mat) (dt t0 : R) (n : nat) (u x0 : nat -> R) (tr : trajectory).
Hypothesis Hexp : exp_correct mexp.
Hypothesis HM : mrows M = mcols M.
Hypothesis Htr : trajectory_of mexp M dt t0 n u x0 tr.
Hypothesis Hdt : 0 < dt.
Hypothesis Hn : (0 < n)%nat.

Let order := tr_order tr.
Definition sim_t (k : nat) : nat -> R := simulate order (discrete_A mexp M dt) (discrete_B mexp M dt) u x0 k.

Lemma order_lt : mrows M = S order.
Proof. destruct Htr as (_ & _ & _ & H & _). symmetry. exact H. Qed.

Lemma flow_discrete X v tau i :
  flow mexp M order X v tau i =
  Rsum order (fun j => discrete_A mexp M tau i j * X j) + discrete_B mexp M tau i * v.
Proof. unfold flow, discrete_A, discrete_B. rewrite order_lt. cbn. now rewrite Nat.sub_0_r. Qed.

Lemma flow_0 X v i : (i < order)%nat -> flow mexp M order X v 0 i = X i.
Proof.
  intros Hi. pose proof order_lt as HO. unfold flow. rewrite exp_at, mexp_at_0 by (auto; lia).
  destruct (Nat.eqb_spec i order); [lia|]. rewrite (Rsum_delta order i).
  - rewrite exp_at, mexp_at_0, Nat.eqb_refl by (auto; lia). ring.
  - exact Hi.
  - intros j Hj Hne. rewrite exp_at, mexp_at_0 by (auto; lia). destruct (Nat.eqb_spec i j); [congruence|ring].
Qed.

Lemma flow_dt k i : flow mexp M order (sim_t k) (u k) dt i = sim_t (S k) i.
Proof. rewrite flow_discrete. reflexivity. Qed.

(** The index and remaining time computed by value. *)
Lemma traj_value_at t k d : (k < n)%nat -> (d <= order)%nat ->
  (let k0 := Int_part ((t - t0) / dt) in
   let k1 := if (k0 <? 0)%Z then 0%Z else k0 in
   if (k1 >=? Z.of_nat n)%Z then (Z.of_nat n - 1)%Z else k1) = Z.of_nat k ->
  traj_value mexp tr t (Z.of_nat d) =
  Ok (if Nat.eqb d order then u k
      else flow mexp M order (sim_t k) (u k) (Rmax 0 (Rmin dt (t - t0 - INR k * dt))) d).
Proof.
  intros Hk Hd E. destruct Htr as (E1 & E2 & E3 & E4 & E5 & E6 & E7 & E8). cbv zeta in E.
  unfold traj_value. fold order. rewrite check_diff_ok by lia. cbn [obind]. rewrite E2, E3, E5.
  destruct (Req_EM_T dt 0) as [|_]; [lra|]. cbn [guard]. cbv zeta. rewrite E.
  replace (0 <=? Z.of_nat k)%Z with true by (symmetry; apply Z.leb_le; lia). cbn [guard]. rewrite Nat2Z.id.
  destruct (Nat.eqb_spec d order) as [->|Hne].
  - rewrite Z.eqb_refl. rewrite E6 by exact Hk. reflexivity.
  - destruct (Z.eqb_spec (Z.of_nat d) (Z.of_nat order)); [lia|].
    rewrite E1, AB_matrices_ok; [|exact HM|exact order_lt]. cbn [obind fst snd].
    destruct (E8 k ltac:(lia)) as (X & HX & LX & VX). rewrite HX. unfold transition. cbn [mcols mrows].
    fold order in LX. rewrite LX, Nat.eqb_refl. cbn [guard obind]. rewrite Nat2Z.id. f_equal.
    cbn [vat mat_at]. rewrite flow_discrete, <- INR_IZR_INZ, E6 by exact Hk. f_equal.
    apply Rsum_ext. intros j Hj. rewrite VX by exact Hj. reflexivity.
Qed.

Lemma index_inside t k : (k < n)%nat -> INR k * dt <= t - t0 < INR (S k) * dt ->
  (let k0 := Int_part ((t - t0) / dt) in
   let k1 := if (k0 <? 0)%Z then 0%Z else k0 in
   if (k1 >=? Z.of_nat n)%Z then (Z.of_nat n - 1)%Z else k1) = Z.of_nat k.
Proof.
  intros Hk [H1 H2]. cbv zeta. rewrite S_INR in H2.
  assert (Int_part ((t - t0) / dt) = Z.of_nat k) as ->.
  { apply Int_part_eq. rewrite <- INR_IZR_INZ. split.
    - apply (Rmult_le_reg_r dt); [exact Hdt|]. unfold Rdiv. rewrite Rmult_assoc, Rinv_l by lra. lra.
    - apply (Rmult_lt_reg_r dt); [exact Hdt|]. unfold Rdiv. rewrite Rmult_assoc, Rinv_l by lra. lra. }
  replace (Z.of_nat k <? 0)%Z with false by (symmetry; apply Z.ltb_ge; lia).
  rewrite Z.geb_leb. replace (Z.of_nat n <=? Z.of_nat k)%Z with false by (symmetry; apply Z.leb_gt; lia). reflexivity.
Qed.

Lemma index_before t : t < t0 ->
  (let k0 := Int_part ((t - t0) / dt) in
   let k1 := if (k0 <? 0)%Z then 0%Z else k0 in
   if (k1 >=? Z.of_nat n)%Z then (Z.of_nat n - 1)%Z else k1) = Z.of_nat 0.
Proof.
  intros H. cbv zeta.
  assert (Int_part ((t - t0) / dt) < 0)%Z.
  { apply Int_part_lt. apply (Rmult_lt_reg_r dt); [exact Hdt|]. unfold Rdiv. rewrite Rmult_assoc, Rinv_l by lra. lra. }
  replace (Int_part ((t - t0) / dt) <? 0)%Z with true by (symmetry; apply Z.ltb_lt; lia).
  rewrite Z.geb_leb. replace (Z.of_nat n <=? 0)%Z with false by (symmetry; apply Z.leb_gt; lia). reflexivity.
Qed.

Lemma index_after t : INR n * dt <= t - t0 ->
  (let k0 := Int_part ((t - t0) / dt) in
   let k1 := if (k0 <? 0)%Z then 0%Z else k0 in
   if (k1 >=? Z.of_nat n)%Z then (Z.of_nat n - 1)%Z else k1) = Z.of_nat (n - 1).
Proof.
  intros H. cbv zeta.
  assert (Z.of_nat n <= Int_part ((t - t0) / dt))%Z.
  { apply Int_part_le. rewrite <- INR_IZR_INZ. apply (Rmult_le_reg_r dt); [exact Hdt|].
    unfold Rdiv. rewrite Rmult_assoc, Rinv_l by lra. lra. }
  replace (Int_part ((t - t0) / dt) <? 0)%Z with false by (symmetry; apply Z.ltb_ge; lia).
  rewrite Z.geb_leb. replace (Z.of_nat n <=? Int_part ((t - t0) / dt))%Z with true by (symmetry; apply Z.leb_le; lia). lia.
Qed.

(** Every time is before, inside one step, or after. *)
Lemma time_cases t : t < t0 \/ (exists k, (k < n)%nat /\ INR k * dt <= t - t0 < INR (S k) * dt) \/ INR n * dt <= t - t0.
Proof.
  destruct (Rlt_le_dec t t0) as [|Ha]; [now left|]. right.
  destruct (Rle_lt_dec (INR n * dt) (t - t0)) as [|Hb]; [now right|]. left. clear Htr.
  induction n as [|m IH]; [simpl in Hb; lra|].
  destruct (Rle_lt_dec (INR m * dt) (t - t0)) as [Hc|Hc].
  - exists m. split; [lia|]. split; assumption.
  - destruct m as [|m]; [simpl in Hc; lra|].
    destruct (IH ltac:(lia) Hc) as (k & Hk & E). exists k. split; [lia|exact E].
Qed.

Lemma value_inside t k d : (k < n)%nat -> INR k * dt <= t - t0 < INR (S k) * dt -> (d < order)%nat ->
  traj_value mexp tr t (Z.of_nat d) = Ok (flow mexp M order (sim_t k) (u k) (t - t0 - INR k * dt) d).
Proof.
  intros Hk H Hd. rewrite (traj_value_at t k d Hk ltac:(lia) (index_inside t k Hk H)).
  destruct (Nat.eqb_spec d order); [lia|]. rewrite S_INR in H. rewrite Rmin_right, Rmax_right by lra. reflexivity.
Qed.

Lemma value_before t d : t < t0 -> (d < order)%nat -> traj_value mexp tr t (Z.of_nat d) = Ok (x0 d).
Proof.
  intros H Hd. rewrite (traj_value_at t 0 d Hn ltac:(lia) (index_before t H)).
  destruct (Nat.eqb_spec d order); [lia|]. simpl INR. rewrite Rmult_0_l, Rminus_0_r.
  rewrite Rmin_right, Rmax_left by lra. now rewrite flow_0.
Qed.

Lemma value_after t d : INR n * dt <= t - t0 -> (d < order)%nat -> traj_value mexp tr t (Z.of_nat d) = Ok (sim_t n d).
Proof.
  intros H Hd. rewrite (traj_value_at t (n - 1) d ltac:(lia) ltac:(lia) (index_after t H)).
  destruct (Nat.eqb_spec d order); [lia|]. rewrite minus_INR by lia. simpl INR.
  rewrite Rmin_left, Rmax_right by lra.
  rewrite flow_dt. now replace (S (n - 1)) with n by lia.
Qed.

Lemma value_input t d : d = order ->
  (t < t0 -> traj_value mexp tr t (Z.of_nat d) = Ok (u 0%nat)) /\
  (forall k, (k < n)%nat -> INR k * dt <= t - t0 < INR (S k) * dt -> traj_value mexp tr t (Z.of_nat d) = Ok (u k)) /\
  (INR n * dt <= t - t0 -> traj_value mexp tr t (Z.of_nat d) = Ok (u (n - 1)%nat)).
Proof.
  intros ->. split; [|split].
  - intros H. rewrite (traj_value_at t 0 order Hn ltac:(lia) (index_before t H)). now rewrite Nat.eqb_refl.
  - intros k Hk H. rewrite (traj_value_at t k order Hk ltac:(lia) (index_inside t k Hk H)). now rewrite Nat.eqb_refl.
  - intros H. rewrite (traj_value_at t (n - 1) order ltac:(lia) ltac:(lia) (index_after t H)). now rewrite Nat.eqb_refl.
Qed.

Lemma value_key k d : (k <= n)%nat -> (d < order)%nat ->
  traj_value mexp tr (t0 + INR k * dt) (Z.of_nat d) = Ok (sim_t k d).
Proof.
  intros Hk Hd. destruct (Nat.eq_dec k n) as [->|].
  - apply value_after; [|exact Hd]. lra.
  - rewrite (value_inside _ k d) by (try lia; rewrite S_INR; lra).
    replace (t0 + INR k * dt - t0 - INR k * dt) with 0 by ring. now rewrite flow_0.
Qed.

Lemma value_throws t d : (d < 0)%Z \/ (d > Z.of_nat order)%Z -> traj_value mexp tr t d = Throw ERuntime.
Proof. intros H. unfold traj_value. rewrite check_diff_throw; [reflexivity|exact H]. Qed.

(** Derivative of the flow. *)
Lemma flow_derive X v tau i : (i < order)%nat ->
  (forall j, (j <= order)%nat -> mat_at M order j = 0) ->
  derivable_pt_lim (fun tau => flow mexp M order X v tau i) tau
    (Rsum order (fun j => mat_at M i j * flow mexp M order X v tau j) + mat_at M i order * v).
Proof.
  intros Hi Hlast. pose proof order_lt as HO.
  set (E := mexp_at (S order) (mat_at M)).
  assert (HE : forall tau i j, (i <= order)%nat -> (j <= order)%nat -> mat_at (mexp (times M tau)) i j = E tau i j).
  { intros. unfold E. rewrite <- HO. apply exp_at; auto; lia. }
  assert (Elast : forall tau j, (j <= order)%nat -> E tau order j = if Nat.eqb order j then 1 else 0).
  { intros tau' j Hj. unfold E, mexp_at. rewrite (is_pseries_single _ 0).
    - unfold ecoef. simpl. lra.
    - intros [|k] Hk; [congruence|]. unfold ecoef. cbn [mpow]. rewrite Rsum_zero_ext; [unfold Rdiv; ring|].
      intros l Hl. rewrite Hlast by lia. ring. }
  assert (Hf : forall tau j, (j <= order)%nat -> flow mexp M order X v tau j = Rsum order (fun l => E tau j l * X l) + E tau j order * v).
  { intros tau' j Hj. unfold flow. rewrite HE by lia. f_equal. apply Rsum_ext. intros l Hl. rewrite HE by lia. reflexivity. }
  assert (HE' : forall l, (l <= order)%nat -> derivable_pt_lim (fun tau => E tau i l) tau
    (Rsum (S order) (fun j => mat_at M i j * E tau j l))).
  { intros l Hl. apply is_derive_Reals. apply mexp_at_derive; lia. }
  assert (HS : forall m, (m <= order)%nat -> derivable_pt_lim (fun tau => Rsum m (fun l => E tau i l * X l)) tau
    (Rsum m (fun l => Rsum (S order) (fun j => mat_at M i j * E tau j l) * X l))).
  { induction m as [|m IH]; intros Hm; cbn [Rsum].
    - apply (derivable_pt_lim_const 0).
    - apply (derivable_pt_lim_plus (fun tau => Rsum m (fun l => E tau i l * X l)) (fun tau => E tau i m * X m)).
      + apply IH. lia.
      + apply (dlim_scal_r (fun tau => E tau i m)). apply HE'. lia. }
  assert (HD : derivable_pt_lim (fun tau => Rsum order (fun l => E tau i l * X l) + E tau i order * v) tau
    (Rsum order (fun l => Rsum (S order) (fun j => mat_at M i j * E tau j l) * X l) +
     Rsum (S order) (fun j => mat_at M i j * E tau j order) * v)).
  { apply (derivable_pt_lim_plus (fun tau => Rsum order (fun l => E tau i l * X l)) (fun tau => E tau i order * v)).
    - apply HS. lia.
    - apply (dlim_scal_r (fun tau => E tau i order)). apply HE'. lia. }
  apply (dlim_ext_loc (fun tau => Rsum order (fun l => E tau i l * X l) + E tau i order * v) _ _ _ 1 ltac:(lra)).
  { intros s _. symmetry. apply Hf. lia. }
  match type of HD with derivable_pt_lim _ _ ?a =>
    match goal with |- derivable_pt_lim _ _ ?b => replace b with a; [exact HD|] end end.
  rewrite (Rsum_ext order (fun j => mat_at M i j * flow mexp M order X v tau j)
    (fun j => Rsum order (fun l => mat_at M i j * E tau j l * X l) + mat_at M i j * E tau j order * v)).
  - rewrite Rsum_plus. rewrite Rsum_scal_r. rewrite Rsum_swap.
    rewrite (Rsum_ext order (fun l => Rsum (S order) (fun j => mat_at M i j * E tau j l) * X l)
      (fun l => Rsum order (fun j => mat_at M i j * E tau j l * X l))).
    + cbn [Rsum]. rewrite (Elast tau order) by lia. rewrite Nat.eqb_refl. ring.
    + intros l Hl. cbn [Rsum]. rewrite (Elast tau l) by lia. destruct (Nat.eqb_spec order l); [lia|].
      rewrite Rsum_scal_r. ring.
  - intros j Hj. rewrite Hf by lia. rewrite Rmult_plus_distr_l, <- Rsum_scal_l. f_equal; [|ring].
    apply Rsum_ext. intros l _. ring.
Qed.

(** Continuity of the flow, for any system matrix. *)
Lemma flow_continuous X v tau i : (i < order)%nat -> continuous (fun tau => flow mexp M order X v tau i) tau.
Proof.
  intros Hi. pose proof order_lt as HO.
  set (E := mexp_at (S order) (mat_at M)).
  assert (HE : forall tau i j, (i <= order)%nat -> (j <= order)%nat -> mat_at (mexp (times M tau)) i j = E tau i j).
  { intros. unfold E. rewrite <- HO. apply exp_at; auto; lia. }
  assert (HC : forall j, (j <= order)%nat -> continuous (fun tau => E tau i j) tau).
  { intros j Hj. apply (@ex_derive_continuous R_AbsRing R_NormedModule (fun tau => E tau i j)). eexists. apply mexp_at_derive; lia. }
  apply continuous_ext with (f := fun tau => Rsum order (fun l => E tau i l * X l) + E tau i order * v).
  { intros s. unfold flow. rewrite HE by lia. f_equal. apply Rsum_ext. intros l Hl. rewrite HE by lia. reflexivity. }
  apply (continuous_plus (fun tau => Rsum order (fun l => E tau i l * X l)) (fun tau => E tau i order * v)).
  - assert (G : forall m, (m <= order)%nat -> continuous (fun tau => Rsum m (fun l => E tau i l * X l)) tau); [|now apply G].
    induction m as [|m IH]; intros Hm; simpl.
    + apply continuous_const.
    + apply (continuous_plus (fun tau => Rsum m (fun l => E tau i l * X l)) (fun tau => E tau i m * X m)).
      * apply IH. lia.
      * apply (continuous_mult (fun tau => E tau i m) (fun _ => X m)); [apply HC; lia|apply continuous_const].
  - apply (continuous_mult (fun tau => E tau i order) (fun _ => v)); [apply HC; lia|apply continuous_const].
Qed.

(** A total function computing value, as a sum over the steps. *)
Definition clamp (s : R) : R := Rmax 0 (Rmin dt s).
Definition glued (d : nat) (t : R) : R :=
  x0 d + Rsum n (fun k => flow mexp M order (sim_t k) (u k) (clamp (t - t0 - INR k * dt)) d - sim_t k d).

Lemma clamp_low s : s <= 0 -> clamp s = 0.
Proof. intros H. unfold clamp. rewrite Rmin_right, Rmax_left by lra. reflexivity. Qed.
Lemma clamp_high s : dt <= s -> clamp s = dt.
Proof. intros H. unfold clamp. rewrite Rmin_left, Rmax_right by lra. reflexivity. Qed.
Lemma clamp_mid s : 0 <= s <= dt -> clamp s = s.
Proof. intros H. unfold clamp. rewrite Rmin_right, Rmax_right by lra. reflexivity. Qed.

Lemma telescope d m : Rsum m (fun k => sim_t (S k) d - sim_t k d) = sim_t m d - x0 d.
Proof.
  induction m as [|m IH]; [simpl; unfold sim_t; simpl; ring|]. cbn [Rsum]. rewrite IH. ring.
Qed.

Lemma glued_value d t : (d < order)%nat -> traj_value mexp tr t (Z.of_nat d) = Ok (glued d t).
Proof.
  intros Hd. unfold glued. destruct (time_cases t) as [H|[(k & Hk & H)|H]].
  - rewrite value_before by assumption. f_equal. rewrite Rsum_zero_ext; [ring|].
    intros k Hk. rewrite clamp_low; [rewrite flow_0 by exact Hd; ring|].
    pose proof (pos_INR k). nra.
  - rewrite (value_inside t k d Hk H Hd). f_equal. replace n with (k + (1 + (n - k - 1)))%nat by lia.
    rewrite Rsum_split, Rsum_split. cbn [Rsum]. rewrite Nat.add_0_r, clamp_mid by (rewrite S_INR in H; lra).
    rewrite (Rsum_ext k _ (fun k => sim_t (S k) d - sim_t k d)).
    + rewrite telescope. rewrite (Rsum_zero_ext (n - k - 1)); [ring|].
      intros j Hj. rewrite clamp_low; [rewrite flow_0 by exact Hd; ring|].
      rewrite !plus_INR. simpl (INR 1). rewrite S_INR in H. pose proof (pos_INR j). nra.
    + intros j Hj. rewrite clamp_high; [rewrite flow_dt; ring|].
      assert (INR (S j) <= INR k) by (apply le_INR; lia). rewrite S_INR in H0. nra.
  - rewrite value_after by assumption. f_equal.
    rewrite (Rsum_ext n _ (fun k => sim_t (S k) d - sim_t k d)).
    + rewrite telescope. ring.
    + intros j Hj. rewrite clamp_high; [rewrite flow_dt; ring|].
      assert (INR (S j) <= INR n) by (apply le_INR; lia). rewrite S_INR in H0. nra.
Qed.

Lemma continuous_abs_R f (x : R) : continuous f x -> continuous (fun y => Rabs (f y)) x.
Proof. intros H. apply (continuous_comp f Rabs); [exact H|]. apply continuous_Rabs. Qed.

Lemma clamp_continuous (f : R -> R) (x : R) : continuous f x -> continuous (fun y => clamp (f y)) x.
Proof.
  intros H.
  assert (HM1 : forall (g : R -> R) c, continuous g x -> continuous (fun y => Rmax c (g y)) x).
  { intros g c Hg. apply continuous_ext with (f := fun y => / 2 * ((c + g y) + Rabs (c - g y))).
    - intros y. unfold Rmax. destruct (Rle_dec c (g y)).
      + rewrite Rabs_left1 by lra. lra.
      + rewrite Rabs_right by lra. lra.
    - apply (continuous_mult (fun _ => / 2)); [apply continuous_const|].
      apply (continuous_plus (fun y => c + g y) (fun y => Rabs (c - g y))).
      + apply (continuous_plus (fun _ => c) g); [apply continuous_const|exact Hg].
      + apply continuous_abs_R. apply (continuous_minus (fun _ => c) g); [apply continuous_const|exact Hg]. }
  apply HM1. apply continuous_ext with (f := fun y => - Rmax (- dt) (- f y)).
  - intros y. rewrite Rmax_opp_Rmin, Ropp_involutive. reflexivity.
  - apply (continuous_opp (fun y => Rmax (- dt) (- f y))). apply HM1. apply (continuous_opp f). exact H.
Qed.

Lemma glued_continuous d t : (d < order)%nat -> continuity_pt (glued d) t.
Proof.
  intros Hd. apply continuity_pt_filterlim. unfold glued.
  apply (continuous_plus (fun _ => x0 d)
    (fun t => Rsum n (fun k => flow mexp M order (sim_t k) (u k) (clamp (t - t0 - INR k * dt)) d - sim_t k d)));
    [apply continuous_const|].
  generalize n. intros m. induction m as [|m IH]; cbn [Rsum]; [apply continuous_const|].
  apply (continuous_plus (fun t => Rsum m (fun k => flow mexp M order (sim_t k) (u k) (clamp (t - t0 - INR k * dt)) d - sim_t k d))
    (fun t => flow mexp M order (sim_t m) (u m) (clamp (t - t0 - INR m * dt)) d - sim_t m d)); [exact IH|].
  apply (continuous_minus (fun t => flow mexp M order (sim_t m) (u m) (clamp (t - t0 - INR m * dt)) d) (fun _ => sim_t m d));
    [|apply continuous_const].
  apply (continuous_comp (fun t => clamp (t - t0 - INR m * dt)) (fun tau => flow mexp M order (sim_t m) (u m) tau d)).
  - apply clamp_continuous. apply (continuous_minus (fun t => t - t0) (fun _ => INR m * dt)); [|apply continuous_const].
    apply (continuous_minus (fun t => t) (fun _ => t0)); [apply continuous_id|apply continuous_const].
  - now apply flow_continuous.
Qed.

Lemma glued_inside d t k : (d < order)%nat -> (k < n)%nat -> INR k * dt <= t - t0 < INR (S k) * dt ->
  glued d t = flow mexp M order (sim_t k) (u k) (t - t0 - INR k * dt) d.
Proof.
  intros Hd Hk H. pose proof (glued_value d t Hd) as E. rewrite (value_inside t k d Hk H Hd) in E.
  injection E as E. symmetry. exact E.
Qed.

Lemma glued_derive d t k : (d < order)%nat -> (k < n)%nat -> INR k * dt < t - t0 < INR (S k) * dt ->
  (forall j, (j <= order)%nat -> mat_at M order j = 0) ->
  derivable_pt_lim (glued d) t (Rsum order (fun j => mat_at M d j * glued j t) + mat_at M d order * u k).
Proof.
  intros Hd Hk H Hlast.
  rewrite (Rsum_ext order _ (fun j => mat_at M d j * flow mexp M order (sim_t k) (u k) (t - t0 - INR k * dt) j))
    by (intros j Hj; rewrite (glued_inside j t k) by (auto; lra); reflexivity).
  apply (dlim_ext_loc (fun t => flow mexp M order (sim_t k) (u k) (t - t0 - INR k * dt) d) _ _ _
    (Rmin (t - t0 - INR k * dt) (INR (S k) * dt - (t - t0)))); [apply Rmin_pos; lra| |].
  - intros y Hy. symmetry. apply glued_inside; [exact Hd|exact Hk|]. apply Rabs_def2 in Hy. destruct Hy as [Y1 Y2].
    pose proof (Rmin_l (t - t0 - INR k * dt) (INR (S k) * dt - (t - t0))).
    pose proof (Rmin_r (t - t0 - INR k * dt) (INR (S k) * dt - (t - t0))). lra.
  - match goal with |- derivable_pt_lim _ _ ?l => replace l with (l * (1 - 0 - 0)) by ring end.
    apply (derivable_pt_lim_comp (fun t => t - t0 - INR k * dt) (fun tau => flow mexp M order (sim_t k) (u k) tau d)).
    + apply (derivable_pt_lim_minus (fun t => t - t0) (fun _ => INR k * dt)); [|apply derivable_pt_lim_const].
      apply (derivable_pt_lim_minus (fun t => t) (fun _ => t0)); [apply derivable_pt_lim_id|apply derivable_pt_lim_const].
    + apply flow_derive; assumption.
Qed.
End Traj.
