(** Proofs about integrators: the constructor, expr and expr_t. *)
From Coq Require Import Reals Lra Lia List ZArith Bool.
From Coquelicot Require Import Coquelicot.
From Verif Require Import Base Linalg Mexp Expression_model Expression_spec Expression_proofs
  Problem_model Integrator_model Integrator_spec.
Import ListNotations.
Open Scope R_scope.

(** The exponential. *)
Lemma exp_at mexp M t i j : exp_correct mexp -> mrows M = mcols M -> (i < mrows M)%nat -> (j < mrows M)%nat ->
  mat_at (mexp (times M t)) i j = mexp_at (mrows M) (mat_at M) t i j.
Proof.
  intros H HM Hi Hj. specialize (H (times M t) HM i j Hi Hj). cbn [times mrows mat_at] in H.
  apply uniqueness_sum with (1 := H). apply is_series_Reals.
  pose proof (mexp_at_pseries (mrows M) (mat_at M) t i j Hi Hj) as P. apply is_pseries_R in P.
  eapply is_series_ext; [|exact P]. intros k. cbv beta. unfold ecoef. rewrite mpow_scal. unfold Rdiv.
  set (a := mpow _ _ _ _ _). set (b := / _). set (c := t ^ k). change (a * b * c = a * c * b). ring.
Qed.

(** Closed form of the simulation. *)
Definition forced (order : nat) (A : nat -> nat -> R) (B : nat -> R) (s i : nat) : R :=
  Rsum order (fun l => mpow order A s i l * B l).

Lemma mpow_id_l order A k i (x : nat -> R) : (i < order)%nat -> k = 0%nat ->
  Rsum order (fun l => mpow order A k i l * x l) = x i.
Proof.
  intros Hi ->. rewrite (Rsum_delta order i); simpl.
  - rewrite Nat.eqb_refl. ring.
  - exact Hi.
  - intros l _ Hl. destruct (Nat.eqb_spec i l); [congruence|ring].
Qed.

Lemma mpow_S_l order A k i (x : nat -> R) :
  Rsum order (fun j => A i j * Rsum order (fun l => mpow order A k j l * x l)) =
  Rsum order (fun l => mpow order A (S k) i l * x l).
Proof.
  rewrite (Rsum_ext order _ (fun j => Rsum order (fun l => A i j * mpow order A k j l * x l))).
  - rewrite Rsum_swap. apply Rsum_ext. intros l _. cbn [mpow]. rewrite Rsum_scal_r. reflexivity.
  - intros j _. rewrite <- Rsum_scal_l. apply Rsum_ext. intros l _. ring.
Qed.

Lemma forced_0 order A B i : (i < order)%nat -> forced order A B 0 i = B i.
Proof. intros Hi. unfold forced. now rewrite mpow_id_l. Qed.

Lemma simulate_closed order A B u x0 k i : (i < order)%nat ->
  simulate order A B u x0 k i =
  Rsum order (fun j => mpow order A k i j * x0 j) + Rsum k (fun s => forced order A B (k - 1 - s) i * u s).
Proof.
  revert i. induction k as [|k IH]; intros i Hi.
  - cbn [simulate Rsum]. rewrite mpow_id_l by auto. ring.
  - cbn [simulate]. rewrite (Rsum_ext order _ (fun j => A i j * Rsum order (fun l => mpow order A k j l * x0 l) +
      A i j * Rsum k (fun s => forced order A B (k - 1 - s) j * u s))).
    + rewrite Rsum_plus, mpow_S_l. rewrite Rplus_assoc. f_equal. cbn [Rsum].
      replace (S k - 1 - k)%nat with 0%nat by lia. rewrite (forced_0 order A B i Hi). f_equal.
      rewrite (Rsum_ext order _ (fun j => Rsum k (fun s => A i j * forced order A B (k - 1 - s) j * u s))).
      * rewrite Rsum_swap. apply Rsum_ext. intros s Hs. rewrite Rsum_scal_r. f_equal. unfold forced.
        rewrite mpow_S_l. now replace (S (k - 1 - s)) with (S k - 1 - s)%nat by lia.
      * intros j _. rewrite <- Rsum_scal_l. apply Rsum_ext. intros s _. ring.
    + intros j Hj. rewrite IH by exact Hj. ring.
Qed.

Lemma simulate_ext order A A' B B' u u' x x' k i :
  (forall i j, (i < order)%nat -> (j < order)%nat -> A i j = A' i j) ->
  (forall i, (i < order)%nat -> B i = B' i) ->
  (forall s, (s < k)%nat -> u s = u' s) -> (forall i, (i < order)%nat -> x i = x' i) -> (i < order)%nat ->
  simulate order A B u x k i = simulate order A' B' u' x' k i.
Proof.
  intros HA HB Hu Hx. revert i Hu. induction k as [|k IH]; intros i Hu Hi; simpl; [auto|].
  rewrite HB, (Hu k) by lia. f_equal. apply Rsum_ext. intros j Hj. rewrite HA by assumption. rewrite IH; auto.
Qed.

(** The constructor. *)
Lemma transition_loop_spec n : forall step N order A B Ak F pows F' pows',
  (n + step = N)%nat ->
  (forall i j, (i < order)%nat -> (j < order)%nat -> Ak i j = mpow order (mat_at A) step i j) ->
  length pows = S step ->
  (forall s, (s <= step)%nat -> exists P, nth_error pows s = Some P /\ mrows P = order /\ mcols P = order /\
     forall i j, (i < order)%nat -> (j < order)%nat -> mat_at P i j = mpow order (mat_at A) s i j) ->
  (forall s i, (s < step)%nat -> (i < order)%nat -> F i (N - s - 1)%nat = forced order (mat_at A) (vat B) s i) ->
  transition_loop n step N order A B Ak F pows = (F', pows') ->
  length pows' = S N /\
  (forall s, (s <= N)%nat -> exists P, nth_error pows' s = Some P /\ mrows P = order /\ mcols P = order /\
     forall i j, (i < order)%nat -> (j < order)%nat -> mat_at P i j = mpow order (mat_at A) s i j) /\
  (forall s i, (s < N)%nat -> (i < order)%nat -> F' i (N - s - 1)%nat = forced order (mat_at A) (vat B) s i).
Proof.
  induction n as [|n IH]; intros step N order A B Ak F pows F' pows' HN HA Hl Hp HF H; cbn [transition_loop] in H.
  - injection H as <- <-. assert (step = N) by lia. subst step. auto.
  - apply IH in H; [exact H| | | | |]; clear IH H.
    + lia.
    + intros i j Hi Hj. cbn [mpow]. apply Rsum_ext. intros l Hll. now rewrite HA.
    + rewrite app_length, Hl. simpl. lia.
    + intros s Hs. destruct (Nat.eq_dec s (S step)) as [->|].
      * eexists. split; [rewrite nth_error_app2 by lia; rewrite Hl, Nat.sub_diag; reflexivity|].
        split; [reflexivity|]. split; [reflexivity|]. intros i j Hi Hj. cbn [mat_at mpow]. apply Rsum_ext.
        intros l Hll. now rewrite HA.
      * destruct (Hp s ltac:(lia)) as (P & HP & R). exists P. split; [|exact R]. rewrite nth_error_app1; [exact HP|lia].
    + intros s i Hs Hi. destruct (Nat.eq_dec s step) as [->|].
      * rewrite Nat.eqb_refl. unfold forced. apply Rsum_ext. intros l Hll. now rewrite HA.
      * destruct (Nat.eqb_spec (N - s - 1) (N - step - 1)); [lia|]. apply HF; lia.
Qed.

(** What a constructed integrator contains. *)
Record built (mexp : mat -> mat) (v : variable) (X0 : expr) (M : mat) (dt : R) (ig : integrator) : Prop := Built {
  b_square : mrows M = mcols M;
  b_X0 : ig_X0 ig = X0;
  b_M : ig_M ig = M;
  b_order : S (ig_order ig) = mrows M;
  b_dt : ig_dt ig = dt;
  b_N : ig_N ig = var_size v;
  b_A : ig_A ig = Mat (ig_order ig) (ig_order ig) (discrete_A mexp M dt);
  b_B : ig_B ig = Vec (ig_order ig) (discrete_B mexp M dt);
  b_pow : forall s, (s <= ig_N ig)%nat -> exists P, nth_error (ig_pow ig) s = Some P /\
     mrows P = ig_order ig /\ mcols P = ig_order ig /\
     forall i j, (i < ig_order ig)%nat -> (j < ig_order ig)%nat ->
       mat_at P i j = mpow (ig_order ig) (discrete_A mexp M dt) s i j;
  b_final : forall s i, (s < ig_N ig)%nat -> (i < ig_order ig)%nat ->
     ig_final ig i (ig_N ig - s - 1)%nat = forced (ig_order ig) (discrete_A mexp M dt) (discrete_B mexp M dt) s i }.

Lemma AB_matrices_ok mexp M order dt : mrows M = mcols M -> mrows M = S order ->
  AB_matrices mexp M order dt = Ok (Mat order order (discrete_A mexp M dt), Vec order (discrete_B mexp M dt)).
Proof.
  intros H1 H2. unfold AB_matrices. rewrite <- H1, Nat.eqb_refl, H2.
  replace (Nat.ltb order (S order)) with true by (symmetry; apply Nat.ltb_lt; lia).
  unfold discrete_A, discrete_B, times. rewrite <- H1, H2. cbn. rewrite Nat.sub_0_r. reflexivity.
Qed.

Lemma new_integrator_built mexp v X0 M dt : mrows M = mcols M -> (0 < mrows M)%nat ->
  exists ig, new_integrator mexp v X0 M dt = Ok ig /\ built mexp v X0 M dt ig /\
    ig_start ig = 0 /\ ig_version ig = 0%nat.
Proof.
  intros Hs Hp. unfold new_integrator.
  rewrite AB_matrices_ok by lia. cbn [obind fst snd].
  destruct (transition_loop _ _ _ _ _ _ _ _ _) as [F pows] eqn:E. cbn [fst snd].
  eexists. split; [reflexivity|]. split; [|split; reflexivity].
  apply transition_loop_spec in E.
  - destruct E as (E1 & E2 & E3). constructor; cbn [ig_X0 ig_M ig_order ig_dt ig_N ig_A ig_B ig_pow ig_final];
      try reflexivity; try assumption. lia.
  - lia.
  - intros i j _ _. reflexivity.
  - reflexivity.
  - intros s Hs'. replace s with 0%nat by lia. eexists. split; [reflexivity|]. split; [reflexivity|]. split; [reflexivity|].
    intros i j _ _. reflexivity.
  - intros s i Hs'. lia.
Qed.

Lemma new_integrator_inv mexp v X0 M dt ig : new_integrator mexp v X0 M dt = Ok ig ->
  built mexp v X0 M dt ig /\ ig_start ig = 0 /\ ig_version ig = 0%nat.
Proof.
  intros H. assert (mrows M = mcols M /\ (0 < mrows M)%nat) as [H1 H2].
  { unfold new_integrator, AB_matrices, guard in H.
    destruct (Nat.eqb (mrows M) (mcols M) && Nat.ltb (mrows M - 1) (mrows M)) eqn:E; [|discriminate].
    apply andb_true_iff in E. destruct E as [E1 E2]. apply Nat.eqb_eq in E1. apply Nat.ltb_lt in E2. lia. }
  destruct (new_integrator_built mexp v X0 M dt H1 H2) as (ig' & E & R). rewrite E in H. injection H as <-. exact R.
Qed.

Lemma new_integrator_UB mexp v X0 M dt : ~ (mrows M = mcols M /\ (0 < mrows M)%nat) ->
  new_integrator mexp v X0 M dt = UB.
Proof.
  intros H. unfold new_integrator, AB_matrices, guard.
  destruct (Nat.eqb (mrows M) (mcols M) && Nat.ltb (mrows M - 1) (mrows M)) eqn:E; [|reflexivity].
  apply andb_true_iff in E. destruct E as [E1 E2]. apply Nat.eqb_eq in E1. apply Nat.ltb_lt in E2. lia.
Qed.

Lemma built_set_start mexp v X0 M dt ig t : built mexp v X0 M dt ig -> built mexp v X0 M dt (set_t_start ig t).
Proof. intros []. constructor; assumption. Qed.

(** A window of columns. *)
Lemma Rsum_window n a s (g x : nat -> R) : (a + s <= n)%nat ->
  Rsum n (fun j => (if Nat.leb a j && Nat.ltb j (a + s) then g (j - a)%nat else 0) * x j) =
  Rsum s (fun c => g c * x (a + c)%nat).
Proof.
  intros H. replace n with (a + (s + (n - a - s)))%nat by lia. rewrite Rsum_split, Rsum_split.
  rewrite Rsum_zero_ext.
  - rewrite (Rsum_zero_ext (n - a - s)).
    + rewrite Rplus_0_l, Rplus_0_r. apply Rsum_ext. intros c Hc.
      replace (Nat.leb a (a + c)) with true by (symmetry; apply Nat.leb_le; lia).
      replace (Nat.ltb (a + c) (a + s)) with true by (symmetry; apply Nat.ltb_lt; lia). simpl.
      now replace (a + c - a)%nat with c by lia.
    + intros c Hc. replace (Nat.ltb (a + (s + c)) (a + s)) with false by (symmetry; apply Nat.ltb_ge; lia).
      rewrite andb_false_r. ring.
  - intros c Hc. replace (Nat.leb a c) with false by (symmetry; apply Nat.leb_gt; lia). simpl. ring.
Qed.

Lemma check_diff_ok order diff (all : bool) : (if all then -1 <= diff else 0 <= diff)%Z -> (diff <= Z.of_nat order)%Z ->
  check_diff order diff all = Ok tt.
Proof.
  intros H1 H2. unfold check_diff. destruct all.
  - replace (diff <? -1)%Z with false by (symmetry; apply Z.ltb_ge; lia).
    replace (diff >? Z.of_nat order)%Z with false; [reflexivity|]. rewrite Z.gtb_ltb. symmetry. apply Z.ltb_ge. lia.
  - replace (diff <? 0)%Z with false by (symmetry; apply Z.ltb_ge; lia).
    replace (diff >? Z.of_nat order)%Z with false; [reflexivity|]. rewrite Z.gtb_ltb. symmetry. apply Z.ltb_ge. lia.
Qed.

Lemma check_diff_throw order diff (all : bool) :
  (diff < (if all then -1 else 0))%Z \/ (diff > Z.of_nat order)%Z -> check_diff order diff all = Throw ERuntime.
Proof.
  intros H. unfold check_diff. destruct H as [H|H].
  - replace (diff <? (if all then -1 else 0))%Z with true; [reflexivity|]. symmetry. apply Z.ltb_lt. exact H.
  - replace (diff >? Z.of_nat order)%Z with true; [now rewrite orb_true_r|]. rewrite Z.gtb_ltb. symmetry.
    apply Z.ltb_lt. lia.
Qed.

Section Expr.
Variables (mexp : mat -> mat) (v : variable) (X0 : expr) (M : mat) (dt : R) (ig : integrator).
Hypothesis Hig : built mexp v X0 M dt ig.
Hypothesis Hv : (k_start v <= k_end v)%nat.
Variables (m : nat) (f0 : (nat -> R) -> nat -> R).
Hypothesis HX0 : denotes X0 (ig_order ig) m f0.

Let order := ig_order ig.
Let A := discrete_A mexp M dt.
Let B := discrete_B mexp M dt.
Definition sim_x (x : nat -> R) (k : nat) : nat -> R := simulate order A B (inputs v x) (f0 x) k.

Lemma final_block s r0 i (x : nat -> R) : (s <= var_size v)%nat -> (r0 + i < order)%nat ->
  Rsum (k_end v) (fun j => (if Nat.leb (k_start v) j && Nat.ltb j (k_start v + s)
      then ig_final ig (r0 + i)%nat (ig_N ig - s + (j - k_start v))%nat else 0) * x j) =
  Rsum s (fun c => forced order A B (s - 1 - c) (r0 + i) * inputs v x c).
Proof.
  intros Hs Hi. pose proof (b_N _ _ _ _ _ _ Hig) as HN. unfold var_size in *.
  rewrite (Rsum_window (k_end v) (k_start v) s (fun c => ig_final ig (r0 + i)%nat (ig_N ig - s + c)%nat)) by lia.
  apply Rsum_ext. intros c Hc. unfold inputs. f_equal.
  etransitivity; [|apply (b_final _ _ _ _ _ _ Hig (s - 1 - c) (r0 + i)); [lia|exact Hi]].
  f_equal. lia.
Qed.

Lemma expr_state s : (s <= var_size v)%nat ->
  exists e, ig_expr ig v (Z.of_nat s) (-1) = Ok e /\ denotes e order (Nat.max (k_end v) m) (fun x i => sim_x x s i).
Proof.
  intros Hs. pose proof (b_N _ _ _ _ _ _ Hig) as HN. unfold ig_expr.
  rewrite check_diff_ok by lia. cbn [obind].
  replace (Z.of_nat s =? -1)%Z with false by (symmetry; apply Z.eqb_neq; lia).
  replace (Z.of_nat s <? 0)%Z with false by (symmetry; apply Z.ltb_ge; lia).
  replace (Z.of_nat s >? Z.of_nat (var_size v))%Z with false by (rewrite Z.gtb_ltb; symmetry; apply Z.ltb_ge; lia).
  cbn [orb]. replace (-1 =? Z.of_nat (ig_order ig))%Z with false by (symmetry; apply Z.eqb_neq; lia).
  change (-1 =? -1)%Z with true. cbv iota. rewrite Nat2Z.id.
  replace (Nat.leb (k_start v + s) (k_end v)) with true by (symmetry; apply Nat.leb_le; unfold var_size in Hs; lia).
  replace (Nat.leb s (ig_N ig)) with true by (symmetry; apply Nat.leb_le; lia). cbn [andb guard].
  destruct (b_pow _ _ _ _ _ _ Hig s ltac:(lia)) as (P & HP & P1 & P2 & P3). rewrite HP.
  rewrite (b_X0 _ _ _ _ _ _ Hig).
  destruct (m_mul_e_denotes P X0 _ m f0 HX0 P2) as (p & Hp & Dp). rewrite Hp. cbn [obind]. rewrite P1 in Dp.
  match goal with |- exists e, e_add ?ee p = _ /\ _ => set (e0 := ee) end.
  assert (De : denotes e0 (ig_order ig) (k_end v)
    (fun x i => Rsum s (fun c => forced order A B (s - 1 - c) (0 + i) * inputs v x c))).
  { apply denotes_intro; try reflexivity. intros x i Hi. unfold ev, e0, cols. cbn [eA eb mcols mat_at vat].
    rewrite (final_block s 0 i x Hs) by (unfold order; lia). ring. }
  destruct (e_add_same e0 p _ _ _ _ _ De Dp) as (r & Hr & Dr).
  exists r. split; [exact Hr|]. eapply denotes_ext; [|exact Dr]. intros x i Hi. cbv beta. unfold sim_x.
  rewrite simulate_closed by exact Hi. rewrite Rplus_comm. f_equal.
  apply Rsum_ext. intros k Hk. fold order in Hk. rewrite P3 by assumption. reflexivity.
Qed.

Lemma expr_component s d : (s <= var_size v)%nat -> (d < order)%nat ->
  exists e, ig_expr ig v (Z.of_nat s) (Z.of_nat d) = Ok e /\
    denotes e 1 (Nat.max (k_end v) m) (fun x _ => sim_x x s d).
Proof.
  intros Hs Hd. pose proof (b_N _ _ _ _ _ _ Hig) as HN. unfold ig_expr. unfold order in Hd.
  rewrite check_diff_ok by lia. cbn [obind].
  replace (Z.of_nat s =? -1)%Z with false by (symmetry; apply Z.eqb_neq; lia).
  replace (Z.of_nat s <? 0)%Z with false by (symmetry; apply Z.ltb_ge; lia).
  replace (Z.of_nat s >? Z.of_nat (var_size v))%Z with false by (rewrite Z.gtb_ltb; symmetry; apply Z.ltb_ge; lia).
  cbn [orb]. replace (Z.of_nat d =? Z.of_nat (ig_order ig))%Z with false by (symmetry; apply Z.eqb_neq; lia).
  replace (Z.of_nat d =? -1)%Z with false by (symmetry; apply Z.eqb_neq; lia). cbv iota. rewrite !Nat2Z.id.
  replace (Nat.leb (k_start v + s) (k_end v)) with true by (symmetry; apply Nat.leb_le; unfold var_size in Hs; lia).
  replace (Nat.leb s (ig_N ig)) with true by (symmetry; apply Nat.leb_le; lia). cbn [andb guard].
  destruct (b_pow _ _ _ _ _ _ Hig s ltac:(lia)) as (P & HP & P1 & P2 & P3). rewrite HP.
  rewrite (b_X0 _ _ _ _ _ _ Hig).
  destruct (m_mul_e_denotes P X0 _ m f0 HX0 P2) as (p & Hp & Dp). rewrite Hp. cbn [obind]. rewrite P1 in Dp.
  destruct (slice_denotes p _ m _ d 1 Dp ltac:(lia)) as (q & Hq & Dq). change (Z.of_nat 1) with 1%Z in Hq. rewrite Hq.
  cbn [obind].
  match goal with |- exists e, e_add ?ee q = _ /\ _ => set (e0 := ee) end.
  assert (De : denotes e0 1 (k_end v)
    (fun x i => Rsum s (fun c => forced order A B (s - 1 - c) (d + i) * inputs v x c))).
  { apply denotes_intro; try reflexivity. intros x i Hi. unfold ev, e0, cols. cbn [eA eb mcols mat_at vat].
    rewrite (final_block s d i x Hs) by (unfold order; lia). ring. }
  destruct (e_add_same e0 q _ _ _ _ _ De Dq) as (r & Hr & Dr).
  exists r. split; [exact Hr|]. eapply denotes_ext; [|exact Dr]. intros x i Hi. cbv beta. unfold sim_x.
  replace (d + i)%nat with d by lia.
  rewrite simulate_closed by exact Hd. rewrite Rplus_comm. f_equal.
  apply Rsum_ext. intros k Hk. fold order in Hk. rewrite P3 by assumption. reflexivity.
Qed.

Lemma expr_input s : (s < var_size v)%nat ->
  exists e, ig_expr ig v (Z.of_nat s) (Z.of_nat order) = Ok e /\ denotes e 1 (k_end v) (fun x _ => inputs v x s).
Proof.
  intros Hs. unfold ig_expr. unfold order. rewrite check_diff_ok by lia. cbn [obind].
  replace (Z.of_nat s =? -1)%Z with false by (symmetry; apply Z.eqb_neq; lia).
  replace (Z.of_nat s <? 0)%Z with false by (symmetry; apply Z.ltb_ge; lia).
  replace (Z.of_nat s >? Z.of_nat (var_size v))%Z with false by (rewrite Z.gtb_ltb; symmetry; apply Z.ltb_ge; lia).
  rewrite Z.eqb_refl. cbn [orb].
  destruct (var_expr_denotes v s 1 Hv ltac:(lia)) as (e & He & De). exists e. split; [exact He|].
  eapply denotes_ext; [|exact De]. intros x i Hi. cbv beta. unfold inputs. f_equal. lia.
Qed.

Lemma expr_last d : ig_expr ig v (-1) d = ig_expr ig v (Z.of_nat (var_size v)) d.
Proof.
  unfold ig_expr. change (-1 =? -1)%Z with true. cbv iota.
  replace (Z.of_nat (var_size v) =? -1)%Z with false by (symmetry; apply Z.eqb_neq; lia). reflexivity.
Qed.

Lemma expr_throws s d : (d < -1)%Z \/ (d > Z.of_nat order)%Z \/ (s < -1)%Z \/ (s > Z.of_nat (var_size v))%Z ->
  ig_expr ig v s d = Throw ERuntime.
Proof.
  intros H. unfold ig_expr. fold order.
  assert ((d < -1 \/ d > Z.of_nat order) \/ ((-1 <= d <= Z.of_nat order) /\ (s < -1 \/ s > Z.of_nat (var_size v))))%Z
    as [H'|[H1 H2]] by lia.
  - rewrite check_diff_throw; [reflexivity|]. simpl. lia.
  - rewrite check_diff_ok by lia. cbn [obind].
    replace (s =? -1)%Z with false by (symmetry; apply Z.eqb_neq; lia).
    destruct H2 as [H2|H2].
    + replace (s <? 0)%Z with true by (symmetry; apply Z.ltb_lt; lia). reflexivity.
    + replace (s >? Z.of_nat (var_size v))%Z with true by (rewrite Z.gtb_ltb; symmetry; apply Z.ltb_lt; lia).
      rewrite orb_true_r. reflexivity.
Qed.

Lemma expr_ub : ig_expr ig v (Z.of_nat (var_size v)) (Z.of_nat order) = UB.
Proof.
  unfold ig_expr, order. rewrite check_diff_ok by lia. cbn [obind].
  replace (Z.of_nat (var_size v) =? -1)%Z with false by (symmetry; apply Z.eqb_neq; lia).
  replace (Z.of_nat (var_size v) <? 0)%Z with false by (symmetry; apply Z.ltb_ge; lia).
  replace (Z.of_nat (var_size v) >? Z.of_nat (var_size v))%Z with false by (rewrite Z.gtb_ltb; symmetry; apply Z.ltb_ge; lia).
  rewrite Z.eqb_refl. cbn [orb]. apply var_expr_out_of_range; lia.
Qed.

Lemma expr_t_generic t s : (s < var_size v)%nat -> dt <> 0 ->
  Z.max (Z.min (Z.of_nat (var_size v) - 1) (Ztrunc ((t - ig_start ig) / dt))) 0 = Z.of_nat s ->
  let tau := t - ig_start ig - INR s * dt in
  (exists e, ig_expr_t mexp ig v t (-1) = Ok e /\
     denotes e order (Nat.max (Nat.max (k_end v) m) (k_end v))
       (fun x i => flow mexp M order (sim_x x s) (inputs v x s) tau i)) /\
  (forall d, (d < order)%nat -> exists e, ig_expr_t mexp ig v t (Z.of_nat d) = Ok e /\
     denotes e 1 (Nat.max (Nat.max (k_end v) m) (k_end v))
       (fun x _ => flow mexp M order (sim_x x s) (inputs v x s) tau d)) /\
  (exists e, ig_expr_t mexp ig v t (Z.of_nat order) = Ok e /\ denotes e 1 (k_end v) (fun x _ => inputs v x s)) /\
  (forall d, (d > Z.of_nat order)%Z -> ig_expr_t mexp ig v t d = UB) /\
  (forall d, (d < -1)%Z -> ig_expr_t mexp ig v t d = ig_expr_t mexp ig v t (-1)).
Proof.
  intros Hs Hdt Hk tau.
  destruct (var_expr_denotes v s 1 Hv ltac:(lia)) as (e2 & He2 & De2).
  change (Z.of_nat 1) with 1%Z in He2.
  destruct (expr_state s ltac:(lia)) as (e1 & He1 & De1).
  destruct (m_mul_e_denotes (Mat order order (discrete_A mexp M tau)) e1 _ _ _ De1 eq_refl) as (p1 & Hp1 & Dp1).
  destruct (m_mul_e_denotes (Mat order 1 (fun i _ => discrete_B mexp M tau i)) e2 _ _ _ De2 eq_refl) as (p2 & Hp2 & Dp2).
  cbn [mrows mat_at] in Dp1, Dp2.
  destruct (e_add_same p1 p2 _ _ _ _ _ Dp1 Dp2) as (e & He & De).
  assert (De' : denotes e order (Nat.max (Nat.max (k_end v) m) (k_end v))
       (fun x i => flow mexp M order (sim_x x s) (inputs v x s) tau i)).
  { eapply denotes_ext; [|exact De]. intros x i Hi. cbv beta. unfold flow. f_equal. simpl. unfold inputs, discrete_B.
    pose proof (b_order _ _ _ _ _ _ Hig) as HO. fold order in HO. replace (mrows M - 1)%nat with order by lia.
    replace (k_start v + s + 0)%nat with (k_start v + s)%nat by lia. ring. }
  clear De.
  assert (G : forall d, ig_expr_t mexp ig v t d =
    if (d =? Z.of_nat order)%Z then Ok e2
    else if (d >? -1)%Z then
        guard (Nat.ltb (Z.to_nat d) (rows e) && Nat.ltb (Z.to_nat d) (vlen (eb e)))
          (Ok (Expr (Mat 1 (cols e) (fun _ j => mat_at (eA e) (Z.to_nat d) j)) (Vec 1 (fun _ => vat (eb e) (Z.to_nat d)))))
      else Ok e).
  { intros d. unfold ig_expr_t. rewrite (b_dt _ _ _ _ _ _ Hig). destruct (Req_EM_T dt 0) as [|_]; [contradiction|].
    cbn [guard]. rewrite Hk. fold order. destruct (d =? Z.of_nat order)%Z; [exact He2|].
    rewrite <- INR_IZR_INZ. fold tau. rewrite (b_M _ _ _ _ _ _ Hig).
    rewrite AB_matrices_ok by (pose proof (b_square _ _ _ _ _ _ Hig); pose proof (b_order _ _ _ _ _ _ Hig); unfold order; lia).
    cbn [obind fst snd vlen vat]. rewrite He1. cbn [obind]. rewrite Hp1. cbn [obind]. rewrite He2. cbn [obind].
    rewrite Hp2. cbn [obind]. rewrite He. cbn [obind]. reflexivity. }
  pose proof (denotes_elim _ _ _ _ De') as (E1 & E2 & E3 & E4).
  split; [|split; [|split; [|split]]].
  - exists e. split; [|exact De']. rewrite G. destruct (Z.eqb_spec (-1) (Z.of_nat order)); [lia|]. reflexivity.
  - intros d Hd. rewrite G. destruct (Z.eqb_spec (Z.of_nat d) (Z.of_nat order)); [lia|].
    replace (Z.of_nat d >? -1)%Z with true by (rewrite Z.gtb_ltb; symmetry; apply Z.ltb_lt; lia).
    rewrite Nat2Z.id, E1, E2. replace (Nat.ltb d order) with true by (symmetry; apply Nat.ltb_lt; lia). cbn [andb guard].
    eexists. split; [reflexivity|]. apply denotes_intro; try reflexivity; [exact E3|].
    intros x i Hi. rewrite <- (E4 x d) by lia. reflexivity.
  - exists e2. rewrite G, Z.eqb_refl. split; [reflexivity|]. eapply denotes_ext; [|exact De2].
    intros x i Hi. cbv beta. unfold inputs. f_equal. lia.
  - intros d Hd. rewrite G. destruct (Z.eqb_spec d (Z.of_nat order)); [lia|].
    replace (d >? -1)%Z with true by (rewrite Z.gtb_ltb; symmetry; apply Z.ltb_lt; lia).
    rewrite E1. replace (Nat.ltb (Z.to_nat d) order) with false by (symmetry; apply Nat.ltb_ge; lia). reflexivity.
  - intros d Hd. rewrite !G. destruct (Z.eqb_spec d (Z.of_nat order)); [lia|].
    destruct (Z.eqb_spec (-1) (Z.of_nat order)); [lia|].
    replace (d >? -1)%Z with false by (rewrite Z.gtb_ltb; symmetry; apply Z.ltb_ge; lia). reflexivity.
Qed.
End Expr.
