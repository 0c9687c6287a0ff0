(** Properties C25-C29 and C85-C87: integrators and their trajectories. *)
From Coq Require Import Reals Lra Lia List ZArith Bool.
From Coquelicot Require Import Coquelicot.
From Verif Require Import Base Linalg Mexp Expression_model Expression_spec Expression_proofs
  Problem_model Problem_spec Problem_proofs2 Integrator_model Integrator_spec Integrator_proofs Integrator_proofs2
  Integrator_proofs3.
Import ListNotations.
Open Scope R_scope.

(** The contract of the matrix exponential can be met. *)
Definition ex_mexp (M : mat) : mat := Mat (mrows M) (mcols M) (mexp_at (mrows M) (mat_at M) 1).
Example exp_correct_witness : exp_correct ex_mexp.
Proof.
  intros M HM i j Hi Hj. cbn [ex_mexp mat_at]. apply is_series_Reals.
  pose proof (mexp_at_pseries (mrows M) (mat_at M) 1 i j Hi Hj) as P. apply is_pseries_R in P.
  eapply is_series_ext; [|exact P]. intros k. cbv beta. rewrite pow1. unfold ecoef. apply Rmult_1_r.
Qed.

(** A variable of 3 inputs placed after 2 other unknowns, which are the initial state of a double integrator. *)
Definition ex_var : variable := MkVar 2 5 (Vec 0 (fun _ => 0)) 0.
Definition ex_X0 : expr := Expr (Mat 2 2 (fun i j => if Nat.eqb i j then 1 else 0)) (Vec 2 (fun _ => 0)).
Example ex_X0_denotes : denotes ex_X0 2 2 (fun x i => x i).
Proof.
  apply denotes_intro; try reflexivity. intros x i Hi. unfold ev. cbn [ex_X0 cols mcols eA eb vat mat_at Rsum].
  destruct i as [|[|i]]; cbn; [ring|ring|lia].
Qed.

(** ** C25 *)

(** The two constructors: which arguments they accept. *)
Theorem C25_constructor mexp v X0 M dt :
  (mrows M = mcols M /\ (0 < mrows M)%nat <-> exists ig, new_integrator mexp v X0 M dt = Ok ig) /\
  (~ (mrows M = mcols M /\ (0 < mrows M)%nat) -> new_integrator mexp v X0 M dt = UB).
Proof.
  split; [|apply new_integrator_UB]. split.
  - intros [H1 H2]. destruct (new_integrator_built mexp v X0 M dt H1 H2) as (ig & E & _). eauto.
  - intros (ig & E). destruct (Nat.eq_dec (mrows M) (mcols M)); [destruct (lt_dec 0 (mrows M)); auto|];
      (rewrite new_integrator_UB in E; [discriminate|tauto]).
Qed.
Print Assumptions C25_constructor.

Theorem C25_constructor_order mexp v X0 (order : nat) dt :
  (rows X0 = order -> exists ig, new_integrator_order mexp v X0 (Z.of_nat order) dt = Ok ig /\
     new_integrator mexp v X0 (upper_shift_matrix order) dt = Ok ig) /\
  (rows X0 <> order -> new_integrator_order mexp v X0 (Z.of_nat order) dt = Throw ERuntime).
Proof.
  destruct (new_integrator_built mexp v X0 (upper_shift_matrix order) dt eq_refl ltac:(cbn; lia)) as (ig & E & _).
  unfold new_integrator_order. replace (0 <=? Z.of_nat order)%Z with true by (symmetry; apply Z.leb_le; lia).
  cbn [guard]. rewrite Nat2Z.id, E. cbn [obind]. split; intros H.
  - exists ig. rewrite H, Z.eqb_refl. auto.
  - destruct (Z.eqb_spec (Z.of_nat (rows X0)) (Z.of_nat order)); [lia|reflexivity].
Qed.
Print Assumptions C25_constructor_order.

(** expr(step, diff) is component diff of the simulated state, expr(step, -1) the whole state, expr(step, order) the
    input, and step = -1 the last step. *)
Theorem C25_expressions_simulate mexp v X0 M dt ig m f0 :
  (k_start v <= k_end v)%nat -> new_integrator mexp v X0 M dt = Ok ig ->
  denotes X0 (mrows M - 1) m f0 ->
  let order := (mrows M - 1)%nat in
  let N := var_size v in
  let state := fun x step => simulate order (discrete_A mexp M dt) (discrete_B mexp M dt) (inputs v x) (f0 x) step in
  (forall step diff, (step <= N)%nat -> (diff < order)%nat ->
     exists e, ig_expr ig v (Z.of_nat step) (Z.of_nat diff) = Ok e /\
       denotes e 1 (Nat.max (k_end v) m) (fun x _ => state x step diff)) /\
  (forall step, (step <= N)%nat ->
     exists e, ig_expr ig v (Z.of_nat step) (-1) = Ok e /\
       denotes e order (Nat.max (k_end v) m) (fun x i => state x step i)) /\
  (forall step, (step < N)%nat ->
     exists e, ig_expr ig v (Z.of_nat step) (Z.of_nat order) = Ok e /\
       denotes e 1 (k_end v) (fun x _ => inputs v x step)) /\
  (forall diff, ig_expr ig v (-1) diff = ig_expr ig v (Z.of_nat N) diff).
Proof.
  intros Hv Hn D order N state. apply new_integrator_inv in Hn. destruct Hn as (B & _).
  assert (HO : ig_order ig = order) by (pose proof (b_order _ _ _ _ _ _ B); unfold order; lia).
  fold order in D. rewrite <- HO in D.
  split; [|split; [|split]].
  - intros s d Hs Hd. rewrite <- HO in Hd.
    destruct (expr_component mexp v X0 M dt ig B Hv m f0 D s d Hs Hd) as (e & E & De). exists e. split; [exact E|].
    unfold state. rewrite <- HO. exact De.
  - intros s Hs. destruct (expr_state mexp v X0 M dt ig B Hv m f0 D s Hs) as (e & E & De). exists e. split; [exact E|].
    unfold state. rewrite <- HO. exact De.
  - intros s Hs. destruct (expr_input v ig Hv s Hs) as (e & E & De). exists e. split; [|exact De].
    rewrite <- HO. exact E.
  - intros d. now apply expr_last.
Qed.
Print Assumptions C25_expressions_simulate.

(** With the constructor taking an order, the discrete system is the Taylor expansion. *)
Theorem C25_chain_of_integrators mexp order dt : exp_correct mexp ->
  (forall i j, (i < order)%nat -> (j < order)%nat -> discrete_A mexp (upper_shift_matrix order) dt i j =
     if Nat.leb i j then dt ^ (j - i) / INR (fact (j - i)) else 0) /\
  (forall i, (i < order)%nat -> discrete_B mexp (upper_shift_matrix order) dt i =
     dt ^ (order - i) / INR (fact (order - i))).
Proof.
  intros H. assert (G : forall i j, (i <= order)%nat -> (j <= order)%nat ->
    mat_at (mexp (times (upper_shift_matrix order) dt)) i j = if Nat.leb i j then dt ^ (j - i) / INR (fact (j - i)) else 0).
  { intros i j Hi Hj. rewrite exp_at by (auto; cbn; lia). apply mexp_at_shift; cbn; auto; lia. }
  split.
  - intros i j Hi Hj. apply G; lia.
  - intros i Hi. unfold discrete_B. cbn [upper_shift_matrix mrows]. rewrite Nat.sub_succ, Nat.sub_0_r, G by lia.
    replace (Nat.leb i order) with true by (symmetry; apply Nat.leb_le; lia). reflexivity.
Qed.
Print Assumptions C25_chain_of_integrators.

Example C25_witness :
  (k_start ex_var <= k_end ex_var)%nat /\ var_size ex_var = 3%nat /\
  denotes ex_X0 (mrows (upper_shift_matrix 2) - 1) 2 (fun x i => x i) /\
  exists ig, new_integrator ex_mexp ex_var ex_X0 (upper_shift_matrix 2) (1 / 2) = Ok ig.
Proof.
  split; [cbn; lia|]. split; [reflexivity|]. split; [exact ex_X0_denotes|].
  apply C25_constructor. cbn. lia.
Qed.

(** ** C26 *)

(** The claim fails: the input "at the end of the last step" is read out of range. *)
Theorem C26_safe_requests_refuted :
  exists mexp v X0 M dt ig m f0 step diff,
    exp_correct mexp /\ (k_start v <= k_end v)%nat /\ new_integrator mexp v X0 M dt = Ok ig /\
    denotes X0 (mrows M - 1) m f0 /\ (0 <= step <= Z.of_nat (var_size v))%Z /\ (0 <= diff <= Z.of_nat (mrows M - 1))%Z /\
    ig_expr ig v step diff = UB.
Proof.
  destruct C25_witness as (H1 & H2 & H3 & ig & H4).
  exists ex_mexp, ex_var, ex_X0, (upper_shift_matrix 2), (1 / 2), ig, 2%nat, (fun x i => x i), 3%Z, 2%Z.
  split; [exact exp_correct_witness|]. split; [exact H1|]. split; [exact H4|]. split; [exact H3|].
  split; [cbn; lia|]. split; [cbn; lia|]. apply new_integrator_inv in H4. destruct H4 as (B & _).
  pose proof (b_order _ _ _ _ _ _ B) as HO. cbn in HO.
  pose proof (expr_ub ex_var ig H1) as U. replace (ig_order ig) with 2%nat in U by lia. exact U.
Qed.
Print Assumptions C26_safe_requests_refuted.

(** Exactly which requests are answered, rejected, and unsafe. *)
Theorem C26_requests_behaviour mexp v X0 M dt ig m f0 :
  (k_start v <= k_end v)%nat -> new_integrator mexp v X0 M dt = Ok ig -> denotes X0 (mrows M - 1) m f0 ->
  let order := Z.of_nat (mrows M - 1) in
  let N := Z.of_nat (var_size v) in
  forall step diff : Z,
  ((exists e, ig_expr ig v step diff = Ok e) <->
     (-1 <= step <= N /\ -1 <= diff <= order /\ ~ (diff = order /\ (step = -1 \/ step = N)))%Z) /\
  (ig_expr ig v step diff = Throw ERuntime <-> ~ (-1 <= step <= N /\ -1 <= diff <= order)%Z) /\
  (ig_expr ig v step diff = UB <-> diff = order /\ (step = -1 \/ step = N)%Z).
Proof.
  intros Hv Hn D order N step diff.
  destruct (C25_expressions_simulate mexp v X0 M dt ig m f0 Hv Hn D) as (E1 & E2 & E3 & E4).
  apply new_integrator_inv in Hn. destruct Hn as (B & _). pose proof (b_order _ _ _ _ _ _ B) as HO.
  assert (HO' : ig_order ig = (mrows M - 1)%nat) by lia.
  assert (T : (-1 <= step <= N /\ -1 <= diff <= order)%Z ->
    (~ (diff = order /\ (step = -1 \/ step = N))%Z -> exists e, ig_expr ig v step diff = Ok e) /\
    ((diff = order /\ (step = -1 \/ step = N))%Z -> ig_expr ig v step diff = UB)).
  { intros [Hs Hd].
    assert (P : exists s : nat, (Z.of_nat s <= N)%Z /\ ig_expr ig v step diff = ig_expr ig v (Z.of_nat s) diff /\
              (Z.of_nat s = N <-> (step = -1 \/ step = N)%Z)).
    { destruct (Z.eq_dec step (-1)) as [->|].
      - exists (var_size v). rewrite E4. unfold N. split; [lia|]. split; [reflexivity|]. lia.
      - exists (Z.to_nat step). rewrite Z2Nat.id by lia. split; [lia|]. split; [reflexivity|]. lia. }
    destruct P as (s & Ps & -> & Pn). rewrite <- Pn. unfold N in *. split.
    - intros Hne. destruct (Z.eq_dec diff (-1)) as [->|].
      + destruct (E2 s ltac:(lia)) as (e & E & _). eauto.
      + destruct (Z.eq_dec diff order) as [->|].
        * destruct (E3 s ltac:(lia)) as (e & E & _). eauto.
        * destruct (E1 s (Z.to_nat diff) ltac:(lia) ltac:(unfold order in *; lia)) as (e & E & _).
          rewrite Z2Nat.id in E by lia. eauto.
    - intros [-> Hs']. assert (s = var_size v) as -> by lia. unfold order. rewrite <- HO'. now apply expr_ub. }
  assert (F : ~ (-1 <= step <= N /\ -1 <= diff <= order)%Z -> ig_expr ig v step diff = Throw ERuntime).
  { intros H. apply expr_throws; [exact Hv|]. rewrite HO'. fold order. fold N. lia. }
  assert (Dec : ((-1 <= step <= N /\ -1 <= diff <= order) \/ ~ (-1 <= step <= N /\ -1 <= diff <= order))%Z) by lia.
  assert (Dec2 : ((diff = order /\ (step = -1 \/ step = N)) \/ ~ (diff = order /\ (step = -1 \/ step = N)))%Z) by lia.
  destruct Dec as [Hin|Hout].
  - destruct (T Hin) as [T1 T2]. destruct Dec2 as [Hb|Hb].
    + specialize (T2 Hb). rewrite T2. split; [|split].
      * split; [intros (e & E); discriminate|tauto].
      * split; [discriminate|tauto].
      * tauto.
    + destruct (T1 Hb) as (e & E). rewrite E. split; [|split].
      * split; [tauto|eauto].
      * split; [discriminate|tauto].
      * split; [discriminate|tauto].
  - specialize (F Hout). rewrite F. split; [|split].
    + split; [intros (e & E); discriminate|tauto].
    + tauto.
    + split; [discriminate|]. intros [-> Hs]. exfalso. apply Hout. unfold order, N in *. lia.
Qed.
Print Assumptions C26_requests_behaviour.

(** What remains of the claim: every other documented request is answered, the rest throws. *)
Theorem C26_safe_requests_partial mexp v X0 M dt ig m f0 :
  (k_start v <= k_end v)%nat -> new_integrator mexp v X0 M dt = Ok ig -> denotes X0 (mrows M - 1) m f0 ->
  forall step diff : Z,
  ~ (diff = Z.of_nat (mrows M - 1) /\ (step = -1 \/ step = Z.of_nat (var_size v)))%Z ->
  if ((-1 <=? step) && (step <=? Z.of_nat (var_size v)) && (-1 <=? diff) && (diff <=? Z.of_nat (mrows M - 1)))%Z
  then exists e, ig_expr ig v step diff = Ok e
  else ig_expr ig v step diff = Throw ERuntime.
Proof.
  intros Hv Hn D step diff H.
  destruct (C26_requests_behaviour mexp v X0 M dt ig m f0 Hv Hn D step diff) as (H1 & H2 & _).
  match goal with |- if ?b then _ else _ => destruct b eqn:E end.
  - rewrite !andb_true_iff, !Z.leb_le in E. apply H1. lia.
  - apply H2. intros [A B]. assert (X : ((-1 <=? step) && (step <=? Z.of_nat (var_size v)) && (-1 <=? diff) && (diff <=? Z.of_nat (mrows M - 1)))%Z = true).
    { rewrite !andb_true_iff, !Z.leb_le. lia. }
    congruence.
Qed.
Print Assumptions C26_safe_requests_partial.

(** ** Trajectories *)

(** A non-trivial trajectory: two steps of a double integrator. *)
Definition ex_u : vec := Vec 2 (fun k => if Nat.eqb k 0 then 1 else -1).
Definition ex_solved : variable := MkVar 2 4 ex_u 1.
Example ex_trajectory : exists ig tr ig',
  new_integrator ex_mexp ex_solved ex_X0 (upper_shift_matrix 2) (1 / 2) = Ok ig /\
  get_trajectory ig ex_solved (Vec 4 (fun _ => 3)) = Ok (ig', tr) /\
  trajectory_of ex_mexp (upper_shift_matrix 2) (1 / 2) 0 2 (vat ex_u) (fun _ => 3) tr.
Proof.
  destruct (new_integrator_built ex_mexp ex_solved ex_X0 (upper_shift_matrix 2) (1 / 2) eq_refl ltac:(cbn; lia))
    as (ig & E & B & S & V). exists ig.
  assert (O : ig_order ig = 2%nat) by (pose proof (b_order _ _ _ _ _ _ B) as O; cbn in O; lia).
  destruct (update_trajectory_spec ex_mexp ex_solved ex_X0 (upper_shift_matrix 2) (1 / 2) ig ex_solved
    (Vec 4 (fun _ => 3)) 2 (fun x i => x i) B) as (ig' & U & _ & _ & _ & _ & T).
  - rewrite O. exact ex_X0_denotes.
  - discriminate.
  - rewrite V. discriminate.
  - reflexivity.
  - cbn. lia.
  - exists (ig_traj ig'), ig'. split; [exact E|]. split; [unfold get_trajectory; rewrite U; reflexivity|].
    rewrite S in T. exact T.
Qed.

(** ** C27 *)

(** A trajectory passes through the simulated states, keeps its first and last states outside the horizon, and reports
    the input of the current step at diff = order. *)
Theorem C27_keyframes mexp M dt t0 n u x0 tr :
  exp_correct mexp -> mrows M = mcols M -> 0 < dt -> (0 < n)%nat -> trajectory_of mexp M dt t0 n u x0 tr ->
  let order := (mrows M - 1)%nat in
  let state := simulate order (discrete_A mexp M dt) (discrete_B mexp M dt) u x0 in
  forall d, (d < order)%nat ->
  (forall k, (k <= n)%nat -> traj_value mexp tr (t0 + INR k * dt) (Z.of_nat d) = Ok (state k d)) /\
  (forall t, t <= t0 -> traj_value mexp tr t (Z.of_nat d) = Ok (x0 d)) /\
  (forall t, t0 + INR n * dt <= t -> traj_value mexp tr t (Z.of_nat d) = Ok (state n d)).
Proof.
  intros He HM Hdt Hn Ht order state d Hd.
  pose proof Ht as (_ & _ & _ & HO & _). assert (HO' : tr_order tr = order) by (unfold order; lia).
  assert (Hd' : (d < tr_order tr)%nat) by lia. unfold state. rewrite <- HO'. split; [|split].
  - intros k Hk. exact (value_key mexp M dt t0 n u x0 tr He HM Ht Hdt Hn k d Hk Hd').
  - intros t H. destruct (Rle_lt_or_eq_dec t t0 H) as [H'| ->].
    + exact (value_before mexp M dt t0 n u x0 tr He HM Ht Hdt Hn t d H' Hd').
    + replace (traj_value mexp tr t0 (Z.of_nat d)) with (traj_value mexp tr (t0 + INR 0 * dt) (Z.of_nat d))
        by (f_equal; simpl; ring).
      exact (value_key mexp M dt t0 n u x0 tr He HM Ht Hdt Hn 0 d ltac:(lia) Hd').
  - intros t H. exact (value_after mexp M dt t0 n u x0 tr HM Ht Hdt Hn t d ltac:(lra) Hd').
Qed.
Print Assumptions C27_keyframes.

Theorem C27_inputs mexp M dt t0 n u x0 tr :
  mrows M = mcols M -> 0 < dt -> (0 < n)%nat -> trajectory_of mexp M dt t0 n u x0 tr ->
  let order := Z.of_nat (mrows M - 1) in
  (forall t, t < t0 -> traj_value mexp tr t order = Ok (u 0%nat)) /\
  (forall t k, (k < n)%nat -> t0 + INR k * dt <= t < t0 + INR (S k) * dt -> traj_value mexp tr t order = Ok (u k)) /\
  (forall t, t0 + INR n * dt <= t -> traj_value mexp tr t order = Ok (u (n - 1)%nat)) /\
  (forall t d, (d < 0)%Z \/ (d > order)%Z -> traj_value mexp tr t d = Throw ERuntime).
Proof.
  intros HM Hdt Hn Ht order. pose proof Ht as (_ & _ & _ & HO & _).
  assert (HO' : (mrows M - 1)%nat = tr_order tr) by lia. unfold order. rewrite HO'.
  split; [|split; [|split]].
  - intros t H. exact (proj1 (value_input mexp M dt t0 n u x0 tr HM Ht Hdt Hn t _ eq_refl) H).
  - intros t k Hk H. apply (proj1 (proj2 (value_input mexp M dt t0 n u x0 tr HM Ht Hdt Hn t _ eq_refl))); [exact Hk|lra].
  - intros t H. apply (proj2 (proj2 (value_input mexp M dt t0 n u x0 tr HM Ht Hdt Hn t _ eq_refl))). lra.
  - intros t d H. apply value_throws. exact H.
Qed.
Print Assumptions C27_inputs.

(** Continuity at every time, key-frames and both ends included. *)
Theorem C27_continuous mexp M dt t0 n u x0 tr :
  exp_correct mexp -> mrows M = mcols M -> 0 < dt -> (0 < n)%nat -> trajectory_of mexp M dt t0 n u x0 tr ->
  forall d, (d < mrows M - 1)%nat ->
  exists f : R -> R, (forall t, traj_value mexp tr t (Z.of_nat d) = Ok (f t)) /\ forall t, continuity_pt f t.
Proof.
  intros He HM Hdt Hn Ht d Hd. pose proof Ht as (_ & _ & _ & HO & _).
  assert (Hd' : (d < tr_order tr)%nat) by lia. exists (glued mexp M dt t0 n u x0 tr d). split.
  - intros t. exact (glued_value mexp M dt t0 n u x0 tr He HM Ht Hdt Hn d t Hd').
  - intros t. exact (glued_continuous mexp M dt t0 n u x0 tr He HM Ht Hn d t Hd').
Qed.
Print Assumptions C27_continuous.

(** Inside the horizon the expression expr_t(t, diff), evaluated at the solution, is the value of the trajectory. *)
Theorem C27_expr_t_agrees mexp v X0 M dt ig0 m f0 start x tr t d :
  exp_correct mexp -> (k_start v <= k_end v)%nat -> 0 < dt -> (0 < var_size v)%nat ->
  new_integrator mexp v X0 M dt = Ok ig0 -> denotes X0 (mrows M - 1) m f0 ->
  (Nat.max (k_end v) m <= vlen x)%nat ->
  let ig := set_t_start ig0 start in
  trajectory_of mexp M dt start (var_size v) (inputs v (vat x)) (f0 (vat x)) tr ->
  start <= t <= start + INR (var_size v) * dt -> (d <= mrows M - 1)%nat ->
  exists e y, ig_expr_t mexp ig v t (Z.of_nat d) = Ok e /\ value e x = Ok y /\ vlen y = 1%nat /\
    traj_value mexp tr t (Z.of_nat d) = Ok (vat y 0).
Proof.
  intros He Hv Hdt Hn Hi D Hx ig Ht Hin Hd. apply new_integrator_inv in Hi. destruct Hi as (B0 & _).
  assert (B : built mexp v X0 M dt ig) by (apply built_set_start; exact B0).
  pose proof (b_square _ _ _ _ _ _ B) as HM. pose proof (b_order _ _ _ _ _ _ B) as HO.
  assert (D' : denotes X0 (ig_order ig) m f0) by (replace (ig_order ig) with (mrows M - 1)%nat by lia; exact D).
  pose proof Ht as (_ & _ & _ & HO2 & _). assert (HO3 : tr_order tr = ig_order ig) by lia.
  assert (Q : forall s, (s < var_size v)%nat ->
    Z.max (Z.min (Z.of_nat (var_size v) - 1) (Ztrunc ((t - ig_start ig) / dt))) 0 = Z.of_nat s ->
    traj_value mexp tr t (Z.of_nat d) = Ok (if Nat.eqb d (ig_order ig) then inputs v (vat x) s else
      flow mexp M (ig_order ig) (sim_x mexp v M dt ig f0 (vat x) s) (inputs v (vat x) s) (t - start - INR s * dt) d) ->
    exists e y, ig_expr_t mexp ig v t (Z.of_nat d) = Ok e /\ value e x = Ok y /\ vlen y = 1%nat /\
      traj_value mexp tr t (Z.of_nat d) = Ok (vat y 0)).
  { intros s Hs Hk V. destruct (expr_t_generic mexp v X0 M dt ig B Hv m f0 D' t s Hs ltac:(lra) Hk) as (_ & G1 & G2 & _).
    destruct (Nat.eqb_spec d (ig_order ig)) as [->|Hne].
    - destruct G2 as (e & E & _ & _ & _ & De). destruct (De x ltac:(lia)) as (y & Ey & Ly & Vy).
      exists e, y. split; [exact E|]. split; [exact Ey|]. split; [exact Ly|]. rewrite V, Vy by lia. reflexivity.
    - destruct (G1 d ltac:(lia)) as (e & E & _ & _ & _ & De). destruct (De x ltac:(lia)) as (y & Ey & Ly & Vy).
      exists e, y. split; [exact E|]. split; [exact Ey|]. split; [exact Ly|]. rewrite V, Vy by lia. reflexivity. }
  assert (Hq : 0 <= (t - start) / dt).
  { apply Rmult_le_pos; [lra|]. left. now apply Rinv_0_lt_compat. }
  assert (Htrunc : Ztrunc ((t - ig_start ig) / dt) = Int_part ((t - start) / dt)).
  { change (ig_start ig) with start. unfold Ztrunc. destruct (Rle_dec 0 ((t - start) / dt)); [reflexivity|contradiction]. }
  rewrite Htrunc in Q.
  destruct (time_cases M dt start (var_size v) tr HM Hn t) as [H|[(k & Hk & H)|H]]; [lra| |].
  - apply (Q k Hk).
    + assert (Int_part ((t - start) / dt) = Z.of_nat k) as ->; [|lia].
      apply Int_part_eq. rewrite <- INR_IZR_INZ, S_INR in *. split.
      * apply (Rmult_le_reg_r dt); [exact Hdt|]. unfold Rdiv. rewrite Rmult_assoc, Rinv_l by lra. lra.
      * apply (Rmult_lt_reg_r dt); [exact Hdt|]. unfold Rdiv. rewrite Rmult_assoc, Rinv_l by lra. lra.
    + destruct (Nat.eqb_spec d (ig_order ig)) as [->|Hne].
      * rewrite <- HO3. apply (proj1 (proj2 (value_input mexp M dt start (var_size v) _ _ tr HM Ht Hdt Hn t _ eq_refl))); assumption.
      * rewrite (value_inside mexp M dt start (var_size v) _ _ tr HM Ht Hdt Hn t k d Hk H) by lia.
        unfold sim_t, sim_x. rewrite HO3. reflexivity.
  - assert (t = start + INR (var_size v) * dt) as Et by lra.
    apply (Q (var_size v - 1)%nat ltac:(lia)).
    + assert (Z.of_nat (var_size v) <= Int_part ((t - start) / dt))%Z; [|lia].
      apply Int_part_le. rewrite <- INR_IZR_INZ. apply (Rmult_le_reg_r dt); [exact Hdt|].
      unfold Rdiv. rewrite Rmult_assoc, Rinv_l by lra. lra.
    + destruct (Nat.eqb_spec d (ig_order ig)) as [->|Hne].
      * rewrite <- HO3. apply (proj2 (proj2 (value_input mexp M dt start (var_size v) _ _ tr HM Ht Hdt Hn t _ eq_refl))); assumption.
      * rewrite (value_after mexp M dt start (var_size v) _ _ tr HM Ht Hdt Hn t d H) by lia.
        f_equal. rewrite minus_INR by lia. simpl (INR 1).
        replace (t - start - (INR (var_size v) - 1) * dt) with dt by (rewrite Et; ring).
        pose proof (flow_dt mexp M dt start (var_size v) (inputs v (vat x)) (f0 (vat x)) tr Ht (var_size v - 1) d) as F.
        replace (S (var_size v - 1)) with (var_size v) in F by lia. rewrite HO3 in F.
        unfold sim_t in F |- *. rewrite HO3 in F |- *. symmetry. exact F.
Qed.
Print Assumptions C27_expr_t_agrees.

Example C27_witness : exists tr, exp_correct ex_mexp /\
  mrows (upper_shift_matrix 2) = mcols (upper_shift_matrix 2) /\ 0 < 1 / 2 /\ (0 < 2)%nat /\
  trajectory_of ex_mexp (upper_shift_matrix 2) (1 / 2) 0 2 (vat ex_u) (fun _ => 3) tr /\
  trajectory_of ex_mexp (upper_shift_matrix 2) (1 / 2) 0 (var_size ex_solved)
    (inputs ex_solved (vat (Vec 4 (fun k => if Nat.ltb k 2 then 3 else vat ex_u (k - 2))))) (fun _ => 3) tr.
Proof.
  destruct ex_trajectory as (_ & tr & _ & _ & _ & T). exists tr. split; [exact exp_correct_witness|].
  split; [reflexivity|]. split; [lra|]. split; [lia|]. split; [exact T|].
  eapply trajectory_of_ext; [exact T| |auto]. intros k Hk. unfold inputs. cbn [ex_solved k_start vat].
  replace (Nat.ltb (2 + k) 2) with false by (symmetry; apply Nat.ltb_ge; lia). f_equal. lia.
Qed.

(** ** C28 *)

Theorem C28_duration_behaviour mexp M dt t0 n u x0 tr :
  trajectory_of mexp M dt t0 n u x0 tr -> duration tr = (INR n + 1) * dt.
Proof.
  intros (_ & E & _ & _ & _ & _ & L & _). unfold duration. rewrite L, E, S_INR. reflexivity.
Qed.
Print Assumptions C28_duration_behaviour.

Theorem C28_duration_refuted : exists mexp M dt t0 n u x0 tr,
  exp_correct mexp /\ 0 < dt /\ trajectory_of mexp M dt t0 n u x0 tr /\ duration tr <> INR n * dt.
Proof.
  destruct C27_witness as (tr & H1 & _ & H2 & _ & T & _).
  exists ex_mexp, (upper_shift_matrix 2), (1 / 2), 0, 2%nat, (vat ex_u), (fun _ => 3), tr.
  split; [exact H1|]. split; [exact H2|]. split; [exact T|].
  rewrite (C28_duration_behaviour _ _ _ _ _ _ _ _ T). simpl. lra.
Qed.
Print Assumptions C28_duration_refuted.

(** What remains: the reported duration is one step too long, for every horizon. *)
Theorem C28_duration_partial mexp M dt t0 n u x0 tr :
  trajectory_of mexp M dt t0 n u x0 tr -> duration tr - dt = INR n * dt.
Proof. intros T. rewrite (C28_duration_behaviour _ _ _ _ _ _ _ _ T). ring. Qed.
Print Assumptions C28_duration_partial.

(** ** C29 *)

(** Along every history whose solves all succeed and that leaves t_start alone: a query throws before the first
    successful solve, and afterwards returns the trajectory of the values the variables now report, and asking again
    gives the same answer. *)
Theorem C29_last_solve_partial mexp pb sizes ref v X0 M dt ig start m f0 h s :
  reachable pb sizes -> nth_error (p_vars pb) ref = Some v -> v_version v = 0%nat ->
  new_integrator mexp v X0 M dt = Ok ig -> denotes X0 (mrows M - 1) m f0 -> (m <= p_n pb)%nat ->
  run ref (System pb (set_t_start ig start)) h = Some s ->
  m = 0%nat \/ solves_succeed ref (System pb (set_t_start ig start)) h -> keeps_start h ->
  exists v', nth_error (p_vars (sys_pb s)) ref = Some v' /\
    (successes ref (System pb (set_t_start ig start)) h = 0%nat ->
       get_trajectory (sys_ig s) v' (p_x (sys_pb s)) = Throw ERuntime) /\
    ((0 < successes ref (System pb (set_t_start ig start)) h)%nat ->
       exists ig' tr, get_trajectory (sys_ig s) v' (p_x (sys_pb s)) = Ok (ig', tr) /\
         (forall x, agrees (sys_pb s) x ->
            trajectory_of mexp M dt start (var_size v) (vat (v_value v')) (f0 x) tr) /\
         get_trajectory ig' v' (p_x (sys_pb s)) = Ok (ig', tr)).
Proof.
  intros Hr Hv Hver Hi D Hm Hrun Hok Hk.
  pose proof (new_integrator_inv _ _ _ _ _ _ Hi) as (B & S0 & V0).
  destruct (reachable_tiles _ _ Hr) as [T _].
  assert (HO : S (mrows M - 1) = mrows M) by (pose proof (b_order _ _ _ _ _ _ B); lia).
  assert (I : inv mexp v X0 M dt ref m (System pb (set_t_start ig start)) v).
  { constructor; cbn [sys_pb sys_ig]; auto.
    - now apply built_set_start.
    - intros H. contradiction.
    - cbn. lia. }
  assert (G : inv_good mexp M dt m f0 (System pb (set_t_start ig start)) v).
  { constructor; [right|]; intros H; contradiction. }
  destruct (run_inv mexp v X0 M dt ref m (mrows M - 1) f0 D HO h _ v s I Hrun) as (v' & I' & V' & S' & G').
  specialize (S' Hk). specialize (G' Hok Hk G). cbn [sys_ig set_t_start ig_start] in S'.
  rewrite Hver in V'. cbn [Nat.add] in V'.
  exists v'. split; [exact (inv_var _ _ _ _ _ _ _ _ _ I')|].
  destruct (query_spec mexp v X0 M dt ref m (mrows M - 1) f0 D HO s v' I') as [Q1 Q2].
  split.
  - intros H. apply Q1. congruence.
  - intros H. destruct (Q2 ltac:(lia)) as (ig' & tr & E & Etr & I2 & S2 & V2 & G2 & _). exists ig', tr.
    split; [exact E|]. specialize (G2 G'). split.
    + intros x Hx. pose proof (ig_cached _ _ _ _ _ _ _ G2 ltac:(lia) V2) as TR. cbn [sys_pb sys_ig] in TR.
      rewrite <- Etr, S2, S' in TR.
      assert (Ez : var_size v' = var_size v).
      { destruct (inv_range _ _ _ _ _ _ _ _ _ I') as [R1 R2]. unfold var_size. congruence. }
      rewrite Ez in TR. eapply trajectory_of_ext; [exact TR|auto|]. intros i Hi'.
      exact (agree_on mexp v X0 M dt ref m (mrows M - 1) f0 D HO _ v' x I2 G2 ltac:(lia) Hx i ltac:(lia)).
    + destruct (query_spec mexp v X0 M dt ref m (mrows M - 1) f0 D HO _ v' I2) as [_ Q3].
      destruct (Q3 ltac:(lia)) as (ig2 & tr2 & E2 & Et2 & _ & _ & _ & _ & Same). cbn [sys_pb sys_ig] in *.
      specialize (Same V2). subst ig2. rewrite E2. subst. reflexivity.
Qed.
Print Assumptions C29_last_solve_partial.

(** The two cases left out. After a failed solve, an initial state that depends on the unknowns is evaluated on the
    rejected solution. The program: an initial state a, one input u; a first solve answers 0; an impossible
    constraint is added and the second solve fails, leaving x = (1, 1); the trajectory then starts at 1 although a
    still reports 0. *)
Definition ex29_pb : problem := fst (add_variable (fst (add_variable new_problem 1)) 1).
Definition ex29_v : variable := MkVar 1 2 (Vec 0 (fun _ => 0)) 0.
Definition ex29_X0 : expr := Expr (Mat 1 1 (fun _ _ => 1)) (Vec 1 (fun _ => 0)).
Definition ex29_impossible : pconstraint := mk_constraint (from_double (-1)) Inequality.
Definition ex29_qr (M : mat) : qr_result := QRResult 0 (fun _ _ => 0) (fun _ _ => 0) (fun i => i).
Definition ex29_qp (Q : qp_problem) : qp_result :=
  if Nat.eqb (mrows (qp_G Q)) 0 then QPResult false (fun _ => 0) (fun _ => false) []
  else QPResult true (fun _ => 1) (fun _ => false) [].
Definition ex29_history : list operation :=
  [OSolve ex29_qr ex29_qp; OConstrain ex29_impossible; OSolve ex29_qr ex29_qp].

Definition ex29_final (ig : integrator) : system :=
  match run 1 (System ex29_pb ig) ex29_history with Some s => s | None => System ex29_pb ig end.
Lemma ex29_run ig : exists w v', let s := ex29_final ig in
  run 1 (System ex29_pb ig) ex29_history = Some s /\ sys_ig s = ig /\
  vlen (p_x (sys_pb s)) = 2%nat /\ vat (p_x (sys_pb s)) 0%nat = 1 /\
  p_vars (sys_pb s) = [w; v'] /\ k_start v' = 1%nat /\ k_end v' = 2%nat /\ v_version v' = 1%nat /\
  vlen (v_value v') = 1%nat /\ (forall i, vat (v_value v') i = 0) /\ (forall i, vat (v_value w) i = 0).
Proof.
  exists (nth 0 (p_vars (sys_pb (ex29_final ig))) ex29_v), (nth 1 (p_vars (sys_pb (ex29_final ig))) ex29_v). cbv zeta.
  split.
  { assert (H : match run 1 (System ex29_pb ig) ex29_history with Some _ => true | None => false end = true)
      by (lazy; reflexivity).
    unfold ex29_final. destruct (run _ _ _); [reflexivity|discriminate]. }
  split; [lazy; reflexivity|]. split; [lazy; reflexivity|]. split; [lazy; reflexivity|].
  split.
  { assert (H : length (p_vars (sys_pb (ex29_final ig))) = 2%nat) by (lazy; reflexivity).
    destruct (p_vars _) as [|a [|b [|]]]; try discriminate H. reflexivity. }
  split; [lazy; reflexivity|]. split; [lazy; reflexivity|]. split; [lazy; reflexivity|]. split; [lazy; reflexivity|].
  split; intros i; lazy; reflexivity.
Qed.

Theorem C29_failed_solve_refuted :
  exists mexp pb sizes ref v X0 M dt ig m f0 h s v' ig' tr x,
    exp_correct mexp /\ reachable pb sizes /\ nth_error (p_vars pb) ref = Some v /\ v_version v = 0%nat /\
    new_integrator mexp v X0 M dt = Ok ig /\ denotes X0 (mrows M - 1) m f0 /\ (m <= p_n pb)%nat /\
    run ref (System pb ig) h = Some s /\ keeps_start h /\
    nth_error (p_vars (sys_pb s)) ref = Some v' /\ get_trajectory (sys_ig s) v' (p_x (sys_pb s)) = Ok (ig', tr) /\
    agrees (sys_pb s) x /\ ~ trajectory_of mexp M dt (ig_start ig) (var_size v) (vat (v_value v')) (f0 x) tr.
Proof.
  destruct (new_integrator_built ex_mexp ex29_v ex29_X0 (upper_shift_matrix 1) 1 eq_refl ltac:(cbn; lia))
    as (ig & E & B & S & V).
  assert (O : ig_order ig = 1%nat) by (pose proof (b_order _ _ _ _ _ _ B) as O; cbn in O; lia).
  assert (D : denotes ex29_X0 1 1 (fun x _ => x 0%nat)).
  { apply denotes_intro; try reflexivity. intros x i Hi. unfold ev. cbn. ring. }
  destruct (ex29_run ig) as (w & v' & Er & Ei & Lx & Ex & Ev & K1 & K2 & Vv & Lv & V0 & W0).
  set (s := ex29_final ig) in *. clearbody s.
  destruct (update_trajectory_spec ex_mexp ex29_v ex29_X0 (upper_shift_matrix 1) 1 ig v' (p_x (sys_pb s)) 1
    (fun x _ => x 0%nat) B) as (ig' & U & _ & _ & _ & _ & T).
  - rewrite O. exact D.
  - rewrite Vv. discriminate.
  - rewrite V, Vv. discriminate.
  - unfold var_size. rewrite Lv, K1, K2. reflexivity.
  - rewrite Lx. lia.
  - exists ex_mexp, ex29_pb, [1%nat; 1%nat], 1%nat, ex29_v, ex29_X0, (upper_shift_matrix 1), 1, ig, 1%nat, (fun x _ => x 0%nat),
      ex29_history, s, v', ig', (ig_traj ig'), (fun _ => 0).
    split; [exact exp_correct_witness|].
    split; [apply (reach_variable (fst (add_variable new_problem 1)) [1%nat]), (reach_variable new_problem []), reach_new|].
    split; [reflexivity|]. split; [reflexivity|]. split; [exact E|]. split; [exact D|]. split; [cbn; lia|].
    split; [exact Er|]. split; [intros o [<-|[<-|[<-|[]]]]; exact I|]. split; [rewrite Ev; reflexivity|].
    split; [unfold get_trajectory; rewrite Ei, U; reflexivity|].
    split; [intros z i Hz Hi; rewrite Ev in Hz; destruct Hz as [<-|[<-|[]]]; [now rewrite W0|now rewrite V0]|].
    intros (_ & _ & _ & T4 & _ & _ & _ & T8). destruct T as (_ & _ & _ & _ & _ & _ & _ & T8').
    destruct (T8 0%nat ltac:(lia)) as (X & HX & _ & VX). destruct (T8' 0%nat ltac:(lia)) as (X' & HX' & _ & VX').
    rewrite HX in HX'. injection HX' as <-. cbn in T4. specialize (VX 0%nat ltac:(lia)). specialize (VX' 0%nat ltac:(lia)).
    cbn [simulate] in VX, VX'. rewrite Ex in VX'. lra.
Qed.
Print Assumptions C29_failed_solve_refuted.

(** The other one: a write of t_start after a query is ignored until the next solve. *)
Theorem C29_start_behaviour ig v x ig' tr t :
  get_trajectory ig v x = Ok (ig', tr) -> tr_start tr = ig_start ig' ->
  get_trajectory (set_t_start ig' t) v x = Ok (set_t_start ig' t, tr) /\
  (t <> ig_start ig' -> tr_start tr <> ig_start (set_t_start ig' t)).
Proof.
  intros H Hs. split; [|intros Ht; cbn; congruence]. unfold get_trajectory, update_trajectory in *.
  destruct (Nat.eqb_spec (v_version v) 0) as [Hz|Hz]; [discriminate|].
  destruct (Nat.eqb_spec (ig_version ig) (v_version v)) as [E|E].
  - cbn in H. injection H as <- <-. cbn [set_t_start ig_version]. rewrite E, Nat.eqb_refl. reflexivity.
  - destruct (value _ _); try discriminate. cbn [obind] in H. destruct (keyframe_loop _ _ _ _ _ _); try discriminate.
    cbn [obind] in H. injection H as <- <-. cbn [set_t_start ig_version]. rewrite Nat.eqb_refl. reflexivity.
Qed.
Print Assumptions C29_start_behaviour.

(** The histories of the partial theorem include this one: solve, query, solve again, query. *)
Definition ex29_good : list operation := [OSolve ex29_qr ex29_qp; OQuery; OSolve ex29_qr ex29_qp; OQuery].
Definition ex29_ig : integrator :=
  match new_integrator ex_mexp ex29_v ex29_X0 (upper_shift_matrix 1) 1 with
  | Ok ig => ig
  | _ => Integrator ex29_X0 (upper_shift_matrix 1) 1 1 0 (upper_shift_matrix 1) (Vec 0 (fun _ => 0))
           (fun _ _ => 0) [] 0 0 (Trajectory (Vec 0 (fun _ => 0)) (upper_shift_matrix 1) [] 0 0 0)
  end.
Definition ex29_sys : system := System ex29_pb (set_t_start ex29_ig 2).
Definition ex29_good_final : system := match run 1 ex29_sys ex29_good with Some s => s | None => ex29_sys end.
Example C29_witness :
  reachable ex29_pb [1%nat; 1%nat] /\ nth_error (p_vars ex29_pb) 1 = Some ex29_v /\ v_version ex29_v = 0%nat /\
  new_integrator ex_mexp ex29_v ex29_X0 (upper_shift_matrix 1) 1 = Ok ex29_ig /\
  denotes ex29_X0 (mrows (upper_shift_matrix 1) - 1) 1 (fun x _ => x 0%nat) /\ (1 <= p_n ex29_pb)%nat /\
  run 1 ex29_sys ex29_good = Some ex29_good_final /\ solves_succeed 1 ex29_sys ex29_good /\ keeps_start ex29_good /\
  successes 1 ex29_sys ex29_good = 2%nat.
Proof.
  split; [apply (reach_variable (fst (add_variable new_problem 1)) [1%nat]), (reach_variable new_problem []), reach_new|].
  split; [reflexivity|]. split; [reflexivity|].
  split; [reflexivity|].
  split; [apply denotes_intro; try reflexivity; intros x i Hi; unfold ev; cbn; ring|]. split; [cbn; lia|].
  split.
  { assert (H : match run 1 ex29_sys ex29_good with Some _ => true | None => false end = true) by (lazy; reflexivity).
    unfold ex29_good_final. destruct (run _ _ _); [reflexivity|discriminate]. }
  split; [lazy; tauto|]. split; [intros o [<-|[<-|[<-|[<-|[]]]]]; exact I|]. lazy. reflexivity.
Qed.

(** ** C85 *)

(** Inside each step the trajectory solves the differential equation dX = M [X; u] with the input held, exactly. *)
Theorem C85_differential_equation mexp M dt t0 n u x0 tr :
  exp_correct mexp -> mrows M = mcols M -> 0 < dt -> (0 < n)%nat -> trajectory_of mexp M dt t0 n u x0 tr ->
  let order := (mrows M - 1)%nat in
  (forall j, (j <= order)%nat -> mat_at M order j = 0) ->
  exists X : nat -> R -> R,
    (forall d t, (d < order)%nat -> traj_value mexp tr t (Z.of_nat d) = Ok (X d t)) /\
    forall d t k, (d < order)%nat -> (k < n)%nat -> t0 + INR k * dt < t < t0 + INR (S k) * dt ->
      derivable_pt_lim (X d) t (Rsum order (fun j => mat_at M d j * X j t) + mat_at M d order * u k).
Proof.
  intros He HM Hdt Hn Ht order Hlast. pose proof Ht as (_ & _ & _ & HO & _).
  assert (HO' : tr_order tr = order) by (unfold order; lia).
  exists (glued mexp M dt t0 n u x0 tr). split.
  - intros d t Hd. apply (glued_value mexp M dt t0 n u x0 tr He HM Ht Hdt Hn). lia.
  - intros d t k Hd Hk H. rewrite <- HO'.
    apply (glued_derive mexp M dt t0 n u x0 tr He HM Ht Hdt Hn d t k); [lia|exact Hk|lra|].
    rewrite HO'. exact Hlast.
Qed.
Print Assumptions C85_differential_equation.

(** ** C86 *)

(** With the constructor taking an order: value(t, d + 1) is the derivative of value(t, d), up to the input itself. *)
Theorem C86_derivatives mexp order dt t0 n u x0 tr :
  exp_correct mexp -> 0 < dt -> (0 < n)%nat -> trajectory_of mexp (upper_shift_matrix order) dt t0 n u x0 tr ->
  exists X : nat -> R -> R,
    (forall d t, (d <= order)%nat -> traj_value mexp tr t (Z.of_nat d) = Ok (X d t)) /\
    forall d t k, (d < order)%nat -> (k < n)%nat -> t0 + INR k * dt < t < t0 + INR (S k) * dt ->
      derivable_pt_lim (X d) t (X (S d) t).
Proof.
  intros He Hdt Hn Ht.
  destruct (C85_differential_equation mexp (upper_shift_matrix order) dt t0 n u x0 tr He eq_refl Hdt Hn Ht)
    as (X & HX & HD).
  { intros j Hj. cbn in *. rewrite Nat.sub_0_r in *. destruct (Nat.eqb_spec j (S order)); [lia|reflexivity]. }
  cbn [upper_shift_matrix mrows] in HX, HD. rewrite Nat.sub_succ, Nat.sub_0_r in HX, HD.
  destruct (C27_inputs mexp (upper_shift_matrix order) dt t0 n u x0 tr eq_refl Hdt Hn Ht) as (U1 & U2 & U3 & _).
  cbn [upper_shift_matrix mrows] in U1, U2, U3. rewrite Nat.sub_succ, Nat.sub_0_r in U1, U2, U3.
  exists (fun d t => if Nat.ltb d order then X d t
                     else match traj_value mexp tr t (Z.of_nat d) with Ok y => y | _ => 0 end).
  split.
  - intros d t Hd. destruct (Nat.ltb_spec d order) as [L|L]; [now apply HX|]. assert (d = order) as -> by lia.
    destruct (time_cases (upper_shift_matrix order) dt t0 n tr eq_refl Hn t) as [H|[(k & Hk & H)|H]].
    + now rewrite U1.
    + rewrite (U2 t k Hk) by lra. reflexivity.
    + rewrite U3 by lra. reflexivity.
  - intros d t k Hd Hk H.
    apply (dlim_ext_loc (X d) _ t _ 1 ltac:(lra)).
    { intros y _. destruct (Nat.ltb_spec d order); [reflexivity|lia]. }
    specialize (HD d t k Hd Hk H). cbn [upper_shift_matrix mat_at] in HD.
    match type of HD with derivable_pt_lim _ _ ?a => match goal with |- derivable_pt_lim _ _ ?b => replace b with a; [exact HD|] end end.
    destruct (Nat.ltb_spec (S d) order) as [L|L].
    + rewrite (Rsum_delta order (S d)); [rewrite Nat.eqb_refl|exact L|].
      * destruct (Nat.eqb_spec order (S d)); [lia|ring].
      * intros j Hj Hne. destruct (Nat.eqb_spec j (S d)); [contradiction|ring].
    + assert (S d = order) as E by lia. rewrite E, (U2 t k Hk) by lra.
      rewrite Nat.eqb_refl, Rsum_zero_ext; [ring|]. intros j Hj. destruct (Nat.eqb_spec j order); [lia|ring].
Qed.
Print Assumptions C86_derivatives.

(** ... and inside a step it is the Taylor polynomial of the state at the start of the step. *)
Theorem C86_taylor mexp order dt t0 n u x0 tr :
  exp_correct mexp -> 0 < dt -> (0 < n)%nat -> trajectory_of mexp (upper_shift_matrix order) dt t0 n u x0 tr ->
  let M := upper_shift_matrix order in
  let state := simulate order (discrete_A mexp M dt) (discrete_B mexp M dt) u x0 in
  forall d k tau, (d < order)%nat -> (k < n)%nat -> 0 <= tau < dt ->
    traj_value mexp tr (t0 + INR k * dt + tau) (Z.of_nat d) =
    Ok (Rsum (order - d) (fun j => tau ^ j / INR (fact j) * state k (d + j)%nat) +
        tau ^ (order - d) / INR (fact (order - d)) * u k).
Proof.
  intros He Hdt Hn Ht M state d k tau Hd Hk Htau. pose proof Ht as (_ & _ & _ & HO & _).
  assert (HO' : tr_order tr = order) by (cbn in HO; lia).
  rewrite (value_inside mexp M dt t0 n u x0 tr eq_refl Ht Hdt Hn _ k d Hk); [|rewrite S_INR; lra|lia].
  f_equal. replace (t0 + INR k * dt + tau - t0 - INR k * dt) with tau by ring. rewrite HO'. unfold sim_t. rewrite HO'.
  fold state.
  destruct (C25_chain_of_integrators mexp order tau He) as [HA HB]. fold M in HA, HB.
  unfold discrete_A in HA. unfold discrete_B in HB. cbn [M upper_shift_matrix mrows] in HB.
  rewrite Nat.sub_succ, Nat.sub_0_r in HB. fold M in HB. unfold flow. rewrite HB by exact Hd. f_equal.
  replace order with (d + (order - d))%nat at 1 by lia. rewrite Rsum_split, Rsum_zero_ext.
  - rewrite Rplus_0_l. apply Rsum_ext. intros j Hj. rewrite HA by lia.
    replace (Nat.leb d (d + j)) with true by (symmetry; apply Nat.leb_le; lia).
    now replace (d + j - d)%nat with j by lia.
  - intros j Hj. rewrite HA by lia. replace (Nat.leb d j) with false by (symmetry; apply Nat.leb_gt; lia). ring.
Qed.
Print Assumptions C86_taylor.

(** ** C87 *)

(** What expr_t returns at any time: with s the step containing t, clamped to the horizon, the flow from the state at
    step s over the remaining time, which is negative before the horizon and longer than a step after it. A derivative
    above the order is read out of range; one below -1 is taken for -1. *)
Theorem C87_expr_t_behaviour mexp v X0 M dt ig m f0 t :
  (k_start v <= k_end v)%nat -> dt <> 0 -> (0 < var_size v)%nat ->
  new_integrator mexp v X0 M dt = Ok ig -> denotes X0 (mrows M - 1) m f0 ->
  let order := (mrows M - 1)%nat in
  exists s, (s < var_size v)%nat /\
    Z.of_nat s = Z.max (Z.min (Z.of_nat (var_size v) - 1) (Ztrunc (t / dt))) 0 /\
    let reached := fun x => flow mexp M order
      (simulate order (discrete_A mexp M dt) (discrete_B mexp M dt) (inputs v x) (f0 x) s) (inputs v x s) (t - INR s * dt) in
    (exists e, ig_expr_t mexp ig v t (-1) = Ok e /\ denotes e order (Nat.max (k_end v) m) reached) /\
    (forall d, (d < order)%nat ->
       exists e, ig_expr_t mexp ig v t (Z.of_nat d) = Ok e /\
         denotes e 1 (Nat.max (k_end v) m) (fun x _ => reached x d)) /\
    (exists e, ig_expr_t mexp ig v t (Z.of_nat order) = Ok e /\ denotes e 1 (k_end v) (fun x _ => inputs v x s)) /\
    (forall d : Z, (d > Z.of_nat order)%Z -> ig_expr_t mexp ig v t d = UB) /\
    (forall d : Z, (d < -1)%Z -> ig_expr_t mexp ig v t d = ig_expr_t mexp ig v t (-1)).
Proof.
  intros Hv Hdt Hn Hi D order. apply new_integrator_inv in Hi. destruct Hi as (B & S0 & _).
  pose proof (b_order _ _ _ _ _ _ B) as HO. assert (HO' : ig_order ig = order) by (unfold order; lia).
  fold order in D. rewrite <- HO' in D.
  set (s := Z.to_nat (Z.max (Z.min (Z.of_nat (var_size v) - 1) (Ztrunc (t / dt))) 0)).
  assert (Es : Z.of_nat s = Z.max (Z.min (Z.of_nat (var_size v) - 1) (Ztrunc (t / dt))) 0) by (unfold s; lia).
  exists s. split; [lia|]. split; [exact Es|]. intros reached.
  destruct (expr_t_generic mexp v X0 M dt ig B Hv m f0 D t s ltac:(lia) Hdt) as (G1 & G2 & G3 & G4 & G5).
  { rewrite S0, Rminus_0_r. symmetry. exact Es. }
  replace (Nat.max (Nat.max (k_end v) m) (k_end v)) with (Nat.max (k_end v) m) in G1, G2 by lia.
  unfold sim_x in G1, G2. rewrite HO', S0, Rminus_0_r in *.
  split; [exact G1|]. split; [exact G2|]. split; [exact G3|]. split; [exact G4|exact G5].
Qed.
Print Assumptions C87_expr_t_behaviour.

Theorem C87_expr_t_checks_refuted :
  exists mexp v X0 M dt ig m f0,
    exp_correct mexp /\ (k_start v <= k_end v)%nat /\ 0 < dt /\ (0 < var_size v)%nat /\
    new_integrator mexp v X0 M dt = Ok ig /\ denotes X0 (mrows M - 1) m f0 /\
    exists t d, ig_expr_t mexp ig v t d = UB.
Proof.
  destruct C25_witness as (H1 & H2 & H3 & ig & H4).
  exists ex_mexp, ex_var, ex_X0, (upper_shift_matrix 2), (1 / 2), ig, 2%nat, (fun x i => x i).
  split; [exact exp_correct_witness|]. split; [exact H1|]. split; [lra|]. split; [rewrite H2; lia|]. split; [exact H4|].
  split; [exact H3|]. exists 0, 3%Z.
  destruct (C87_expr_t_behaviour ex_mexp ex_var ex_X0 (upper_shift_matrix 2) (1 / 2) ig 2 (fun x i => x i) 0 H1
    ltac:(lra) ltac:(rewrite H2; lia) H4 H3) as (s & _ & _ & _ & _ & _ & U & _).
  apply U. cbn. lia.
Qed.
Print Assumptions C87_expr_t_checks_refuted.

(** The supported derivatives are always answered. *)
Theorem C87_expr_t_checks_partial mexp v X0 M dt ig m f0 t (d : Z) :
  (k_start v <= k_end v)%nat -> dt <> 0 -> (0 < var_size v)%nat ->
  new_integrator mexp v X0 M dt = Ok ig -> denotes X0 (mrows M - 1) m f0 ->
  (-1 <= d <= Z.of_nat (mrows M - 1))%Z -> exists e, ig_expr_t mexp ig v t d = Ok e.
Proof.
  intros Hv Hdt Hn Hi D Hd.
  destruct (C87_expr_t_behaviour mexp v X0 M dt ig m f0 t Hv Hdt Hn Hi D) as (s & _ & _ & (e1 & G1 & _) & G2 & (e3 & G3 & _) & _).
  destruct (Z.eq_dec d (-1)) as [->|]; [eauto|]. destruct (Z.eq_dec d (Z.of_nat (mrows M - 1))) as [->|]; [eauto|].
  destruct (G2 (Z.to_nat d) ltac:(lia)) as (e & E & _). rewrite Z2Nat.id in E by lia. eauto.
Qed.
Print Assumptions C87_expr_t_checks_partial.
