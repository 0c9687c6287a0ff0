(** Lemmas about the model of the LIPM. *)
From Coq Require Import Reals Lra Lia List ZArith Bool.
From Coquelicot Require Derive.
From Verif Require Import Base Linalg Expression_model Expression_spec Expression_proofs Problem_model Problem_spec Problem_proofs
  Integrator_model Integrator_spec Integrator_proofs Integrator_proofs2 Integrator_proofs3 Integrator_props Swing_model Lipm_model Lipm_spec.
Import ListNotations.
Open Scope R_scope.

Notation shift3 := (upper_shift_matrix 3).

(** The integrator of order 3 is the point moved by its jerk. *)
Lemma simulate_jerk mexp dt u x0 k : exp_correct mexp -> forall d, (d < 3)%nat ->
  simulate 3 (discrete_A mexp shift3 dt) (discrete_B mexp shift3 dt) u x0 k d = jerk_run dt u x0 k d.
Proof.
  intros He. destruct (C25_chain_of_integrators mexp 3 dt He) as [HA HB].
  induction k as [|k IH]; intros d Hd; [reflexivity|]. cbn [simulate jerk_run Rsum].
  rewrite !IH by lia. rewrite HB by lia. rewrite !HA by lia.
  destruct d as [|[|[|d]]]; [| | |lia]; cbn [Nat.leb Nat.sub pow fact INR Nat.mul Nat.add]; field.
Qed.

Lemma jerk_run_ext dt u u' s s' k : (forall i, (i < k)%nat -> u i = u' i) -> (forall d, (d < 3)%nat -> s d = s' d) ->
  forall d, (d < 3)%nat -> jerk_run dt u s k d = jerk_run dt u' s' k d.
Proof.
  revert u u' s s'. induction k as [|k IH]; intros u u' s s' Hu Hs d Hd; cbn [jerk_run]; [auto|].
  assert (E : forall d, (d < 3)%nat -> jerk_run dt u s k d = jerk_run dt u' s' k d) by (apply IH; auto).
  rewrite (E 0%nat), (E 1%nat), (E 2%nat), (Hu k) by lia. reflexivity.
Qed.

Lemma built_range mexp v v' X0 M dt ig : var_size v' = var_size v -> built mexp v X0 M dt ig -> built mexp v' X0 M dt ig.
Proof. intros E []. constructor; try assumption. congruence. Qed.

(** What is known of one axis of a LIPM. *)
Definition axis_inv (mexp : mat -> mat) (pb : problem) (ref : nat) (ig : integrator) (dt : R) (n : nat) (t : R) (S : states) (U : jerks) : Prop :=
  exists v X0 m f0, nth_error (p_vars pb) ref = Some v /\ (k_start v <= k_end v)%nat /\ var_size v = n /\ (k_end v <= p_n pb)%nat /\
    (m <= p_n pb)%nat /\ built mexp v X0 shift3 dt ig /\ denotes X0 3 m f0 /\ ig_start ig = t /\ ig_version ig = 0%nat /\
    (forall x k d, (d < 3)%nat -> S x k d = jerk_run dt (U x) (f0 x) k d) /\ (forall x k, U x k = inputs v x k).

Lemma axis_later mexp pb pb' ref ig dt n t S U : extends pb pb' -> axis_inv mexp pb ref ig dt n t S U -> axis_inv mexp pb' ref ig dt n t S U.
Proof.
  intros [Hn He] (v & X0 & m & f0 & H1 & H2 & H3 & H4 & H5 & H6 & H7 & H8 & H9 & H10 & H11).
  destruct (He _ _ H1) as (v' & E1 & E2 & E3). exists v', X0, m, f0.
  assert (Z : var_size v' = var_size v) by (unfold var_size; congruence).
  split; [exact E1|]. split; [lia|]. split; [congruence|]. split; [lia|]. split; [lia|]. split; [now apply built_range with v|].
  split; [exact H7|]. split; [exact H8|]. split; [exact H9|]. split; [exact H10|].
  intros x k. rewrite H11. unfold inputs. now rewrite E2.
Qed.

Lemma extends_refl pb : extends pb pb.
Proof. split; [lia|]. eauto. Qed.
Lemma extends_trans a b c : extends a b -> extends b c -> extends a c.
Proof.
  intros [N1 E1] [N2 E2]. split; [lia|]. intros i v H. destruct (E1 i v H) as (v1 & F1 & G1 & K1).
  destruct (E2 i v1 F1) as (v2 & F2 & G2 & K2). exists v2. split; [exact F2|]. split; congruence.
Qed.
Lemma extends_variable pb n : extends pb (fst (add_variable pb n)).
Proof.
  split; [cbn; lia|]. intros i v H. exists v. cbn. split; [|auto]. rewrite nth_error_app1; [exact H|]. apply nth_error_Some. congruence.
Qed.
Lemma extends_cons pb c : extends pb (add_constraint pb c).
Proof. split; [cbn; lia|]. cbn. eauto. Qed.
Lemma extends_solve pb qr qp pb' r : solve pb qr qp = (pb', r) -> r <> UB -> extends pb pb'.
Proof.
  intros H Hr. destruct (solve_x pb qr qp pb' r H Hr) as (N & [(_ & U & _)|(_ & V & _)]); (split; [lia|]).
  - intros i v E. destruct (Forall2_nth _ _ _ _ _ U E) as (v' & E' & ((A & B) & _)). eauto.
  - rewrite V. eauto.
Qed.

Lemma integrator_order3 mexp v X0 dt : rows X0 = 3%nat -> exists ig, new_integrator_order mexp v X0 3 dt = Ok ig /\
  built mexp v X0 shift3 dt ig /\ ig_start ig = 0 /\ ig_version ig = 0%nat.
Proof.
  intros H. destruct (C25_constructor_order mexp v X0 3 dt) as [C _]. destruct (C H) as (ig & E1 & E2).
  exists ig. split; [exact E1|]. exact (new_integrator_inv _ _ _ _ _ _ E2).
Qed.

Lemma nth_error_at {A} (l : list A) a : nth_error (l ++ [a]) (length l) = Some a.
Proof. rewrite nth_error_app2 by lia. now rewrite Nat.sub_diag. Qed.

(** An axis just built on the last variable of the problem. *)
Lemma axis_fresh mexp pb n X0 m f0 dt t ig : built mexp (snd (add_variable pb n)) X0 shift3 dt ig -> ig_version ig = 0%nat ->
  denotes X0 3 m f0 -> (m <= p_n pb)%nat ->
  axis_inv mexp (fst (add_variable pb n)) (length (p_vars pb)) (set_t_start ig t) dt n t
    (fun x => jerk_run dt (fun k => x (p_n pb + k)%nat) (f0 x)) (fun x k => x (p_n pb + k)%nat).
Proof.
  intros B V D Hm. exists (snd (add_variable pb n)), X0, m, f0. cbn [add_variable fst snd p_vars p_n set_vars k_start k_end].
  split; [apply nth_error_at|]. split; [lia|]. split; [unfold var_size; cbn; lia|]. split; [lia|]. split; [lia|].
  split; [now apply built_set_start|]. split; [exact D|]. split; [reflexivity|]. split; [exact V|]. split; [reflexivity|]. reflexivity.
Qed.

(** ** Expressions of one axis *)

Section Axis.
Variables (mexp : mat -> mat) (pb : problem) (ref : nat) (ig : integrator) (dt : R) (n : nat) (t : R) (S : states) (U : jerks).
Hypothesis He : exp_correct mexp.
Hypothesis H : axis_inv mexp pb ref ig dt n t S U.

Lemma axis_exprs : exists v, nth_error (p_vars pb) ref = Some v /\ 
  (forall k, (k <= n)%nat -> exists e m, ig_expr ig v (Z.of_nat k) (-1) = Ok e /\ (m <= p_n pb)%nat /\ denotes e 3 m (fun x i => S x k i)) /\
  (forall k d, (k <= n)%nat -> (d < 3)%nat -> exists e m, ig_expr ig v (Z.of_nat k) (Z.of_nat d) = Ok e /\ (m <= p_n pb)%nat /\ denotes e 1 m (fun x _ => S x k d)) /\
  (forall k, (k < n)%nat -> exists e m, ig_expr ig v (Z.of_nat k) 3 = Ok e /\ (m <= p_n pb)%nat /\ denotes e 1 m (fun x _ => U x k)) /\
  (forall d, ig_expr ig v (-1) d = ig_expr ig v (Z.of_nat n) d) /\
  ig_expr ig v (Z.of_nat n) 3 = UB.
Proof.
  destruct H as (v & X0 & m & f0 & H1 & H2 & H3 & H4 & H5 & H6 & H7 & H8 & H9 & H10 & H11).
  pose proof (b_order _ _ _ _ _ _ H6) as HO. cbn in HO. assert (HO' : ig_order ig = 3%nat) by lia.
  assert (D : denotes X0 (ig_order ig) m f0) by (rewrite HO'; exact H7).
  exists v. split; [exact H1|].
  assert (Sim : forall x k d, (d < 3)%nat -> sim_x mexp v shift3 dt ig f0 x k d = S x k d).
  { intros x k d Hd. unfold sim_x. rewrite HO', simulate_jerk by auto. rewrite H10 by auto. apply jerk_run_ext; [intros i _; symmetry; apply H11|auto|exact Hd]. }
  split; [|split; [|split; [|split]]].
  - intros k Hk. destruct (expr_state mexp v X0 shift3 dt ig H6 H2 m f0 D k ltac:(lia)) as (e & E & De). exists e, (Nat.max (k_end v) m).
    split; [exact E|]. split; [lia|]. rewrite HO' in De. eapply denotes_ext; [|exact De]. intros x i Hi. now apply Sim.
  - intros k d Hk Hd. destruct (expr_component mexp v X0 shift3 dt ig H6 H2 m f0 D k d ltac:(lia) ltac:(lia)) as (e & E & De). exists e, (Nat.max (k_end v) m).
    split; [exact E|]. split; [lia|]. eapply denotes_ext; [|exact De]. intros x i _. now apply Sim.
  - intros k Hk. destruct (expr_input v ig H2 k ltac:(lia)) as (e & E & De). exists e, (k_end v). rewrite HO' in E.
    split; [exact E|]. split; [lia|]. eapply denotes_ext; [|exact De]. intros x i _. symmetry. apply H11.
  - intros d. rewrite expr_last by exact H2. now rewrite H3.
  - pose proof (expr_ub v ig H2) as E. rewrite HO', H3 in E. exact E.
Qed.
End Axis.

(** The same combination of one or two of these expressions for both axes. *)
Lemma both_stands pb l v w f e1 e2 m1 m2 g1 g2 : nth_error (p_vars pb) (lp_xv l) = Some v -> nth_error (p_vars pb) (lp_yv l) = Some w ->
  f (lp_x l) v = Ok e1 -> f (lp_y l) w = Ok e2 -> (m1 <= p_n pb)%nat -> (m2 <= p_n pb)%nat ->
  denotes e1 1 m1 (fun x _ => g1 x) -> denotes e2 1 m2 (fun x _ => g2 x) -> stands_for pb (both pb l f) g1 g2.
Proof.
  intros Hv Hw E1 E2 M1 M2 D1 D2. unfold both, deref. rewrite Hv, Hw, E1, E2. cbn [obind].
  destruct (e_stack_denotes _ _ _ _ _ _ _ _ D1 D2) as (r & E & D). exists r, (Nat.max m1 m2). split; [exact E|]. split; [lia|].
  eapply denotes_ext; [|exact D]. intros x [|i] Hi; reflexivity.
Qed.

Definition lipm_inv (mexp : mat -> mat) (pb : problem) (l : lipm) (Sx Sy : states) (Ux Uy : jerks) : Prop :=
  axis_inv mexp pb (lp_xv l) (lp_x l) (lp_dt l) (lp_timesteps l) (lp_start l) Sx Ux /\
  axis_inv mexp pb (lp_yv l) (lp_y l) (lp_dt l) (lp_timesteps l) (lp_start l) Sy Uy.

Lemma new_lipm_ok mexp pb dt n t p v a : exists pb' l, new_lipm mexp pb dt n t p v a = Ok (pb', l) /\
  pb' = fst (add_variable (fst (add_variable pb n)) n) /\ lp_dt l = dt /\ lp_timesteps l = n /\ lp_start l = t /\
  lipm_inv mexp pb' l (fun x => jerk_run dt (fun k => x (p_n pb + k)%nat) (fun d => nth d [fst p; fst v; fst a] 0))
    (fun x => jerk_run dt (fun k => x (p_n pb + n + k)%nat) (fun d => nth d [snd p; snd v; snd a] 0))
    (fun x k => x (p_n pb + k)%nat) (fun x k => x (p_n pb + n + k)%nat).
Proof.
  unfold new_lipm. destruct (add_variable pb n) as [pb1 xv] eqn:A1. destruct (add_variable pb1 n) as [pb2 yv] eqn:A2.
  destruct (integrator_order3 mexp xv (from_vector (vec_of [fst p; fst v; fst a])) dt eq_refl) as (x & Ex & Bx & Sx & Vx).
  destruct (integrator_order3 mexp yv (from_vector (vec_of [snd p; snd v; snd a])) dt eq_refl) as (y & Ey & By & Sy & Vy).
  rewrite Ex, Ey. cbn [obind]. eexists. eexists. split; [reflexivity|]. cbn [lp_dt lp_timesteps lp_start fst].
  split; [now rewrite A2|]. split; [reflexivity|]. split; [reflexivity|]. split; [reflexivity|].
  replace xv with (snd (add_variable pb n)) in * by (now rewrite A1). replace pb1 with (fst (add_variable pb n)) in * by (now rewrite A1).
  replace yv with (snd (add_variable (fst (add_variable pb n)) n)) in * by (now rewrite A2).
  replace pb2 with (fst (add_variable (fst (add_variable pb n)) n)) in * by (now rewrite A2).
  split; cbn [lp_dt lp_timesteps lp_start lp_xv lp_yv lp_x lp_y].
  - apply axis_later with (fst (add_variable pb n)); [apply extends_variable|].
    apply (axis_fresh mexp pb n _ 0 _ dt t x Bx Vx (from_vector_denotes (vec_of [fst p; fst v; fst a]))). lia.
  - apply (axis_fresh mexp (fst (add_variable pb n)) n _ 0 _ dt t y By Vy (from_vector_denotes (vec_of [snd p; snd v; snd a]))). lia.
Qed.

Lemma new_lipm_from_ok mexp pb dt n t prev Sx Sy Ux Uy : exp_correct mexp -> lipm_inv mexp pb prev Sx Sy Ux Uy ->
  exists pb' l, new_lipm_from mexp pb dt n t prev = Ok (pb', l) /\
  pb' = fst (add_variable (fst (add_variable pb n)) n) /\ lp_dt l = dt /\ lp_timesteps l = n /\ lp_start l = t /\
  lipm_inv mexp pb' l (fun x => jerk_run dt (fun k => x (p_n pb + k)%nat) (Sx x (lp_timesteps prev)))
    (fun x => jerk_run dt (fun k => x (p_n pb + n + k)%nat) (Sy x (lp_timesteps prev)))
    (fun x k => x (p_n pb + k)%nat) (fun x k => x (p_n pb + n + k)%nat).
Proof.
  intros He [Ix Iy]. unfold new_lipm_from. destruct (add_variable pb n) as [pb1 xv] eqn:A1. destruct (add_variable pb1 n) as [pb2 yv] eqn:A2.
  replace xv with (snd (add_variable pb n)) in * by (now rewrite A1). replace pb1 with (fst (add_variable pb n)) in * by (now rewrite A1).
  replace yv with (snd (add_variable (fst (add_variable pb n)) n)) in * by (now rewrite A2).
  replace pb2 with (fst (add_variable (fst (add_variable pb n)) n)) in * by (now rewrite A2). clear A1 A2 xv yv pb1 pb2.
  set (pb2 := fst (add_variable (fst (add_variable pb n)) n)).
  assert (X2 : extends pb pb2) by (eapply extends_trans; apply extends_variable).
  destruct (axis_exprs mexp pb2 _ _ _ _ _ _ _ He (axis_later _ _ _ _ _ _ _ _ _ _ X2 Ix)) as (v & Hv & Fv & _ & _ & Lv & _).
  destruct (axis_exprs mexp pb2 _ _ _ _ _ _ _ He (axis_later _ _ _ _ _ _ _ _ _ _ X2 Iy)) as (w & Hw & Fw & _ & _ & Lw & _).
  (* the expressions only depend on the variables of [pb] *)
  destruct (axis_exprs mexp pb _ _ _ _ _ _ _ He Ix) as (v0 & Hv0 & Fv0 & _ & _ & Lv0 & _).
  destruct (axis_exprs mexp pb _ _ _ _ _ _ _ He Iy) as (w0 & Hw0 & Fw0 & _ & _ & Lw0 & _).
  assert (Ev : v = v0). { unfold pb2 in Hv. cbn in Hv. rewrite !nth_error_app1 in Hv; rewrite ?app_length; try (apply nth_error_Some; congruence); [congruence|].
    assert (lp_xv prev < length (p_vars pb))%nat by (apply nth_error_Some; congruence). cbn. lia. }
  assert (Ew : w = w0). { unfold pb2 in Hw. cbn in Hw. rewrite !nth_error_app1 in Hw; rewrite ?app_length; try (apply nth_error_Some; congruence); [congruence|].
    assert (lp_yv prev < length (p_vars pb))%nat by (apply nth_error_Some; congruence). cbn. lia. }
  subst v0 w0.
  destruct (Fv0 _ (le_n _)) as (ex & mx & Eex & Mx & Dx). destruct (Fw0 _ (le_n _)) as (ey & my & Eey & My & Dy).
  unfold deref. rewrite Hv, Lv, Eex. cbn [obind]. 
  destruct (integrator_order3 mexp (snd (add_variable pb n)) ex dt (proj1 Dx)) as (x & Ex & Bx & _ & Vx). rewrite Ex. cbn [obind].
  rewrite Hw, Lw, Eey. cbn [obind].
  destruct (integrator_order3 mexp (snd (add_variable (fst (add_variable pb n)) n)) ey dt (proj1 Dy)) as (y & Ey & By & _ & Vy). rewrite Ey. cbn [obind].
  eexists. eexists. split; [reflexivity|]. split; [reflexivity|]. split; [reflexivity|]. split; [reflexivity|]. split; [reflexivity|].
  split; cbn [lp_dt lp_timesteps lp_start lp_xv lp_yv lp_x lp_y].
  - apply axis_later with (fst (add_variable pb n)); [apply extends_variable|].
    exact (axis_fresh mexp pb n ex mx _ dt t x Bx Vx Dx Mx).
  - refine (axis_fresh mexp (fst (add_variable pb n)) n ey my _ dt t y By Vy Dy _). cbn. lia.
Qed.

Lemma history_inv mexp pb l Sx Sy Ux Uy : exp_correct mexp -> lipm_history mexp pb l Sx Sy Ux Uy -> lipm_inv mexp pb l Sx Sy Ux Uy.
Proof.
  intros He H. induction H as [pb dt n t p v a pb' l E u w|pb prev Sx Sy Ux Uy dt n t pb' l H IH E u w|pb l Sx Sy Ux Uy pb' H IH X].
  - destruct (new_lipm_ok mexp pb dt n t p v a) as (pb1 & l1 & E1 & _ & _ & _ & _ & I). rewrite E1 in E. injection E as <- <-. exact I.
  - destruct (new_lipm_from_ok mexp pb dt n t prev Sx Sy Ux Uy He IH) as (pb1 & l1 & E1 & _ & _ & _ & _ & I). rewrite E1 in E. injection E as <- <-. exact I.
  - destruct IH as [A B]. split; eapply axis_later; eauto.
Qed.

(** ** Trajectories *)

(** One axis after a successful solve. *)
Lemma axis_trajectory mexp pb qr qp pb' ref ig dt n t S U : exp_correct mexp -> axis_inv mexp pb ref ig dt n t S U ->
  solve pb qr qp = (pb', Ok tt) -> exists v g ig' tr, nth_error (p_vars pb') ref = Some v /\ get_trajectory ig v (p_x pb') = Ok (ig', tr) /\
    trajectory_of mexp shift3 dt t n (U (vat (p_x pb'))) g tr /\
    (forall k d, (d < 3)%nat -> S (vat (p_x pb')) k d = jerk_run dt (U (vat (p_x pb'))) g k d).
Proof.
  intros He (v & X0 & m & f0 & H1 & H2 & H3 & H4 & H5 & H6 & H7 & H8 & H9 & H10 & H11) Hs.
  destruct (solve_x pb qr qp pb' (Ok tt) Hs ltac:(discriminate)) as (N & [(_ & F & L)|(F & _)]); [|congruence].
  destruct (Forall2_nth _ _ _ _ _ F H1) as (v' & E' & ((A & B) & C & D & G)).
  assert (Z : var_size v' = var_size v) by (unfold var_size; congruence).
  pose proof (b_order _ _ _ _ _ _ H6) as HO. cbn in HO. assert (HO' : ig_order ig = 3%nat) by lia.
  destruct (update_trajectory_spec mexp v X0 shift3 dt ig v' (p_x pb') m f0 H6) as (ig' & Eu & Bu & Vu & Su & Ou & T); auto; try lia.
  - now rewrite HO'.
  - exists v', (f0 (vat (p_x pb'))), ig', (ig_traj ig'). split; [exact E'|]. unfold get_trajectory. rewrite Eu. split; [reflexivity|].
    split; [|intros k d Hd; now apply H10]. rewrite H8, Z, H3 in T. eapply trajectory_of_ext; [exact T| |auto].
    intros k Hk. rewrite H11. unfold inputs. rewrite G by lia. reflexivity.
Qed.

Lemma with_start_of mexp M dt t n u x tr : trajectory_of mexp M dt t n u x tr ->
  Trajectory (tr_u tr) (tr_M tr) (tr_keys tr) (tr_order tr) (tr_dt tr) t = tr.
Proof. intros (_ & _ & E & _). destruct tr. cbn in *. now subst. Qed.

(** The functions of time of one axis. *)
Lemma axis_functions mexp dt t0 n u g tr (s : nat -> nat -> R) : exp_correct mexp -> 0 < dt -> (0 < n)%nat ->
  trajectory_of mexp shift3 dt t0 n u g tr -> (forall k d, (d < 3)%nat -> s k d = jerk_run dt u g k d) ->
  exists X : nat -> R -> R,
    (forall t d, (d <= 3)%nat -> traj_value mexp tr t (Z.of_nat d) = Ok (X d t)) /\
    (forall k d, (k <= n)%nat -> (d < 3)%nat -> X d (t0 + INR k * dt) = s k d) /\
    (forall t d, t <= t0 -> (d < 3)%nat -> X d t = s 0%nat d) /\
    (forall t d, t0 + INR n * dt <= t -> (d < 3)%nat -> X d t = s n d) /\
    (forall k t, (k < n)%nat -> t0 + INR k * dt <= t < t0 + INR (S k) * dt -> X 3%nat t = u k) /\
    (forall d, (d < 3)%nat -> continuity (X d)) /\
    (forall d k t, (d < 3)%nat -> (k < n)%nat -> t0 + INR k * dt < t < t0 + INR (S k) * dt -> derivable_pt_lim (X d) t (X (S d) t)).
Proof.
  intros He Hdt Hn T Hs. destruct (C86_derivatives mexp 3 dt t0 n u g tr He Hdt Hn T) as (X & V & D).
  pose proof (C27_keyframes mexp shift3 dt t0 n u g tr He eq_refl Hdt Hn T) as K. cbn [upper_shift_matrix mrows Nat.sub] in K.
  destruct (C27_inputs mexp shift3 dt t0 n u g tr eq_refl Hdt Hn T) as (_ & I & _). cbn [upper_shift_matrix mrows Nat.sub] in I.
  assert (Inj : forall t d y, (d <= 3)%nat -> traj_value mexp tr t (Z.of_nat d) = Ok y -> X d t = y) by (intros t d y Hd E; rewrite V in E by exact Hd; congruence).
  exists X. split; [intros t d Hd; now apply V|]. split; [|split; [|split; [|split; [|split]]]].
  - intros k d Hk Hd. rewrite Hs by exact Hd. apply Inj; [lia|]. destruct (K d ltac:(lia)) as (K1 & _). rewrite K1 by exact Hk. now rewrite simulate_jerk.
  - intros t d Ht Hd. rewrite Hs by exact Hd. apply Inj; [lia|]. destruct (K d ltac:(lia)) as (_ & K2 & _). now rewrite K2.
  - intros t d Ht Hd. rewrite Hs by exact Hd. apply Inj; [lia|]. destruct (K d ltac:(lia)) as (_ & _ & K3). rewrite K3 by exact Ht. now rewrite simulate_jerk.
  - intros k t Hk Ht. apply Inj; [lia|]. now apply I.
  - intros d Hd. destruct (C27_continuous mexp shift3 dt t0 n u g tr He eq_refl Hdt Hn T d ltac:(cbn; lia)) as (f & Ef & Cf).
    intros t. assert (Q : forall t, X d t = f t) by (intros t'; apply Inj; [lia|apply Ef]).
    intros eps Heps. destruct (Cf t eps Heps) as (al & Ha & Hc). exists al. split; [exact Ha|]. intros x Hx. rewrite !Q. now apply Hc.
  - intros d k t Hd Hk Ht. now apply (D d t k).
Qed.

(** A continuous function whose derivative has a continuous extension at [c] is derivable there. *)
Lemma derivative_across f g c e : 0 < e -> continuity f -> continuity_pt g c ->
  (forall t, c - e < t < c -> derivable_pt_lim f t (g t)) -> (forall t, c < t < c + e -> derivable_pt_lim f t (g t)) ->
  derivable_pt_lim f c (g c).
Proof.
  intros He Cf Cg Dl Dr eps Heps. destruct (Cg eps Heps) as (al & Ha & Hg). 
  assert (P : 0 < Rmin (al / 2) (e / 2)) by (apply Rmin_glb_lt; lra). exists (mkposreal _ P). cbn [pos]. intros h Hh Habs.
  pose proof (Rmin_l (al / 2) (e / 2)). pose proof (Rmin_r (al / 2) (e / 2)).
  assert (Ab : Rabs h < al / 2 /\ Rabs h < e / 2) by lra. destruct Ab as [A1 A2]. apply Rabs_def2 in A1, A2.
  destruct (Coquelicot.Derive.MVT_gen f c (c + h) g) as (x & Hx & E).
  - intros x Hx. apply Coquelicot.Derive.is_derive_Reals. destruct (Rle_dec 0 h).
    + rewrite Rmin_left, Rmax_right in Hx by lra. apply Dr. lra.
    + rewrite Rmin_right, Rmax_left in Hx by lra. apply Dl. lra.
  - intros x _. apply Cf.
  - rewrite E. replace (g x * (c + h - c) / h - g c) with (g x - g c) by (field; exact Hh).
    destruct (Req_dec x c) as [->|Hne]; [rewrite Rminus_diag_eq by reflexivity; now rewrite Rabs_R0|].
    apply Hg. split; [split; [exact I|intro; apply Hne; symmetry; assumption]|]. cbn. unfold R_dist.
    destruct (Rle_dec 0 h).
    + rewrite Rmin_left, Rmax_right in Hx by lra. apply Rabs_def1; lra.
    + rewrite Rmin_right, Rmax_left in Hx by lra. apply Rabs_def1; lra.
Qed.

(** ... hence a derivative inside every step, and continuity, are a derivative inside the horizon. *)
Lemma derivative_horizon f g t0 dt n : 0 < dt -> continuity f -> continuity g ->
  (forall k t, (k < n)%nat -> t0 + INR k * dt < t < t0 + INR (S k) * dt -> derivable_pt_lim f t (g t)) ->
  derivative_on f g t0 (t0 + INR n * dt).
Proof.
  intros Hdt Cf Cg D. induction n as [|n IH]; intros t Ht; [cbn in Ht; lra|].
  destruct (Rlt_le_dec t (t0 + INR n * dt)) as [L|L]; [apply IH; [intros k t' Hk; apply D; lia|lra]|].
  destruct (Rle_lt_or_eq_dec _ _ L) as [L'|L']; [apply (D n); [lia|lra]|].
  destruct n as [|n]; [cbn in *; lra|]. rewrite <- L'. apply (derivative_across f g _ dt Hdt Cf (Cg _)).
  - intros s Hs. apply (D n); [lia|]. rewrite !S_INR in *. lra.
  - intros s Hs. apply (D (S n)); [lia|]. rewrite !S_INR in *. lra.
Qed.
