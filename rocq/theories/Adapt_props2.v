(** An example for C159_best_step_partial: a decomposition that keeps the columns of the objective contiguous. *)
From Coq Require Import Reals Lra Lia List ZArith Bool Psatz Classical ClassicalDescription.
From Verif Require Import Base Linalg Geom3 Tools_model Expression_model Expression_spec Expression_proofs Problem_model Problem_spec Problem_proofs
  Problem_proofs2 Problem_proofs3 Problem_props Rewritten_props Backends_proofs Polynom_model Polynom_spec Polynom_props Integrator_model Integrator_props
  Lipm_model Swing_model Geometry_model Footsteps_model Wpg_model Wpg_spec Wpg_proofs2 KinCons_spec Kin_proofs KinCons_proofs WpgPlan_spec WpgPlan_proofs WpgPlan_proofs4 WpgPlan_props
  Adapt_model Adapt_spec Adapt_proofs Adapt_proofs2 Adapt_props.
Import ListNotations.
Open Scope R_scope.

Definition half_root : R := sqrt 2 / 2.
Lemma half_root_sqr : half_root * half_root = 1 / 2.
Proof. unfold half_root. pose proof (sqrt_sqrt 2 ltac:(lra)). replace (sqrt 2 / 2 * (sqrt 2 / 2)) with (sqrt 2 * sqrt 2 / 4) by field. lra. Qed.
Lemma half_root_big : 1 / 2 < half_root.
Proof. unfold half_root. assert (1 < sqrt 2) by (rewrite <- sqrt_1; apply sqrt_lt_1; lra). lra. Qed.

(** The matrix of the dynamics when the DCM is at the ZMP and the foot is not turned, transposed. *)
Definition ex_M (i j : nat) : R := match i, j with 0%nat, 0%nat | 3%nat, 0%nat | 1%nat, 1%nat | 4%nat, 1%nat => 1 | _, _ => 0 end.
Definition ex_Q (i j : nat) : R :=
  match i, j with
  | 0%nat, 0%nat | 3%nat, 0%nat | 1%nat, 1%nat | 4%nat, 1%nat | 0%nat, 3%nat | 1%nat, 4%nat => half_root
  | 3%nat, 3%nat | 4%nat, 4%nat => - half_root
  | 2%nat, 2%nat => 1
  | _, _ => 0
  end.
Definition ex_R (i j : nat) : R := if Nat.eqb i j then 2 * half_root else 0.
Definition is_ex_M (M : mat) : Prop := mrows M = 5%nat /\ mcols M = 2%nat /\ forall i j, (i < 5)%nat -> (j < 2)%nat -> mat_at M i j = ex_M i j.
Definition adapt_qr (M : mat) : qr_result :=
  if excluded_middle_informative (is_ex_M M) then QRResult 2 ex_Q ex_R (fun j => j) else perfect_qr M.

Lemma adapt_qr_correct : qr_correct adapt_qr.
Proof.
  intros M. cbv zeta. unfold adapt_qr. destruct (excluded_middle_informative (is_ex_M M)) as [(Hr & Hc & He)|]; [|exact (perfect_qr_correct M)]. rewrite Hr, Hc. cbn [qr_rank qr_Q qr_R qr_perm]. intros _.
  pose proof half_root_sqr as S2. pose proof half_root_big as B.
  split; [|split; [|split; [|split; [|split; [|split; [|split]]]]]].
  - intros i j Hi Hj. destruct i as [|[|[|[|[|i]]]]]; [| | | | |lia]; destruct j as [|[|[|[|[|j]]]]]; try lia; cbn [Rsum ex_Q Nat.eqb]; lra.
  - intros i j Hi Hj. destruct i as [|[|[|[|[|i]]]]]; [| | | | |lia]; destruct j as [|[|[|[|[|j]]]]]; try lia; cbn [Rsum ex_Q Nat.eqb]; lra.
  - auto.
  - eauto.
  - intros i j Hi Hj. rewrite He by assumption. destruct i as [|[|[|[|[|i]]]]]; [| | | | |lia]; destruct j as [|[|j]]; try lia; cbn [Rsum ex_Q ex_R ex_M Nat.eqb]; lra.
  - intros k j H. unfold ex_R. now rewrite (proj2 (Nat.eqb_neq k j)) by lia.
  - lia.
  - intros j Hj. unfold ex_R. rewrite Nat.eqb_refl. lra.
Qed.
Lemma adapt_qr_never_fails : ~ qr_fails adapt_qr.
Proof.
  intros (M & Hi & Hr). revert Hr. unfold adapt_qr. destruct (excluded_middle_informative (is_ex_M M)) as [(_ & Hc & _)|]; [cbn [qr_rank]; congruence|].
  intros Hr. apply perfect_qr_never_fails. exists M. auto.
Qed.

Definition middle_foot : footstep := create_footstep ex_gait Left (Frame m3_id v3_zero).
Definition middle : support := new_support [middle_foot].
Definition adapt_libs : libs := Libs ex_mexp adapt_qr perfect_qp ex_hull.
Definition middle_zone : list point := rectangle (- (1/5)) (1/5) (1/10) (1/5).

Lemma middle_polygon : snd (support_support_polygon ex_hull middle) = Ok (rectangle (- (1/10)) (1/10) (- (1/20)) (1/20)).
Proof. cbn. apply rectangle_eq. unfold middle_foot, ex_gait, create_footstep, frame_act, m3_vec, v3_add. cbn. repeat split; lra. Qed.
Lemma middle_polygon_ok : polygon_ok (l_hull adapt_libs) middle.
Proof. exists (rectangle (- (1/10)) (1/10) (- (1/20)) (1/20)). split; [exact middle_polygon|]. split; [discriminate|]. intros i A B. apply rectangle_ok; lra. Qed.
Lemma middle_stands : stands_at (l_hull adapt_libs) (g_params (ex_adapt middle_zone)) middle (0, 0).
Proof. exists (rectangle (- (1/10)) (1/10) (- (1/20)) (1/20)). split; [exact middle_polygon|]. apply rectangle_inside; cbn; lra. Qed.

Lemma middle_zmp d : d <> 0 -> get_optimal_zmp adapt_libs (ex_adapt middle_zone) (0, 0) (0, 0) d middle = Ok (0, 0).
Proof.
  intros Hd. pose proof (ex_adapt_omega middle_zone) as Om.
  destruct (C158_optimal_zmp adapt_libs (ex_adapt middle_zone) (0, 0) (0, 0) d middle adapt_qr_correct perfect_qp_correct adapt_qr_never_fails perfect_qp_never_fails middle_polygon_ok ltac:(lra) Hd)
    as (i & _ & U & Y & _).
  assert (Ei : (0, 0) = i) by (apply U, drives_exp; cbn [fst snd]; lra). destruct Y as (z & E & B); [exists (0, 0); exact middle_stands|]. rewrite E. f_equal. rewrite <- Ei in B.
  apply (C158_one_best _ _ _ _ _ _ B). split; [exact middle_stands|]. intros z' _. unfold squared_distance, squared_norm. cbn [fst snd]. rewrite Rminus_0_r, Rsqr_0.
  pose proof (Rle_0_sqr (fst z' - 0)). pose proof (Rle_0_sqr (snd z' - 0)). pose proof (Rle_0_sqr (fst z')). pose proof (Rle_0_sqr (snd z')). lra.
Qed.

Lemma ok_same {A} (x y : A) : Ok x = Ok y -> x = y.
Proof. now intros [=]. Qed.

Lemma middle_contiguous pb a : update_problem adapt_libs (ex_adapt middle_zone) (-1) middle (new_support [ex_right]) (0, 0) = Ok pb -> assemble pb adapt_qr = Ok a ->
  forall c, In c (p_cons pb) -> c_prio c = Soft -> c_type c = Equality -> Problem_spec.contiguous (reduced pb a c).
Proof.
  intros E Ea. set (d := Rmax (1 / 100000) (p_single_support_duration (w_base (g_params (ex_adapt middle_zone))) - (-1 - u_t_start middle))).
  assert (Hd : d <> 0) by (unfold d; pose proof (Rmax_l (1 / 100000) (p_single_support_duration (w_base (g_params (ex_adapt middle_zone))) - (-1 - u_t_start middle))); lra).
  assert (Zn : usable (w_op_space (g_params (ex_adapt middle_zone)))) by (apply rectangle_usable; lra).
  assert (Zd : usable (w_dcm_offset (g_params (ex_adapt middle_zone)))) by (apply rectangle_usable; lra).
  destruct (update_problem_total adapt_libs (ex_adapt middle_zone) (-1) middle (new_support [ex_right]) (0, 0) (0, 0) middle_foot _ eq_refl eq_refl (middle_zmp d Hd) Zn Zd)
    as (pb0 & c1 & c2 & c3 & c4 & c5 & c6 & c7 & c8 & v0 & v1 & v2 & gap & E0 & Cs & N & Sp & Rw & Rg & Vs & K0 & S0 & K1 & S1 & Re & M1 & M2 & M3 & M4 & M5 & (h & M6 & In6) & M7 & G7 & M8).
  rewrite E in E0. injection E0 as <-.
  assert (Rd : r_det (a_red a) = 2%nat /\ r_Q (a_red a) = ex_Q).
  { revert Ea. unfold assemble. rewrite Cs, N, Rw. cbn [stack_equalities equality_count]. unfold is_eq, is_hard.
    pose proof (proj1 M1) as ->. pose proof (proj1 (proj2 M1)) as ->. pose proof (proj1 M2) as ->. pose proof (proj1 (proj2 M2)) as ->.
    pose proof (proj1 M3) as ->. pose proof (proj1 (proj2 M3)) as ->. pose proof (proj1 M4) as ->. pose proof (proj1 (proj2 M4)) as ->. pose proof (proj1 M5) as ->. pose proof (proj1 (proj2 M5)) as ->.
    pose proof (proj1 M6) as ->. pose proof (proj1 (proj2 M6)) as ->. pose proof (proj1 M7) as ->. pose proof (proj1 (proj2 M7)) as ->. pose proof M8 as (T8 & P8 & _ & R8 & L8 & C8 & _). rewrite T8, P8, R8, L8, C8.
    cbn [andb guard Nat.leb Nat.eqb obind fst snd Nat.add eliminate mrows mcols Nat.ltb].
    match goal with |- context [adapt_qr ?M] => assert (IM : is_ex_M M) end.
    { split; [reflexivity|]. split; [reflexivity|]. intros i j Hi Hj. transitivity (mat_at (eA (c_expr c8)) j i).
      { cbn [mat_at]. destruct i as [|[|[|[|[|i]]]]]; try lia; destruct j as [|[|j]]; try lia; reflexivity. }
      rewrite (made_coeff _ _ _ _ _ _ _ _ _ M8 Hj Hi). unfold axis, x_zmp, x_off, placed.
      destruct i as [|[|[|[|[|i]]]]]; try lia; destruct j as [|[|j]]; try lia; cbn; ring. }
    unfold adapt_qr. match goal with |- context [excluded_middle_informative ?P] => destruct (excluded_middle_informative P) as [_|X]; [|contradiction] end.
    cbn [qr_rank Nat.eqb negb obind r_det]. destruct (objective_loop _ _ _ _ _ _); [|discriminate|discriminate]. cbn [obind]. intros Q. apply ok_same in Q. rewrite <- Q. split; reflexivity. }
  destruct Rd as [Rd Rq]. pose proof half_root_big as Hb.
  assert (Ent : forall c t p w n m f i j, made c t p w n m f -> (i < n)%nat -> (j < 3)%nat -> (m <= 5)%nat ->
    mat_at (reduced pb a c) i j = Rsum m (fun k => (f (axis k) i - f (fun _ => 0) i) * ex_Q k (2 + j))).
  { intros c t p w n m f i j M Hi Hj Hm. unfold reduced, constraint_expressions. rewrite Rd, Rq, N. cbn [Nat.eqb fst mat_at].
    rewrite (Rsum_extend m 5); [|exact Hm|].
    - apply Rsum_ext. intros k Hk. unfold padded. pose proof M as (_ & _ & _ & _ & _ & Hc & _). unfold cols in Hc. rewrite Hc, (proj2 (Nat.ltb_lt k m) Hk). now rewrite (made_coeff _ _ _ _ _ _ _ _ _ M Hi Hk).
    - intros k Hk. unfold padded. pose proof M as (_ & _ & _ & _ & _ & Hc & _). unfold cols in Hc. rewrite Hc, (proj2 (Nat.ltb_ge k m)) by lia. ring. }
  assert (Sz : forall c t p w n m f, made c t p w n m f -> mrows (reduced pb a c) = n /\ mcols (reduced pb a c) = 3%nat).
  { intros c t p w n m f (_ & _ & _ & Hr & _). unfold reduced, constraint_expressions. rewrite Rd, N. cbn. auto. }
  rewrite Cs. intros c Hin Hp Ht. destruct Hin as [<-|[<-|[<-|[<-|[<-|[<-|[<-|[<-|[]]]]]]]]].
  - destruct (Sz _ _ _ _ _ _ _ M1) as [Sr Sc]. exists 0%nat, 1%nat. rewrite Sr, Sc. split; [lia|]. split.
    + intros i j Hi Hj Hn. rewrite (Ent _ _ _ _ _ _ _ i j M1 Hi Hj) by lia. destruct j as [|[|[|j]]]; try lia; cbn; ring.
    + intros j Hj. exists 0%nat. split; [lia|]. replace j with 0%nat by lia. rewrite (Ent _ _ _ _ _ _ _ 0%nat 0%nat M1) by lia. cbn. match goal with |- Rabs ?x > _ => replace x with 1 by ring end. rewrite Rabs_R1. lra.
  - destruct (Sz _ _ _ _ _ _ _ M2) as [Sr Sc]. exists 1%nat, 3%nat. rewrite Sr, Sc. split; [lia|]. split.
    + intros i j Hi Hj Hn. rewrite (Ent _ _ _ _ _ _ _ i j M2 Hi Hj) by lia. replace j with 0%nat by lia. cbn. ring.
    + intros j Hj. exists (j - 1)%nat. split; [lia|]. rewrite (Ent _ _ _ _ _ _ _ (j - 1)%nat j M2) by lia. destruct j as [|[|[|j]]]; try lia; cbn; match goal with |- Rabs ?x > _ => replace x with half_root by ring end; rewrite Rabs_right; lra.
  - destruct (Sz _ _ _ _ _ _ _ M3) as [Sr Sc]. exists 1%nat, 3%nat. rewrite Sr, Sc. split; [lia|]. split.
    + intros i j Hi Hj Hn. rewrite (Ent _ _ _ _ _ _ _ i j M3 Hi Hj) by lia. replace j with 0%nat by lia. destruct i as [|[|i]]; try lia; cbn; ring.
    + intros j Hj. exists (j - 1)%nat. split; [lia|]. rewrite (Ent _ _ _ _ _ _ _ (j - 1)%nat j M3) by lia. destruct j as [|[|[|j]]]; try lia; cbn; match goal with |- Rabs ?x > _ => replace x with (- half_root) by ring end; rewrite Rabs_Ropp, Rabs_right; lra.
  - destruct M4 as (_ & Q & _). congruence.
  - destruct M5 as (_ & Q & _). congruence.
  - destruct M6 as (_ & Q & _). congruence.
  - destruct M7 as (Q & _). congruence.
  - destruct M8 as (_ & Q & _). congruence.
Qed.

(** The robot stands still on its left foot. *)
Example C159_best_example : exists c' n' z u o T,
  update_supports adapt_libs (ex_adapt middle_zone) (-1) [middle; new_support [ex_right]] (0, 0) = Ok [c'; n'] /\
  best_step (g_params (ex_adapt middle_zone)) (g_omega (ex_adapt middle_zone)) 0 Left (f_frame middle_foot) z (0, 0) (0, - (1/10)) (0, 0) u o T.
Proof.
  assert (Zn : usable (w_op_space (g_params (ex_adapt middle_zone)))) by (apply rectangle_usable; lra).
  assert (Zd : usable (w_dcm_offset (g_params (ex_adapt middle_zone)))) by (apply rectangle_usable; lra).
  assert (Sf : seen_from_above (f_frame middle_foot)) by (unfold seen_from_above; cbn; lra). assert (Hn : u_footsteps (new_support [ex_right]) <> []) by discriminate.
  assert (Hr : u_elapsed_ratio middle <> 1) by (cbn; lra). assert (HT : 0 < p_single_support_duration (w_base (g_params (ex_adapt middle_zone)))) by (cbn; lra).
  destruct (C159_step_adapted adapt_libs (ex_adapt middle_zone) (-1) middle (new_support [ex_right]) [] (0, 0) middle_foot adapt_qr_correct perfect_qp_correct adapt_qr_never_fails perfect_qp_never_fails
    eq_refl Hn middle_polygon_ok Zn Zd Sf (ex_adapt_omega middle_zone) HT Hr) as [Y _].
  destruct Y as (_ & _ & _ & _ & _ & c' & n' & _ & _ & _ & E & _).
  { split; [exists (0, 0); exact middle_stands|]. exists (0, - (15/100)). cbn [reachable_zone ex_adapt new_wpg g_params w_op_space middle_foot create_footstep f_side fst snd]. apply rectangle_inside; lra. }
  destruct (C159_best_step_partial adapt_libs (ex_adapt middle_zone) (-1) middle (new_support [ex_right]) [] (0, 0) middle_foot (f_frame ex_right) adapt_qr_correct perfect_qp_correct adapt_qr_never_fails perfect_qp_never_fails
    eq_refl eq_refl middle_polygon_ok Zn Zd Sf (ex_adapt_omega middle_zone) HT Hr middle_contiguous c' n' [] E) as (z & u & o & T & B & _).
  exists c', n', z, u, o, T. split; [exact E|]. cbn [middle new_support u_t_start u_target_world_dcm] in B. replace (-1 - -1) with 0 in B by ring. exact B.
Qed.
