(** Proofs about the adaptation of a step. *)
From Coq Require Import Reals Lra Lia List ZArith Bool Psatz FunctionalExtensionality.
From Verif Require Import Base Linalg Geom3 Tools_model Expression_model Expression_spec Expression_proofs Problem_model Problem_spec Problem_proofs
  Problem_proofs2 Problem_proofs3 Problem_props Rewritten_props Polynom_model Polynom_spec Polynom_props Integrator_model
  Lipm_model Swing_model Geometry_model Footsteps_model Wpg_model Wpg_spec Wpg_proofs2 KinCons_spec Kin_proofs KinCons_proofs WpgPlan_spec WpgPlan_proofs WpgPlan_proofs4
  Adapt_model Adapt_spec Adapt_proofs.
Import ListNotations.
Open Scope R_scope.

(** ** Polygons *)

Lemma nth_error_opposite (l : list (R * R)) i : @nth_error (R * R) (opposite_points l) i = option_map (fun p => (- fst p, - snd p)) (@nth_error (R * R) l i).
Proof. apply nth_error_map. Qed.
Lemma opposite_involutive (p : point) : (- fst (- fst p, - snd p), - snd (- fst p, - snd p)) = p.
Proof. destruct p. cbn [fst snd]. now rewrite !Ropp_involutive. Qed.

Lemma edge_opposite (l : list (R * R)) i A B : edge (opposite_points l) i A B <-> edge l i (- fst A, - snd A) (- fst B, - snd B).
Proof.
  unfold edge. assert (E : @length (R * R) (opposite_points l) = @length (R * R) l) by apply map_length. rewrite E, !nth_error_opposite. split; intros [H1 H2].
  - destruct (nth_error l i) as [a|] eqn:E1; [|discriminate H1]. destruct (nth_error l (if _ : bool then _ else _)) as [b|] eqn:E2; [|discriminate H2]. cbn in H1, H2. injection H1 as <-. injection H2 as <-.
    rewrite !opposite_involutive. auto.
  - rewrite H1, H2. cbn [option_map]. now rewrite !opposite_involutive.
Qed.
Lemma distance_opposite A B : distance (- fst A, - snd A) (- fst B, - snd B) = distance A B.
Proof. unfold distance. cbn [fst snd]. f_equal. unfold Rsqr. ring. Qed.
Lemma right_area_opposite A B P : right_area (- fst A, - snd A) (- fst B, - snd B) (- fst P, - snd P) = right_area A B P.
Proof. unfold right_area. cbn [fst snd]. ring. Qed.

Lemma inside_opposite l m P : inside (opposite_points l) m P <-> inside l m (- fst P, - snd P).
Proof.
  unfold inside. split; intros H i A B E Hne.
  - unfold keeps_margin. rewrite <- distance_opposite, <- right_area_opposite. rewrite opposite_involutive. apply (H i); [|].
    + apply edge_opposite. now rewrite !opposite_involutive.
    + intros Q. apply Hne. rewrite <- (opposite_involutive A), <- (opposite_involutive B). now rewrite Q.
  - apply edge_opposite in E. unfold keeps_margin. rewrite <- distance_opposite, <- right_area_opposite. apply (H i _ _ E).
    intros Q. apply Hne. rewrite <- (opposite_involutive A), <- (opposite_involutive B). now rewrite Q.
Qed.

Lemma edge_unique (l : list (R * R)) i A B A' B' : edge l i A B -> edge l i A' B' -> A = A' /\ B = B'.
Proof. unfold edge. intros [E1 E2] [F1 F2]. split; congruence. Qed.
Lemma edge_index (l : list (R * R)) i A B : edge l i A B -> (i < length l)%nat.
Proof. intros [E _]. apply nth_error_Some. congruence. Qed.

Lemma edge_some (l : list (R * R)) i : (i < length l)%nat -> exists A B, edge l i A B.
Proof.
  intros H. destruct (nth_error l i) as [A|] eqn:EA; [|apply nth_error_None in EA; lia].
  destruct (nth_error l (if Nat.eqb (S i) (length l) then 0 else S i)%nat) as [B|] eqn:EB; [exists A, B; now split|].
  apply nth_error_None in EB. destruct (Nat.eqb_spec (S i) (length l)); lia.
Qed.
Lemma op_space_fine p sd : usable (w_op_space p) -> usable (op_space_of p sd).
Proof.
  destruct sd; [|auto]. cbn [op_space_of]. intros [N H]. split.
  - intros E. apply map_eq_nil in E. contradiction.
  - intros i A B E Q. apply edge_opposite in E. apply (H i _ _ E). now rewrite Q.
Qed.
Lemma op_space_zone p sd u : inside (op_space_of p sd) 0 u <-> reachable_zone p sd u.
Proof. destruct sd; [apply inside_opposite|reflexivity]. Qed.

(** ** One hard equality with two rows *)

Lemma one_equality_independent pb c w m f : filter hard_eq (p_cons pb) = [c] -> made c Equality Hard w 2 m f -> (m <= p_n pb)%nat ->
  (forall a b, exists x, f x 0%nat = a /\ f x 1%nat = b) -> independent_equalities pb.
Proof.
  intros E M Hm On mu Hmu k Hk. pose proof M as (P1 & P2 & _ & P4 & _). rewrite rows_filter, E in Hk. cbn [hard_equality_rows] in Hk. rewrite P1, P2, P4 in Hk.
  set (z := fun _ : nat => 0). destruct (On (f z 0%nat + mu 0%nat) (f z 1%nat + mu 1%nat)) as (x & X0 & X1).
  assert (Z : Rsum (p_n pb) (fun j => combination (p_cons pb) mu 0 j * x j) = 0) by (apply Rsum_zero_ext; intros i Hi; rewrite Hmu by exact Hi; ring).
  assert (Q : Rsum (p_n pb) (fun j => combination (p_cons pb) mu 0 j * x j)
    = mu 0%nat * Rsum (p_n pb) (fun j => coefficient c 0 j * x j) + mu 1%nat * Rsum (p_n pb) (fun j => coefficient c 1 j * x j)).
  { rewrite <- !Rsum_scal_l, <- !Rsum_plus. apply Rsum_ext. intros i Hi. rewrite combination_filter, E. cbn [combination]. rewrite P1, P2, P4. cbn [Rsum Nat.add].
    fold (coefficient c 0 i) (coefficient c 1 i). ring. }
  rewrite Z, (made_linear _ _ _ _ _ _ _ _ x 0 M Hm ltac:(lia)), (made_linear _ _ _ _ _ _ _ _ x 1 M Hm ltac:(lia)) in Q. fold z in Q. rewrite X0, X1 in Q.
  destruct (six_squares (mu 0%nat) (mu 1%nat) 0 0 0 0) as (H0 & H1 & _); [lra|]. destruct k as [|[|k]]; [exact H0|exact H1|lia].
Qed.

(** ** The problem *)

(** What the unknowns [x] say. *)
Definition x_zmp (x : nat -> R) : point := (x 0%nat, x 1%nat).
Definition x_off (x : nat -> R) : point := (x 3%nat, x 4%nat).

Section Step.
Variable L : libs.
Variable g : wpg.
Variables (t : R) (current next : support) (dcm z : point) (f0 : footstep) (nf : frame).
Let p := g_params g.
Let omega := g_omega g.
Let elapsed := t - u_t_start current.
Let T0 := p_single_support_duration (w_base p).
Let f := f_frame f0.
Let target := (vx (fr_t nf), vy (fr_t nf)).
Hypothesis Hc : u_footsteps current = [f0].
Hypothesis Hn : support_frame next = Ok nf.
Hypothesis Hz : get_optimal_zmp L g dcm (u_target_world_dcm current) (Rmax (1 / 100000) (T0 - elapsed)) current = Ok z.
Hypothesis Ho : usable (w_op_space p).
Hypothesis Hd : usable (w_dcm_offset p).

Definition dynamics (x : nat -> R) : Prop :=
  let P := placed f (fst (x_zmp x) + fst (x_off x), snd (x_zmp x) + snd (x_off x)) in
  fst P = (fst dcm - fst z) * exp (- omega * elapsed) * x 2%nat + fst z /\ snd P = (snd dcm - snd z) * exp (- omega * elapsed) * x 2%nat + snd z.

(** When no ZMP is found, update_supports throws the same. *)
Lemma update_problem_throws e : get_optimal_zmp L g dcm (u_target_world_dcm current) (Rmax (1 / 100000) (T0 - elapsed)) current = Throw e ->
  update_problem L g t current next dcm = Throw e.
Proof.
  intros Hz'. clear Hz z.
  unfold update_problem. cbv zeta. unfold support_frame at 1. rewrite Hc. cbn [frame_loop obind].
  cbn [add_variable new_problem p_n p_vars set_vars app Nat.add p_cons p_reg p_sparse p_rewrite p_x p_slacks].
  set (v0 := MkVar 0 2 (Vec 0 (fun _ => 0)) 0). set (v1 := MkVar 2 3 (Vec 0 (fun _ => 0)) 0). set (v2 := MkVar 3 5 (Vec 0 (fun _ => 0)) 0).
  unfold support_default_duration, is_both. rewrite Hc. cbn [length Nat.eqb obind].
  destruct (var_all v0 ltac:(cbn; lia)) as (e0 & E0 & D0). rewrite E0. cbn [obind]. destruct (var_all v1 ltac:(cbn; lia)) as (e1 & E1 & D1). rewrite E1. cbn [obind].
  destruct (var_all v2 ltac:(cbn; lia)) as (e2 & E2 & D2). rewrite E2. cbn [obind]. cbn [v0 v1 v2 var_size k_start k_end Nat.sub Nat.add] in D0, D1, D2.
  fold p omega T0. destruct (made_eq_d e1 _ _ _ (exp (omega * T0)) D1) as (c1 & C1 & M1). rewrite C1. cbn [obind].
  destruct (m_mul_e_denotes (rotation_2d (fr_R (f_frame f0))) e0 _ _ _ D0 eq_refl) as (r & Er & Dr). rewrite Er. cbn [obind]. cbn [rotation_2d mrows] in Dr.
  destruct (e_add_v_denotes r _ _ _ (vec_of [vx (fr_t (f_frame f0)); vy (fr_t (f_frame f0))]) Dr eq_refl) as (wz & Ewz & Dwz). unfold v_add_e. rewrite Ewz. cbn [obind].
  rewrite Hn. cbn [obind]. fold target. destruct (made_eq_v wz _ _ _ (vec_of_point target) Dwz eq_refl) as (c2 & C2 & M2). rewrite C2. cbn [obind].
  destruct (m_mul_e_denotes (rotation_2d (fr_R (f_frame f0))) e2 _ _ _ D2 eq_refl) as (wo & Ewo & Dwo). rewrite Ewo. cbn [obind]. cbn [rotation_2d mrows] in Dwo.
  destruct (made_eq_v wo _ _ _ (vec_of_point (v2_sub (u_target_world_dcm current) target)) Dwo eq_refl) as (c3 & C3 & M3). rewrite C3. cbn [obind].
  fold elapsed. destruct (made_ge_d e1 _ _ _ (exp (omega * Rmax 0.15 elapsed)) D1) as (c4 & C4 & M4). rewrite C4. cbn [obind].
  destruct (made_le_d e1 _ _ _ (exp (omega * Rmax 3 elapsed)) D1) as (c5 & C5 & M5). rewrite C5. cbn [obind].
  unfold support_side. rewrite Hc. cbn [length Nat.ltb Nat.leb obind].
  destruct (op_space_fine p (f_side f0) Ho) as [No Neo]. destruct (in_polygon_total e0 _ _ (op_space_of p (f_side f0)) 0 D0 No Neo) as (c6 & h & C6 & M6 & In6). rewrite C6. cbn [obind].
  destruct Hd as [Nd Ned]. destruct (in_polygon_total e2 _ _ (w_dcm_offset p) 0 D2 Nd Ned) as (c7 & _ & C7 & _). rewrite C7. cbn [obind].
  destruct (in_polygon_made e2 _ _ (w_dcm_offset p) 0 c7 D2 ltac:(destruct (w_dcm_offset p); [congruence|cbn; lia]) Ned C7) as (gap & M7 & G7).
  rewrite Hz'. reflexivity.
Qed.

Lemma update_problem_total : exists pb c1 c2 c3 c4 c5 c6 c7 c8 v0 v1 v2 gap,
  update_problem L g t current next dcm = Ok pb /\ p_cons pb = [c1; c2; c3; c4; c5; c6; c7; c8] /\ p_n pb = 5%nat /\ p_sparse pb = true /\ p_rewrite pb = true /\
  p_reg pb = 1 / 100000000 /\ p_vars pb = [v0; v1; v2] /\ k_start v0 = 0%nat /\ var_size v0 = 2%nat /\ k_start v1 = 2%nat /\ var_size v1 = 1%nat /\
  reachable pb [2%nat; 1%nat; 2%nat] /\
  made c1 Equality Soft 5 1 3 (fun x _ => x 2%nat - exp (omega * T0)) /\
  made c2 Equality Soft 100 2 2 (fun x i => match i with O => fst (placed f (x_zmp x)) - fst target | _ => snd (placed f (x_zmp x)) - snd target end) /\
  made c3 Equality Soft 1000 2 5 (fun x i => match i with O => fst (turned_by f (x_off x)) - (fst (u_target_world_dcm current) - fst target)
    | _ => snd (turned_by f (x_off x)) - (snd (u_target_world_dcm current) - snd target) end) /\
  made c4 Inequality Hard 1 1 3 (fun x _ => x 2%nat - exp (omega * Rmax 0.15 elapsed)) /\
  made c5 Inequality Hard 1 1 3 (fun x _ => exp (omega * Rmax 3 elapsed) - x 2%nat) /\
  (exists h, made c6 Inequality Hard 1 (length (op_space_of p (f_side f0))) 2 h /\
     forall x, (forall i, (i < length (op_space_of p (f_side f0)))%nat -> 0 <= h x i) <-> reachable_zone p (f_side f0) (x_zmp x)) /\
  made c7 Inequality Soft 1000000 (length (w_dcm_offset p)) 5 gap /\
  (forall x i A B, edge (w_dcm_offset p) i A B -> gap x i = right_area A B (x_off x) / distance A B) /\
  made c8 Equality Hard 1 2 5 (fun x i => match i with
    | O => fst (placed f (fst (x_zmp x) + fst (x_off x), snd (x_zmp x) + snd (x_off x))) - ((fst dcm - fst z) * exp (- omega * elapsed) * x 2%nat + fst z)
    | _ => snd (placed f (fst (x_zmp x) + fst (x_off x), snd (x_zmp x) + snd (x_off x))) - ((snd dcm - snd z) * exp (- omega * elapsed) * x 2%nat + snd z) end).
Proof.
  unfold update_problem. cbv zeta. unfold support_frame at 1. rewrite Hc. cbn [frame_loop obind].
  cbn [add_variable new_problem p_n p_vars set_vars app Nat.add p_cons p_reg p_sparse p_rewrite p_x p_slacks].
  set (v0 := MkVar 0 2 (Vec 0 (fun _ => 0)) 0). set (v1 := MkVar 2 3 (Vec 0 (fun _ => 0)) 0). set (v2 := MkVar 3 5 (Vec 0 (fun _ => 0)) 0).
  unfold support_default_duration, is_both. rewrite Hc. cbn [length Nat.eqb obind].
  destruct (var_all v0 ltac:(cbn; lia)) as (e0 & E0 & D0). rewrite E0. cbn [obind]. destruct (var_all v1 ltac:(cbn; lia)) as (e1 & E1 & D1). rewrite E1. cbn [obind].
  destruct (var_all v2 ltac:(cbn; lia)) as (e2 & E2 & D2). rewrite E2. cbn [obind]. cbn [v0 v1 v2 var_size k_start k_end Nat.sub Nat.add] in D0, D1, D2.
  fold p omega T0. destruct (made_eq_d e1 _ _ _ (exp (omega * T0)) D1) as (c1 & C1 & M1). rewrite C1. cbn [obind].
  destruct (m_mul_e_denotes (rotation_2d (fr_R (f_frame f0))) e0 _ _ _ D0 eq_refl) as (r & Er & Dr). rewrite Er. cbn [obind]. cbn [rotation_2d mrows] in Dr.
  destruct (e_add_v_denotes r _ _ _ (vec_of [vx (fr_t (f_frame f0)); vy (fr_t (f_frame f0))]) Dr eq_refl) as (wz & Ewz & Dwz). unfold v_add_e. rewrite Ewz. cbn [obind].
  rewrite Hn. cbn [obind]. fold target. destruct (made_eq_v wz _ _ _ (vec_of_point target) Dwz eq_refl) as (c2 & C2 & M2). rewrite C2. cbn [obind].
  destruct (m_mul_e_denotes (rotation_2d (fr_R (f_frame f0))) e2 _ _ _ D2 eq_refl) as (wo & Ewo & Dwo). rewrite Ewo. cbn [obind]. cbn [rotation_2d mrows] in Dwo.
  destruct (made_eq_v wo _ _ _ (vec_of_point (v2_sub (u_target_world_dcm current) target)) Dwo eq_refl) as (c3 & C3 & M3). rewrite C3. cbn [obind].
  fold elapsed. destruct (made_ge_d e1 _ _ _ (exp (omega * Rmax 0.15 elapsed)) D1) as (c4 & C4 & M4). rewrite C4. cbn [obind].
  destruct (made_le_d e1 _ _ _ (exp (omega * Rmax 3 elapsed)) D1) as (c5 & C5 & M5). rewrite C5. cbn [obind].
  unfold support_side. rewrite Hc. cbn [length Nat.ltb Nat.leb obind].
  destruct (op_space_fine p (f_side f0) Ho) as [No Neo]. destruct (in_polygon_total e0 _ _ (op_space_of p (f_side f0)) 0 D0 No Neo) as (c6 & h & C6 & M6 & In6). rewrite C6. cbn [obind].
  destruct Hd as [Nd Ned]. destruct (in_polygon_total e2 _ _ (w_dcm_offset p) 0 D2 Nd Ned) as (c7 & _ & C7 & _). rewrite C7. cbn [obind].
  destruct (in_polygon_made e2 _ _ (w_dcm_offset p) 0 c7 D2 ltac:(destruct (w_dcm_offset p); [congruence|cbn; lia]) Ned C7) as (gap & M7 & G7).
  rewrite Hz. cbn [obind]. destruct (e_add_same wz wo _ _ _ _ _ Dwz Dwo) as (lhs & El & Dl). rewrite El. cbn [obind].
  destruct (m_mul_e_denotes (Mat 2 1 (fun i _ => match i with O => (fst dcm - fst z) * exp (- omega * elapsed) | _ => (snd dcm - snd z) * exp (- omega * elapsed) end)) e1 _ _ _ D1 eq_refl)
    as (m & Em & Dm). rewrite Em. cbn [obind]. cbn [mrows] in Dm.
  destruct (e_add_v_denotes m _ _ _ (vec_of_point z) Dm eq_refl) as (rhs & Err & Drr). rewrite Err. cbn [obind].
  destruct (sub_means_e lhs rhs _ _ _ _ _ Dl Drr) as (df & Edf & Ddf). unfold e_eq. rewrite Edf. cbn [obind].
  pose proof (made_intro df Equality Hard 1 false _ _ _ Ddf) as M8.
  apply (made_configure _ _ _ _ _ _ _ Soft 5) in M1. apply (made_configure _ _ _ _ _ _ _ Soft 100) in M2. apply (made_configure _ _ _ _ _ _ _ Soft 1000) in M3.
  apply (made_configure _ _ _ _ _ _ _ Hard 1) in M4, M5, M6, M8. apply (made_configure _ _ _ _ _ _ _ Soft 1000000) in M7.
  do 9 eexists. exists v0, v1, v2, gap. split; [reflexivity|]. split; [reflexivity|]. do 9 (split; [reflexivity|]). split.
  { do 8 apply reach_constraint. exact (reach_variable _ [2%nat; 1%nat] 2 (reach_variable _ [2%nat] 1 (reach_variable _ [] 2 reach_new))). }
  split; [eapply made_ext; [|exact M1]; intros x [|i] Hi; [reflexivity|lia]|].
  split; [eapply made_ext; [|exact M2]; intros x [|[|i]] Hi; unfold f; cbn; [ring|ring|lia]|].
  split; [eapply made_ext; [|exact M3]; intros x [|[|i]] Hi; unfold f; cbn; [ring|ring|lia]|].
  split; [eapply made_ext; [|exact M4]; intros x [|i] Hi; [reflexivity|lia]|].
  split; [eapply made_ext; [|exact M5]; intros x [|i] Hi; [reflexivity|lia]|].
  split; [exists h; split; [exact M6|]; intros x; rewrite In6; apply op_space_zone|].
  split; [exact M7|]. split.
  { intros x i A B E. assert (Hi : (i < length (w_dcm_offset p))%nat) by exact (edge_index _ _ _ _ E).
    destruct (G7 x i Hi) as (A' & B' & E' & ->). destruct (edge_unique _ _ _ _ _ _ E' E) as [-> ->]. unfold inner_distance, x_off. ring. }
  eapply made_ext; [|exact M8]. intros x [|[|i]] Hi; unfold f; cbn; [ring|ring|lia].
Qed.

Hypothesis Hom : 0 < omega.

Lemma tau_time x : exp (omega * Rmax 0.15 elapsed) <= x -> exp (omega * (ln x / omega)) = x.
Proof. intros H. assert (P : 0 < x) by (pose proof (exp_pos (omega * Rmax 0.15 elapsed)); lra). replace (omega * (ln x / omega)) with (ln x) by (field; lra). now apply exp_ln. Qed.
Lemma exp_order a b : exp (omega * a) <= exp (omega * b) <-> a <= b.
Proof.
  split; intros H.
  - destruct (Rle_dec a b) as [K|K]; [exact K|]. exfalso. assert (exp (omega * b) < exp (omega * a)) by (apply exp_increasing, Rmult_lt_compat_l; lra). lra.
  - destruct (Req_dec a b) as [->|Hne]; [lra|]. apply Rlt_le, exp_increasing, Rmult_lt_compat_l; lra.
Qed.

Lemma drives_time u T : drives omega (T - elapsed) z dcm (placed f u) <->
  fst (placed f u) = (fst dcm - fst z) * exp (- omega * elapsed) * exp (omega * T) + fst z /\
  snd (placed f u) = (snd dcm - snd z) * exp (- omega * elapsed) * exp (omega * T) + snd z.
Proof.
  rewrite drives_exp. replace (exp (omega * (T - elapsed))) with (exp (- omega * elapsed) * exp (omega * T)) by (rewrite <- exp_plus; f_equal; ring).
  split; intros [H1 H2]; split; lra.
Qed.

Lemma step_problem : exists pb c8 v0 v1 gap,
  update_problem L g t current next dcm = Ok pb /\ p_n pb = 5%nat /\ p_sparse pb = true /\ p_rewrite pb = true /\ p_reg pb = 1 / 100000000 /\
  nth_error (p_vars pb) 0 = Some v0 /\ nth_error (p_vars pb) 1 = Some v1 /\ k_start v0 = 0%nat /\ var_size v0 = 2%nat /\ k_start v1 = 2%nat /\ var_size v1 = 1%nat /\
  reachable pb [2%nat; 1%nat; 2%nat] /\ sound 5 (p_cons pb) /\
  filter hard_eq (p_cons pb) = [c8] /\ made c8 Equality Hard 1 2 5 (fun x i => match i with
    | O => fst (placed f (fst (x_zmp x) + fst (x_off x), snd (x_zmp x) + snd (x_off x))) - ((fst dcm - fst z) * exp (- omega * elapsed) * x 2%nat + fst z)
    | _ => snd (placed f (fst (x_zmp x) + fst (x_off x), snd (x_zmp x) + snd (x_off x))) - ((snd dcm - snd z) * exp (- omega * elapsed) * x 2%nat + snd z) end) /\
  (forall x, hard_holds (p_cons pb) x <-> exists T, x 2%nat = exp (omega * T) /\ possible_step p omega elapsed (f_side f0) f z dcm (x_zmp x) (x_off x) T) /\
  (forall x i A B, edge (w_dcm_offset p) i A B -> gap x i = right_area A B (x_off x) / distance A B) /\
  (forall x, 2 * cost pb x = 5 * Rsqr (x 2%nat - exp (omega * T0)) + 100 * squared_distance (placed f (x_zmp x)) target
     + 1000 * squared_distance (turned_by f (x_off x)) (fst (u_target_world_dcm current) - fst target, snd (u_target_world_dcm current) - snd target)
     + 1000000 * Rsum (length (w_dcm_offset p)) (fun i => Rsqr (Rmin 0 (gap x i)))
     + 1 / 100000000 * (squared_norm (x_zmp x) + Rsqr (x 2%nat) + squared_norm (x_off x))).
Proof.
  destruct update_problem_total as (pb & c1 & c2 & c3 & c4 & c5 & c6 & c7 & c8 & v0 & v1 & v2 & gap & E & Cs & N & Sp & Rw & Rg & Vs & K0 & S0 & K1 & S1 & Re & M1 & M2 & M3 & M4 & M5 & (h & M6 & In6) & M7 & G7 & M8).
  exists pb, c8, v0, v1, gap. rewrite Vs. cbn [nth_error]. do 12 (split; [assumption || reflexivity|]).
  assert (Lo : (0 < length (op_space_of p (f_side f0)))%nat) by (destruct (op_space_fine p (f_side f0) Ho) as [No _]; destruct (op_space_of p (f_side f0)); [congruence|cbn; lia]).
  assert (Ld : (0 < length (w_dcm_offset p))%nat) by (destruct Hd as [Nd _]; destruct (w_dcm_offset p); [congruence|cbn; lia]).
  rewrite Cs. split.
  { change [c1; c2; c3; c4; c5; c6; c7; c8] with ([c1] ++ [c2] ++ [c3] ++ [c4] ++ [c5] ++ [c6] ++ [c7] ++ [c8]).
    repeat apply sound_app; eapply sound_one; try eassumption; try lia; intros; try lra; discriminate. }
  split.
  { cbn [filter]. unfold hard_eq. pose proof (proj1 M1) as ->. pose proof (proj1 (proj2 M1)) as ->. pose proof (proj1 M2) as ->. pose proof (proj1 (proj2 M2)) as ->.
    pose proof (proj1 M3) as ->. pose proof (proj1 (proj2 M3)) as ->. pose proof (proj1 M4) as ->. pose proof (proj1 (proj2 M4)) as ->. pose proof (proj1 M5) as ->. pose proof (proj1 (proj2 M5)) as ->.
    pose proof (proj1 M6) as ->. pose proof (proj1 (proj2 M6)) as ->. pose proof (proj1 M7) as ->. pose proof (proj1 (proj2 M7)) as ->. pose proof (proj1 M8) as ->. pose proof (proj1 (proj2 M8)) as ->. reflexivity. }
  split; [exact M8|]. split; [|split; [exact G7|]].
  - intros x. change [c1; c2; c3; c4; c5; c6; c7; c8] with ([c1; c2; c3] ++ [c4] ++ [c5] ++ [c6] ++ [c7] ++ [c8]). rewrite !WpgPlan_proofs.hard_holds_app.
    rewrite (hard_holds_one _ _ _ _ _ _ _ M4), (hard_holds_one _ _ _ _ _ _ _ M5), (hard_holds_one _ _ _ _ _ _ _ M6), (hard_holds_one _ _ _ _ _ _ _ M8), In6.
    assert (X1 : hard_holds [c1; c2; c3] x).
    { intros c Hin Hp. destruct Hin as [<-|[<-|[<-|[]]]]; [destruct M1 as (_ & Q & _)|destruct M2 as (_ & Q & _)|destruct M3 as (_ & Q & _)]; congruence. }
    assert (X7 : hard_holds [c7] x) by (intros c [<-|[]] Hp; destruct M7 as (_ & Q & _); congruence).
    split.
    + intros (_ & H4 & H5 & H6 & _ & H8). specialize (H4 0%nat ltac:(lia)). specialize (H5 0%nat ltac:(lia)). pose proof (H8 0%nat ltac:(lia)) as H80. pose proof (H8 1%nat ltac:(lia)) as H81. cbv beta iota in H4, H5, H80, H81.
      assert (Et : exp (omega * (ln (x 2%nat) / omega)) = x 2%nat) by (apply tau_time; lra).
      exists (ln (x 2%nat) / omega). split; [now rewrite Et|]. split; [exact H6|]. split.
      * split; apply exp_order; rewrite Et; lra.
      * apply drives_time. rewrite Et. lra.
    + intros (T & ET & H6 & [H4 H5] & H8). apply drives_time in H8. rewrite ET. apply exp_order in H4, H5. split; [exact X1|]. split; [intros i _; lra|]. split; [intros i _; lra|]. split; [exact H6|]. split; [exact X7|].
      intros [|[|i]] Hi; [lra|lra|lia].
  - intros x. unfold cost. rewrite Cs, N, Rg. cbn [soft_cost]. rewrite (made_penalty_eq _ _ _ _ _ x M1), (made_penalty_eq _ _ _ _ _ x M2), (made_penalty_eq _ _ _ _ _ x M3),
      (made_penalty_hard _ _ _ _ _ _ x M4), (made_penalty_hard _ _ _ _ _ _ x M5), (made_penalty_hard _ _ _ _ _ _ x M6), (made_penalty_ineq _ _ _ _ _ x M7), (made_penalty_hard _ _ _ _ _ _ x M8).
    set (D := Rsum (length (w_dcm_offset p)) _). cbn [Rsum]. unfold squared_distance, squared_norm, x_zmp, x_off. cbn [fst snd]. field.
Qed.

(** With the axes of the frame apart, the offset can be chosen so that the DCM arrives anywhere. *)
Hypothesis Hf : seen_from_above f.

Lemma placed_onto a b : exists u, placed f u = (a, b).
Proof.
  unfold seen_from_above in Hf. set (D := m00 (fr_R f) * m11 (fr_R f) - m01 (fr_R f) * m10 (fr_R f)) in *. set (c := a - vx (fr_t f)). set (d := b - vy (fr_t f)).
  exists ((m11 (fr_R f) * c - m01 (fr_R f) * d) / D, (m00 (fr_R f) * d - m10 (fr_R f) * c) / D). unfold placed. cbn [fst snd]. unfold c, d. f_equal; unfold D in *; field; exact Hf.
Qed.

Lemma some_step : (exists u, reachable_zone p (f_side f0) u) -> exists u o T, possible_step p omega elapsed (f_side f0) f z dcm u o T.
Proof.
  intros (u & Hu). set (T := Rmax 0.15 elapsed).
  destruct (placed_onto ((fst dcm - fst z) * exp (- omega * elapsed) * exp (omega * T) + fst z) ((snd dcm - snd z) * exp (- omega * elapsed) * exp (omega * T) + snd z)) as (v & Ev).
  exists u, (fst v - fst u, snd v - snd u), T. split; [exact Hu|]. split.
  - split; [unfold T; lra|]. unfold T, Rmax. destruct (Rle_dec 0.15 elapsed), (Rle_dec 3 elapsed); lra.
  - apply drives_time. cbn [fst snd]. replace (fst u + (fst v - fst u), snd u + (snd v - snd u)) with v by (destruct v; cbn [fst snd]; f_equal; ring). rewrite Ev. cbn [fst snd]. split; ring.
Qed.

End Step.
