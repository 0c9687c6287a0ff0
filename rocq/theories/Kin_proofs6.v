(** Proofs about the tasks of the kinematics solver: sizes, masks, joints and gears. *)
From Coq Require Import Reals List ZArith Bool Lia Lra String Sorted.
From Verif Require Import Base Linalg Geom3 Tools_model Geometry_model Expression_model Expression_spec Expression_proofs Problem_model Problem_spec
  Problem_proofs Polynom_model Robot_model Robot_spec Robot_proofs KinTasks_model Kin_model Kin_spec Kin_proofs.
Import ListNotations.
Open Scope R_scope.

Ltac bindall H := repeat match type of H with
  | obind ?o _ = Ok _ => let x := fresh "x" in let E := fresh "E" in destruct o as [x| |] eqn:E; try discriminate H; cbn [obind] in H
  | guard ?b _ = Ok _ => let E := fresh "G" in unfold guard in H; destruct b eqn:E; try discriminate H
  end.

Lemma guard_inv {A} b (o : outcome A) x : guard b o = Ok x -> b = true /\ o = Ok x.
Proof. unfold guard. destruct b; [auto|discriminate]. Qed.

Lemma block_size M i j p q B : block M i j p q = Ok B -> mrows B = p /\ mcols B = q.
Proof. intros H. apply guard_inv in H. destruct H as [_ H]. injection H as <-. split; reflexivity. Qed.
Lemma mul_size A B C : mat_mul A B = Ok C -> mrows C = mrows A /\ mcols C = mcols B.
Proof. intros H. apply guard_inv in H. destruct H as [_ H]. injection H as <-. split; reflexivity. Qed.
Lemma sub_size A B C : mat_sub A B = Ok C -> mrows C = mrows A /\ mcols C = mcols A.
Proof. intros H. apply guard_inv in H. destruct H as [_ H]. injection H as <-. split; reflexivity. Qed.
Lemma mask_size m M A : apply_mask m M = Ok A -> mrows A = List.length (m_indices m) /\ mcols A = mcols M.
Proof.
  unfold apply_mask. intros H.
  assert (X : exists M', guard (forallb (fun i => Nat.ltb i (mrows M')) (m_indices m))
    (Ok (Mat (List.length (m_indices m)) (mcols M') (fun i j => mat_at M' (nth i (m_indices m) 0%nat) j))) = Ok A /\ mcols M' = mcols M).
  { destruct (m_frame m); cbn [obind] in H.
    - exists M. auto.
    - destruct (mat_mul (m_R_local m) M) as [M'| |] eqn:E; try discriminate. exists M'. split; [exact H|apply (mul_size _ _ _ E)].
    - destruct (mat_mul (m_R_custom m) M) as [M'| |] eqn:E; try discriminate. exists M'. split; [exact H|apply (mul_size _ _ _ E)]. }
  destruct X as (M' & X & Y). apply guard_inv in X. destruct X as [_ X]. injection X as <-. cbn. auto.
Qed.
Lemma mask_v_size m v b : mask_v m v = Ok b -> vlen b = List.length (m_indices m).
Proof. unfold mask_v. intros H. bindall H. injection H as <-. cbn. apply (mask_size _ _ _ E). Qed.

Lemma affine_denotes A b : vlen b = mrows A -> denotes (Expr A b) (mrows A) (mcols A) (fun x i => Rsum (mcols A) (fun j => mat_at A i j * x j) + vat b i).
Proof. intros H. apply denotes_intro; [reflexivity|exact H|reflexivity|reflexivity]. Qed.

Lemma le_d_made A b a c : vlen b = mrows A -> e_le_d (Expr A b) a = Ok c ->
  made c Inequality Hard 1 (mrows A) (mcols A) (fun x i => a - (Rsum (mcols A) (fun j => mat_at A i j * x j) + vat b i)).
Proof. intros H E. destruct (made_le_d _ _ _ _ a (affine_denotes A b H)) as (c' & E' & M). rewrite E in E'. injection E' as <-. exact M. Qed.
Lemma ge_d_made A b a c : vlen b = mrows A -> e_ge_d (Expr A b) a = Ok c ->
  made c Inequality Hard 1 (mrows A) (mcols A) (fun x i => Rsum (mcols A) (fun j => mat_at A i j * x j) + vat b i - a).
Proof. intros H E. destruct (made_ge_d _ _ _ _ a (affine_denotes A b H)) as (c' & E' & M). rewrite E in E'. injection E' as <-. exact M. Qed.
Lemma le_v_made A b v c : vlen b = mrows A -> vlen v = mrows A -> e_le_v (Expr A b) v = Ok c ->
  made c Inequality Hard 1 (mrows A) (mcols A) (fun x i => vat v i - (Rsum (mcols A) (fun j => mat_at A i j * x j) + vat b i)).
Proof. intros H Hv E. destruct (made_le_v _ _ _ _ v (affine_denotes A b H) Hv) as (c' & E' & M). rewrite E in E'. injection E' as <-. exact M. Qed.
Lemma made_cols c t p w n m f : made c t p w n m f -> cols (c_expr c) = m.
Proof. intros (_ & _ & _ & _ & _ & H & _). exact H. Qed.

Section WithRobot.
Variable pn : pin.
Variable log3 : mat3 -> vec3.
Variable msqrt : mat -> mat.

Lemma distance_jacobian_size N r a b d J : distance_jacobian pn N r a b = Ok (d, J) -> mrows J = 1%nat /\ mcols J = N.
Proof.
  unfold distance_jacobian. intros H. bindall H. injection H as _ <-. unfold row_times in *.
  destruct (mul_size _ _ _ E3), (block_size _ _ _ _ _ _ E2). cbn in *. split; congruence.
Qed.
Lemma rotation_jacobian_size N r a b T J : relative_rotation_jacobian pn N r a b = Ok (T, J) -> mrows J = 3%nat /\ mcols J = N.
Proof.
  unfold relative_rotation_jacobian. intros H. bindall H. injection H as _ <-.
  destruct (sub_size _ _ _ E3), (mul_size _ _ _ E2), (block_size _ _ _ _ _ _ E0). cbn in *. split; congruence.
Qed.
Lemma add_size A B C : Robot_model.mat_add A B = Ok C -> mrows C = mrows A /\ mcols C = mcols A.
Proof. intros H. apply guard_inv in H. destruct H as [_ H]. injection H as <-. split; reflexivity. Qed.

Ltac sizes := repeat match goal with
  | H : mat_mul _ _ = Ok _ |- _ => apply mul_size in H; destruct H
  | H : Robot_model.mat_add _ _ = Ok _ |- _ => apply add_size in H; destruct H
  | H : mat_sub _ _ = Ok _ |- _ => apply sub_size in H; destruct H
  | H : block _ _ _ _ _ = Ok _ |- _ => apply block_size in H; destruct H
  end.

Lemma tasks_sized N dt r k e : pin_sized pn msqrt N -> m_nv (r_model r) = N ->
  (forall f e, k = KCustom f -> f r = Ok e -> shaped N e) -> (forall g W, k = KRegularization g -> rg_W g = Some W -> mcols W = N) ->
  task_update pn log3 msqrt N dt r k = Ok e -> shaped N e.
Proof.
  intros (P1 & P2 & P3 & P4 & P5 & P6) HN HC HR H. unfold shaped. destruct k; cbn [task_update] in H.
  - unfold position_update in H. bindall H. injection H as <-. cbn [fst snd]. destruct (mask_size _ _ _ E1), (block_size _ _ _ _ _ _ E0). rewrite (mask_v_size _ _ _ E2). cbn in *. split; congruence.
  - unfold orientation_update in H. bindall H. injection H as <-. cbn [fst snd]. destruct (mask_size _ _ _ E1), (block_size _ _ _ _ _ _ E0). rewrite (mask_v_size _ _ _ E2). cbn in *. split; congruence.
  - unfold com_update in H. bindall H. injection H as <-. cbn [fst snd]. destruct (mask_size _ _ _ E) as [A B]. rewrite (mask_v_size _ _ _ E0). unfold com_jacobian in B. destruct (P2 (st_q (r_state r))). split; congruence.
  - unfold relative_position_update in H. bindall H. injection H as <-. cbn [fst snd]. destruct (mask_size _ _ _ E2) as [A B]. rewrite (mask_v_size _ _ _ E3). split; [|congruence].
    rewrite B. unfold relative_position_jacobian in E1. bindall E1. sizes. congruence.
  - unfold relative_orientation_update in H. bindall H. injection H as <-. cbn [fst snd]. destruct (mask_size _ _ _ E4) as [A B]. rewrite (mask_v_size _ _ _ E5). split; [|congruence].
    destruct (mul_size _ _ _ E3), (block_size _ _ _ _ _ _ E2). congruence.
  - unfold distance_update in H. bindall H. destruct x as [d J]. injection H as <-. cbn [fst snd]. destruct (distance_jacobian_size _ _ _ _ _ _ E). auto.
  - bindall H. destruct x as [e'|]; [|discriminate]. injection H as <-. unfold axis_align_update in E. bindall E. destruct (m3_inverse _); [|discriminate]. bindall E. injection E as <-. cbn [fst snd].
    destruct (block_size _ _ _ _ _ _ E3). auto.
  - unfold joints_update in H. bindall H. injection H as <-. cbn. auto.
  - unfold gear_update in H. bindall H. injection H as <-. cbn. auto.
  - bindall H. destruct x as [t' e']. injection H as <-. unfold regularization_update in E. bindall E. injection E as _ <-. cbn. destruct (block_size _ _ _ _ _ _ E1). auto.
  - unfold kinetic_update in H. bindall H. destruct (Req_EM_T dt 0); [discriminate|]. injection H as <-. cbn. destruct (P6 x) as [A B]. rewrite A, B. clear A B. unfold mass_matrix in E. bindall E. injection E as <-.
    cbn. destruct (P4 (st_q (r_state r))). split; congruence.
  - unfold centroidal_update in H. bindall H. destruct (Req_EM_T dt 0); [discriminate|]. bindall H. injection H as <-. cbn. destruct (mask_size _ _ _ E0) as [A B], (block_size _ _ _ _ _ _ E). rewrite (mask_v_size _ _ _ E1). split; congruence.
  - unfold wheel_update in H. bindall H. unfold joint_jacobian_name in E0. bindall E0. injection E0 as <-. destruct (mul_size _ _ _ E1) as [_ A], (block_size _ _ _ _ _ _ E2) as [B C].
    destruct (P5 (fst (r_seen r)) x3 x4) as [_ D]. destruct omni; injection H as <-; cbn; split; congruence.
  - exact (HC f e eq_refl H).
Qed.

Lemma constraints_sized N dt r k cs c : pin_sized pn msqrt N -> (forall f cs c, kc_kind k = KCustomConstraint f -> f r = Ok cs -> In c cs -> (cols (c_expr c) <= N)%nat) ->
  constraint_add pn N dt r k = Ok cs -> In c cs -> (cols (c_expr c) <= N)%nat.
Proof.
  intros (P1 & P2 & _) HC H Hc. unfold constraint_add in H. destruct (kc_kind k) eqn:K; bindall H.
  - injection H as <-. destruct Hc as [<-|[]]. cbn. unfold com_polygon_constraint in E. bindall E.
    assert (X : cols (Expr x1 (Vec 2 (coord (com_world pn r)))) = N).
    { unfold cols. cbn. destruct (block_size _ _ _ _ _ _ E0) as [_ B]. destruct (P2 (st_q (r_state r))) as [_ B']. unfold com_jacobian in B. destruct dcm.
      - destruct (Req_EM_T dt 0); [discriminate|]. destruct (Req_EM_T omega 0); [discriminate|]. injection E1 as <-. cbn. congruence.
      - injection E1 as <-. congruence. }
    unfold in_polygon_xy in E. destruct (negb _); [discriminate|]. bindall E. apply ge_d_made in E; [|reflexivity]. rewrite (made_cols _ _ _ _ _ _ _ E). cbn [mcols]. rewrite X. lia.
  - injection H as <-. destruct Hc as [<-|[]]. cbn. unfold half_spaces_constraint in E. destruct (negb (Nat.eqb (mrows A) (vlen b))) eqn:Eb; [discriminate|]. apply negb_false_iff, Nat.eqb_eq in Eb. destruct (negb _); [discriminate|]. bindall E.
    apply le_v_made in E; [|cbn|cbn; congruence].
    + rewrite (made_cols _ _ _ _ _ _ _ E). cbn. lia.
    + unfold mat_vec in E2. bindall E2. injection E2 as <-. cbn. apply (block_size _ _ _ _ _ _ E0).
  - injection H as <-. destruct Hc as [<-|[]]. cbn. unfold cone_constraint in E. bindall E. destruct x0 as [T J]. bindall E. apply le_d_made in E; [|reflexivity]. rewrite (made_cols _ _ _ _ _ _ _ E). cbn. lia.
  - injection H as <-. destruct Hc as [<-|[]]. cbn. unfold yaw_constraint in E. bindall E. destruct x0 as [T J]. bindall E. apply le_d_made in E; [|reflexivity]. rewrite (made_cols _ _ _ _ _ _ _ E). cbn. lia.
  - injection H as <-. destruct Hc as [<-|[]]. cbn. unfold distance_constraint in E. bindall E. destruct x0 as [d J]. destruct (distance_jacobian_size _ _ _ _ _ _ E0) as [X Y].
    apply le_d_made in E; [|cbn; congruence]. rewrite (made_cols _ _ _ _ _ _ _ E). cbn. lia.
  - destruct x as [c'|]; injection H as <-; [|contradiction]. destruct Hc as [<-|[]]. cbn. unfold collisions_constraint in E. destruct (filter _ _) as [|d l]; [discriminate|]. bindall E. injection E as <-.
    apply ge_d_made in E1; [|reflexivity]. rewrite (made_cols _ _ _ _ _ _ _ E1). cbn. lia.
  - exact (HC f cs c eq_refl H Hc).
Qed.

Lemma built_in_sound s r : pin_sized pn msqrt (ks_N s) -> m_nv (r_model r) = ks_N s -> custom_sound s r -> caches_sized s -> sound pn log3 msqrt s r.
Proof.
  intros HP HN [HC1 HC2] HR. split.
  - intros t e [Ht E]. apply (tasks_sized (ks_N s) (ks_dt s) r (kt_kind t) e HP HN); [| |exact E].
    + intros f e' K. exact (HC1 t f e' Ht K).
    + intros g W K. exact (HR t g W Ht K).
  - intros c cs c' Hc E Hc'. apply (constraints_sized (ks_N s) (ks_dt s) r c cs c' HP); [|exact E|exact Hc'].
    intros f cs' c'' K. exact (HC2 c f cs' c'' Hc K).
Qed.

End WithRobot.
