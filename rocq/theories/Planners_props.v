(** Properties of the planners as objects (C178). *)
From Coq Require Import Reals Lra Lia List ZArith Bool.
From Verif Require Import Base Geom3 Tools_model Geometry_model Geometry_spec Geometry_proofs Footsteps_model Footsteps_spec Footsteps_proofs Footsteps_proofs2 Footsteps_proofs3 Footsteps_props
  Footsteps_props2 Footsteps_props3 Planners_model Planners_spec Planners_proofs.
Import ListNotations.
Open Scope R_scope.

(** A repetitive planner plans as a new one would, with the parameters of the moment and its last configuration: nothing else of the program matters. *)
Theorem C178_repetitive c p l q k before p0 dx dy dtheta steps flying a b : made_by l k before CRepetitive -> parameters_are p before p0 -> parameters_are p l q ->
  last_steps l k dx dy dtheta steps ->
  answer c p l (CPlan k flying a b) = answer c q [CRepetitive; CSteps 0 dx dy dtheta steps] (CPlan 0 flying a b) /\
  exists plan, answer c p l (CPlan k flying a b) = Some (Ok plan).
Proof.
  intros M P Q L. unfold answer at 1 3. cbn [pstep snd]. rewrite (configured_steps c p l k before p0 dx dy dtheta steps M P L), (params_are c p l q Q).
  split; [reflexivity|]. eexists. reflexivity.
Qed.
Print Assumptions C178_repetitive.

(** A naive planner does too if the limits of the steps are, when it plans, those that it was created with. *)
Theorem C178_naive_partial c p l q k before p0 tl tr flying a b : made_by l k before CNaive -> parameters_are p before p0 -> parameters_are p l q -> last_targets l k tl tr ->
  p_max_dx_forward q = p_max_dx_forward p0 -> p_max_dy q = p_max_dy p0 -> p_max_dtheta q = p_max_dtheta p0 ->
  answer c p l (CPlan k flying a b) = answer c q [CNaive; CTargets 0 tl tr] (CPlan 0 flying a b) /\ exists plan, answer c p l (CPlan k flying a b) = Some (Ok plan).
Proof.
  intros M P Q L E1 E2 E3. unfold answer at 1 3. cbn [pstep snd]. rewrite (configured_targets c p l k before p0 tl tr M P L), (params_are c p l q Q).
  split; [|eexists; reflexivity]. cbn. unfold new_naive. rewrite E1, E2, E3. reflexivity.
Qed.
Print Assumptions C178_naive_partial.

(** In general it plans with the parameters of the moment, but no step goes beyond the limits that it was created with: it plans as if it was created, the parameters were changed, and
    it was configured. *)
Theorem C178_naive_behaviour c p l q k before p0 tl tr flying a b : made_by l k before CNaive -> parameters_are p before p0 -> parameters_are p l q -> last_targets l k tl tr ->
  answer c p l (CPlan k flying a b) = answer c p0 [CNaive; CParams q; CTargets 0 tl tr] (CPlan 0 flying a b) /\
  (positive_limits q -> 0 <= p_max_dx_forward p0 -> 0 <= p_max_dy p0 -> 0 <= p_max_dtheta p0 ->
   exists plan, answer c p l (CPlan k flying a b) = Some (Ok (Some plan)) /\
     forall i u v, (1 <= i)%nat -> nth_error plan i = Some u -> nth_error plan (S i) = Some v -> exists s, steps_by q u v s /\ allowed Ellipsoid q s /\
       Rabs (vx s) <= p_max_dx_forward p0 /\ Rabs (vy s) <= p_max_dy p0 /\ Rabs (vz s) <= p_max_dtheta p0).
Proof.
  intros M P Q L. unfold answer at 1 3. cbn [pstep snd]. rewrite (configured_targets c p l k before p0 tl tr M P L), (params_are c p l q Q).
  split; [reflexivity|]. intros Pq H1 H2 H3. cbn [plan_with]. destruct (C53_naive_plan q (new_naive p0) tl tr flying a b Pq H1 H2 H3) as (plan & -> & _ & _ & _ & _ & S0).
  exists plan. split; [reflexivity|exact S0].
Qed.
Print Assumptions C178_naive_behaviour.

(** So a planner created before the limits were raised does not plan as one created after. *)
Definition slow_params : params := Params 1 10 (1 / 4) 1 (1 / 20) (1 / 10) (1 / 10) 1 (1 / 10) (1 / 5) (1 / 20) (1 / 20).
Theorem C178_naive_refuted c : exists p q tl tr a b, positive_limits p /\ positive_limits q /\
  answer c p [CNaive; CParams q; CTargets 0 tl tr] (CPlan 0 Left a b) <> answer c p [CParams q; CNaive; CTargets 0 tl tr] (CPlan 0 Left a b).
Proof.
  set (tl := level (1 / 10) (1 / 10)). set (tr := level (1 / 10) (- (1 / 10))). set (a := level 0 (1 / 10)). set (b := level 0 (- (1 / 10))).
  exists slow_params, ex_params2, tl, tr, a, b. split; [unfold positive_limits; cbn; lra|]. split; [apply ex_limits2|]. intros H.
  assert (Hn : naive_plan ex_params2 (new_naive slow_params) tl tr Left a b = naive_plan ex_params2 (new_naive ex_params2) tl tr Left a b).
  { unfold answer in H. cbn [prun pstep fst snd ps_list ps_params nth_error put app plan_with] in H. exact (f_equal (fun o => match o with Some (Ok x) => x | _ => None end) H). }
  destruct (C53_naive_plan ex_params2 (new_naive slow_params) tl tr Left a b ex_limits2) as (l & El & _ & _ & _ & E1 & S0); [cbn; lra..|].
  set (s0 := NState a b Right false false).
  assert (C1 : clip Ellipsoid ex_params2 (V3 (1 / 10) 0 0) = Some (V3 (1 / 10) 0 0)).
  { rewrite clip_spec by apply ex_limits2.
    assert (G : gauge Ellipsoid ex_params2 (V3 (1 / 10) 0 0) = 1).
    { unfold gauge, max_dx, clip_norm, v3_norm, v3_dot. cbn [vx vy vz ex_params2 p_max_dx_forward p_max_dx_backward p_max_dy p_max_dtheta].
      destruct Rle_dec as [X|X]; [|lra]. replace (_ + _) with (1 * 1) by lra. apply sqrt_square. lra. }
    rewrite G. destruct Rlt_dec; [lra|]. f_equal. apply V3_ext; m3; lra. }
  destruct (naive_step_level ex_params2 (new_naive ex_params2) tl tr s0 (1 / 10) 0) with (st := V3 (1 / 10) 0 0) as (f & s1 & F1 & F2 & _).
  all: try (cbn [ns_support s0 state_frame ns_right target_of other_side]; unfold tl, b; rewrite level_rel; cbn; lra || reflexivity).
  { cbn [new_naive n_length ex_params2 p_max_dx_forward]. rewrite Rabs_right; lra. }
  { cbn [new_naive n_width ex_params2 p_max_dy]. rewrite Rabs_R0; lra. }
  { cbn. lra. }
  { cbn [new_naive n_place_threshold]. replace (1 / 10 * (1 / 10) + 0 * 0) with ((1 / 10) * (1 / 10)) by lra. rewrite sqrt_square; lra. }
  { exact C1. }
  rewrite El in Hn. symmetry in Hn. unfold naive_plan in Hn. assert (K : exists k, Z.to_nat (n_max_steps (new_naive ex_params2)) = S k) by (exists 99%nat; reflexivity). destruct K as [k K]. rewrite K in Hn. change (other_side Left) with Right in Hn.
  fold s0 in Hn. cbn [naive_loop] in Hn. change (ns_left_arrived s0 && ns_right_arrived s0) with false in Hn. cbv iota in Hn. rewrite F1 in Hn.
  destruct (naive_loop_total ex_params2 (new_naive ex_params2) tl tr ex_limits2 k s1) as (l' & s2 & E2). rewrite E2 in Hn.
  assert (Hl : initial_footsteps ex_params2 Left a b ++ f :: l' = l) by exact (f_equal (fun o => match o with Some x => x | None => [] end) Hn).
  assert (E3 : nth_error l 2 = Some f) by (rewrite <- Hl; reflexivity).
  destruct (S0 1%nat _ f (le_n 1) E1 E3) as (s & (_ & Fr) & _ & B & _). cbn [create_footstep f_frame f_side other_side target_of new_naive n_length slow_params p_max_dx_forward] in Fr, B.
  rewrite F2 in Fr. cbn [create_footstep f_frame ns_support s0 state_frame ns_right] in Fr. apply (f_equal (fun t => vx (fr_t t))) in Fr.
  unfold b, level, planar, frame_mul in Fr. cbn [fr_R fr_t] in Fr. revert Fr. m3. intros Fr. assert (vx s = 1 / 10) by lra. rewrite H0, Rabs_right in B by lra. lra.
Qed.
Print Assumptions C178_naive_refuted.

(** Planning with a planner that was not configured is undefined behaviour. *)
Theorem C178_unconfigured_refuted c p l k before p0 x flying a b : made_by l k before x -> parameters_are p before p0 ->
  (forall u v, ~ In (CTargets k u v) l) -> (forall u v w n, ~ In (CSteps k u v w n) l) -> answer c p l (CPlan k flying a b) = Some UB.
Proof.
  intros M P T1 T2. unfold answer. cbn [pstep snd]. destruct (unconfigured c p l k before p0 x M P T1 T2) as (y & -> & [-> | ->]); reflexivity.
Qed.
Print Assumptions C178_unconfigured_refuted.

(** A program with three planners: the first is configured twice, between changes of the parameters. *)
Definition planning : list pcall :=
  [CRepetitive; CSteps 0 1 0 0 3; CNaive; CParams ex_params2; CTargets 1 frame_id frame_id; CSteps 0 (1 / 10) 0 0 5; CRepetitive; CTargets 1 frame_id (level 0 (- (1 / 5)))].
Lemma planning_creations : creations [CRepetitive; CSteps 0 1 0 0 3] 1 /\ creations [CRepetitive; CSteps 0 1 0 0 3; CNaive; CParams ex_params2; CTargets 1 frame_id frame_id] 2.
Proof.
  assert (A : creations [CRepetitive; CSteps 0 1 0 0 3] 1).
  { apply (cr_other [CRepetitive]); [apply (cr_new []); [constructor|now right]|intros [X|X]; discriminate]. }
  split; [exact A|]. apply (cr_other [CRepetitive; CSteps 0 1 0 0 3; CNaive; CParams ex_params2]); [|intros [X|X]; discriminate].
  apply (cr_other [CRepetitive; CSteps 0 1 0 0 3; CNaive]); [|intros [X|X]; discriminate]. apply (cr_new [CRepetitive; CSteps 0 1 0 0 3]); [exact A|now left].
Qed.
Example C178_example : made_by planning 0 [] CRepetitive /\ made_by planning 1 [CRepetitive; CSteps 0 1 0 0 3] CNaive /\
  parameters_are slow_params [CRepetitive; CSteps 0 1 0 0 3] slow_params /\ parameters_are slow_params planning ex_params2 /\
  last_steps planning 0 (1 / 10) 0 0 5 /\ last_targets planning 1 frame_id (level 0 (- (1 / 5))) /\
  (exists before, made_by planning 2 before CRepetitive) /\ (forall u v w n, ~ In (CSteps 2 u v w n) planning) /\ (forall u v, ~ In (CTargets 2 u v) planning).
Proof.
  destruct planning_creations as [A B]. split; [eexists; split; [reflexivity|split; [constructor|now right]]|]. split; [eexists; split; [reflexivity|split; [exact A|now left]]|].
  split; [apply pa_start; intros q [X|[X|[]]]; discriminate|]. split.
  { apply (pa_set _ [CRepetitive; CSteps 0 1 0 0 3; CNaive]). intros q H. repeat (destruct H as [X|H]; [discriminate X|]). exact H. }
  split.
  { eexists _, _. split; [exact (eq_refl : planning = [CRepetitive; CSteps 0 1 0 0 3; CNaive; CParams ex_params2; CTargets 1 frame_id frame_id] ++ _ :: [_; _])|].
    split; [exists 2%nat; split; [exact B|lia]|]. intros u v w n H. repeat (destruct H as [X|H]; [discriminate X|]). exact H. }
  split.
  { eexists _, _. split; [exact (eq_refl : planning = [CRepetitive; CSteps 0 1 0 0 3; CNaive; CParams ex_params2; CTargets 1 frame_id frame_id; _; _] ++ _ :: [])|].
    split; [|intros u v H; exact H]. exists 3%nat. split; [|lia].
    apply (cr_new [CRepetitive; CSteps 0 1 0 0 3; CNaive; CParams ex_params2; CTargets 1 frame_id frame_id; CSteps 0 (1 / 10) 0 0 5]); [|now right].
    apply (cr_other [CRepetitive; CSteps 0 1 0 0 3; CNaive; CParams ex_params2; CTargets 1 frame_id frame_id]); [exact B|intros [X|X]; discriminate]. }
  split.
  { exists [CRepetitive; CSteps 0 1 0 0 3; CNaive; CParams ex_params2; CTargets 1 frame_id frame_id; CSteps 0 (1 / 10) 0 0 5]. eexists. split; [reflexivity|]. split; [|now right].
    apply (cr_other [CRepetitive; CSteps 0 1 0 0 3; CNaive; CParams ex_params2; CTargets 1 frame_id frame_id]); [exact B|intros [X|X]; discriminate]. }
  split; intros; intros H; repeat (destruct H as [X|H]; [discriminate X|]); exact H.
Qed.
