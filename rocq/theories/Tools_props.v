(** Properties C37-C42, C79, C80, C89 and C90: the helpers of placo::tools. *)
From Coq Require Import Reals Lra Lia List ZArith Bool String Ascii Arith.
From Verif Require Import Base Linalg Angle Expression_model Tools_model Tools_spec Tools_proofs.
Import ListNotations.
Open Scope R_scope.

(** ** C37 *)
Theorem C37_wrap_angle a :
  - PI < wrap_angle a <= PI /\ (exists k : Z, wrap_angle a = a + IZR k * (2 * PI)) /\ wrap_angle (wrap_angle a) = wrap_angle a.
Proof.
  split; [apply wrap_angle_range|]. split; [apply wrap_angle_same|]. apply wrap_angle_id, wrap_angle_range.
Qed.
Print Assumptions C37_wrap_angle.

(** It is the only function with the first two properties, and it does not change angles already in range. *)
Theorem C37_unique a b : - PI < b <= PI -> (exists k : Z, b = a + IZR k * (2 * PI)) -> wrap_angle a = b.
Proof.
  intros Hb Hk. apply same_angle_unique; [apply wrap_angle_range|exact Hb|].
  apply same_angle_trans with a; [apply wrap_angle_same|]. apply same_angle_sym. exact Hk.
Qed.
Print Assumptions C37_unique.

Example C37_example : wrap_angle (3 * PI) = PI /\ wrap_angle (- PI) = PI.
Proof.
  pose proof PI_RGT_0. split; apply C37_unique; try lra; [exists (-1)%Z|exists 1%Z]; lra.
Qed.

(** ** C38 *)
Theorem C38_safe_acos x :
  (-1 <= x <= 1 -> safe_acos x = acos x /\ cos (safe_acos x) = x) /\ (1 < x -> safe_acos x = 0) /\
  (x < -1 -> safe_acos x = PI) /\ 0 <= safe_acos x <= PI.
Proof.
  split; [|split; [|split]].
  - intros H. assert (E : safe_acos x = acos x).
    { unfold safe_acos. destruct (Rle_dec x (-1)); [f_equal; lra|]. destruct (Rle_dec 1 x); [f_equal; lra|reflexivity]. }
    split; [exact E|]. rewrite E. now apply cos_acos.
  - intros H. unfold safe_acos. destruct (Rle_dec x (-1)); [lra|]. destruct (Rle_dec 1 x); [apply acos_1|lra].
  - intros H. unfold safe_acos. destruct (Rle_dec x (-1)); [|lra].
    pose proof (acos_opp 1) as E. rewrite acos_1 in E. change (- (1))%R with (-1) in E. rewrite E. ring.
  - unfold safe_acos. apply acos_bound.
Qed.
Print Assumptions C38_safe_acos.

(** ** C39 *)

(** Both segments have a length and the sine of their angle is at least 1e-5 in absolute value. *)
Definition can_intersect (s1 s2 : segment) : Prop :=
  s_start s1 <> s_end s1 /\ s_start s2 <> s_end s2 /\
  1 / 100000 * (length2 (s_start s1) (s_end s1) * length2 (s_start s2) (s_end s2)) <=
    area2 (s_start s1) (s_end s1) (s_start s2) (s_end s2).

Lemma can_intersect_spec s1 s2 : can_intersect s1 s2 ->
  is_parallel s1 s2 default_epsilon = false /\ s_start s1 <> s_end s1 /\ s_start s2 <> s_end s2.
Proof.
  intros (H1 & H2 & H3). split; [|now split]. destruct (is_parallel _ _ _) eqn:E; [|reflexivity].
  apply is_parallel_spec in E. unfold default_epsilon in E. lra.
Qed.

Theorem C39_lambdas s1 s2 : can_intersect s1 s2 ->
  exists l1 l2, get_lambdas s1 s2 = Ok (Some (l1, l2)) /\
    along (s_start s1) (s_end s1) l1 = along (s_start s2) (s_end s2) l2 /\
    forall a b, along (s_start s1) (s_end s1) a = along (s_start s2) (s_end s2) b -> a = l1 /\ b = l2.
Proof.
  intros H. apply can_intersect_spec in H as (H1 & H2 & H3). destruct (get_lambdas_spec s1 s2 H1 H2 H3) as (l1 & l2 & E & U).
  exists l1, l2. split; [exact E|]. split; [now apply U|]. intros a b. apply U.
Qed.
Print Assumptions C39_lambdas.

Theorem C39_intersects s1 s2 : can_intersect s1 s2 ->
  exists b, intersects s1 s2 = Ok b /\
    (b = true <-> exists P, on_segment (s_start s1) (s_end s1) P /\ on_segment (s_start s2) (s_end s2) P).
Proof. intros H. apply can_intersect_spec in H as (H1 & H2 & H3). now apply intersects_spec. Qed.
Print Assumptions C39_intersects.

Theorem C39_line_pass_through s1 s2 : can_intersect s1 s2 ->
  exists b, line_pass_through s1 s2 = Ok b /\
    (b = true <-> exists P, on_segment (s_start s1) (s_end s1) P /\ on_guiding_line (s_start s2) (s_end s2) P).
Proof. intros H. apply can_intersect_spec in H as (H1 & H2 & H3). now apply line_pass_through_spec. Qed.
Print Assumptions C39_line_pass_through.

Theorem C39_lines_intersection s1 s2 : can_intersect s1 s2 ->
  exists P, lines_intersection s1 s2 = Ok (Some P) /\
    on_guiding_line (s_start s1) (s_end s1) P /\ on_guiding_line (s_start s2) (s_end s2) P /\
    forall Q, on_guiding_line (s_start s1) (s_end s1) Q -> on_guiding_line (s_start s2) (s_end s2) Q -> Q = P.
Proof.
  intros H. apply can_intersect_spec in H as (H1 & H2 & H3). destruct (get_lambdas_spec s1 s2 H1 H2 H3) as (l1 & l2 & E & U).
  unfold lines_intersection. rewrite E. cbn [obind]. exists (along (s_start s1) (s_end s1) l1). split; [reflexivity|].
  split; [now exists l1|]. split; [exists l2; now apply U|]. intros Q [a ->] [b Hb]. apply U in Hb as [-> _]. reflexivity.
Qed.
Print Assumptions C39_lines_intersection.

(** The other cases: segments closer to parallel are refused; a segment of length 0 is never reported to meet
    anything, even when it lies on the other one, and the intersection then has no finite coordinates. *)
Theorem C39_refused s1 s2 : s_start s1 <> s_end s1 -> s_start s2 <> s_end s2 -> ~ can_intersect s1 s2 ->
  get_lambdas s1 s2 = Throw ERuntime /\ intersects s1 s2 = Throw ERuntime /\ line_pass_through s1 s2 = Throw ERuntime /\
  half_line_pass_through s1 s2 = Throw ERuntime /\ lines_intersection s1 s2 = Throw ERuntime.
Proof.
  intros H1 H2 H3. assert (P : is_parallel s1 s2 default_epsilon = true).
  { apply is_parallel_spec. split; [exact H1|]. split; [exact H2|]. apply Rnot_le_lt. intros H. apply H3. split; [exact H1|].
    split; [exact H2|exact H]. }
  unfold intersects, line_pass_through, half_line_pass_through, lines_intersection, get_lambdas. rewrite P. repeat split.
Qed.
Print Assumptions C39_refused.

Theorem C39_degenerate s1 s2 : (s_start s1 = s_end s1 \/ s_start s2 = s_end s2) ->
  get_lambdas s1 s2 = Ok None /\ intersects s1 s2 = Ok false /\ line_pass_through s1 s2 = Ok false /\
  half_line_pass_through s1 s2 = Ok false /\ lines_intersection s1 s2 = Ok None.
Proof.
  intros H. pose proof (get_lambdas_degenerate s1 s2 H) as E.
  unfold intersects, line_pass_through, half_line_pass_through, lines_intersection. rewrite E.
  destruct (is_parallel s1 s2 default_epsilon) eqn:P; [apply is_parallel_spec in P; tauto|]. repeat split.
Qed.
Print Assumptions C39_degenerate.

(** The diagonals of a square meet. *)
Definition ex_s1 : segment := Segment (0, 0) (2, 2).
Definition ex_s2 : segment := Segment (0, 2) (2, 0).
Lemma sqrt_8 : sqrt ((2 - 0)² + (2 - 0)²) * sqrt ((2 - 0)² + (0 - 2)²) = 8.
Proof.
  replace ((2 - 0)² + (0 - 2)²) with ((2 - 0)² + (2 - 0)²) by (unfold Rsqr; ring). rewrite sqrt_sqrt; unfold Rsqr; lra.
Qed.
Example C39_example : can_intersect ex_s1 ex_s2 /\ intersects ex_s1 ex_s2 = Ok true /\
  lines_intersection ex_s1 ex_s2 = Ok (Some (1, 1)).
Proof.
  assert (C : can_intersect ex_s1 ex_s2).
  { unfold can_intersect, ex_s1, ex_s2. cbn [s_start s_end]. split; [intros E; injection E; intros; lra|].
    split; [intros E; injection E; intros; lra|]. unfold length2, area2. cbn [fst snd]. rewrite sqrt_8.
    rewrite Rabs_left by lra. lra. }
  split; [exact C|]. split.
  - destruct (C39_intersects _ _ C) as (b & -> & Hb). f_equal. apply Hb. exists (1, 1). unfold ex_s1, ex_s2. cbn [s_start s_end].
    split; (exists (1 / 2); split; [lra|]); unfold along; cbn [fst snd]; f_equal; lra.
  - destruct (C39_lines_intersection _ _ C) as (P & -> & _ & _ & U). do 2 f_equal. symmetry. apply U; unfold ex_s1, ex_s2;
    cbn [s_start s_end]; exists (1 / 2); unfold along; cbn [fst snd]; f_equal; lra.
Qed.

(** ** C40 *)

(** The code tests this segment against the half-line of the argument: the roles are exchanged. *)
Theorem C40_behaviour s1 s2 : can_intersect s1 s2 ->
  exists b, half_line_pass_through s1 s2 = Ok b /\
    (b = true <-> exists P, on_segment (s_start s1) (s_end s1) P /\ on_half_line (s_start s2) (s_end s2) P).
Proof. intros H. apply can_intersect_spec in H as (H1 & H2 & H3). now apply half_line_spec. Qed.
Print Assumptions C40_behaviour.

(** So the documented meaning fails, in both directions. *)
Theorem C40_half_line_refuted :
  (exists s1 s2, can_intersect s1 s2 /\ half_line_pass_through s1 s2 = Ok false /\
     exists P, on_half_line (s_start s1) (s_end s1) P /\ on_segment (s_start s2) (s_end s2) P) /\
  (exists s1 s2, can_intersect s1 s2 /\ half_line_pass_through s1 s2 = Ok true /\
     ~ exists P, on_half_line (s_start s1) (s_end s1) P /\ on_segment (s_start s2) (s_end s2) P).
Proof.
  pose (u := Segment (0, 0) (1, 0)). pose (v := Segment (2, -1) (2, 1)).
  assert (L1 : length2 (0, 0) (1, 0) = 1).
  { unfold length2. cbn [fst snd]. replace ((1 - 0)² + (0 - 0)²) with (1²) by (unfold Rsqr; ring). apply sqrt_Rsqr; lra. }
  assert (L2 : length2 (2, -1) (2, 1) = 2).
  { unfold length2. cbn [fst snd]. replace ((2 - 2)² + (1 - -1)²) with (2²) by (unfold Rsqr; ring). apply sqrt_Rsqr; lra. }
  assert (C1 : can_intersect u v).
  { unfold can_intersect, u, v. cbn [s_start s_end]. split; [intros E; injection E; intros; lra|].
    split; [intros E; injection E; intros; lra|]. rewrite L1, L2. unfold area2. cbn [fst snd]. rewrite Rabs_right by lra. lra. }
  assert (C2 : can_intersect v u).
  { unfold can_intersect, u, v. cbn [s_start s_end]. split; [intros E; injection E; intros; lra|].
    split; [intros E; injection E; intros; lra|]. rewrite L1, L2. unfold area2. cbn [fst snd]. rewrite Rabs_left by lra. lra. }
  split.
  - exists u, v. split; [exact C1|]. split.
    + destruct (C40_behaviour _ _ C1) as (b & -> & Hb). f_equal. destruct b; [|reflexivity]. exfalso.
      destruct (proj1 Hb eq_refl) as (P & (l & Hl & ->) & (k & _ & E)). unfold u, v, along in E. cbn [s_start s_end fst snd] in E.
      injection E as E1 E2. lra.
    + exists (2, 0). split; [exists 2|exists (1 / 2)]; (split; [lra|]); unfold u, v, along; cbn [s_start s_end fst snd]; f_equal; lra.
  - exists v, u. split; [exact C2|]. split.
    + destruct (C40_behaviour _ _ C2) as (b & -> & Hb). f_equal. apply Hb. exists (2, 0).
      split; [exists (1 / 2)|exists 2]; (split; [lra|]); unfold u, v, along; cbn [s_start s_end fst snd]; f_equal; lra.
    + intros (P & (l & Hl & ->) & (k & Hk & E)). unfold u, v, along in E. cbn [s_start s_end fst snd] in E. injection E as E1 E2. lra.
Qed.
Print Assumptions C40_half_line_refuted.

(** ** C89 *)
Theorem C89_points_of_the_segment s p eps : 0 < eps ->
  on_segment (s_start s) (s_end s) p -> is_point_in_segment s p eps = true.
Proof. apply is_point_in_segment_complete. Qed.
Print Assumptions C89_points_of_the_segment.

Theorem C89_accepted_points s p eps : is_point_in_segment s p eps = true ->
  exists q, on_segment (s_start s) (s_end s) q /\ length2 p q < eps * Rmax 1 (length2 (s_start s) p).
Proof. apply is_point_in_segment_sound. Qed.
Print Assumptions C89_accepted_points.

(** A point beyond the end is refused. *)
Example C89_example : is_point_in_segment (Segment (0, 0) (2, 0)) (1, 0) (1 / 10) = true /\
  is_point_in_segment (Segment (0, 0) (2, 0)) (3, 0) (1 / 10) = false.
Proof.
  split.
  - apply C89_points_of_the_segment; [lra|]. exists (1 / 2). split; [lra|]. unfold along. cbn [s_start s_end fst snd]. f_equal; lra.
  - unfold is_point_in_segment, v2_dot, v2_sub. cbn [s_start s_end fst snd].
    destruct (Rle_dec ((2 - 0) * (3 - 0) + (0 - 0) * (0 - 0)) ((2 - 0) * (2 - 0) + (0 - 0) * (0 - 0))); [lra|]. now rewrite !andb_false_r.
Qed.

(** ** C90 *)
Theorem C90_parallel s1 s2 eps :
  (is_parallel s1 s2 eps = true <-> s_start s1 <> s_end s1 /\ s_start s2 <> s_end s2 /\
     area2 (s_start s1) (s_end s1) (s_start s2) (s_end s2) <
     eps * (length2 (s_start s1) (s_end s1) * length2 (s_start s2) (s_end s2))) /\
  is_parallel s2 s1 eps = is_parallel s1 s2 eps /\
  is_parallel (Segment (s_end s1) (s_start s1)) s2 eps = is_parallel s1 s2 eps.
Proof.
  split; [apply is_parallel_spec|]. split; [apply is_parallel_sym|]. apply eq_true_iff_eq. rewrite !is_parallel_spec.
  cbn [s_start s_end]. rewrite (length2_sym (s_end s1)).
  replace (area2 (s_end s1) (s_start s1) (s_start s2) (s_end s2)) with (area2 (s_start s1) (s_end s1) (s_start s2) (s_end s2)).
  - split; intros (H1 & H2 & H3); (split; [congruence|]); auto.
  - unfold area2. rewrite <- Rabs_Ropp. f_equal. ring.
Qed.
Print Assumptions C90_parallel.

(** Two segments on the same line are parallel for every positive epsilon; perpendicular ones are not for epsilon <= 1. *)
Example C90_example eps : 0 < eps <= 1 ->
  is_parallel (Segment (0, 0) (1, 0)) (Segment (5, 0) (3, 0)) eps = true /\
  is_parallel (Segment (0, 0) (1, 0)) (Segment (5, 0) (5, 1)) eps = false.
Proof.
  intros He. split.
  - apply C90_parallel. cbn [s_start s_end]. split; [intros E; injection E; intros; lra|]. split; [intros E; injection E; intros; lra|].
    unfold area2. cbn [fst snd]. replace (_ - _) with 0 by ring. rewrite Rabs_R0. apply Rmult_lt_0_compat; [lra|].
    apply Rmult_lt_0_compat; apply length2_pos; intros E; injection E; intros; lra.
  - destruct (is_parallel _ _ _) eqn:E; [|reflexivity]. apply C90_parallel in E. cbn [s_start s_end] in E. destruct E as (_ & _ & E).
    unfold area2, length2 in E. cbn [fst snd] in E.
    replace ((1 - 0)² + (0 - 0)²) with (1²) in E by (unfold Rsqr; ring). replace ((5 - 5)² + (1 - 0)²) with (1²) in E by (unfold Rsqr; ring).
    rewrite sqrt_Rsqr in E by lra. replace (_ - _) with 1 in E by ring. rewrite Rabs_R1 in E. lra.
Qed.

(** ** C41 *)

(** The names of the frames. *)
Inductive frame_name : string -> reference_frame -> Prop :=
| name_task : frame_name "task" TaskFrame | name_world : frame_name "world" TaskFrame
| name_local : frame_name "local" LocalFrame | name_custom : frame_name "custom" CustomFrame.

(** Entry (k, j) of M seen in a frame. *)
Definition seen_in (f : reference_frame) (R_local R_custom M : mat) (k j : nat) : R :=
  match f with
  | TaskFrame => mat_at M k j
  | LocalFrame => Rsum 3 (fun l => mat_at R_local k l * mat_at M l j)
  | CustomFrame => Rsum 3 (fun l => mat_at R_custom k l * mat_at M l j)
  end.

Lemma set_axises_named m axises frame f : frame_name frame f -> set_axises m axises frame = set_axises_frame m axises f.
Proof. intros []; reflexivity. Qed.

Theorem C41_rows m axises frame f M : frame_name frame f -> (forall c, In c (letters axises) -> exists k, axis_letter c k) ->
  mrows (m_R_local m) = 3%nat -> mcols (m_R_local m) = 3%nat -> mrows (m_R_custom m) = 3%nat -> mcols (m_R_custom m) = 3%nat ->
  mrows M = 3%nat ->
  exists m', set_axises m axises frame = (m', Ok tt) /\
  exists N, apply_mask m' M = Ok N /\ mrows N = List.length (letters axises) /\ mcols N = mcols M /\
    forall i c k j, nth_error (letters axises) i = Some c -> axis_letter c k -> (j < mcols M)%nat ->
      mat_at N i j = seen_in f (m_R_local m) (m_R_custom m) M k j.
Proof.
  intros Hf Hl H1 H2 H3 H4 HM.
  assert (F : exists ks, Forall2 axis_letter (letters axises) ks).
  { clear -Hl. induction (letters axises) as [|c l IH]; [exists []; constructor|].
    destruct IH as [ks Hks]; [intros d Hd; apply Hl; now right|]. destruct (Hl c (or_introl eq_refl)) as [k Hk].
    exists (k :: ks). now constructor. }
  destruct F as [ks F]. rewrite (set_axises_named _ _ _ _ Hf). unfold set_axises_frame. rewrite (push_axises_total _ _ F).
  eexists. split; [reflexivity|]. cbn [app]. unfold apply_mask. cbn [m_frame m_R_local m_R_custom m_indices].
  assert (L : List.length ks = List.length (letters axises)) by (symmetry; eapply Forall2_len; exact F).
  assert (B : forall n, n = 3%nat -> forallb (fun i => Nat.ltb i n) ks = true).
  { intros n ->. apply forallb_forall. intros k Hk. apply Nat.ltb_lt. clear -F Hk.
    induction F as [|c k' l l' H F IH]; [contradiction|]. destruct Hk as [<-|Hk]; [eapply axis_letter_lt; exact H|auto]. }
  assert (NK : forall i c k, nth_error (letters axises) i = Some c -> axis_letter c k -> nth i ks 0%nat = k).
  { intros i c k Hi Hk. destruct (Forall2_nth_error _ _ _ F i c Hi) as (k' & E & Hk').
    rewrite (nth_error_nth _ _ _ E). destruct Hk; inversion Hk'; reflexivity. }
  destruct f; unfold mat_mul; rewrite ?H2, ?H4, ?HM; cbn [Nat.eqb guard obind mrows mcols mat_at];
    rewrite B by assumption; cbn [guard]; (eexists; split; [reflexivity|]); cbn [mrows mcols mat_at]; (split; [exact L|]);
    (split; [reflexivity|]); intros i c k j Hi Hk Hj; rewrite (NK i c k Hi Hk); reflexivity.
Qed.
Print Assumptions C41_rows.

(** A letter that is no axis, or an unknown frame, throws. *)
Theorem C41_invalid m axises frame :
  ((exists c, In c (letters axises) /\ forall k, ~ axis_letter c k) \/ (forall f, ~ frame_name frame f)) ->
  exists m', set_axises m axises frame = (m', Throw ERuntime).
Proof.
  intros H. unfold set_axises.
  destruct (String.eqb_spec frame "task") as [->|N1]; [|destruct (String.eqb_spec frame "world") as [->|N2];
    [|destruct (String.eqb_spec frame "local") as [->|N3]; [|destruct (String.eqb_spec frame "custom") as [->|N4]]]];
  cbn [orb]; try (destruct H as [H|H]; [|exfalso; eapply H; constructor]; unfold set_axises_frame;
    destruct (push_axises_throw axises [] H) as [l ->]; now eexists).
  now eexists.
Qed.
Print Assumptions C41_invalid.

Example C41_example : exists m', set_axises new_mask "zX" "world" = (m', Ok tt) /\
  exists N, apply_mask m' (Mat 3 1 (fun i _ => INR i)) = Ok N /\ mrows N = 2%nat /\ mat_at N 0%nat 0%nat = 2 /\ mat_at N 1%nat 0%nat = 0.
Proof.
  destruct (C41_rows new_mask "zX" "world" TaskFrame (Mat 3 1 (fun i _ => INR i))) as (m' & E & N & EN & R & _ & V); try reflexivity.
  - constructor.
  - intros c [<-|[<-|[]]]; eexists; constructor.
  - exists m'. split; [exact E|]. exists N. split; [exact EN|]. split; [exact R|]. split.
    + rewrite (V 0%nat "z"%char 2%nat 0%nat); [simpl; lra|reflexivity|constructor|cbn; lia].
    + rewrite (V 1%nat "X"%char 0%nat 0%nat); [reflexivity|reflexivity|constructor|cbn; lia].
Qed.

(** ** C42 *)

(** False: a bad letter empties the mask and changes its frame, a bad priority changes the name. *)
Theorem C42_unchanged_refuted :
  (exists m axises frame m', set_axises m axises frame = (m', Throw ERuntime) /\ m_indices m' <> m_indices m /\ m_frame m' <> m_frame m) /\
  (exists p name priority w p', configure_by_name p name priority w = (p', Throw ERuntime) /\ p_name p' <> p_name p).
Proof.
  split.
  - exists new_mask, "xa"%string, "local"%string. eexists. split; [reflexivity|]. split; discriminate.
  - exists new_prioritized, "task"%string, "harder"%string, 1. eexists. split; [reflexivity|]. discriminate.
Qed.
Print Assumptions C42_unchanged_refuted.

(** What remains true: an invalid frame name leaves the mask alone, a bad letter leaves the rotations alone; a bad
    priority leaves the priority and the weight alone. *)
Theorem C42_unchanged_partial :
  (forall m axises frame m' e, set_axises m axises frame = (m', Throw e) ->
     m_R_local m' = m_R_local m /\ m_R_custom m' = m_R_custom m /\ ((forall f, ~ frame_name frame f) -> m' = m)) /\
  (forall p name priority w p' e, configure_by_name p name priority w = (p', Throw e) ->
     p_priority p' = p_priority p /\ p_weight p' = p_weight p /\ p_name p' = name).
Proof.
  split.
  - intros m axises frame m' e. unfold set_axises, set_axises_frame. destruct (push_axises axises []) as [l o].
    destruct (String.eqb_spec frame "task") as [->|N1]; [|destruct (String.eqb_spec frame "world") as [->|N2];
    [|destruct (String.eqb_spec frame "local") as [->|N3]; [|destruct (String.eqb_spec frame "custom") as [->|N4]]]];
    cbn [orb]; intros E; injection E as <- E; (split; [reflexivity|]); (split; [reflexivity|]); intros H; try reflexivity;
    exfalso; eapply H; constructor.
  - intros p name priority w p' e. unfold configure_by_name. destruct (priority_from_string priority); intros E; try discriminate.
    injection E as <- _. auto.
Qed.
Print Assumptions C42_unchanged_partial.

(** The letters before the bad one have been recorded. *)
Theorem C42_behaviour m axises frame f : frame_name frame f ->
  exists ks, set_axises m axises frame = (Mask (m_R_local m) (m_R_custom m) ks f, snd (set_axises m axises frame)) /\
    exists rest, letters axises = firstn (List.length ks) (letters axises) ++ rest /\
      Forall2 axis_letter (firstn (List.length ks) (letters axises)) ks /\
      match rest with [] => snd (set_axises m axises frame) = Ok tt
                    | c :: _ => (forall k, ~ axis_letter c k) /\ snd (set_axises m axises frame) = Throw ERuntime end.
Proof.
  intros Hf. rewrite (set_axises_named _ _ _ _ Hf). unfold set_axises_frame.
  assert (G : forall s l0, exists ks rest, push_axises s l0 = (l0 ++ ks, snd (push_axises s l0)) /\
    letters s = firstn (List.length ks) (letters s) ++ rest /\ Forall2 axis_letter (firstn (List.length ks) (letters s)) ks /\
    match rest with [] => snd (push_axises s l0) = Ok tt | c :: _ => (forall k, ~ axis_letter c k) /\ snd (push_axises s l0) = Throw ERuntime end).
  { induction s as [|c s IH]; intros l0; cbn [push_axises letters].
    - exists [], []. rewrite app_nil_r. repeat split. constructor.
    - destruct (Ascii.eqb_spec (to_lower c) "x") as [Ex|Nx];
      [|destruct (Ascii.eqb_spec (to_lower c) "y") as [Ey|Ny]; [|destruct (Ascii.eqb_spec (to_lower c) "z") as [Ez|Nz]]].
      + destruct (IH (l0 ++ [0%nat])) as (ks & rest & E & H1 & H2 & H3). exists (0%nat :: ks), rest. rewrite E at 1.
        rewrite <- app_assoc. split; [reflexivity|]. cbn [List.length firstn app]. split; [now rewrite <- H1|].
        split; [|exact H3]. constructor; [apply to_lower_axis; auto|exact H2].
      + destruct (IH (l0 ++ [1%nat])) as (ks & rest & E & H1 & H2 & H3). exists (1%nat :: ks), rest. rewrite E at 1.
        rewrite <- app_assoc. split; [reflexivity|]. cbn [List.length firstn app]. split; [now rewrite <- H1|].
        split; [|exact H3]. constructor; [apply to_lower_axis; auto|exact H2].
      + destruct (IH (l0 ++ [2%nat])) as (ks & rest & E & H1 & H2 & H3). exists (2%nat :: ks), rest. rewrite E at 1.
        rewrite <- app_assoc. split; [reflexivity|]. cbn [List.length firstn app]. split; [now rewrite <- H1|].
        split; [|exact H3]. constructor; [apply to_lower_axis; auto|exact H2].
      + exists [], (c :: letters s). rewrite app_nil_r. cbn [List.length firstn app]. split; [reflexivity|].
        split; [reflexivity|]. split; [constructor|]. split; [|reflexivity]. intros k Hk. apply to_lower_axis in Hk. intuition congruence. }
  destruct (G axises []) as (ks & rest & E & H1 & H2 & H3). rewrite E. cbn [app snd]. exists ks. split; [reflexivity|].
  exists rest. split; [exact H1|]. split; [exact H2|exact H3].
Qed.
Print Assumptions C42_behaviour.

(** ** C79 *)
Theorem C79_round_trip p q name weight :
  configure_by_name q name (priority_name p) weight = (Prioritized name (p_priority p) weight, Ok tt).
Proof. destruct p as [n [] w]; reflexivity. Qed.
Print Assumptions C79_round_trip.

Theorem C79_names p name priority weight :
  (exists p', configure_by_name p name priority weight = (p', Ok tt) /\ priority_name p' = priority /\ p_weight p' = weight /\ p_name p' = name /\
     (priority = "hard" \/ priority = "soft" \/ priority = "scaled")%string) \/
  (~ (priority = "hard" \/ priority = "soft" \/ priority = "scaled")%string /\
   exists p', configure_by_name p name priority weight = (p', Throw ERuntime)).
Proof.
  unfold configure_by_name, priority_from_string.
  destruct (String.eqb_spec priority "soft") as [->|N1]; [left; eexists; repeat split; auto|].
  destruct (String.eqb_spec priority "hard") as [->|N2]; [left; eexists; repeat split; auto|].
  destruct (String.eqb_spec priority "scaled") as [->|N3]; [left; eexists; repeat split; auto|].
  right. split; [intuition|]. now eexists.
Qed.
Print Assumptions C79_names.

(** Problem constraints, on the contrary, accept every string and take all but "hard" for soft. *)
Theorem C79_problem_constraints c s w :
  c_prio (configure_string c s w) = (if String.eqb s "hard" then Hard else Soft) /\ c_weight (configure_string c s w) = w.
Proof. split; reflexivity. Qed.
Print Assumptions C79_problem_constraints.

(** ** C80 *)
Theorem C80_directions_2d n : mrows (directions_2d n) = n /\ mcols (directions_2d n) = 2%nat /\
  forall i, (i < n)%nat ->
    let x k := mat_at (directions_2d n) k 0%nat in let y k := mat_at (directions_2d n) k 1%nat in
    x i * x i + y i * y i = 1 /\ (i = 0%nat -> x i = 1 /\ y i = 0) /\
    (** turning by 2 pi / n gives the next direction, the first one after the last one *)
    let next := if Nat.eqb (S i) n then 0%nat else S i in
    x next = cos (2 * PI / INR n) * x i - sin (2 * PI / INR n) * y i /\
    y next = sin (2 * PI / INR n) * x i + cos (2 * PI / INR n) * y i.
Proof.
  split; [reflexivity|]. split; [reflexivity|]. intros i Hi x y. unfold x, y, directions_2d. cbn [mat_at Nat.eqb].
  assert (Hn : INR n <> 0) by (apply not_0_INR; lia).
  split; [pose proof (sin2_cos2 (2 * PI * INR i / INR n)) as G; unfold Rsqr in G; lra|].
  split. { intros ->. cbn [INR]. replace (2 * PI * 0 / INR n) with 0 by (field; exact Hn). rewrite cos_0, sin_0. auto. }
  set (a := 2 * PI / INR n). replace (2 * PI * INR i / INR n) with (INR i * a) by (unfold a; field; exact Hn).
  replace (cos a * cos (INR i * a) - sin a * sin (INR i * a)) with (cos (a + INR i * a)) by apply cos_plus.
  replace (sin a * cos (INR i * a) + cos a * sin (INR i * a)) with (sin (a + INR i * a)) by (rewrite sin_plus; ring).
  assert (S : same_angle (2 * PI * INR (if Nat.eqb (S i) n then 0%nat else S i) / INR n) (a + INR i * a)).
  { destruct (Nat.eqb_spec (S i) n) as [E|E].
    - exists (-1)%Z. assert (Ei : INR i = INR n - 1) by (rewrite <- E, S_INR; ring). rewrite Ei. unfold a. cbn [INR]. field. exact Hn.
    - exists 0%Z. rewrite S_INR. unfold a. field. exact Hn. }
  apply same_angle_cos_sin in S. exact S.
Qed.
Print Assumptions C80_directions_2d.

(** The 3d ones, for epsilon >= 0 (0.5 by default) and n - 1 + 2 epsilon > 0: n unit vectors, at equally spaced heights,
    each turned by a golden angle with respect to the previous one. *)
Theorem C80_directions_3d_partial n eps : 0 <= eps -> 0 < INR n - 1 + 2 * eps ->
  List.length (directions_3d n eps) = n /\
  forall i, (i < n)%nat -> exists x y z, nth_error (directions_3d n eps) i = Some (Some (x, y, z)) /\
    x * x + y * y + z * z = 1 /\ z = 1 - 2 * ((INR i + eps) / (INR n - 1 + 2 * eps)) /\
    exists r, 0 <= r /\ x = r * cos (2 * PI * (INR i / ((1 + sqrt 5) / 2))) /\ y = r * sin (2 * PI * (INR i / ((1 + sqrt 5) / 2))).
Proof.
  intros He Hd. unfold directions_3d. split; [now rewrite map_length, seq_length|]. intros i Hi.
  destruct (directions_3d_row_total n eps i He Hd Hi) as [[[x y] z] E]. exists x, y, z. split.
  - rewrite nth_error_map. assert (Es : nth_error (seq 0 n) i = Some i).
    { rewrite (nth_error_nth' _ 0%nat) by (rewrite seq_length; lia). now rewrite seq_nth. }
    rewrite Es. cbn [option_map]. now rewrite E.
  - now apply directions_3d_row_spec.
Qed.
Print Assumptions C80_directions_3d_partial.

(** Without these conditions the rows are NaN: a single direction with epsilon = 0, or a negative epsilon. *)
Theorem C80_directions_3d_refuted :
  directions_3d 1 0 = [None] /\ directions_3d 2 (- (1 / 4)) = [None; None].
Proof.
  split.
  - unfold directions_3d, directions_3d_row. cbn [seq map]. destruct (Req_EM_T _ 0) as [_|N]; [reflexivity|].
    exfalso. apply N. simpl. lra.
  - unfold directions_3d, directions_3d_row. cbn [seq map].
    assert (E : INR 2 - 1 + 2 * - (1 / 4) = 1 / 2) by (simpl; lra). rewrite E.
    destruct (Req_EM_T (1 / 2) 0) as [|_]; [lra|].
    destruct (Rle_dec _ 1) as [H|_]; [exfalso; cbn [INR] in H; rewrite Rabs_right in H; lra|].
    destruct (Rle_dec _ 1) as [H|_]; [exfalso; cbn [INR] in H; rewrite Rabs_left in H; lra|]. reflexivity.
Qed.
Print Assumptions C80_directions_3d_refuted.
