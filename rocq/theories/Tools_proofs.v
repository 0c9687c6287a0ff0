(** Lemmas about the model of placo::tools. *)
From Coq Require Import Reals Lra Lia List ZArith Bool String Ascii Arith.
From Verif Require Import Base Linalg Angle Tools_model Tools_spec.
Import ListNotations.
Open Scope R_scope.

Lemma wrap_angle_range a : - PI < wrap_angle a <= PI.
Proof. apply atan2_range. Qed.

Lemma wrap_angle_same a : same_angle (wrap_angle a) a.
Proof. apply atan2_same_angle. Qed.

Lemma wrap_angle_id a : - PI < a <= PI -> wrap_angle a = a.
Proof. intros H. apply same_angle_unique; [apply wrap_angle_range|exact H|apply wrap_angle_same]. Qed.

(** Points and segments. *)
Lemma sq_pos_sum a b : a <> 0 \/ b <> 0 -> 0 < a * a + b * b.
Proof.
  intros [H|H]; apply Rsqr_pos_lt in H; [pose proof (Rle_0_sqr b)|pose proof (Rle_0_sqr a)]; unfold Rsqr in *; lra.
Qed.

Lemma point_neq (A B : R * R) : A <> B -> fst B - fst A <> 0 \/ snd B - snd A <> 0.
Proof.
  destruct A as [a1 a2], B as [b1 b2]. cbn [fst snd]. intros H. destruct (Req_dec a1 b1) as [->|]; [right|left; lra].
  intros E. apply H. f_equal. lra.
Qed.

Lemma point_dec (A B : R * R) : A = B \/ A <> B.
Proof.
  destruct A as [a1 a2], B as [b1 b2]. destruct (Req_dec a1 b1) as [->|]; [|right; congruence].
  destruct (Req_dec a2 b2) as [->|]; [now left|right; congruence].
Qed.

Lemma length2_norm A B : v2_norm (v2_sub B A) = length2 A B.
Proof. reflexivity. Qed.

Lemma length2_pos A B : A <> B -> 0 < length2 A B.
Proof. intros H. apply sqrt_lt_R0. apply (sq_pos_sum _ _ (point_neq _ _ H)). Qed.

Lemma length2_same A : length2 A A = 0.
Proof. unfold length2. rewrite !Rminus_eq_0. unfold Rsqr. rewrite Rmult_0_l, Rplus_0_l. apply sqrt_0. Qed.

Lemma length2_nonneg A B : 0 <= length2 A B.
Proof. apply sqrt_pos. Qed.

Lemma length2_sym A B : length2 A B = length2 B A.
Proof. unfold length2. f_equal. unfold Rsqr. ring. Qed.

Lemma is_parallel_spec s1 s2 eps : is_parallel s1 s2 eps = true <->
  s_start s1 <> s_end s1 /\ s_start s2 <> s_end s2 /\
  area2 (s_start s1) (s_end s1) (s_start s2) (s_end s2) <
    eps * (length2 (s_start s1) (s_end s1) * length2 (s_start s2) (s_end s2)).
Proof.
  destruct s1 as [A B], s2 as [C D]. unfold is_parallel. cbn [s_start s_end]. rewrite !length2_norm.
  change (Rabs (v2_cross (v2_sub B A) (v2_sub D C))) with (area2 A B C D).
  destruct (Req_EM_T (length2 A B * length2 C D) 0) as [E|E].
  - split; [discriminate|]. intros (H1 & H2 & _). exfalso. apply Rmult_integral in E.
    apply length2_pos in H1, H2. lra.
  - assert (H1 : A <> B) by (intros ->; apply E; rewrite length2_same; ring).
    assert (H2 : C <> D) by (intros ->; apply E; rewrite length2_same; ring).
    assert (Hp : 0 < length2 A B * length2 C D) by (apply Rmult_lt_0_compat; now apply length2_pos).
    destruct (Rlt_dec _ eps) as [L|L].
    + split; [|reflexivity]. intros _. split; [exact H1|]. split; [exact H2|].
      apply Rmult_lt_compat_r with (r := length2 A B * length2 C D) in L; [|exact Hp].
      unfold Rdiv in L. rewrite Rmult_assoc, Rinv_l, Rmult_1_r in L by lra. exact L.
    + split; [discriminate|]. intros (_ & _ & H). exfalso. apply L.
      apply Rmult_lt_reg_r with (length2 A B * length2 C D); [exact Hp|].
      unfold Rdiv. rewrite Rmult_assoc, Rinv_l, Rmult_1_r by lra. exact H.
Qed.

Definition det (s1 s2 : segment) : R :=
  (fst (s_end s1) - fst (s_start s1)) * (snd (s_end s2) - snd (s_start s2)) -
  (snd (s_end s1) - snd (s_start s1)) * (fst (s_end s2) - fst (s_start s2)).

Lemma not_parallel_det s1 s2 : s_start s1 <> s_end s1 -> s_start s2 <> s_end s2 ->
  is_parallel s1 s2 default_epsilon = false -> det s1 s2 <> 0.
Proof.
  intros H1 H2 H E. assert (T : is_parallel s1 s2 default_epsilon = true); [|congruence].
  apply is_parallel_spec. split; [exact H1|]. split; [exact H2|]. unfold area2. fold (det s1 s2). rewrite E, Rabs_R0.
  apply length2_pos in H1, H2. unfold default_epsilon. apply Rmult_lt_0_compat; [lra|]. now apply Rmult_lt_0_compat.
Qed.

Lemma along_meet s1 s2 a b : det s1 s2 <> 0 ->
  along (s_start s1) (s_end s1) a = along (s_start s2) (s_end s2) b <->
  a = ((snd (s_end s2) - snd (s_start s2)) * (fst (s_start s2) - fst (s_start s1)) +
       (fst (s_end s2) - fst (s_start s2)) * (snd (s_start s1) - snd (s_start s2))) / det s1 s2 /\
  b = ((snd (s_end s1) - snd (s_start s1)) * (fst (s_start s2) - fst (s_start s1)) +
       (fst (s_end s1) - fst (s_start s1)) * (snd (s_start s1) - snd (s_start s2))) / det s1 s2.
Proof.
  destruct s1 as [[x1 y1] [X1 Y1]], s2 as [[x2 y2] [X2 Y2]]. unfold along, det. cbn [fst snd s_start s_end]. intros Hd.
  set (u := X1 - x1) in *. set (v := Y1 - y1) in *. set (p := X2 - x2) in *. set (q := Y2 - y2) in *. split.
  - intros E. injection E as E1 E2.
    assert (F1 : x2 - x1 = a * u - b * p) by lra. assert (F2 : y1 - y2 = b * q - a * v) by lra. rewrite F1, F2.
    split; field; exact Hd.
  - intros [-> ->]. f_equal.
    + apply Rminus_diag_uniq. field. exact Hd.
    + apply Rminus_diag_uniq. field. exact Hd.
Qed.

Lemma get_lambdas_spec s1 s2 : is_parallel s1 s2 default_epsilon = false ->
  s_start s1 <> s_end s1 -> s_start s2 <> s_end s2 ->
  exists l1 l2, get_lambdas s1 s2 = Ok (Some (l1, l2)) /\
    (forall a b, along (s_start s1) (s_end s1) a = along (s_start s2) (s_end s2) b <-> a = l1 /\ b = l2).
Proof.
  intros Hp H1 H2. pose proof (not_parallel_det s1 s2 H1 H2 Hp) as Hd. unfold get_lambdas. rewrite Hp.
  cbn [v2_sub fst snd]. fold (det s1 s2). destruct (Req_EM_T (det s1 s2) 0) as [|_]; [contradiction|].
  eexists. eexists. split; [reflexivity|]. intros a b. apply along_meet. exact Hd.
Qed.

Lemma get_lambdas_degenerate s1 s2 : (s_start s1 = s_end s1 \/ s_start s2 = s_end s2) -> get_lambdas s1 s2 = Ok None.
Proof.
  intros H. unfold get_lambdas. destruct (is_parallel s1 s2 default_epsilon) eqn:E.
  - apply is_parallel_spec in E. destruct H; tauto.
  - cbn [v2_sub fst snd]. fold (det s1 s2). destruct (Req_EM_T (det s1 s2) 0) as [_|N]; [reflexivity|].
    exfalso. apply N. unfold det. destruct H as [<-|<-]; ring.
Qed.

Lemma line_pass_through_spec s1 s2 : is_parallel s1 s2 default_epsilon = false ->
  s_start s1 <> s_end s1 -> s_start s2 <> s_end s2 ->
  exists b, line_pass_through s1 s2 = Ok b /\
    (b = true <-> exists P, on_segment (s_start s1) (s_end s1) P /\ on_guiding_line (s_start s2) (s_end s2) P).
Proof.
  intros Hp H1 H2. destruct (get_lambdas_spec s1 s2 Hp H1 H2) as (l1 & l2 & E & U).
  unfold line_pass_through. rewrite E. cbn [obind]. eexists. split; [reflexivity|].
  destruct (proj2 (U l1 l2) (conj eq_refl eq_refl)) as []. split.
  - intros H. apply andb_true_iff in H as [G1 G2].
    destruct (Rle_dec 0 l1); [|discriminate]. destruct (Rle_dec l1 1); [|discriminate].
    exists (along (s_start s1) (s_end s1) l1). split; [exists l1; auto|].
    exists l2. now apply U.
  - intros (P & (a & Ha & ->) & (b & Hb)). apply U in Hb. destruct Hb as [-> ->].
    destruct (Rle_dec 0 l1); [|lra]. destruct (Rle_dec l1 1); [reflexivity|lra].
Qed.

Lemma half_line_spec s1 s2 : is_parallel s1 s2 default_epsilon = false ->
  s_start s1 <> s_end s1 -> s_start s2 <> s_end s2 ->
  exists b, half_line_pass_through s1 s2 = Ok b /\
    (b = true <-> exists P, on_segment (s_start s1) (s_end s1) P /\ on_half_line (s_start s2) (s_end s2) P).
Proof.
  intros Hp H1 H2. destruct (get_lambdas_spec s1 s2 Hp H1 H2) as (l1 & l2 & E & U).
  unfold half_line_pass_through. rewrite E. cbn [obind]. eexists. split; [reflexivity|]. split.
  - intros H. apply andb_true_iff in H as [H G3]. apply andb_true_iff in H as [G1 G2].
    destruct (Rle_dec 0 l1); [|discriminate]. destruct (Rle_dec l1 1); [|discriminate].
    destruct (Rle_dec 0 l2); [|discriminate].
    exists (along (s_start s1) (s_end s1) l1). split; [exists l1; auto|].
    exists l2. split; [assumption|]. now apply U.
  - intros (P & (a & Ha & ->) & (b & Hb0 & Hb)). apply U in Hb. destruct Hb as [-> ->].
    destruct (Rle_dec 0 l1); [|lra]. destruct (Rle_dec l1 1); [|lra]. destruct (Rle_dec 0 l2); [reflexivity|lra].
Qed.

Lemma is_parallel_sym s1 s2 eps : is_parallel s1 s2 eps = is_parallel s2 s1 eps.
Proof.
  apply eq_true_iff_eq. rewrite !is_parallel_spec.
  assert (E : area2 (s_start s1) (s_end s1) (s_start s2) (s_end s2) = area2 (s_start s2) (s_end s2) (s_start s1) (s_end s1)).
  { unfold area2. rewrite <- Rabs_Ropp. f_equal. ring. }
  rewrite E. rewrite (Rmult_comm (length2 (s_start s1) (s_end s1))). tauto.
Qed.

Lemma intersects_spec s1 s2 : is_parallel s1 s2 default_epsilon = false ->
  s_start s1 <> s_end s1 -> s_start s2 <> s_end s2 ->
  exists b, intersects s1 s2 = Ok b /\
    (b = true <-> exists P, on_segment (s_start s1) (s_end s1) P /\ on_segment (s_start s2) (s_end s2) P).
Proof.
  intros Hp H1 H2. unfold intersects. rewrite Hp.
  destruct (line_pass_through_spec s1 s2 Hp H1 H2) as (b1 & E1 & B1).
  rewrite is_parallel_sym in Hp. destruct (line_pass_through_spec s2 s1 Hp H2 H1) as (b2 & E2 & B2).
  rewrite E1. cbn [obind].
  assert (Q : (exists P, on_segment (s_start s1) (s_end s1) P /\ on_segment (s_start s2) (s_end s2) P) <-> b1 = true /\ b2 = true).
  { rewrite B1, B2. split.
    - intros (P & G1 & G2). split; exists P; (split; [assumption|]).
      + destruct G2 as (l & _ & ->). now exists l.
      + destruct G1 as (l & _ & ->). now exists l.
    - intros [(P & (a & Ha & ->) & (b & Eb)) (Q & (c & Hc & ->) & (d & Ed))].
      rewrite is_parallel_sym in Hp.
      destruct (get_lambdas_spec s1 s2 Hp H1 H2) as (l1 & l2 & _ & U).
      apply U in Eb as [-> ->]. symmetry in Ed. apply U in Ed as [-> ->].
      exists (along (s_start s1) (s_end s1) l1). split; [exists l1; auto|]. exists l2. split; [exact Hc|]. now apply U. }
  destruct b1.
  - exists b2. split; [exact E2|]. rewrite Q. tauto.
  - exists false. split; [reflexivity|]. rewrite Q. split; [discriminate|]. intros []. discriminate.
Qed.

(** Points of a segment. *)
Lemma abs_length2 A B : Rabs (length2 A B) = length2 A B.
Proof. apply Rabs_right, Rle_ge, length2_nonneg. Qed.

Lemma length2_sqr A B : length2 A B * length2 A B = (fst B - fst A) * (fst B - fst A) + (snd B - snd A) * (snd B - snd A).
Proof. unfold length2, Rsqr. rewrite sqrt_sqrt; [reflexivity|]. apply Rplus_le_le_0_compat; apply Rle_0_sqr. Qed.

Lemma is_point_in_segment_complete s p eps : 0 < eps -> on_segment (s_start s) (s_end s) p -> is_point_in_segment s p eps = true.
Proof.
  intros He (l & Hl & ->). destruct s as [A B]. cbn [s_start s_end]. unfold is_point_in_segment, is_segment_aligned. cbn [s_start s_end].
  apply andb_true_iff. split; [apply andb_true_iff; split; [apply andb_true_iff; split|]|].
  - unfold is_point_aligned. cbn [s_start s_end]. rewrite length2_norm, length2_same, Rabs_R0. destruct (Rlt_dec 0 eps); [reflexivity|lra].
  - unfold is_point_aligned. cbn [s_start s_end]. rewrite length2_norm, abs_length2.
    destruct (Rlt_dec _ eps) as [_|N]; [reflexivity|].
    apply is_parallel_spec. cbn [s_start s_end].
    assert (Hne : A <> B).
    { intros <-. apply N. replace (along A A l) with A; [rewrite length2_same; exact He|].
      unfold along. destruct A. cbn [fst snd]. f_equal; ring. }
    assert (Hne' : A <> along A B l).
    { intros E. apply N. rewrite <- E, length2_same. exact He. }
    split; [exact Hne|]. split; [exact Hne'|].
    replace (area2 A B A (along A B l)) with 0.
    + apply Rmult_lt_0_compat; [exact He|]. apply Rmult_lt_0_compat; now apply length2_pos.
    + unfold area2, along. cbn [fst snd]. symmetry. replace (_ - _) with 0; [apply Rabs_R0|]. ring.
  - unfold v2_dot, v2_sub, along. cbn [fst snd].
    pose proof (Rle_0_sqr (fst B - fst A)) as G1. pose proof (Rle_0_sqr (snd B - snd A)) as G2. unfold Rsqr in *.
    destruct (Rle_dec _ _) as [|N]; [reflexivity|]. exfalso. apply N.
    replace (_ + _) with (l * ((fst B - fst A) * (fst B - fst A) + (snd B - snd A) * (snd B - snd A))) by ring.
    apply Rmult_le_pos; lra.
  - unfold v2_dot, v2_sub, along. cbn [fst snd].
    pose proof (Rle_0_sqr (fst B - fst A)) as G1. pose proof (Rle_0_sqr (snd B - snd A)) as G2. unfold Rsqr in *.
    destruct (Rle_dec _ _) as [|N]; [reflexivity|]. exfalso. apply N.
    set (n := (fst B - fst A) * (fst B - fst A) + (snd B - snd A) * (snd B - snd A)) in *.
    replace (_ + _) with (l * n) by (unfold n; ring). assert (0 <= n) by (unfold n; lra). nra.
Qed.

(** The foot of the perpendicular. *)
Lemma foot_distance A B P : A <> B ->
  let l := ((fst B - fst A) * (fst P - fst A) + (snd B - snd A) * (snd P - snd A)) / (length2 A B * length2 A B) in
  length2 P (along A B l) * length2 A B = area2 A B A P.
Proof.
  intros Hne l. pose proof (length2_pos A B Hne) as Hp. pose proof (length2_sqr A B) as Q.
  unfold area2. rewrite <- sqrt_Rsqr_abs. unfold length2 at 1 2. rewrite <- sqrt_mult_alt by (apply Rplus_le_le_0_compat; apply Rle_0_sqr).
  f_equal. unfold along. cbn [fst snd].
  replace ((fst B - fst A)² + (snd B - snd A)²) with (length2 A B * length2 A B) by (rewrite Q; reflexivity).
  set (n := length2 A B * length2 A B) in *. assert (Hn : 0 < n) by (unfold n; now apply Rmult_lt_0_compat).
  set (u := fst B - fst A) in *. set (v := snd B - snd A) in *. unfold l.
  replace (fst A + (u * (fst P - fst A) + v * (snd P - snd A)) / n * u - fst P) with
    (v * (u * (snd P - snd A) - v * (fst P - fst A)) / n).
  2: { apply Rminus_diag_uniq. rewrite Q. field. lra. }
  replace (snd A + (u * (fst P - fst A) + v * (snd P - snd A)) / n * v - snd P) with
    (- (u * (u * (snd P - snd A) - v * (fst P - fst A)) / n)).
  2: { apply Rminus_diag_uniq. rewrite Q. field. lra. }
  unfold Rsqr. set (w := u * (snd P - snd A) - v * (fst P - fst A)).
  apply Rminus_diag_uniq. rewrite Q. field. lra.
Qed.

Lemma is_point_in_segment_sound s p eps : is_point_in_segment s p eps = true ->
  exists q, on_segment (s_start s) (s_end s) q /\ length2 p q < eps * Rmax 1 (length2 (s_start s) p).
Proof.
  destruct s as [A B]. cbn [s_start s_end]. unfold is_point_in_segment, is_segment_aligned. cbn [s_start s_end]. intros H.
  apply andb_true_iff in H as [H D2]. apply andb_true_iff in H as [H D1]. apply andb_true_iff in H as [He H].
  assert (Hpos : 0 < eps).
  { unfold is_point_aligned in He. cbn [s_start s_end] in He. rewrite length2_norm, length2_same, Rabs_R0 in He.
    destruct (Rlt_dec 0 eps) as [|N]; [assumption|].
    apply is_parallel_spec in He. cbn [s_start s_end] in He. tauto. }
  unfold is_point_aligned in H. cbn [s_start s_end] in H. rewrite length2_norm, abs_length2 in H.
  destruct (Rlt_dec _ eps) as [Hn|_].
  - exists A. split; [exists 0; split; [lra|]; unfold along; destruct A; cbn [fst snd]; f_equal; ring|].
    eapply Rlt_le_trans; [exact Hn|]. rewrite <- (Rmult_1_r eps) at 1. apply Rmult_le_compat_l; [lra|apply Rmax_l].
  - apply is_parallel_spec in H. cbn [s_start s_end] in H. destruct H as (H1 & H2 & H3).
    pose proof (foot_distance A B p H1) as F. cbv zeta in F. set (l := _ / _) in F.
    pose proof (length2_pos A B H1) as Hp. pose proof (length2_sqr A B) as Q.
    exists (along A B l). split.
    + exists l. split; [|reflexivity].
      unfold v2_dot, v2_sub in D1, D2. cbn [fst snd] in D1, D2.
      destruct (Rle_dec 0 _) as [E1|] in D1; [|discriminate]. destruct (Rle_dec _ _) as [E2|] in D2; [|discriminate].
      rewrite <- Q in E2. assert (Hn : 0 < length2 A B * length2 A B) by now apply Rmult_lt_0_compat.
      unfold l. split.
      * apply Rmult_le_pos; [exact E1|]. left. now apply Rinv_0_lt_compat.
      * apply Rmult_le_reg_r with (length2 A B * length2 A B); [exact Hn|].
        unfold Rdiv. rewrite Rmult_assoc, Rinv_l, Rmult_1_l, Rmult_1_r by lra. exact E2.
    + apply Rmult_lt_reg_r with (length2 A B); [exact Hp|]. rewrite F.
      eapply Rlt_le_trans; [exact H3|].
      replace (eps * (length2 A B * length2 A p)) with (eps * length2 A p * length2 A B) by ring.
      apply Rmult_le_compat_r; [lra|]. apply Rmult_le_compat_l; [lra|apply Rmax_r].
Qed.

(** Masks. *)
Lemma to_lower_axis c k : axis_letter c k <->
  (to_lower c = "x"%char /\ k = 0%nat) \/ (to_lower c = "y"%char /\ k = 1%nat) \/ (to_lower c = "z"%char /\ k = 2%nat).
Proof.
  split.
  - intros []; auto.
  - assert (G : forall c, to_lower c = "x"%char -> c = "x"%char \/ c = "X"%char).
    { intros [[] [] [] [] [] [] [] []]; vm_compute; intros H; try discriminate H; auto. }
    assert (G' : forall c, to_lower c = "y"%char -> c = "y"%char \/ c = "Y"%char).
    { intros [[] [] [] [] [] [] [] []]; vm_compute; intros H; try discriminate H; auto. }
    assert (G'' : forall c, to_lower c = "z"%char -> c = "z"%char \/ c = "Z"%char).
    { intros [[] [] [] [] [] [] [] []]; vm_compute; intros H; try discriminate H; auto. }
    intros [[H ->]|[[H ->]|[H ->]]].
    + destruct (G c H) as [->| ->]; constructor.
    + destruct (G' c H) as [->| ->]; constructor.
    + destruct (G'' c H) as [->| ->]; constructor.
Qed.

Lemma push_axises_ok s : forall l0 l, push_axises s l0 = (l, Ok tt) ->
  exists l1, l = l0 ++ l1 /\ Forall2 axis_letter (letters s) l1.
Proof.
  induction s as [|c s IH]; intros l0 l; cbn [push_axises letters].
  - intros H. injection H as <-. exists []. split; [now rewrite app_nil_r|constructor].
  - destruct (Ascii.eqb_spec (to_lower c) "x"); [|destruct (Ascii.eqb_spec (to_lower c) "y"); [|destruct (Ascii.eqb_spec (to_lower c) "z"); [|discriminate]]];
    intros H; apply IH in H; destruct H as (l1 & -> & F); eexists; (split; [rewrite <- app_assoc; reflexivity|]);
    constructor; try exact F; apply to_lower_axis; auto.
Qed.

Lemma push_axises_total s l1 : Forall2 axis_letter (letters s) l1 -> forall l0, push_axises s l0 = (l0 ++ l1, Ok tt).
Proof.
  revert l1. induction s as [|c s IH]; intros l1 F l0; cbn [push_axises letters] in *.
  - inversion F. now rewrite app_nil_r.
  - inversion F as [|c' k ls l2 Hc F']; subst. apply to_lower_axis in Hc.
    destruct Hc as [[-> ->]|[[-> ->]|[-> ->]]]; cbn [Ascii.eqb Bool.eqb]; rewrite (IH _ F'), <- app_assoc; reflexivity.
Qed.

Lemma push_axises_throw s : forall l0, (exists c, In c (letters s) /\ forall k, ~ axis_letter c k) ->
  exists l, push_axises s l0 = (l, Throw ERuntime).
Proof.
  induction s as [|c s IH]; intros l0 (d & Hin & Hd); cbn [letters] in Hin; [contradiction|].
  cbn [push_axises].
  destruct (Ascii.eqb_spec (to_lower c) "x"); [|destruct (Ascii.eqb_spec (to_lower c) "y"); [|destruct (Ascii.eqb_spec (to_lower c) "z"); [|now eexists]]];
  (apply IH; exists d; split; [|exact Hd]; destruct Hin as [->|Hin]; [exfalso; eapply Hd, to_lower_axis; auto|exact Hin]).
Qed.

Lemma axis_letter_lt c k : axis_letter c k -> (k < 3)%nat.
Proof. intros []; lia. Qed.

Lemma Forall2_nth_error {A B} (P : A -> B -> Prop) l l' : Forall2 P l l' ->
  forall i a, nth_error l i = Some a -> exists b, nth_error l' i = Some b /\ P a b.
Proof.
  induction 1 as [|a b l l' H F IH]; intros [|i] c; cbn; try discriminate.
  - intros E. injection E as <-. eauto.
  - apply IH.
Qed.

(** Directions. *)
Lemma fmod1_same_angle x : same_angle (2 * PI * fmod1 x) (2 * PI * x).
Proof. exists (- Int_part x)%Z. unfold fmod1. rewrite opp_IZR. ring. Qed.

Lemma directions_3d_row_spec n eps i x y z : directions_3d_row n eps i = Some (x, y, z) ->
  x * x + y * y + z * z = 1 /\ z = 1 - 2 * ((INR i + eps) / (INR n - 1 + 2 * eps)) /\
  exists r, 0 <= r /\ x = r * cos (2 * PI * (INR i / ((1 + sqrt 5) / 2))) /\ y = r * sin (2 * PI * (INR i / ((1 + sqrt 5) / 2))).
Proof.
  unfold directions_3d_row. destruct (Req_EM_T _ 0); [discriminate|].
  set (w := (INR i + eps) / (INR n - 1 + 2 * eps)). destruct (Rle_dec (Rabs (1 - 2 * w)) 1) as [H|]; [|discriminate].
  set (a := fmod1 _). intros E. injection E as <- <- <-.
  assert (Hb : -1 <= 1 - 2 * w <= 1) by (split; [|eapply Rle_trans; [apply Rle_abs|exact H]];
    rewrite <- Rabs_Ropp in H; pose proof (Rle_abs (- (1 - 2 * w))); lra).
  split; [|split].
  - set (b := acos _). pose proof (sin2_cos2 b) as G1. pose proof (sin2_cos2 (2 * PI * a)) as G2. unfold Rsqr in *.
    replace (_ + _ + _) with (sin b * sin b * (sin (2 * PI * a) * sin (2 * PI * a) + cos (2 * PI * a) * cos (2 * PI * a)) + cos b * cos b) by ring.
    rewrite G2. lra.
  - now apply cos_acos.
  - exists (sin (acos (1 - 2 * w))). destruct (same_angle_cos_sin _ _ (fmod1_same_angle (INR i / ((1 + sqrt 5) / 2)))) as [G1 G2].
    unfold a. rewrite G1, G2. split; [|split; reflexivity].
    destruct (acos_bound (1 - 2 * w)) as [B1 B2]. now apply sin_ge_0.
Qed.

Lemma directions_3d_row_total n eps i : 0 <= eps -> 0 < INR n - 1 + 2 * eps -> (i < n)%nat ->
  exists v, directions_3d_row n eps i = Some v.
Proof.
  intros He Hd Hi. unfold directions_3d_row. destruct (Req_EM_T _ 0) as [E|_]; [lra|].
  set (w := (INR i + eps) / (INR n - 1 + 2 * eps)).
  assert (H : 0 <= w <= 1).
  { pose proof (pos_INR i). assert (INR i <= INR n - 1).
    { replace (INR n - 1) with (INR (n - 1)); [apply le_INR; lia|]. rewrite minus_INR by lia. reflexivity. }
    unfold w. split.
    - apply Rmult_le_pos; [lra|]. left. now apply Rinv_0_lt_compat.
    - apply Rmult_le_reg_r with (INR n - 1 + 2 * eps); [exact Hd|]. unfold Rdiv. rewrite Rmult_assoc, Rinv_l by lra. lra. }
  destruct (Rle_dec (Rabs (1 - 2 * w)) 1) as [_|N]; [eauto|]. exfalso. apply N. apply Rabs_le. lra.
Qed.

Lemma Forall2_len {A B} (P : A -> B -> Prop) l l' : Forall2 P l l' -> List.length l = List.length l'.
Proof. induction 1; cbn; congruence. Qed.
