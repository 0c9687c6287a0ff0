(** The old walk from a time on: proofs. *)
From Coq Require Import Reals Lra Lia List ZArith Bool.
From Verif Require Import Base Angle Linalg Geom3 Tools_model Spline_model Swing_model
  Geometry_model Footsteps_model Wpg_model Wpg_spec Wpg_proofs Wpg_proofs2 Wpg_proofs3 Wpg_proofs4 Wpg_proofs5 WpgPlan_spec WpgPlan_proofs4 WpgFeet_proofs4 WpgReplan_spec WpgReplan_proofs.
Import ListNotations.
Open Scope R_scope.

Definition lasting (l : list part) : Prop := Forall (fun q => pt_start q < pt_end q) l.

Lemma lasting_le l : lasting l -> Forall (fun q => pt_start q <= pt_end q) l.
Proof. intros H. eapply Forall_impl; [|exact H]. cbn. intros. lra. Qed.

Lemma contiguous_starts l : forall a b q, contiguous a l b -> lasting l -> In q l -> a <= pt_start q /\ pt_end q <= b.
Proof.
  induction l as [|q0 l IH]; intros a b q C F H; [destruct H|]. destruct C as [C1 C2]. inversion F as [|? ? F1 F2]; subst.
  destruct H as [<-|H].
  - split; [lra|]. destruct l as [|q1 l]; [cbn in C2; lra|]. destruct (IH _ _ q1 C2 F2 (or_introl eq_refl)) as [A B]. inversion F2; subst. destruct C2 as [D _]. lra.
  - destruct (IH _ _ _ C2 F2 H). lra.
Qed.

(** A part, the progress of its support set to [e], from [t] on. *)
Definition part_from (t e : R) (q : part) : part :=
  let s := pt_support q in
  Part t (pt_end q) (Support (u_footsteps s) (u_t_start s) e (u_time_ratio s) (u_target_world_dcm s) (u_start s) (u_end s) (u_polygon s) (u_computed s)) (pt_com q) (pt_swing q).

Lemma trim_split p t0 t : forall l a b m, contiguous a l b -> lasting l -> a <= t < b -> trim_parts p t0 t l = Ok m ->
  exists l1 q rest d, l = l1 ++ q :: rest /\ pt_start q <= t < pt_end q /\ contiguous (pt_end q) rest b /\ support_default_duration p (pt_support q) = Ok d /\
    m = part_from t (u_elapsed_ratio (pt_support q) + (t - Rmax t0 (u_t_start (pt_support q))) / (d * u_time_ratio (pt_support q))) q :: rest.
Proof.
  induction l as [|q l IH]; intros a b m C F Ht E; cbn [contiguous] in C; [lra|]. destruct C as [C1 C2]. inversion F as [|? ? F1 F2]; subst. cbn [trim_parts] in E. bind E x Ex. bind E y Ey. injection E as <-.
  unfold trim_part in Ex. destruct (Rle_dec (pt_start q) t) as [A|A]; [|lra]. destruct (Rlt_dec t (pt_end q)) as [B|B].
  - bind Ex d Ed. cbv zeta in Ex. injection Ex as <-. exists [], q, l, d. split; [reflexivity|]. split; [lra|]. split; [exact C2|]. split; [exact Ed|]. cbn [app].
    rewrite trim_later in Ey by (intros q' Hq'; destruct (contiguous_starts _ _ _ _ C2 F2 Hq'); lra). injection Ey as <-. reflexivity.
  - injection Ex as <-. destruct (IH (pt_end q) b y C2 F2 ltac:(lra) eq_refl) as (l1 & q' & rest & d & -> & H). exists (q :: l1), q', rest, d. split; [reflexivity|exact H].
Qed.

Lemma trim_over p t0 t : forall l, lasting l -> (forall q, In q l -> pt_end q <= t) -> trim_parts p t0 t l = Ok [].
Proof.
  induction l as [|q l IH]; intros F H; cbn [trim_parts]; [reflexivity|]. inversion F as [|? ? F1 F2]; subst. pose proof (H q (or_introl eq_refl)).
  unfold trim_part. destruct (Rle_dec (pt_start q) t) as [A|A]; [|lra]. destruct (Rlt_dec t (pt_end q)) as [B|B]; [lra|]. cbn [obind]. rewrite IH; [reflexivity|exact F2|]. intros q' Hq'. apply H. now right.
Qed.

Lemma right_same l a b t i m q q' : contiguous a l b -> lasting l -> (forall x, In x l -> t <> pt_end x) -> right_part l t i q -> right_part l t m q' -> i = m /\ q = q'.
Proof.
  intros C F N (Hi & A & B) (Hm & A' & B').
  assert (K : i = m); [|subst; split; congruence].
  assert (Lt : forall i m q q', (i < m)%nat -> nth_error l i = Some q -> nth_error l m = Some q' -> (S i = length l \/ t <= pt_end q) -> (m = 0%nat \/ pt_start q' <= t) -> False).
  { clear i m q q' Hi A B Hm A' B'. intros i m q q' Lt Hi Hm B A. destruct B as [B|B]; [assert (m < length l)%nat by (apply nth_error_Some; congruence); lia|].
    destruct A as [A|A]; [lia|]. pose proof (contiguous_later _ _ _ C (lasting_le _ F) (m - i - 1) i q q' Hi) as K. replace (i + S (m - i - 1))%nat with m in K by lia. specialize (K Hm).
    apply (N q (nth_error_In _ _ Hi)). lra. }
  destruct (lt_eq_lt_dec i m) as [[X|X]|X]; [exfalso; exact (Lt _ _ _ _ X Hi Hm B A')|exact X|exfalso; exact (Lt _ _ _ _ X Hm Hi B' A)].
Qed.

Lemma part_from_right l1 q rest t e t' i x : pt_start q <= t -> t <= t' -> right_part (part_from t e q :: rest) t' i x ->
  exists y, right_part (l1 ++ q :: rest) t' (length l1 + i) y /\ (x = y \/ x = part_from t e y).
Proof.
  intros H H' (Hi & A & B). destruct i as [|i].
  - cbn in Hi. injection Hi as <-. exists q. split; [|now right]. split; [|split].
    + rewrite nth_error_app2 by lia. now replace (length l1 + 0 - length l1)%nat with 0%nat by lia.
    + right. lra.
    + destruct B as [B|B]; [left; rewrite app_length; cbn [length] in *; lia|right; exact B].
  - cbn [nth_error] in Hi. exists x. split; [|now left]. split; [|split].
    + rewrite nth_error_app2 by lia. now replace (length l1 + S i - length l1)%nat with (S i) by lia.
    + destruct A as [A|A]; [lia|now right].
    + destruct B as [B|B]; [left; rewrite app_length; cbn [length] in *; lia|right; exact B].
Qed.

(** A part and the same part from [t] on give the same motion. *)
Lemma same_motion_parts L j k t x y e t0 : find_part j t = Ok x -> find_part k t = Ok y -> (x = y \/ x = part_from t0 e y) -> j_T j = j_T k -> j_com_z j = j_com_z k ->
  j_pitch j = j_pitch k -> j_roll j = j_roll k -> j_trunk j = j_trunk k -> (forall sd, foot_yaw j sd = foot_yaw k sd) -> same_motion L j k t.
Proof.
  intros Ej Ek Hx HT Hz Hp Hr Ht Hf.
  assert (A : pt_com x = pt_com y /\ pt_swing x = pt_swing y /\ u_footsteps (pt_support x) = u_footsteps (pt_support y)) by (destruct Hx as [->| ->]; cbn; auto). destruct A as (A1 & A2 & A3).
  assert (B : support_side (pt_support x) = support_side (pt_support y) /\ is_both (pt_support x) = is_both (pt_support y)) by (unfold support_side, is_both; rewrite A3; auto). destruct B as [B1 B2].
  assert (C : forall sd, footstep_frame (pt_support x) sd = footstep_frame (pt_support y) sd) by (intros sd; unfold footstep_frame; now rewrite A3).
  unfold same_motion, get_p_world_CoM, get_v_world_CoM, get_a_world_CoM, com_value, get_R_world_trunk, get_yaw_world_trunk, get_T_world_foot, get_v_world_foot, get_yaw_world_foot, is_flying, get_support.
  rewrite Ej, Ek, HT, Hz, Hp, Hr, Ht. cbn [obind]. rewrite A1, A2, B1, B2. do 5 (split; [reflexivity|]). split.
  - intros sd. rewrite C, Hf. auto.
  - eexists; eexists. split; [reflexivity|]. split; [reflexivity|]. unfold transform_support. cbn [u_footsteps u_t_start u_time_ratio u_start u_end u_target_world_dcm]. rewrite A3. destruct Hx as [->| ->]; cbn; auto 10.
Qed.
