(** The points of the yaws and the swings of a whole planned walk. *)
From Coq Require Import Reals Lra Lia List ZArith Bool.
From Verif Require Import Base Angle Linalg Geom3 Tools_model Spline_model Spline_spec Spline_proofs Spline_props Swing_model Swing_spec Swing_proofs Swing_props
  Geometry_model Footsteps_model Wpg_model Wpg_spec Wpg_proofs Wpg_proofs2 Wpg_proofs3 Wpg_proofs5 WpgPlan_spec WpgFeet_proofs.
Import ListNotations.
Open Scope R_scope.

Definition later_swing (p : wparams) (l : list part) (i : nat) (q : part) : Prop :=
  length (u_footsteps (pt_support q)) = 1%nat -> exists f q' F, u_footsteps (pt_support q) = [f] /\ nth_error l (i - 1) = Some q' /\
    footstep_frame (pt_support q') (other_side (f_side f)) = Ok F /\ swing_made p l i q (fr_t F) v3_zero 0.

Lemma swing_made_same p l m i q T v e : Forall2 same_walk l m -> swing_made p l i q T v e -> swing_made p m i q T v e.
Proof. intros H (f & Te & d & A & B & C). exists f, Te, d. rewrite <- (goes_same _ _ _ _ H). auto. Qed.
Lemma later_swing_same p l m i q : Forall2 same_walk l m -> later_swing p l i q -> later_swing p m i q.
Proof.
  intros H S Hl. destruct (S Hl) as (f & q' & F & A & B & C & D). destruct (Forall2_nth_l _ _ _ _ _ H B) as (q2 & B2 & (_ & _ & E & _)).
  exists f, q2, F. rewrite E. split; [exact A|]. split; [exact B2|]. split; [exact C|]. exact (swing_made_same _ _ _ _ _ _ _ _ H D).
Qed.
Lemma same_feet l m : Forall2 same_walk l m -> (forall q, In q l -> feet_ok (pt_support q)) -> forall q, In q m -> feet_ok (pt_support q).
Proof. induction 1 as [|p q l m (_ & _ & S & _) H IH]; intros A r Hr; [destruct Hr|]. destruct Hr as [<-|Hr]; [rewrite S; apply A; now left|]. apply IH; [intros; apply A; now right|exact Hr]. Qed.

Lemma loop_feet p old : forall n j i k ls, plan_feet_loop n p j (S i) old = Ok k -> (forall q, In q (j_parts j) -> feet_ok (pt_support q)) -> yaws_pts j ls ->
  yaws_pts k (fun sd => ls sd ++ map (stop (j_parts j) sd) (seq (S i) n)) /\
  (forall m sd, (S i <= m < S i + n)%nat -> exists F, goes (j_parts j) m sd = Ok F) /\
  (forall m, (m < S i \/ S i + n <= m)%nat -> nth_error (j_parts k) m = nth_error (j_parts j) m) /\
  (forall m q, (S i <= m < S i + n)%nat -> nth_error (j_parts k) m = Some q -> later_swing p (j_parts k) m q).
Proof.
  induction n as [|n IH]; intros j i k ls E Hf H; cbn [plan_feet_loop] in E.
  - injection E as <-. cbn [seq map]. split; [intros sd; rewrite app_nil_r; apply H|]. split; [intros; lia|]. split; [reflexivity|]. intros; lia.
  - bind E q Eq. apply at_index_inv in Eq. bind E j1 E1. replace (S i + 1)%nat with (S (S i)) in E by lia.
    assert (Hq : feet_ok (pt_support q)) by (apply Hf; exact (nth_error_In _ _ Eq)).
    assert (K : keeps j j1) by (destruct (Nat.eqb _ _); [exact (plan_sgl_keeps _ _ _ _ _ E1)|exact (proj1 (plan_dbl_keeps _ _ _ E1))]).
    pose proof K as (_ & _ & _ & _ & _ & _ & _ & Sw).
    assert (X : yaws_pts j1 (fun sd => ls sd ++ [stop (j_parts j) sd (S i)]) /\ (forall sd, exists F, goes (j_parts j) (S i) sd = Ok F) /\
      (forall m, m <> S i -> nth_error (j_parts j1) m = nth_error (j_parts j) m) /\
      (forall q1, nth_error (j_parts j1) (S i) = Some q1 -> later_swing p (j_parts j) (S i) q1)).
    { destruct (Nat.eqb_spec (length (u_footsteps (pt_support q))) 1) as [E2|E2].
      - destruct (sgl_pts _ _ _ _ _ _ _ Eq Hq E2 H E1) as (f & w & T0 & v0 & el & ls' & Ef & Ep & Y & G & Sm & -> & -> & -> & q' & F & Hq' & HF & ->).
        split; [exact Y|]. split; [exact G|]. rewrite Ep. split; [intros m Hm; now rewrite replace_other|]. intros q1 Hq1 _.
        rewrite replace_same in Hq1 by (apply nth_error_Some; congruence). injection Hq1 as <-. exists f, q', F. split; [exact Ef|].
        replace (S i - 1)%nat with i by lia. auto.
      - destruct (dbl_pts _ _ _ _ _ Eq Hq E2 H E1) as (Y & G & Ep). split; [exact Y|]. split; [exact G|]. rewrite Ep. split; [reflexivity|].
        intros q1 Hq1 Hl. rewrite Eq in Hq1. injection Hq1 as <-. contradiction. }
    destruct X as (Y & G & N & Sq).
    destruct (IH _ _ _ _ E (same_feet _ _ Sw Hf) Y) as (Y' & G' & N' & S').
    pose proof (plan_feet_loop_keeps _ _ _ _ _ _ E) as (_ & _ & _ & _ & _ & _ & _ & Sw').
    split; [|split; [|split]].
    + intros sd. specialize (Y' sd). cbn [seq map]. cbv beta in Y'. rewrite <- app_assoc in Y'. cbn [app] in Y'.
      rewrite (map_ext (stop (j_parts j1) sd) (stop (j_parts j) sd)) in Y' by (intros m; symmetry; now apply stop_same). exact Y'.
    + intros m sd Hm. destruct (Nat.eq_dec m (S i)) as [->|Ne]; [apply G|]. rewrite (goes_same _ _ _ _ Sw). apply G'. lia.
    + intros m Hm. rewrite N' by lia. apply N. lia.
    + intros m q1 Hm Hq1. destruct (Nat.eq_dec m (S i)) as [->|Ne]; [|apply S'; [lia|exact Hq1]].
      rewrite N' in Hq1 by lia. apply (later_swing_same p (j_parts j)); [|now apply Sq].
      refine (Forall2_trans' _ _ _ _ _ Sw Sw'). intros a b c (? & ? & ? & ?) (? & ? & ? & ?). unfold same_walk. repeat split; congruence.
Qed.

(** The first part. *)
Definition first_swing (p : wparams) (t : R) (old : option wtraj) (l : list part) (q : part) (ls : side -> list (R * R * R)) : Prop :=
  (length (u_footsteps (pt_support q)) <> 1%nat -> forall sd, ls sd = [(t, yaw_of (footstep_frame (pt_support q) sd), 0)]) /\
  (length (u_footsteps (pt_support q)) = 1%nat -> exists f o F v y dy, old = Some o /\ u_footsteps (pt_support q) = [f] /\
     let sd := other_side (f_side f) in
     get_T_world_foot o sd t = Ok F /\ get_v_world_foot o sd t = Ok v /\ get_yaw_world_foot o sd t = Ok y /\ snd (vel (foot_yaw o sd) t) = Ok dy /\
     swing_made p l 0 q (fr_t F) v (u_elapsed_ratio (pt_support q)) /\
     ls sd = [(t, y, dy)] /\ ls (f_side f) = [(t, frame_yaw (fr_R (f_frame f)), 0)]).

Lemma plan_feet_pts p j old k : plan_feet_trajectories p j old = Ok k -> (forall q, In q (j_parts j) -> feet_ok (pt_support q)) ->
  j_left j = new_spline true -> j_right j = new_spline true ->
  exists q ls, nth_error (j_parts k) 0 = Some q /\ first_swing p (j_start j) old (j_parts k) q ls /\
    yaws_pts k (fun sd => ls sd ++ map (stop (j_parts k) sd) (seq 0 (length (j_parts k)))) /\
    (forall m sd, (m < length (j_parts k))%nat -> exists F, goes (j_parts k) m sd = Ok F) /\
    (forall m q, nth_error (j_parts k) (S m) = Some q -> later_swing p (j_parts k) (S m) q).
Proof.
  intros E Hf El Er. pose proof (plan_feet_keeps _ _ _ _ E) as (_ & _ & _ & _ & _ & _ & _ & Swk). unfold plan_feet_trajectories in E. bind E q Eq. apply at_index_inv in Eq.
  bind E j1 E1. bind E j2 E2. assert (Hq : feet_ok (pt_support q)) by (apply Hf; exact (nth_error_In _ _ Eq)).
  assert (H0 : yaws_pts j (fun _ => [])) by (intros []; cbn; [rewrite El|rewrite Er]; apply yaw_pts_new).
  pose proof (add_supports_pts _ _ _ _ _ Hq H0 E1) as H1. apply add_supports_keeps in E1 as [K1 P1].
  assert (H2 : yaws_pts j2 (placed (fun _ => []) (pt_support q) (j_start j)) /\ keeps j1 j2 /\ j_parts j2 = j_parts j1).
  { destruct old as [o|].
    - bind E2 y0 Ey. bind E2 dy0 Edy. split; [|now apply trunk_add_keeps in E2]. intros sd. rewrite (trunk_add_yaws _ _ _ _ _ E2 sd). apply H1.
    - bind E2 f Ef. split; [|now apply trunk_add_keeps in E2]. intros sd. rewrite (trunk_add_yaws _ _ _ _ _ E2 sd). apply H1. }
  destruct H2 as (H2 & K2 & P2). assert (P : j_parts j2 = j_parts j) by congruence.
  assert (St : j_start j2 = j_start j) by (destruct K1 as (A & _), K2 as (B & _); congruence).
  destruct (j_parts j) as [|q0 rest] eqn:Ej; [discriminate Eq|]. cbn in Eq. injection Eq as ->. cbn [length plan_feet_loop] in E. rewrite P in E. cbn [at_index nth_error obind] in E.
  bind E j3 E3. cbn [Nat.add] in E.
  assert (K3 : keeps j2 j3) by (destruct (Nat.eqb _ _); [exact (plan_sgl_keeps _ _ _ _ _ E3)|exact (proj1 (plan_dbl_keeps _ _ _ E3))]).
  pose proof K3 as (_ & _ & _ & _ & _ & _ & _ & Sw3). rewrite P in Sw3.
  pose proof (plan_feet_loop_keeps _ _ _ _ _ _ E) as (_ & _ & _ & _ & _ & _ & _ & Sw').
  assert (X : exists q1 ls, nth_error (j_parts j3) 0 = Some q1 /\ yaws_pts j3 (fun sd => ls sd ++ [stop (q :: rest) sd 0]) /\ (forall sd, exists F, goes (q :: rest) 0 sd = Ok F) /\
    first_swing p (j_start j) old (q :: rest) q1 ls).
  { assert (Eq2 : nth_error (j_parts j2) 0 = Some q) by (rewrite P; reflexivity).
    destruct (Nat.eqb_spec (length (u_footsteps (pt_support q))) 1) as [E4|E4].
    - destruct (sgl_pts _ _ _ _ _ _ _ Eq2 Hq E4 H2 E3) as (f & w & T0 & v0 & el & ls' & Ef & Ep & Y & G & Sm & I). rewrite P in *.
      destruct old as [o|]; [|contradiction]. destruct I as (-> & F & y & dy & I1 & -> & I2 & I3 & I4 & I5). rewrite St in *.
      exists (set_swing q w), ls'. rewrite Ep. split; [reflexivity|]. split; [exact Y|]. split; [exact G|]. split; [intros Hl; contradiction|]. intros _.
      exists f, o, F, v0, y, dy. split; [reflexivity|]. split; [exact Ef|]. cbv zeta. repeat (split; [assumption|]). rewrite I5. unfold added, placed. rewrite !(single_frames _ _ _ Ef).
      destruct (f_side f); cbn; auto.
    - destruct (dbl_pts _ _ _ _ _ Eq2 Hq E4 H2 E3) as (Y & G & Ep). rewrite P in *. exists q, (placed (fun _ => []) (pt_support q) (j_start j)). rewrite Ep. split; [reflexivity|].
      split; [exact Y|]. split; [exact G|]. split; [|intros Hl; contradiction]. intros _ sd. unfold placed. destruct (feet_double _ Hq E4 sd) as (F & ->). reflexivity. }
  destruct X as (q1 & ls & Eq1 & Y & G & Sq).
  destruct (loop_feet _ _ _ _ _ _ _ E (same_feet _ _ Sw3 Hf) Y) as (Y' & G' & N' & S').
  pose proof (Forall2_len' _ _ _ Swk) as Ln. cbn [length] in Ln.
  assert (Eqk : nth_error (j_parts k) 0 = Some q1) by (rewrite N' by lia; exact Eq1).
  exists q1, ls. split; [exact Eqk|]. split.
  { destruct Sq as [A B]. split; [exact A|]. intros Hl. destruct (B Hl) as (f & o & F & v & y & dy & Z1 & Z2 & Z3 & Z4 & Z5 & Z6 & Z7 & Z8). exists f, o, F, v, y, dy.
    repeat (split; [assumption|]). split; [|exact Z8]. exact (swing_made_same _ _ _ _ _ _ _ _ Swk Z7). }
  rewrite <- Ln. split; [|split].
  - intros sd. specialize (Y' sd). cbv beta in Y'. rewrite <- app_assoc in Y'. cbn [app seq map] in Y' |- *. rewrite (stop_same _ _ 0 sd Swk) in Y'.
    rewrite (map_ext (stop (j_parts j3) sd) (stop (j_parts k) sd)) in Y' by (intros m; now apply stop_same). exact Y'.
  - intros m sd Hm. rewrite <- (goes_same _ _ _ _ Swk). destruct m as [|m]; [apply G|]. rewrite (goes_same _ _ _ _ Sw3). apply G'. lia.
  - intros m q2 Hq2. assert (S m < length (j_parts k))%nat by (apply nth_error_Some; congruence). apply S'; [lia|exact Hq2].
Qed.
