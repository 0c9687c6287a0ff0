(** The points of the heading of the trunk in a planned walk. *)
From Coq Require Import Reals Lra Lia List ZArith Bool.
From Verif Require Import Base Angle Linalg Geom3 Tools_model Spline_model Spline_spec Spline_proofs Spline_props Swing_model Swing_spec Swing_proofs Swing_props
  Geometry_model Geometry_proofs Footsteps_model Wpg_model Wpg_spec Wpg_proofs Wpg_proofs2 Wpg_proofs3 Wpg_proofs5 WpgPlan_spec WpgFeet_spec WpgFeet_proofs WpgFeet_proofs2 WpgFeet_proofs3 WpgFeet_proofs4
  WpgTrunk_spec.
Import ListNotations.
Open Scope R_scope.

Lemma yaw_faces F y : same_angle y (frame_yaw (fr_R F)) -> faces F y.
Proof.
  intros H. rewrite frame_yaw_first in H. set (a := m00 (fr_R F)) in *. set (b := m10 (fr_R F)) in *.
  destruct H as (k & H). exists (sqrt (a * a + b * b)). split; [apply sqrt_pos|].
  assert (E : cos y = cos (atan2 b a) /\ sin y = sin (atan2 b a)).
  { rewrite H. destruct (Z_le_dec 0 k) as [Hk|Hk].
    - destruct (IZN k Hk) as (n & ->). rewrite <- INR_IZR_INZ. replace (atan2 b a + INR n * (2 * PI)) with (atan2 b a + 2 * INR n * PI) by ring. now rewrite cos_period, sin_period.
    - destruct (IZN (- k) ltac:(lia)) as (n & Hn). replace k with (- Z.of_nat n)%Z in * by lia. rewrite opp_IZR, <- INR_IZR_INZ.
      split; [rewrite <- (cos_period (atan2 b a + - INR n * (2 * PI)) n)|rewrite <- (sin_period (atan2 b a + - INR n * (2 * PI)) n)]; f_equal; ring. }
  destruct E as [-> ->]. assert (K : a <> 0 \/ b <> 0 -> a = sqrt (a * a + b * b) * cos (atan2 b a) /\ b = sqrt (a * a + b * b) * sin (atan2 b a)).
  { intros N. destruct (atan2_polar b a N) as [-> ->]. assert (0 < a * a + b * b) by nra. pose proof (sqrt_lt_R0 _ H0). split; field; lra. }
  destruct (Req_dec a 0) as [Ha|Ha]; [destruct (Req_dec b 0) as [Hb|Hb]|]; [|apply K; auto|apply K; auto].
  assert (Z : sqrt (a * a + b * b) = 0) by (rewrite Ha, Hb, Rmult_0_l, Rplus_0_l; exact sqrt_0). rewrite Z, !Rmult_0_l. auto.
Qed.

(** ** The points *)

Lemma yaw_add_trunk j sd t x dx k : yaw_add j sd t x dx = Ok k -> j_trunk k = j_trunk j.
Proof. intros E. unfold yaw_add in E. bind E s Es. injection E as <-. now destruct sd. Qed.
Lemma add_footsteps_trunk t : forall l j k, add_footsteps j t l = Ok k -> j_trunk k = j_trunk j.
Proof. induction l as [|f l IH]; intros j k E; cbn [add_footsteps] in E; [now injection E as <-|]. bind E j1 E1. rewrite (IH _ _ E). exact (yaw_add_trunk _ _ _ _ _ _ E1). Qed.
Lemma trunk_add_pts j t x dx k l : yaw_pts (j_trunk j) l -> trunk_add j t x dx = Ok k -> yaw_pts (j_trunk k) (l ++ [(t, x, dx)]).
Proof. intros H E. unfold trunk_add in E. bind E s Es. injection E as <-. cbn. exact (spline_add_pts _ _ _ _ _ _ H Es). Qed.

(** What a part adds. *)
Definition trunk_pt (p : wparams) (l : list part) (i : nat) : list (R * R * R) :=
  match nth_error l i with
  | None => []
  | Some q =>
      match u_footsteps (pt_support q) with
      | [f] => if has_double_support (w_base p) then [] else [(pt_end q, yaw_of (goes l i (other_side (f_side f))), 0)]
      | _ => [(pt_end q, yaw_of (support_frame (pt_support q)), 0)]
      end
  end.
Lemma trunk_pt_same p l m i : Forall2 same_walk l m -> trunk_pt p l i = trunk_pt p m i.
Proof.
  intros H. unfold trunk_pt. pose proof (same_nth _ _ i H) as A. destruct (nth_error l i) as [q|], (nth_error m i) as [q'|]; try contradiction; [|reflexivity].
  destruct A as (_ & -> & -> & _). destruct (u_footsteps (pt_support q)) as [|f [|h r]]; try reflexivity. now rewrite (goes_same _ _ _ _ H).
Qed.

Lemma dbl_trunk p j i q k l : nth_error (j_parts j) i = Some q -> length (u_footsteps (pt_support q)) <> 1%nat -> yaw_pts (j_trunk j) l ->
  plan_dbl_support j i = Ok k -> yaw_pts (j_trunk k) (l ++ trunk_pt p (j_parts j) i).
Proof.
  intros Hq Hl H E. unfold plan_dbl_support in E. rewrite (at_index_ok _ _ _ Hq) in E. cbn [obind] in E. bind E j1 E1. bind E f Ef.
  assert (H1 : yaw_pts (j_trunk j1) l) by (rewrite (add_footsteps_trunk _ _ _ _ E1); exact H).
  pose proof (trunk_add_pts _ _ _ _ _ _ H1 E) as H2. unfold trunk_pt. rewrite Hq, Ef. cbn [yaw_of].
  destruct (u_footsteps (pt_support q)) as [|f0 [|h r]]; [exact H2|now destruct Hl|exact H2].
Qed.

Lemma sgl_trunk p j i q k old l : nth_error (j_parts j) i = Some q -> feet_ok (pt_support q) -> length (u_footsteps (pt_support q)) = 1%nat -> yaw_pts (j_trunk j) l ->
  plan_sgl_support p j i old = Ok k -> yaw_pts (j_trunk k) (l ++ trunk_pt p (j_parts j) i).
Proof.
  intros Hq Hf Hl H E. destruct (feet_single _ Hf Hl) as (f & Ef). unfold plan_sgl_support in E. rewrite (at_index_ok _ _ _ Hq) in E. cbn [obind] in E. rewrite Ef in E.
  cbn [at_index nth_error obind] in E. cbv zeta in E. bind E qn Eqn. apply at_index_inv in Eqn. bind E Te ETe. bind E d Ed. bind E j1 E1. bind E j2 E2. bind E j3 E3.
  assert (T1 : j_trunk j1 = j_trunk j).
  { destruct i as [|i']; [destruct old as [o|]; [|discriminate E1]|].
    - bind E1 T0 ET0. bind E1 v0 Ev0. bind E1 w Ew. bind E1 y0 Ey0. bind E1 dy0 Edy0. rewrite (yaw_add_trunk _ _ _ _ _ _ E1). reflexivity.
    - bind E1 q' Eq'. bind E1 T0 ET0. bind E1 w Ew. injection E1 as <-. reflexivity. }
  assert (H2 : yaw_pts (j_trunk j2) l) by (rewrite (yaw_add_trunk _ _ _ _ _ _ E2), T1; exact H).
  rewrite (add_footsteps_trunk _ _ _ _ E). unfold trunk_pt. rewrite Hq, Ef.
  assert (G : goes (j_parts j) i (other_side (f_side f)) = Ok Te).
  { unfold goes. rewrite Hq, (single_frames _ _ _ Ef), Eqn. destruct (f_side f); exact ETe. }
  rewrite G. cbn [yaw_of]. destruct (has_double_support (w_base p)); [injection E3 as <-; rewrite app_nil_r; exact H2|]. exact (trunk_add_pts _ _ _ _ _ _ H2 E3).
Qed.

Lemma loop_trunk p old : forall n j i k l, plan_feet_loop n p j i old = Ok k -> (forall q, In q (j_parts j) -> feet_ok (pt_support q)) -> yaw_pts (j_trunk j) l ->
  yaw_pts (j_trunk k) (l ++ flat_map (trunk_pt p (j_parts j)) (seq i n)).
Proof.
  induction n as [|n IH]; intros j i k l E Hf H; cbn [plan_feet_loop] in E; [injection E as <-; cbn; rewrite app_nil_r; exact H|].
  bind E q Eq. apply at_index_inv in Eq. bind E j1 E1. replace (i + 1)%nat with (S i) in E by lia.
  assert (Hq : feet_ok (pt_support q)) by (apply Hf; exact (nth_error_In _ _ Eq)).
  assert (K : keeps j j1) by (destruct (Nat.eqb _ _); [exact (plan_sgl_keeps _ _ _ _ _ E1)|exact (proj1 (plan_dbl_keeps _ _ _ E1))]). destruct K as (_ & _ & _ & _ & _ & _ & _ & Sw).
  assert (H1 : yaw_pts (j_trunk j1) (l ++ trunk_pt p (j_parts j) i)).
  { destruct (Nat.eqb_spec (length (u_footsteps (pt_support q))) 1) as [L1|L1]; [exact (sgl_trunk _ _ _ _ _ _ _ Eq Hq L1 H E1)|exact (dbl_trunk _ _ _ _ _ _ Eq L1 H E1)]. }
  pose proof (IH _ _ _ _ E (same_feet _ _ Sw Hf) H1) as X. cbn [seq flat_map]. rewrite app_assoc.
  replace (flat_map (trunk_pt p (j_parts j)) (seq (S i) n)) with (flat_map (trunk_pt p (j_parts j1)) (seq (S i) n)); [exact X|].
  apply flat_map_ext. intros m. symmetry. now apply trunk_pt_same.
Qed.

(** How the heading of the trunk starts. *)
Definition trunk_start (j : wtraj) (q : part) (old : option wtraj) (y dy : R) : Prop :=
  match old with
  | None => exists F, support_frame (pt_support q) = Ok F /\ y = frame_yaw (fr_R F) /\ dy = 0
  | Some o => get_yaw_world_trunk o (j_start j) = Ok y /\ snd (vel (j_trunk o) (j_start j)) = Ok dy
  end.

Lemma plan_trunk_pts p j old k : plan_feet_trajectories p j old = Ok k -> (forall q, In q (j_parts j) -> feet_ok (pt_support q)) -> j_trunk j = new_spline true ->
  exists q y dy, nth_error (j_parts j) 0 = Some q /\ trunk_start j q old y dy /\
    yaw_pts (j_trunk k) ((j_start j, y, dy) :: flat_map (trunk_pt p (j_parts k)) (seq 0 (length (j_parts k)))).
Proof.
  intros E Hf Ht. pose proof (plan_feet_keeps _ _ _ _ E) as (_ & _ & _ & _ & _ & _ & _ & Swk). unfold plan_feet_trajectories in E. bind E q Eq. apply at_index_inv in Eq.
  bind E j1 E1. bind E j2 E2. assert (H1 : yaw_pts (j_trunk j1) []) by (rewrite (add_footsteps_trunk _ _ _ _ E1), Ht; apply yaw_pts_new).
  apply add_supports_keeps in E1 as [_ P1].
  assert (X : exists y dy, trunk_start j q old y dy /\ yaw_pts (j_trunk j2) [(j_start j, y, dy)] /\ j_parts j2 = j_parts j1).
  { destruct old as [o|].
    - bind E2 y0 Ey. bind E2 dy0 Edy. exists y0, dy0. split; [split; assumption|]. split; [exact (trunk_add_pts _ _ _ _ _ _ H1 E2)|now apply trunk_add_keeps in E2].
    - bind E2 f Ef. exists (frame_yaw (fr_R f)), 0. split; [exists f; auto|]. split; [exact (trunk_add_pts _ _ _ _ _ _ H1 E2)|now apply trunk_add_keeps in E2]. }
  destruct X as (y & dy & Sx & H2 & P2). exists q, y, dy. split; [exact Eq|]. split; [exact Sx|].
  assert (P : j_parts j2 = j_parts j) by congruence. assert (Hf2 : forall q, In q (j_parts j2) -> feet_ok (pt_support q)) by (rewrite P; exact Hf).
  pose proof (loop_trunk _ _ _ _ _ _ _ E Hf2 H2) as Y. rewrite P in Y. cbn [app] in Y. rewrite <- (Forall2_len' _ _ _ Swk).
  replace (flat_map (trunk_pt p (j_parts k)) (seq 0 (length (j_parts j)))) with (flat_map (trunk_pt p (j_parts j)) (seq 0 (length (j_parts j)))); [exact Y|].
  apply flat_map_ext. intros m. now apply trunk_pt_same.
Qed.
