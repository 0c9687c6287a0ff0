(** What planning the feet leaves unchanged, and the planned trajectories as a whole. *)
From Coq Require Import Reals Lra Lia List ZArith Bool.
From Verif Require Import Base Linalg Geom3 Tools_model Expression_model Expression_spec Problem_model Problem_spec
  Polynom_model Polynom_spec Integrator_model Integrator_spec Lipm_model Lipm_spec Lipm_proofs Lipm_props
  Spline_model Swing_model Geometry_model Footsteps_model Wpg_model Wpg_spec Wpg_proofs Wpg_proofs2 Wpg_proofs3 Wpg_proofs4.
Import ListNotations.
Open Scope R_scope.

Definition same_walk (p q : part) : Prop :=
  pt_start q = pt_start p /\ pt_end q = pt_end p /\ pt_support q = pt_support p /\ pt_com q = pt_com p.

Definition keeps (j k : wtraj) : Prop :=
  j_start k = j_start j /\ j_end k = j_end j /\ j_com_z k = j_com_z j /\ j_pitch k = j_pitch j /\ j_roll k = j_roll j /\
  j_success k = j_success j /\ j_T k = j_T j /\ Forall2 same_walk (j_parts j) (j_parts k).

Lemma same_walk_refl p : same_walk p p.
Proof. repeat split. Qed.
Lemma keeps_refl j : keeps j j.
Proof. unfold keeps. repeat (split; [reflexivity|]). induction (j_parts j); constructor; auto using same_walk_refl. Qed.
Lemma Forall2_trans' {A} (R : A -> A -> Prop) : (forall a b c, R a b -> R b c -> R a c) -> forall l m n, Forall2 R l m -> Forall2 R m n -> Forall2 R l n.
Proof.
  intros T l m n H. revert n. induction H; intros n Hn; inversion Hn; subst; constructor; eauto.
Qed.
Lemma keeps_trans j k l : keeps j k -> keeps k l -> keeps j l.
Proof.
  intros (A1 & A2 & A3 & A4 & A5 & A6 & A7 & A8) (B1 & B2 & B3 & B4 & B5 & B6 & B7 & B8). unfold keeps.
  repeat (split; [congruence|]). refine (Forall2_trans' _ _ _ _ _ A8 B8). intros a b c (? & ? & ? & ?) (? & ? & ? & ?). unfold same_walk. repeat split; congruence.
Qed.

Lemma yaw_add_keeps j sd t x dx k : yaw_add j sd t x dx = Ok k -> keeps j k /\ j_parts k = j_parts j.
Proof.
  intros E. unfold yaw_add in E. bind E s Es. injection E as <-. split; [|now destruct sd]. destruct (keeps_refl j) as (A1 & A2 & A3 & A4 & A5 & A6 & A7 & A8).
  unfold keeps, set_foot_yaw. destruct sd; cbn; repeat (split; [reflexivity|]); exact A8.
Qed.
Lemma trunk_add_keeps j t x dx k : trunk_add j t x dx = Ok k -> keeps j k /\ j_parts k = j_parts j.
Proof.
  intros E. unfold trunk_add in E. bind E s Es. injection E as <-. split; [|reflexivity]. destruct (keeps_refl j) as (A1 & A2 & A3 & A4 & A5 & A6 & A7 & A8).
  unfold keeps, set_trunk. cbn. repeat (split; [reflexivity|]); exact A8.
Qed.
Lemma add_footsteps_keeps t : forall l j k, add_footsteps j t l = Ok k -> keeps j k /\ j_parts k = j_parts j.
Proof.
  induction l as [|f l IH]; intros j k E; cbn [add_footsteps] in E; [injection E as <-; split; [apply keeps_refl|reflexivity]|].
  bind E j1 E1. apply yaw_add_keeps in E1 as [K1 P1]. apply IH in E as [K2 P2]. split; [exact (keeps_trans _ _ _ K1 K2)|congruence].
Qed.
Lemma add_supports_keeps j t s k : add_supports j t s = Ok k -> keeps j k /\ j_parts k = j_parts j.
Proof. apply add_footsteps_keeps. Qed.
Lemma plan_dbl_keeps j i k : plan_dbl_support j i = Ok k -> keeps j k /\ j_parts k = j_parts j.
Proof.
  intros E. unfold plan_dbl_support in E. bind E p Ep. bind E j1 E1. bind E f Ef. apply add_supports_keeps in E1 as [K1 P1].
  apply trunk_add_keeps in E as [K2 P2]. split; [exact (keeps_trans _ _ _ K1 K2)|congruence].
Qed.

Lemma set_swing_keeps j i q w : nth_error (j_parts j) i = Some q -> keeps j (set_parts j (replace (j_parts j) i (set_swing q w))).
Proof.
  intros H. unfold keeps. cbn. repeat (split; [reflexivity|]). revert i H. induction (j_parts j) as [|p l IH]; intros [|i] H; cbn in *; try discriminate.
  - injection H as ->. constructor; [repeat split|]. clear IH. induction l; constructor; auto using same_walk_refl.
  - constructor; [apply same_walk_refl|]. now apply IH.
Qed.

Lemma plan_sgl_inv p j i old k : plan_sgl_support p j i old = Ok k ->
  exists q w j1, nth_error (j_parts j) i = Some q /\ keeps (set_parts j (replace (j_parts j) i (set_swing q w))) j1 /\
    j_parts j1 = replace (j_parts j) i (set_swing q w) /\ keeps j1 k /\ j_parts k = j_parts j1.
Proof.
  intros E. unfold plan_sgl_support in E. bind E q Eq. bind E f0 Ef0. bind E nx Enx. bind E Te ETe. bind E d Ed. bind E j1 E1. bind E j2 E2. bind E j3 E3.
  cbv zeta in *. apply at_index_inv in Eq.
  apply yaw_add_keeps in E2 as [K2 P2]. apply add_supports_keeps in E as [K4 P4].
  assert (K3 : keeps j2 j3 /\ j_parts j3 = j_parts j2).
  { destruct (has_double_support (w_base p)); [injection E3 as <-; split; [apply keeps_refl|reflexivity]|]. now apply trunk_add_keeps in E3. }
  destruct K3 as [K3 P3].
  assert (KK : keeps j1 k /\ j_parts k = j_parts j1) by (split; [exact (keeps_trans _ _ _ (keeps_trans _ _ _ K2 K3) K4)|congruence]).
  destruct i as [|i]; [destruct old as [o|]; [|discriminate E1]|].
  - bind E1 T0 ET0. bind E1 v0 Ev0. bind E1 w Ew. bind E1 y0 Ey0. bind E1 dy0 Edy0. apply yaw_add_keeps in E1 as [K1 P1].
    exists q, w, j1. cbn [set_parts j_parts] in P1. auto.
  - bind E1 pv Epv. bind E1 T0 ET0. bind E1 w Ew. injection E1 as <-. exists q, w, (set_parts j (replace (j_parts j) (S i) (set_swing q w))).
    split; [exact Eq|]. split; [apply keeps_refl|]. split; [reflexivity|exact KK].
Qed.

Lemma plan_sgl_keeps p j i old k : plan_sgl_support p j i old = Ok k -> keeps j k.
Proof.
  intros E. destruct (plan_sgl_inv _ _ _ _ _ E) as (q & w & j1 & H & K1 & _ & K2 & _).
  exact (keeps_trans _ _ _ (set_swing_keeps _ _ _ w H) (keeps_trans _ _ _ K1 K2)).
Qed.

Lemma plan_feet_loop_keeps p old : forall n j i k, plan_feet_loop n p j i old = Ok k -> keeps j k.
Proof.
  induction n as [|n IH]; intros j i k E; cbn [plan_feet_loop] in E; [injection E as <-; apply keeps_refl|].
  bind E q Eq. bind E j1 E1. apply IH in E. refine (keeps_trans _ _ _ _ E).
  destruct (Nat.eqb _ _); [exact (plan_sgl_keeps _ _ _ _ _ E1)|exact (proj1 (plan_dbl_keeps _ _ _ E1))].
Qed.

Lemma plan_feet_keeps p j old k : plan_feet_trajectories p j old = Ok k -> keeps j k.
Proof.
  intros E. unfold plan_feet_trajectories in E. bind E q Eq. bind E j1 E1. bind E j2 E2. apply add_supports_keeps in E1 as [K1 _].
  apply plan_feet_loop_keeps in E. refine (keeps_trans _ _ _ K1 (keeps_trans _ _ _ _ E)).
  destruct old as [o|].
  - bind E2 y0 Ey. bind E2 dy0 Edy. now apply trunk_add_keeps in E2.
  - bind E2 f Ef. now apply trunk_add_keeps in E2.
Qed.

(** Two lists of parts that only differ by the swing trajectories. *)
Lemma same_contiguous : forall l m a b, Forall2 same_walk l m -> contiguous a l b -> contiguous a m b.
Proof.
  induction l as [|p l IH]; intros m a b H C; inversion H as [|? q ? m' (S1 & S2 & _) H']; subst; [exact C|].
  destruct C as [C1 C2]. split; [congruence|]. rewrite S2. now apply IH.
Qed.
Lemma Forall2_nth {A B} (R : A -> B -> Prop) : forall l m i b, Forall2 R l m -> nth_error m i = Some b -> exists a, nth_error l i = Some a /\ R a b.
Proof.
  induction l as [|a l IH]; intros m i b H E; inversion H as [|? b0 ? m' Hr H']; subst; [destruct i; discriminate|].
  destruct i as [|i]; cbn in *; [injection E as <-; eauto|]. now apply (IH m').
Qed.
Lemma Forall2_nth_l {A B} (R : A -> B -> Prop) : forall l m i a, Forall2 R l m -> nth_error l i = Some a -> exists b, nth_error m i = Some b /\ R a b.
Proof.
  induction l as [|a l IH]; intros m i a0 H E; inversion H as [|? b0 ? m' Hr H']; subst; [destruct i; discriminate|].
  destruct i as [|i]; cbn in *; [injection E as <-; eauto|]. now apply (IH m').
Qed.
Lemma Forall2_len' {A B} (R : A -> B -> Prop) l m : Forall2 R l m -> length l = length m.
Proof. induction 1; cbn; congruence. Qed.
Lemma same_right l m t i q : Forall2 same_walk l m -> right_part m t i q -> exists p, right_part l t i p /\ same_walk p q.
Proof.
  intros H (E & A & B). destruct (Forall2_nth _ _ _ _ _ H E) as (p & Ep & S). pose proof S as (S1 & S2 & _). exists p. split; [|exact S].
  split; [exact Ep|]. rewrite <- S1, <- S2, (Forall2_len' _ _ _ H). auto.
Qed.

Section WithLibraries.
Variable L : libs.

Lemma same_glued l m X Y a b : Forall2 same_walk l m -> glued L l X Y a b -> glued L m X Y a b.
Proof.
  intros H (V & M). split; [|exact M]. intros t i q d Hq Hd. destruct (same_right _ _ _ _ _ H Hq) as (p & Hp & S1 & S2 & S3 & S4).
  specialize (V t i p d Hp Hd). unfold com_of in *. now rewrite S4.
Qed.

(** plan_com, when the solver finds a solution. *)
Lemma plan_com_inv g j supports p v a j' ss : plan_com L g j supports p v a = Ok (true, j', ss) ->
  exists pb ls qs te pb' parts, com_loop L g (j_start j) p v a supports (j_start j) new_problem None = Ok (pb, ss, ls, qs, te) /\
    solve pb (l_qr L) (l_qp L) = (pb', Ok tt) /\ attribute L g pb' qs ls = Ok parts /\
    j' = WTraj (j_start j) te parts (j_com_z j) (j_pitch j) (j_roll j) (j_success j) (j_left j) (j_right j) (j_trunk j) (j_T j).
Proof.
  intros E. unfold plan_com in E. bind E r Er. destruct r as [[[[pb ss0] ls] qs] te]. cbv zeta in E.
  destruct (solve pb (l_qr L) (l_qp L)) as [pb' [[]|e|]] eqn:Es; [|discriminate E|discriminate E].
  bind E parts Ep. injection E as <- <-. exists pb, ls, qs, te, pb', parts. auto.
Qed.

Lemma plan_inv g supports c t j ss : plan L g supports c t = Ok (j, ss) ->
  supports <> [] /\ exists j1, plan_com L g (new_wtraj (w_com_height (g_params g)) t (w_trunk_pitch (g_params g)) 0) supports
    (vx c, vy c) (0, 0) (0, 0) = Ok (true, j1, ss) /\ plan_feet_trajectories (g_params g) j1 None = Ok j.
Proof.
  intros E. unfold plan in E. destruct supports as [|s r]; [discriminate E|]. split; [discriminate|]. cbv zeta in E. bind E z Ez. destruct z as [[b j1] ss1].
  destruct b; [|discriminate E]. bind E j2 E2. injection E as <- <-. eauto.
Qed.

Lemma replan_inv g supports old t j ss : replan L g supports old t = Ok (j, ss) ->
  supports <> [] /\ exists p v a, get_p_world_CoM L old t = Ok p /\ get_v_world_CoM L old t = Ok v /\ get_a_world_CoM L old t = Ok a /\
    exists b j1, plan_com L g (new_wtraj (w_com_height (g_params g)) t (w_trunk_pitch (g_params g)) 0) supports
      (vx p, vy p) (vx v, vy v) (vx a, vy a) = Ok (b, j1, ss) /\
    (if b : bool then plan_feet_trajectories (g_params g) j1 (Some old) = Ok j else trim_old_trajectory (w_base (g_params g)) old t = Ok j).
Proof.
  intros E. unfold replan in E. destruct supports as [|s r]; [discriminate E|]. split; [discriminate|]. cbv zeta in E.
  bind E p Ep. bind E v Ev. bind E a Ea. exists p, v, a. do 3 (split; [reflexivity|]). bind E z Ez. destruct z as [[b j1] ss1]. exists b, j1.
  destruct b; bind E j2 E2; injection E as <- <-; auto.
Qed.

(** What the planned trajectory is, up to the feet. *)
Lemma planned_parts g j0 supports p v a j1 ss old j : plan_com L g j0 supports p v a = Ok (true, j1, ss) ->
  plan_feet_trajectories (g_params g) j1 old = Ok j ->
  j_start j = j_start j0 /\ j_com_z j = j_com_z j0 /\ j_pitch j = j_pitch j0 /\ j_roll j = j_roll j0 /\ j_success j = j_success j0 /\ j_T j = j_T j0 /\
  contiguous (j_start j) (j_parts j) (j_end j) /\ Forall2 (carries (w_base (g_params g))) supports (j_parts j).
Proof.
  intros Ec Ef. destruct (plan_com_inv _ _ _ _ _ _ _ _ Ec) as (pb & ls & qs & te & pb' & parts & E1 & E2 & E3 & ->).
  apply plan_feet_keeps in Ef as (A1 & A2 & A3 & A4 & A5 & A6 & A7 & A8). cbn in A1, A2, A3, A4, A5, A6, A7, A8.
  repeat (split; [assumption|]). rewrite A1, A2.
  apply com_loop_parts in E1 as [C F].
  pose proof (attribute_keeps L g _ _ _ _ E3) as K.
  assert (G : contiguous (j_start j0) parts te /\ Forall2 (carries (w_base (g_params g))) supports parts).
  { clear -C F K. revert supports F C. generalize (j_start j0). induction K as [|q q' qs parts (tr & dcm & ->) K IH]; intros t0 supports F C; inversion F as [|s ? r ? Fs Fr]; subst.
    - split; [exact C|constructor].
    - destruct C as [C1 C2]. destruct (IH _ _ Fr C2) as [G1 G2]. split; [split; [exact C1|exact G1]|]. constructor; [|exact G2]. exact Fs. }
  destruct G as [G1 G2]. split; [exact (same_contiguous _ _ _ _ A8 G1)|].
  clear -G2 A8. revert supports G2. induction A8 as [|q q' l m (S1 & S2 & S3 & S4) K IH]; intros supports G; inversion G; subst; constructor; [|now apply IH].
  unfold carries in *. rewrite S1, S2, S3. assumption.
Qed.

(** The motion of the CoM. *)
Lemma planned_motion g j0 supports p v a j1 ss old j : exp_correct (l_mexp L) -> g_omega_2 g <> 0 -> supports <> [] ->
  Forall (fun s => forall d, lasts (w_base (g_params g)) s d -> 0 < d) supports ->
  plan_com L g j0 supports p v a = Ok (true, j1, ss) -> plan_feet_trajectories (g_params g) j1 old = Ok j ->
  Forall (fun q => pt_start q < pt_end q) (j_parts j) /\ j_start j < j_end j /\
  exists X Y, glued L (j_parts j) X Y (j_start j) (j_end j) /\
    X 0%nat (j_start j) = fst p /\ Y 0%nat (j_start j) = snd p /\ X 1%nat (j_start j) = fst v /\ Y 1%nat (j_start j) = snd v /\
    X 2%nat (j_start j) = fst a /\ Y 2%nat (j_start j) = snd a /\
    (qr_correct (l_qr L) -> qp_correct (l_qp L) -> g_soft g = false ->
     forall m s q, nth_error supports m = Some s -> nth_error (j_parts j) m = Some q -> support_facts L g s q X Y).
Proof.
  intros He Ho N D Ec Ef. destruct (plan_com_inv _ _ _ _ _ _ _ _ Ec) as (pb & ls & qs & te & pb' & parts & E1 & E2 & E3 & ->).
  apply plan_feet_keeps in Ef as (A1 & A2 & A3 & A4 & A5 & A6 & A7 & A8). cbn in A1, A2, A3, A4, A5, A6, A7, A8.
  destruct (com_loop_spec L He g Ho _ _ _ _ _ _ _ _ _ _ _ _ _ D E1 _ _ 0%nat (conj eq_refl (conj eq_refl (conj eq_refl eq_refl)))) as (_ & _ & S).
  destruct (segs_motion L He g pb pb' E2 _ _ _ _ _ _ _ _ _ S parts E3 N) as (C & F & Ln & Lt & X & Y & G & I & SF).
  rewrite A1, A2. split; [|split; [exact Lt|]].
  { clear -F A8. induction A8 as [|q q' l m (S1 & S2 & _) K IH]; inversion F; subst; constructor; [lra|]. now apply IH. }
  exists X, Y. split; [exact (same_glued _ _ _ _ _ _ A8 G)|]. unfold const_state in I.
  destruct (I 0%nat ltac:(lia)) as [I0 J0]. destruct (I 1%nat ltac:(lia)) as [I1 J1]. destruct (I 2%nat ltac:(lia)) as [I2 J2]. cbn [nth] in *.
  repeat (split; [assumption|]). intros Hqr Hqp Hsoft m s q Hs Hq.
  destruct (Forall2_nth _ _ _ _ _ A8 Hq) as (q0 & Hq0 & S1 & S2 & _).
  pose proof (SF (solve_good L _ _ Hqr Hqp E2) Hsoft m s q0 Hs Hq0) as (s' & polygon & H1 & H2 & H3). exists s', polygon. rewrite S1, S2. split; [exact H1|].
  split; [|exact H3]. intros k Hk. unfold instant. rewrite S1, S2. now apply H2.
Qed.
End WithLibraries.
