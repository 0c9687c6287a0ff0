(** Lemmas about the optimisation of the CoM trajectory. *)
From Coq Require Import Reals Lra Lia List ZArith Bool.
From Verif Require Import Base Linalg Geom3 Tools_model Expression_model Expression_spec Expression_proofs Problem_model Problem_spec Problem_proofs
  Polynom_model Polynom_spec Polynom_props Integrator_model Integrator_spec Integrator_proofs Lipm_model Lipm_spec Lipm_proofs Lipm_props
  Spline_model Swing_model Geometry_model Footsteps_model Wpg_model Wpg_spec Wpg_proofs.
Import ListNotations.
Open Scope R_scope.

Tactic Notation "bind" hyp(H) ident(x) ident(E) :=
  match type of H with
  | obind ?o _ = Ok _ => destruct o as [x| |] eqn:E; cbn [obind] in H; [|discriminate H|discriminate H]
  end.

(** What a successful solve says of its solution [x]. *)
Definition good (cs : list pconstraint) (x : nat -> R) : Prop := hard_holds cs x /\ Forall (fun c => wf (c_expr c)) cs.

Lemma good_incl cs cs' x : incl cs cs' -> good cs' x -> good cs x.
Proof.
  intros I [H W]. split; [intros c Hc; apply H, I, Hc|]. apply Forall_forall. intros c Hc. apply (proj1 (Forall_forall _ _) W), I, Hc.
Qed.

Lemma means_holds o n m t P c x : constraint_means o n m t P -> o = Ok c -> wf (c_expr c) -> holds c x -> forall i, (i < n)%nat -> P x i.
Proof.
  intros (c' & E & T1 & _ & _ & _ & T5 & T6 & T7) Ec W H. rewrite E in Ec. injection Ec as ->.
  apply (T7 (Vec m x) (le_n _)). unfold satisfied, value. cbn [vlen]. rewrite T6, Nat.leb_refl. unfold wf in W. rewrite W, Nat.eqb_refl. cbn [andb guard].
  eexists. split; [reflexivity|]. split; [reflexivity|]. cbn [vlen vat]. intros i Hi. rewrite <- W in Hi. specialize (H i Hi). unfold row in H. rewrite T6 in H.
  destruct (c_type c); exact H.
Qed.

Lemma good_last cs c x : good (cs ++ [c]) x -> c_prio c = Hard -> holds c x /\ wf (c_expr c).
Proof.
  intros [H W] Hp. assert (I : In c (cs ++ [c])) by (apply in_or_app; right; now left).
  split; [now apply H|]. now apply (proj1 (Forall_forall _ _) W).
Qed.

Lemma means_good o n m t P c cs x : constraint_means o n m t P -> o = Ok c -> good (cs ++ [c]) x -> forall i, (i < n)%nat -> P x i.
Proof.
  intros M E G. assert (Hp : c_prio c = Hard) by (destruct M as (c' & E' & _ & Hp & _); congruence).
  destruct (good_last _ _ _ G Hp) as [Hh W]. now apply (means_holds o n m t P c x M E W).
Qed.

Lemma in_polygon_good e m f polygon margin c cs x : denotes e 2 m f -> in_polygon_xy e polygon margin = Ok c -> good (cs ++ [c]) x ->
  inside polygon margin (f x 0%nat, f x 1%nat).
Proof.
  intros D E G i A B He Hne. assert (Hi : (i < length polygon)%nat) by (apply nth_error_Some; destruct He as [-> _]; discriminate).
  destruct (means_good _ _ _ _ _ c cs x (C32_in_polygon_exact e m f polygon margin D ltac:(lia)) E G i Hi) as (A' & B' & [H1 H2] & K & _).
  destruct He as [H3 H4]. rewrite H1 in H3. rewrite H2 in H4. injection H3 as ->. injection H4 as ->. now apply K.
Qed.

(** ** Polygons and frames of supports *)

Lemma polygons_frames l : Forall2 (fun f f' => f_frame f' = f_frame f /\ f_side f' = f_side f) l (fst (polygons l)).
Proof.
  induction l as [|f l IH]; cbn [polygons]; [constructor|].
  unfold support_polygon. destruct (f_computed f) eqn:E; destruct (polygons l) as [m q]; cbn [fst] in *; constructor; auto.
Qed.

Lemma frame_loop_frames l l' : Forall2 (fun f f' => f_frame f' = f_frame f /\ f_side f' = f_side f) l l' ->
  forall f n, frame_loop f n l' = frame_loop f n l.
Proof. induction 1 as [|a b l l' [E _] H IH]; intros f n; cbn [frame_loop]; [reflexivity|]. now rewrite E, IH. Qed.

(** Computing the polygon changes nothing but what is remembered of it. *)
Lemma polygon_support hull s s' o : support_support_polygon hull s = (s', o) ->
  support_frame s' = support_frame s /\ u_end s' = u_end s /\ u_start s' = u_start s /\ length (u_footsteps s') = length (u_footsteps s) /\
  support_side s' = support_side s /\ u_elapsed_ratio s' = u_elapsed_ratio s /\ u_time_ratio s' = u_time_ratio s /\
  u_t_start s' = u_t_start s /\ u_target_world_dcm s' = u_target_world_dcm s /\
  (forall p, o = Ok p -> support_support_polygon hull s' = (s', Ok p)).
Proof.
  unfold support_support_polygon. destruct (u_computed s) eqn:C.
  - intros E. injection E as <- <-. rewrite C. repeat (split; [reflexivity|]). congruence.
  - pose proof (polygons_frames (u_footsteps s)) as F. destruct (polygons (u_footsteps s)) as [l pts]. cbn [fst] in F.
    destruct (hull pts) as [|a h]; intros E; injection E as <- <-; [repeat (split; [reflexivity|]); discriminate|].
    cbn [u_end u_start u_footsteps u_elapsed_ratio u_time_ratio u_t_start u_target_world_dcm u_computed u_polygon].
    assert (Ll : length l = length (u_footsteps s)) by (clear -F; induction F; cbn; congruence).
    split; [|repeat (split; [first [reflexivity|exact Ll]|])].
    + unfold support_frame. cbn [u_footsteps]. destruct F as [|f f' r r' [Ef _] F]; [reflexivity|]. now rewrite Ef, (frame_loop_frames _ _ F).
    + split; [|repeat (split; [reflexivity|])].
      * unfold support_side. cbn [u_footsteps]. rewrite Ll. destruct F as [|f f' r r' [_ Es] F]; [reflexivity|]. now rewrite Es.
      * intros p E. congruence.
Qed.

Section WithLibraries.
Variable L : libs.
Hypothesis He : exp_correct (l_mexp L).

(** ** Constraints of one support *)

Lemma soften_hard c w : soften false w c = c.
Proof. reflexivity. Qed.

Lemma incl_cons_end (A : Type) (l : list A) a : incl l (l ++ [a]).
Proof. intros x H. apply in_or_app. now left. Qed.

Lemma constrain_end_spec g pb l s k pb' Sx Sy Ux Uy : lipm_history (l_mexp L) pb l Sx Sy Ux Uy -> (k <= lp_timesteps l)%nat ->
  constrain_end g pb l s (Z.of_nat k) = Ok pb' ->
  extends pb pb' /\ incl (p_cons pb) (p_cons pb') /\
  (forall x, good (p_cons pb') x -> g_soft g = false -> exists f, support_frame s = Ok f /\
     Sx x k 0%nat = vx (fr_t f) /\ Sy x k 0%nat = vy (fr_t f) /\ Sx x k 1%nat = 0 /\ Sy x k 1%nat = 0 /\ Sx x k 2%nat = 0 /\ Sy x k 2%nat = 0).
Proof.
  intros H Hk E. destruct (C60_expressions _ _ _ _ _ _ _ He H) as (X & _ & _). destruct (X k Hk) as (X0 & X1 & X2 & _ & _).
  unfold constrain_end in E. bind E f Ef. bind E p Ep. bind E cp Ecp. bind E v Ev. bind E cv Ecv. bind E a Ea. bind E ca Eca. injection E as <-.
  split; [eapply extends_trans; [|apply extends_cons]; eapply extends_trans; apply extends_cons|].
  cbn [add_constraint set_cons p_cons].
  split; [eapply incl_tran; [|apply incl_cons_end]; eapply incl_tran; apply incl_cons_end|].
  intros x G Hs. rewrite Hs in G. cbn [soften] in G. exists f. split; [reflexivity|].
  destruct X0 as (e0 & m0 & E0 & _ & D0). injection E0 as <-.
  destruct X1 as (e1 & m1 & E1 & _ & D1). injection E1 as <-.
  destruct X2 as (e2 & m2 & E2 & _ & D2). injection E2 as <-.
  destruct (cmp_e_v a (vec_of [0; 0]) _ _ _ D2 eq_refl) as (_ & _ & M2 & _).
  destruct (cmp_e_v v (vec_of [0; 0]) _ _ _ D1 eq_refl) as (_ & _ & M1 & _).
  destruct (cmp_e_v p (vec_of [vx (fr_t f); vy (fr_t f)]) _ _ _ D0 eq_refl) as (_ & _ & M0 & _).
  pose proof (means_good _ _ _ _ _ _ _ x M2 Eca G) as R2. apply (good_incl _ _ _ (incl_cons_end _ _ _)) in G.
  pose proof (means_good _ _ _ _ _ _ _ x M1 Ecv G) as R1. apply (good_incl _ _ _ (incl_cons_end _ _ _)) in G.
  pose proof (means_good _ _ _ _ _ _ _ x M0 Ecp G) as R0.
  cbn beta in R0, R1, R2.
  pose proof (R0 0%nat ltac:(lia)). pose proof (R0 1%nat ltac:(lia)). pose proof (R1 0%nat ltac:(lia)). pose proof (R1 1%nat ltac:(lia)).
  pose proof (R2 0%nat ltac:(lia)). pose proof (R2 1%nat ltac:(lia)). cbn in *. repeat (split; [assumption|]). assumption.
Qed.

(** What the timestep [k] of a support guarantees. *)
Definition step_holds (g : wpg) (l : lipm) (s : support) (polygon : list point) (Sx Sy : states) (x : nat -> R) (k : nat) : Prop :=
  inside polygon (w_zmp_margin (g_params g)) (Sx x k 0%nat - Sx x k 2%nat / g_omega_2 g, Sy x k 0%nat - Sy x k 2%nat / g_omega_2 g) /\
  (u_end s = true -> k = lp_timesteps l -> exists f, support_frame s = Ok f /\
     Sx x k 0%nat = vx (fr_t f) /\ Sy x k 0%nat = vy (fr_t f) /\ Sx x k 1%nat = 0 /\ Sy x k 1%nat = 0 /\ Sx x k 2%nat = 0 /\ Sy x k 2%nat = 0).

Lemma constrain_step_spec g pb l s k pb' s' Sx Sy Ux Uy : lipm_history (l_mexp L) pb l Sx Sy Ux Uy -> (k <= lp_timesteps l)%nat -> g_omega_2 g <> 0 ->
  constrain_step L g pb l s (Z.of_nat k) = Ok (pb', s') ->
  extends pb pb' /\ incl (p_cons pb) (p_cons pb') /\
  exists polygon, support_support_polygon (l_hull L) s = (s', Ok polygon) /\
    forall x, good (p_cons pb') x -> g_soft g = false -> step_holds g l s polygon Sx Sy x k.
Proof.
  intros H Hk Ho E. destruct (C60_expressions _ _ _ _ _ _ _ He H) as (X & _ & _). destruct (X k Hk) as (_ & _ & _ & _ & X4). specialize (X4 _ Ho).
  destruct X4 as (e4 & m4 & E4 & _ & D4).
  unfold constrain_step in E. rewrite E4 in E. cbn [obind] in E.
  destruct (support_support_polygon (l_hull L) s) as [s1 [polygon| |]] eqn:Es; cbn [obind] in E; try discriminate E.
  bind E c Ec. bind E target Et. bind E z Ez. bind E c2 Ec2.
  set (pb1 := add_constraint (add_constraint pb _) _) in E.
  assert (X1 : extends pb pb1) by (eapply extends_trans; apply extends_cons).
  assert (I1 : incl (p_cons pb) (p_cons pb1)) by (eapply incl_tran; apply incl_cons_end).
  destruct (polygon_support _ _ _ _ Es) as (Pf & Pe & _).
  assert (Z : forall x, good (p_cons pb1) x -> g_soft g = false ->
    inside polygon (w_zmp_margin (g_params g)) (Sx x k 0%nat - Sx x k 2%nat / g_omega_2 g, Sy x k 0%nat - Sy x k 2%nat / g_omega_2 g)).
  { intros x G Hs. unfold pb1 in G. cbn [add_constraint set_cons p_cons] in G. rewrite Hs in G. cbn [soften] in G.
    apply (good_incl _ _ _ (incl_cons_end _ _ _)) in G. exact (in_polygon_good _ _ _ _ _ _ _ x D4 Ec G). }
  destruct (u_end s1 && Z.eqb (Z.of_nat k) (Z.of_nat (lp_timesteps l))) eqn:Ee.
  - bind E pb2 Epb. injection E as <- <-. apply andb_true_iff in Ee. destruct Ee as [Ee Ek]. apply Z.eqb_eq in Ek.
    destruct (constrain_end_spec g pb1 l s1 k pb2 Sx Sy Ux Uy (history_later _ _ _ _ _ _ _ _ H X1) Hk Epb) as (X2 & I2 & F).
    split; [exact (extends_trans _ _ _ X1 X2)|]. split; [exact (incl_tran I1 I2)|]. exists polygon. split; [reflexivity|].
    intros x G Hs. split; [apply Z; [exact (good_incl _ _ _ I2 G)|exact Hs]|]. intros _ _. rewrite <- Pf. now apply F.
  - injection E as <- <-. split; [exact X1|]. split; [exact I1|]. exists polygon. split; [reflexivity|].
    intros x G Hs. split; [now apply Z|]. intros U Ek. exfalso. rewrite Pe, U in Ee. cbn [andb] in Ee. apply Z.eqb_neq in Ee. lia.
Qed.

Lemma constrain_loop_spec g l polygon Sx Sy Ux Uy : g_omega_2 g <> 0 -> forall n pb s k pb' s',
  lipm_history (l_mexp L) pb l Sx Sy Ux Uy -> (k + n <= S (lp_timesteps l))%nat -> support_support_polygon (l_hull L) s = (s, Ok polygon) ->
  constrain_loop L n g pb l s (Z.of_nat k) = Ok (pb', s') ->
  extends pb pb' /\ incl (p_cons pb) (p_cons pb') /\ s' = s /\
    forall x, good (p_cons pb') x -> g_soft g = false -> forall i, (k <= i < k + n)%nat -> step_holds g l s polygon Sx Sy x i.
Proof.
  intros Ho. induction n as [|n IH]; intros pb s k pb' s' H Hk Hs E; cbn [constrain_loop] in E.
  - injection E as <- <-. split; [apply extends_refl|]. split; [apply incl_refl|]. split; [reflexivity|]. intros; lia.
  - bind E r Er. destruct r as [pb1 s1]. cbn [fst snd] in E.
    destruct (constrain_step_spec g pb l s k pb1 s1 _ _ _ _ H ltac:(lia) Ho Er) as (X1 & I1 & polygon' & P1 & F1).
    rewrite Hs in P1. injection P1 as <- <-.
    replace (Z.of_nat k + 1)%Z with (Z.of_nat (k + 1)) in E by lia.
    destruct (IH pb1 s (k + 1)%nat pb' s' (history_later _ _ _ _ _ _ _ _ H X1) ltac:(lia) Hs E) as (X2 & I2 & -> & F2).
    split; [exact (extends_trans _ _ _ X1 X2)|]. split; [exact (incl_tran I1 I2)|]. split; [reflexivity|].
    intros x G Hg i Hi. destruct (Nat.eq_dec i k) as [->|Ne]; [|apply F2; auto; lia]. apply F1; [|exact Hg]. exact (good_incl _ _ _ I2 G).
Qed.

Lemma constrain_lipm_spec g pb l s pb' s' Sx Sy Ux Uy : g_omega_2 g <> 0 -> lipm_history (l_mexp L) pb l Sx Sy Ux Uy -> (0 < lp_timesteps l)%nat ->
  constrain_lipm L g pb l s = Ok (pb', s') ->
  extends pb pb' /\ incl (p_cons pb) (p_cons pb') /\ exists polygon, support_support_polygon (l_hull L) s = (s', Ok polygon) /\
    forall x, good (p_cons pb') x -> g_soft g = false -> forall i, (1 <= i <= lp_timesteps l)%nat -> step_holds g l s polygon Sx Sy x i.
Proof.
  intros Ho H Hn E. unfold constrain_lipm in E. destruct (lp_timesteps l) as [|n] eqn:En; [lia|]. cbn [constrain_loop] in E.
  bind E r Er. destruct r as [pb1 s1]. cbn [fst snd] in E. change 1%Z with (Z.of_nat 1) in Er.
  destruct (constrain_step_spec g pb l s 1 pb1 s1 _ _ _ _ H ltac:(lia) Ho Er) as (X1 & I1 & polygon & P1 & F1).
  destruct (polygon_support _ _ _ _ P1) as (Pf & Pe & _ & _ & _ & _ & _ & _ & _ & P2). specialize (P2 polygon eq_refl).
  change (1 + 1)%Z with (Z.of_nat 2) in E.
  destruct (constrain_loop_spec g l polygon _ _ _ _ Ho n pb1 s1 2%nat pb' s' (history_later _ _ _ _ _ _ _ _ H X1) ltac:(lia) P2 E) as (X2 & I2 & -> & F2).
  split; [exact (extends_trans _ _ _ X1 X2)|]. split; [exact (incl_tran I1 I2)|]. exists polygon. split; [exact P1|].
  intros x G Hg i Hi. destruct (Nat.eq_dec i 1) as [->|Ne].
  - apply F1; [exact (good_incl _ _ _ I2 G)|exact Hg].
  - pose proof (F2 x G Hg i ltac:(lia)) as [A B]. split; [exact A|]. rewrite <- Pf, <- Pe. exact B.
Qed.
End WithLibraries.
