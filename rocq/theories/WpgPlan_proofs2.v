(** Proofs about the problem of the CoM trajectory, continued. *)
From Coq Require Import Reals Lra Lia List ZArith Bool Psatz.
From Verif Require Import Base Linalg Geom3 Tools_model Expression_model Expression_spec Expression_proofs Problem_model Problem_spec Problem_proofs
  Problem_proofs2 Problem_proofs3 Problem_props Polynom_model Polynom_spec Polynom_props Integrator_model Integrator_spec Integrator_proofs
  Lipm_model Lipm_spec Lipm_proofs Lipm_props Spline_model Swing_model Geometry_model Footsteps_model Wpg_model Wpg_spec Wpg_proofs Wpg_proofs2
  Wpg_proofs3 Wpg_proofs4 Wpg_proofs5 Wpg_props KinCons_spec Kin_proofs KinCons_proofs WpgPlan_spec WpgPlan_proofs.
Import ListNotations.
Open Scope R_scope.

Lemma feet_polygon hull s s' o : support_support_polygon hull s = (s', o) -> feet_ok s -> feet_ok s'.
Proof.
  unfold support_support_polygon. destruct (u_computed s); [intros E; now injection E as <- <-|].
  pose proof (polygons_frames (u_footsteps s)) as F. destruct (polygons (u_footsteps s)) as [l pts]. cbn [fst] in F.
  assert (K : feet_ok s -> feet_ok (Support l (u_t_start s) (u_elapsed_ratio s) (u_time_ratio s) (u_target_world_dcm s) (u_start s) (u_end s) (removelast (hull pts)) true)).
  { unfold feet_ok. cbn [u_footsteps]. intros [(f & E)|(f & h & E & S)]; rewrite E in F.
    - inversion F as [|a b r r' _ F']; subst. inversion F'; subst. left. eauto.
    - inversion F as [|a b r r' [_ S1] F']; subst. inversion F' as [|a' b' r1 r2 [_ S2] F2]; subst. inversion F2; subst. right. exists b, b'. split; [reflexivity|congruence]. }
  destruct (hull pts) as [|a h] eqn:Eh; intros E; injection E as <- <-; auto.
Qed.

Lemma feet_started t s : feet_ok s -> feet_ok (started t s).
Proof. unfold started. now destruct (Req_EM_T _ _). Qed.

Lemma set_cons_same pb : set_cons pb (p_cons pb ++ []) = pb.
Proof. rewrite app_nil_r. now destruct pb. Qed.

Lemma set_cons_cons pb a b : set_cons (set_cons pb (p_cons pb ++ a)) (p_cons (set_cons pb (p_cons pb ++ a)) ++ b) = set_cons pb (p_cons pb ++ (a ++ b)).
Proof. unfold set_cons. cbn [p_n p_vars p_cons p_reg p_sparse p_rewrite p_x p_slacks]. now rewrite app_assoc. Qed.

Lemma extends_set_cons pb cs : extends pb (set_cons pb cs).
Proof. split; [cbn; lia|]. cbn. eauto. Qed.

Lemma reachable_cons new : forall pb sizes, reachable pb sizes -> reachable (set_cons pb (p_cons pb ++ new)) sizes.
Proof.
  induction new as [|c new IH]; intros pb sizes H; [now rewrite set_cons_same|].
  replace (set_cons pb (p_cons pb ++ c :: new)) with (set_cons (add_constraint pb c) (p_cons (add_constraint pb c) ++ new)); [apply IH; now constructor|].
  unfold add_constraint. rewrite set_cons_cons. reflexivity.
Qed.

(** ** Three jerks reach any state *)

Lemma controllable dt n s0 p v a : 0 < dt -> (3 <= n)%nat -> exists u, jerk_run dt u s0 n 0%nat = p /\ jerk_run dt u s0 n 1%nat = v /\ jerk_run dt u s0 n 2%nat = a.
Proof.
  intros Hdt Hn. destruct n as [|[|[|m]]]; try lia. set (s := jerk_run dt (fun _ => 0) s0 m).
  set (A := (a - s 2%nat) / dt). set (V := (v - s 1%nat - 3 * dt * s 2%nat) / dt ^ 2).
  set (P := (p - s 0%nat - 3 * dt * s 1%nat - 9 / 2 * dt ^ 2 * s 2%nat) / dt ^ 3).
  set (u0 := P - V + A / 3). set (u1 := V - A / 2 - 2 * u0). set (u2 := A - u0 - u1).
  set (u := fun k => if Nat.eqb k m then u0 else if Nat.eqb k (S m) then u1 else if Nat.eqb k (S (S m)) then u2 else 0).
  assert (E0 : u m = u0) by (unfold u; now rewrite Nat.eqb_refl).
  assert (E1 : u (S m) = u1) by (unfold u; rewrite (proj2 (Nat.eqb_neq (S m) m)) by lia; now rewrite Nat.eqb_refl).
  assert (E2 : u (S (S m)) = u2) by (unfold u; rewrite (proj2 (Nat.eqb_neq (S (S m)) m)), (proj2 (Nat.eqb_neq (S (S m)) (S m))) by lia; now rewrite Nat.eqb_refl).
  assert (Es : forall d, (d < 3)%nat -> jerk_run dt u s0 m d = s d).
  { intros d Hd. unfold s. apply jerk_run_ext; auto. intros i Hi. unfold u.
    rewrite (proj2 (Nat.eqb_neq i m)), (proj2 (Nat.eqb_neq i (S m))), (proj2 (Nat.eqb_neq i (S (S m)))) by lia. reflexivity. }
  exists u. cbn [jerk_run]. rewrite E0, E1, E2, !Es by lia. unfold u2, u1, u0, P, V, A. clearbody s. repeat split; field; lra.
Qed.

(** ** Unknowns *)

Lemma denotes_local e n m f x y i : denotes e n m f -> (i < n)%nat -> (forall j, (j < m)%nat -> x j = y j) -> f x i = f y i.
Proof.
  intros D Hi H. apply denotes_elim in D. destruct D as (_ & _ & C & D). rewrite <- !D by exact Hi. unfold ev. rewrite C. f_equal.
  apply Rsum_ext. intros j Hj. now rewrite H.
Qed.

Lemma stands_for_local pb o f h x y : stands_for pb o f h -> (forall j, (j < p_n pb)%nat -> x j = y j) -> f x = f y /\ h x = h y.
Proof.
  intros (e & m & _ & Hm & D) H. assert (H' : forall j, (j < m)%nat -> x j = y j) by (intros j Hj; apply H; lia).
  pose proof (denotes_local _ _ _ _ x y 0 D ltac:(lia) H'). pose proof (denotes_local _ _ _ _ x y 1 D ltac:(lia) H'). cbn in *. auto.
Qed.

Lemma history_local mexp pb l Sx Sy Ux Uy x y : exp_correct mexp -> lipm_history mexp pb l Sx Sy Ux Uy -> (forall j, (j < p_n pb)%nat -> x j = y j) ->
  forall k d, (k <= lp_timesteps l)%nat -> (d < 3)%nat -> Sx x k d = Sx y k d /\ Sy x k d = Sy y k d.
Proof.
  intros He H Hxy k d Hk Hd. destruct (C60_expressions _ _ _ _ _ _ _ He H) as (X & _ & _). destruct (X k Hk) as (X0 & X1 & X2 & _).
  destruct d as [|[|[|d]]]; [exact (stands_for_local _ _ _ _ x y X0 Hxy)|exact (stands_for_local _ _ _ _ x y X1 Hxy)|exact (stands_for_local _ _ _ _ x y X2 Hxy)|lia].
Qed.

Lemma walkable_ext hull p o supports : forall sx sy sx' sy', (forall d, (d < 3)%nat -> sx d = sx' d /\ sy d = sy' d) ->
  walkable hull p o supports sx sy -> walkable hull p o supports sx' sy'.
Proof.
  induction supports as [|s rest IH]; intros sx sy sx' sy' E W; [exact I|]. cbn [walkable] in *.
  destruct W as (n & d & polygon & ux & uy & Hn & Hd & Hp & Hz & He & Hr). exists n, d, polygon, ux, uy.
  assert (EX : forall k e, (e < 3)%nat -> jerk_run (d / INR n) ux sx' k e = jerk_run (d / INR n) ux sx k e) by (intros; apply jerk_run_ext; auto; intros e' He'; symmetry; now apply E).
  assert (EY : forall k e, (e < 3)%nat -> jerk_run (d / INR n) uy sy' k e = jerk_run (d / INR n) uy sy k e) by (intros; apply jerk_run_ext; auto; intros e' He'; symmetry; now apply E).
  split; [exact Hn|]. split; [exact Hd|]. split; [exact Hp|]. split; [|split].
  - intros k Hk. rewrite !EX, !EY by lia. now apply Hz.
  - intros U. destruct (He U) as (f & Ef & H). exists f. split; [exact Ef|]. rewrite !EX, !EY by lia. exact H.
  - eapply IH; [|exact Hr]. intros e He'. now rewrite EX, EY.
Qed.

Section WithLibraries.
Variable L : libs.
Hypothesis He : exp_correct (l_mexp L).
Variable g : wpg.
Hypothesis Ho : g_omega_2 g <> 0.
Hypothesis Hw1 : 0 < g_zmp_weight g.
Hypothesis Hw2 : 0 < g_stop_weight g.
Hypothesis Hw3 : 0 < w_zmp_weight (g_params g).

Lemma constrain_loop_total l polygon s Sx Sy Ux Uy : feet_ok s -> support_support_polygon (l_hull L) s = (s, Ok polygon) -> polygon <> [] ->
  (forall i A B, edge polygon i A B -> A <> B) -> forall n pb k,
  lipm_history (l_mexp L) pb l Sx Sy Ux Uy -> (k + n <= S (lp_timesteps l))%nat ->
  exists new, constrain_loop L n g pb l s (Z.of_nat k) = Ok (set_cons pb (p_cons pb ++ new), s) /\ sound (p_n pb) new /\
    (g_soft g = true -> all_soft new) /\
    (g_soft g = false -> forall x, hard_holds new x <-> forall i, (k <= i < k + n)%nat -> step_holds g l s polygon Sx Sy x i) /\
    (if negb (Nat.eqb n 0) && Nat.eqb (k + n) (S (lp_timesteps l)) && u_end s && negb (g_soft g)
     then stop_triple (p_n pb) Sx Sy (lp_timesteps l) (filter hard_eq new) else filter hard_eq new = []).
Proof.
  intros Hf Hs Hp Hne. induction n as [|n IH]; intros pb k H Hk; cbn [constrain_loop].
  - exists []. rewrite set_cons_same. split; [reflexivity|]. split; [constructor|]. split; [constructor|]. split; [|reflexivity].
    intros _ x. split; [intros; lia|intros; apply hard_holds_nil].
  - destruct (constrain_step_total L He g Ho Hw1 Hw2 Hw3 pb l s k s polygon _ _ _ _ H ltac:(lia) Hf Hs Hp Hne) as (n1 & E1 & S1 & A1 & B1 & Q1).
    rewrite E1. cbn [obind fst snd]. replace (Z.of_nat k + 1)%Z with (Z.of_nat (k + 1)) by lia.
    destruct (IH (set_cons pb (p_cons pb ++ n1)) (k + 1)%nat (history_later _ _ _ _ _ _ _ _ H (extends_set_cons _ _)) ltac:(lia)) as (n2 & E2 & S2 & A2 & B2 & Q2).
    rewrite E2, set_cons_cons. exists (n1 ++ n2). split; [reflexivity|]. split; [apply sound_app; [exact S1|exact S2]|].
    split; [intros Hq; apply Forall_app; split; [now apply A1|now apply A2]|]. split.
    + intros Hq x. rewrite hard_holds_app, (B1 Hq x), (B2 Hq x). split.
      * intros [F1 F2] i Hi. destruct (Nat.eq_dec i k) as [->|Ne]; [exact F1|apply F2; lia].
      * intros F. split; [apply F; lia|intros i Hi; apply F; lia].
    + rewrite filter_app. unfold equalities_of in Q1. cbn [Nat.eqb negb andb].
      replace (k + 1 + n)%nat with (k + S n)%nat in Q2 by lia. cbn [set_cons p_n] in Q2.
      destruct n as [|n].
      * cbn [Nat.eqb negb andb] in Q2. rewrite Q2, app_nil_r. replace (Nat.eqb (k + 1) (S (lp_timesteps l))) with (Nat.eqb k (lp_timesteps l)).
        2: { destruct (Nat.eqb_spec k (lp_timesteps l)), (Nat.eqb_spec (k + 1) (S (lp_timesteps l))); auto; lia. }
        destruct (Nat.eqb_spec k (lp_timesteps l)) as [->|]; rewrite ?andb_true_r, ?andb_false_r in *; cbn [andb] in *; exact Q1.
      * replace (Nat.eqb k (lp_timesteps l)) with false in Q1 by (symmetry; apply Nat.eqb_neq; lia). rewrite andb_false_r in Q1. cbn [andb] in Q1. rewrite Q1. exact Q2.
Qed.

Lemma constrain_lipm_total l pb s s' polygon Sx Sy Ux Uy : feet_ok s -> support_support_polygon (l_hull L) s = (s', Ok polygon) -> polygon <> [] ->
  (forall i A B, edge polygon i A B -> A <> B) -> lipm_history (l_mexp L) pb l Sx Sy Ux Uy -> (0 < lp_timesteps l)%nat ->
  exists new, constrain_lipm L g pb l s = Ok (set_cons pb (p_cons pb ++ new), s') /\ sound (p_n pb) new /\
    (g_soft g = true -> all_soft new) /\
    (g_soft g = false -> forall x, hard_holds new x <-> forall i, (1 <= i <= lp_timesteps l)%nat -> step_holds g l s polygon Sx Sy x i) /\
    (if u_end s && negb (g_soft g) then stop_triple (p_n pb) Sx Sy (lp_timesteps l) (filter hard_eq new) else filter hard_eq new = []).
Proof.
  intros Hf Hs Hp Hne H Hn. unfold constrain_lipm. destruct (lp_timesteps l) as [|n] eqn:En; [lia|]. cbn [constrain_loop].
  destruct (constrain_step_total L He g Ho Hw1 Hw2 Hw3 pb l s 1 s' polygon _ _ _ _ H ltac:(lia) Hf Hs Hp Hne) as (n1 & E1 & S1 & A1 & B1 & Q1).
  change (Z.of_nat 1) with 1%Z in E1. rewrite E1. cbn [obind fst snd]. change (1 + 1)%Z with (Z.of_nat 2).
  destruct (polygon_support _ _ _ _ Hs) as (Pf & Pe & _ & _ & _ & _ & _ & _ & _ & P2). specialize (P2 polygon eq_refl).
  destruct (constrain_loop_total l polygon s' Sx Sy Ux Uy (feet_polygon _ _ _ _ Hs Hf) P2 Hp Hne n (set_cons pb (p_cons pb ++ n1)) 2
    (history_later _ _ _ _ _ _ _ _ H (extends_set_cons _ _)) ltac:(lia)) as (n2 & E2 & S2 & A2 & B2 & Q2).
  rewrite E2, set_cons_cons. exists (n1 ++ n2). split; [reflexivity|]. split; [apply sound_app; [exact S1|exact S2]|].
  split; [intros Hq; apply Forall_app; split; [now apply A1|now apply A2]|]. 
  assert (SH : forall x i, step_holds g l s' polygon Sx Sy x i <-> step_holds g l s polygon Sx Sy x i) by (intros; unfold step_holds; rewrite Pf, Pe; tauto).
  split.
  - intros Hq x. rewrite hard_holds_app, (B1 Hq x), (B2 Hq x). split.
    + intros [F1 F2] i Hi. destruct (Nat.eq_dec i 1) as [->|Ne]; [exact F1|apply SH, F2; lia].
    + intros F. split; [apply F; lia|intros i Hi; apply SH, F; lia].
  - rewrite filter_app. unfold equalities_of in Q1. rewrite En, Pe in *. cbn [set_cons p_n] in Q2. destruct n as [|n].
    + cbn [Nat.eqb negb andb] in Q2. rewrite Q2, app_nil_r. cbn [Nat.eqb] in Q1. rewrite andb_true_r in Q1. exact Q1.
    + cbn [Nat.eqb] in Q1. rewrite andb_false_r in Q1. cbn [andb] in Q1. rewrite Q1. replace (Nat.eqb (2 + S n) (S (S (S n)))) with true in Q2 by (symmetry; apply Nat.eqb_eq; lia).
      cbn [Nat.eqb negb andb] in Q2. exact Q2.
Qed.
End WithLibraries.
