(** Proofs about the problem of the CoM trajectory: it can always be stated, and it has a solution exactly when the walk is
    possible. *)
From Coq Require Import Reals Lra Lia List ZArith Bool Psatz Classical.
From Verif Require Import Base Linalg Geom3 Tools_model Expression_model Expression_spec Expression_proofs Problem_model Problem_spec Problem_proofs
  Problem_proofs2 Problem_proofs3 Problem_props Polynom_model Polynom_spec Polynom_props Integrator_model Integrator_spec Integrator_proofs
  Lipm_model Lipm_spec Lipm_proofs Lipm_props Spline_model Swing_model Geometry_model Footsteps_model Wpg_model Wpg_spec Wpg_proofs Wpg_proofs2
  Wpg_proofs3 Wpg_proofs4 Wpg_proofs5 Wpg_props KinCons_spec Kin_proofs KinCons_proofs WpgPlan_spec.
Import ListNotations.
Open Scope R_scope.

(** ** Constraints *)

Lemma made_eq_v e n m f v : denotes e n m f -> vlen v = n -> exists c, e_eq_v e v = Ok c /\ made c Equality Hard 1 n m (fun x i => f x i - vat v i).
Proof.
  intros D Hv. destruct (sub_means_ev e v n m f D Hv) as (r & Hr & Dr). unfold e_eq_v, e_eq. rewrite Hr. cbn [obind].
  eexists. split; [reflexivity|]. now apply made_intro.
Qed.

Lemma margin_distance A B P margin : A <> B -> (0 <= inner_distance A B P - margin <-> keeps_margin margin A B P).
Proof.
  intros Hne. pose proof (edge_length A B Hne) as Hz. unfold inner_distance, keeps_margin.
  assert (Hd : 0 < distance A B). { unfold distance. apply sqrt_lt_R0. unfold Rsqr. lra. }
  split; intros H.
  - assert (margin <= right_area A B P / distance A B) by lra. apply (Rmult_le_compat_r (distance A B)) in H0; [|lra].
    unfold Rdiv in H0. rewrite Rmult_assoc, Rinv_l, Rmult_1_r in H0 by lra. exact H0.
  - assert (margin <= right_area A B P / distance A B); [|lra]. apply (Rmult_le_reg_r (distance A B)); [exact Hd|].
    unfold Rdiv. rewrite Rmult_assoc, Rinv_l, Rmult_1_r by lra. exact H.
Qed.

Lemma in_polygon_total e m f polygon margin : denotes e 2 m f -> polygon <> [] -> (forall i A B, edge polygon i A B -> A <> B) ->
  exists c g, in_polygon_xy e polygon margin = Ok c /\ made c Inequality Hard 1 (length polygon) m g /\
    forall x, (forall i, (i < length polygon)%nat -> 0 <= g x i) <-> inside polygon margin (f x 0%nat, f x 1%nat).
Proof.
  intros D Hp Hne. assert (Hl : (0 < length polygon)%nat) by (destruct polygon; [congruence|cbn; lia]).
  destruct (C32_in_polygon_exact e m f polygon margin D Hl) as (c & E & _).
  destruct (in_polygon_made e m f polygon margin c D Hl Hne E) as (g & M & G). exists c, g. split; [exact E|]. split; [exact M|].
  intros x. split.
  - intros H i A B He Hab. assert (Hi : (i < length polygon)%nat) by (apply nth_error_Some; destruct He as [-> _]; discriminate).
    destruct (G x i Hi) as (A' & B' & [E1 E2] & Eg). destruct He as [E3 E4]. rewrite E1 in E3. rewrite E2 in E4. injection E3 as <-. injection E4 as <-.
    apply margin_distance; [exact Hab|]. rewrite <- Eg. now apply H.
  - intros H i Hi. destruct (G x i Hi) as (A & B & He & ->). pose proof (Hne i A B He) as Hab. apply margin_distance; [exact Hab|]. now apply (H i).
Qed.

Lemma hard_holds_app cs ds x : hard_holds (cs ++ ds) x <-> hard_holds cs x /\ hard_holds ds x.
Proof.
  unfold hard_holds. split.
  - intros H. split; intros c Hc; apply H; apply in_or_app; auto.
  - intros [H1 H2] c Hc. apply in_app_or in Hc. destruct Hc; auto.
Qed.
Lemma hard_holds_nil x : hard_holds [] x.
Proof. intros c []. Qed.
Lemma hard_holds_one c t w n m f x : made c t Hard w n m f ->
  (hard_holds [c] x <-> forall i, (i < n)%nat -> match t with Equality => f x i = 0 | Inequality => 0 <= f x i end).
Proof.
  intros M. rewrite <- (made_holds _ _ _ _ _ _ _ x M). split.
  - intros H. apply H; [now left|apply M].
  - intros H d [<-|[]] _. exact H.
Qed.

Definition sound (N : nat) (cs : list pconstraint) : Prop :=
  Forall (fun c => (0 < rows (c_expr c))%nat /\ vlen (eb (c_expr c)) = rows (c_expr c) /\ (cols (c_expr c) <= N)%nat /\
                   (c_prio c = Soft -> 0 < c_weight c)) cs.
Definition all_soft (cs : list pconstraint) : Prop := Forall (fun c => c_prio c = Soft) cs.
Definition hard_eq (c : pconstraint) : bool := match c_prio c, c_type c with Hard, Equality => true | _, _ => false end.

Lemma sound_one N c t p w n m f : made c t p w n m f -> (0 < n)%nat -> (m <= N)%nat -> (p = Soft -> 0 < w) -> sound N [c].
Proof.
  intros (_ & H2 & H3 & H4 & H5 & H6 & _) Hn Hm Hw. constructor; [|constructor]. rewrite H4, H5, H6, H2, H3. auto.
Qed.
Lemma sound_app N cs ds : sound N cs -> sound N ds -> sound N (cs ++ ds).
Proof. intros. now apply Forall_app. Qed.
Lemma sound_mono N M cs : (N <= M)%nat -> sound N cs -> sound M cs.
Proof. intros H. apply Forall_impl. intros c (A & B & C & D). repeat split; auto; lia. Qed.

Lemma made_soften c t n m f soft w : made c t Hard 1 n m f -> made (soften soft w c) t (if soft then Soft else Hard) (if soft then w else 1) n m f.
Proof. intros H. destruct soft; cbn [soften]; [exact (made_configure _ _ _ _ _ _ _ _ _ H)|exact H]. Qed.

Section WithLibraries.
Variable L : libs.
Hypothesis He : exp_correct (l_mexp L).
Variable g : wpg.
Hypothesis Ho : g_omega_2 g <> 0.
Hypothesis Hw1 : 0 < g_zmp_weight g.
Hypothesis Hw2 : 0 < g_stop_weight g.
Hypothesis Hw3 : 0 < w_zmp_weight (g_params g).

Definition stops (f : frame) (Sx Sy : states) (x : nat -> R) (k : nat) : Prop :=
  Sx x k 0%nat = vx (fr_t f) /\ Sy x k 0%nat = vy (fr_t f) /\ Sx x k 1%nat = 0 /\ Sy x k 1%nat = 0 /\ Sx x k 2%nat = 0 /\ Sy x k 2%nat = 0.

(** The three hard equalities that stop the robot. *)
Definition stop_triple (N : nat) (Sx Sy : states) (k : nat) (cs : list pconstraint) : Prop :=
  exists cp cv ca m0 m1 m2 a b, cs = [cp; cv; ca] /\ (m0 <= N)%nat /\ (m1 <= N)%nat /\ (m2 <= N)%nat /\
    made cp Equality Hard 1 2 m0 (fun x i => (match i with O => Sx x k 0%nat | _ => Sy x k 0%nat end) - (match i with O => a | _ => b end)) /\
    made cv Equality Hard 1 2 m1 (fun x i => match i with O => Sx x k 1%nat | _ => Sy x k 1%nat end) /\
    made ca Equality Hard 1 2 m2 (fun x i => match i with O => Sx x k 2%nat | _ => Sy x k 2%nat end).

Lemma constrain_end_total pb l s k f Sx Sy Ux Uy : lipm_history (l_mexp L) pb l Sx Sy Ux Uy -> (k <= lp_timesteps l)%nat -> support_frame s = Ok f ->
  exists new, constrain_end g pb l s (Z.of_nat k) = Ok (set_cons pb (p_cons pb ++ new)) /\ sound (p_n pb) new /\
    (g_soft g = true -> all_soft new) /\ (g_soft g = false -> stop_triple (p_n pb) Sx Sy k new /\ forall x, hard_holds new x <-> stops f Sx Sy x k).
Proof.
  intros H Hk Ef. destruct (C60_expressions _ _ _ _ _ _ _ He H) as (X & _ & _). destruct (X k Hk) as (X0 & X1 & X2 & _ & _).
  destruct X0 as (e0 & m0 & E0 & L0 & D0). destruct X1 as (e1 & m1 & E1 & L1 & D1). destruct X2 as (e2 & m2 & E2 & L2 & D2).
  destruct (made_eq_v e0 _ _ _ (vec_of [vx (fr_t f); vy (fr_t f)]) D0 eq_refl) as (cp & Ecp & Mp).
  destruct (made_eq_v e1 _ _ _ (vec_of [0; 0]) D1 eq_refl) as (cv & Ecv & Mv).
  destruct (made_eq_v e2 _ _ _ (vec_of [0; 0]) D2 eq_refl) as (ca & Eca & Ma).
  exists ([soften (g_soft g) (g_stop_weight g) cp] ++ [soften (g_soft g) (g_stop_weight g) cv] ++ [soften (g_soft g) (g_stop_weight g) ca]). split; [|split; [|split]].
  - unfold constrain_end. rewrite Ef, E0. cbn [obind]. rewrite Ecp. cbn [obind]. rewrite E1. cbn [obind]. rewrite Ecv. cbn [obind]. rewrite E2. cbn [obind]. rewrite Eca. cbn [obind].
    unfold add_constraint, set_cons. cbn [p_cons]. do 2 f_equal. cbn [p_n p_vars p_reg p_sparse p_rewrite p_x p_slacks]. now rewrite <- !app_assoc.
  - apply sound_app; [|apply sound_app]; (eapply sound_one; [apply made_soften; eassumption|lia|assumption|destruct (g_soft g); [auto|discriminate]]).
  - intros Hs. rewrite Hs. cbn. repeat constructor; reflexivity.
  - intros Hs. rewrite Hs. cbn [soften app]. split.
    + exists cp, cv, ca, m0, m1, m2, (vx (fr_t f)), (vy (fr_t f)). split; [reflexivity|]. do 3 (split; [assumption|]). split; [|split].
      * eapply made_ext; [|exact Mp]. intros x [|[|i]] Hi; cbn; try reflexivity. lia.
      * eapply made_ext; [|exact Mv]. intros x [|[|i]] Hi; cbn; try ring. lia.
      * eapply made_ext; [|exact Ma]. intros x [|[|i]] Hi; cbn; try ring. lia.
    + intros x. change [cp; cv; ca] with ([cp] ++ [cv] ++ [ca]). rewrite !hard_holds_app, (hard_holds_one _ _ _ _ _ _ _ Mp), (hard_holds_one _ _ _ _ _ _ _ Mv), (hard_holds_one _ _ _ _ _ _ _ Ma).
      unfold stops. split.
      * intros (A & B & C). pose proof (A 0%nat ltac:(lia)). pose proof (A 1%nat ltac:(lia)). pose proof (B 0%nat ltac:(lia)). pose proof (B 1%nat ltac:(lia)).
        pose proof (C 0%nat ltac:(lia)). pose proof (C 1%nat ltac:(lia)). cbn in *. repeat (split; [lra|]). lra.
      * intros (A0 & A1 & B0 & B1 & C0 & C1). repeat split; intros [|[|i]] Hi; cbn; try lra; lia.
Qed.

Lemma zmp_target_total s : feet_ok s -> exists z, zmp_target (g_params g) s = Ok z.
Proof.
  unfold zmp_target, support_frame, support_side, is_both. intros [(f & E)|(f & h & E & _)]; rewrite E; cbn; eauto.
Qed.

Lemma feet_frame s : feet_ok s -> exists f, support_frame s = Ok f.
Proof. unfold support_frame. intros [(f & E)|(f & h & E & _)]; rewrite E; eauto. Qed.

Definition equalities_of (l : lipm) (s : support) (k : nat) (N : nat) (Sx Sy : states) (new : list pconstraint) : Prop :=
  if u_end s && Nat.eqb k (lp_timesteps l) && negb (g_soft g) then stop_triple N Sx Sy k (filter hard_eq new) else filter hard_eq new = [].

Lemma all_soft_filter cs : all_soft cs -> filter hard_eq cs = [].
Proof. induction 1 as [|c cs Hc _ IH]; [reflexivity|]. cbn [filter]. unfold hard_eq at 1. now rewrite Hc. Qed.
Lemma triple_filter N Sx Sy k cs : stop_triple N Sx Sy k cs -> filter hard_eq cs = cs.
Proof.
  intros (cp & cv & ca & m0 & m1 & m2 & a & b & -> & _ & _ & _ & (T0 & P0 & _) & (T1 & P1 & _) & (T2 & P2 & _)).
  cbn [filter]. unfold hard_eq. now rewrite T0, P0, T1, P1, T2, P2.
Qed.

Lemma constrain_step_total pb l s k s' polygon Sx Sy Ux Uy : lipm_history (l_mexp L) pb l Sx Sy Ux Uy -> (k <= lp_timesteps l)%nat -> feet_ok s ->
  support_support_polygon (l_hull L) s = (s', Ok polygon) -> polygon <> [] -> (forall i A B, edge polygon i A B -> A <> B) ->
  exists new, constrain_step L g pb l s (Z.of_nat k) = Ok (set_cons pb (p_cons pb ++ new), s') /\ sound (p_n pb) new /\
    (g_soft g = true -> all_soft new) /\ (g_soft g = false -> forall x, hard_holds new x <-> step_holds g l s polygon Sx Sy x k) /\
    equalities_of l s k (p_n pb) Sx Sy new.
Proof.
  intros H Hk Hf Es Hp Hne. destruct (C60_expressions _ _ _ _ _ _ _ He H) as (X & _ & _). destruct (X k Hk) as (_ & _ & _ & _ & X4).
  destruct (X4 _ Ho) as (e4 & m4 & E4 & L4 & D4).
  destruct (in_polygon_total e4 m4 _ polygon (w_zmp_margin (g_params g)) D4 Hp Hne) as (c & h & Ec & Mc & Hc).
  destruct (polygon_support _ _ _ _ Es) as (Pf & Pe & _ & Plen & Pside & _).
  destruct (zmp_target_total s Hf) as (z & Ez). assert (Ez' : zmp_target (g_params g) s' = Ok z).
  { rewrite <- Ez. unfold zmp_target, is_both. now rewrite Plen, Pside, Pf. }
  destruct (made_eq_v e4 _ _ _ (vec_of [fst z; snd z]) D4 eq_refl) as (c2 & Ec2 & M2).
  set (c1 := soften (g_soft g) (g_zmp_weight g) c). set (c3 := configure_prio c2 Soft (w_zmp_weight (g_params g))).
  pose proof (made_soften c _ _ _ _ (g_soft g) (g_zmp_weight g) Mc) as M1. fold c1 in M1.
  pose proof (made_configure _ _ _ _ _ _ _ Soft (w_zmp_weight (g_params g)) M2) as M3. fold c3 in M3.
  assert (E4' : lipm_zmp (add_constraint pb c1) l (Z.of_nat k) (g_omega_2 g) = Ok e4) by (exact E4).
  assert (Hlen : (0 < length polygon)%nat) by (destruct polygon; [congruence|cbn; lia]).
  set (pb1 := add_constraint (add_constraint pb c1) c3).
  assert (X1 : extends pb pb1) by (eapply extends_trans; apply extends_cons).
  assert (S1 : sound (p_n pb) ([c1] ++ [c3])).
  { apply sound_app; [eapply sound_one; [exact M1|exact Hlen|exact L4|]|eapply sound_one; [exact M3|lia|exact L4|auto]]. destruct (g_soft g); [auto|discriminate]. }
  assert (Q1 : p_cons pb1 = p_cons pb ++ ([c1] ++ [c3])). { unfold pb1. cbn [add_constraint set_cons p_cons]. now rewrite <- app_assoc. }
  assert (A1 : g_soft g = true -> all_soft ([c1] ++ [c3])). { intros Hs. unfold c1. rewrite Hs. repeat constructor; reflexivity. }
  assert (I1 : g_soft g = false -> forall x, hard_holds ([c1] ++ [c3]) x <-> inside polygon (w_zmp_margin (g_params g))
     (Sx x k 0%nat - Sx x k 2%nat / g_omega_2 g, Sy x k 0%nat - Sy x k 2%nat / g_omega_2 g)).
  { intros Hs x. rewrite Hs in M1. rewrite hard_holds_app, (hard_holds_one _ _ _ _ _ _ _ M1), Hc. split; [tauto|]. intros I. split; [exact I|].
    intros d [<-|[]] Hd. discriminate Hd. }
  assert (F1 : filter hard_eq ([c1] ++ [c3]) = []).
  { assert (H1 : hard_eq c1 = false) by (unfold hard_eq; destruct M1 as (-> & _); now destruct (c_prio c1)).
    assert (H3 : hard_eq c3 = false) by reflexivity. cbn [app filter]. now rewrite H1, H3. }
  assert (Eq : constrain_step L g pb l s (Z.of_nat k) =
    if u_end s && Nat.eqb k (lp_timesteps l) then pb <- constrain_end g pb1 l s' (Z.of_nat k) ;; Ok (pb, s') else Ok (pb1, s')).
  { unfold constrain_step. rewrite E4. cbn [obind]. rewrite Es. cbn [obind]. rewrite Ec. cbn [obind]. fold c1. rewrite Ez'. cbn [obind]. rewrite E4'. cbn [obind]. rewrite Ec2. cbn [obind].
    fold c3. fold pb1. rewrite Pe. replace (Z.of_nat k =? Z.of_nat (lp_timesteps l))%Z with (Nat.eqb k (lp_timesteps l)); [reflexivity|].
    destruct (Nat.eqb_spec k (lp_timesteps l)) as [->|Nk]; [now rewrite Z.eqb_refl|]. symmetry. apply Z.eqb_neq. lia. }
  unfold equalities_of. rewrite Eq. destruct (u_end s && Nat.eqb k (lp_timesteps l)) eqn:Ee.
  - apply andb_true_iff in Ee. destruct Ee as [Ee Ek]. apply Nat.eqb_eq in Ek.
    destruct (feet_frame s Hf) as (f & Ef). assert (Ef' : support_frame s' = Ok f) by congruence.
    destruct (constrain_end_total pb1 l s' k f _ _ _ _ (history_later _ _ _ _ _ _ _ _ H X1) Hk Ef') as (new & En & Sn & An & Bn).
    rewrite En. cbn [obind]. exists (([c1] ++ [c3]) ++ new). split; [|split; [|split; [|split]]].
    + rewrite Q1, <- !app_assoc. reflexivity.
    + apply sound_app; [exact S1|exact Sn].
    + intros Hq. apply Forall_app. split; [now apply A1|now apply An].
    + intros Hq x. rewrite hard_holds_app, (I1 Hq x), (proj2 (Bn Hq) x). unfold step_holds, stops. rewrite Ee. split.
      * intros [I St]. split; [exact I|]. intros _ _. exists f. auto.
      * intros [I St]. split; [exact I|]. destruct (St eq_refl Ek) as (f' & Ef2 & St'). replace f with f' by congruence. exact St'.
    + rewrite filter_app, F1. cbn [app]. destruct (g_soft g); cbn [negb andb].
      * now apply all_soft_filter, An.
      * destruct (Bn eq_refl) as [T _]. rewrite (triple_filter _ _ _ _ _ T). exact T.
  - exists ([c1] ++ [c3]). split; [|split; [exact S1|split; [exact A1|split]]].
    + do 2 f_equal. unfold pb1, add_constraint, set_cons. cbn [p_cons p_n p_vars p_reg p_sparse p_rewrite p_x p_slacks]. now rewrite <- app_assoc.
    + intros Hs x. rewrite (I1 Hs x). unfold step_holds. split; [|tauto]. intros I. split; [exact I|]. intros U K. rewrite U, K, Nat.eqb_refl in Ee. discriminate Ee.
    + cbn [andb]. exact F1.
Qed.
End WithLibraries.
