(** Gluing the motions of a foot in the parts, and its yaw. *)
From Coq Require Import Reals Lra Lia List ZArith Bool.
From Verif Require Import Base Angle Linalg Geom3 Tools_model Spline_model Spline_spec Spline_proofs Spline_props Swing_model Swing_spec Swing_proofs Swing_props
  Geometry_model Geometry_proofs Footsteps_model Wpg_model Wpg_spec Wpg_proofs Wpg_proofs2 Wpg_proofs3 Wpg_proofs5 WpgPlan_spec WpgFeet_spec WpgFeet_proofs WpgFeet_proofs2.
Import ListNotations.
Open Scope R_scope.

(** ** Positions *)

Definition foot_pos (q : part) (sd : side) (t : R) : outcome vec3 :=
  flying <- (if is_both (pt_support q) then Ok false else s <- support_side (pt_support q) ;; Ok (side_eqb s (other_side sd))) ;;
  if flying : bool then cswing_pos (pt_swing q) t else f <- footstep_frame (pt_support q) sd ;; Ok (fr_t f).

Definition piece (sd : side) (q : part) (x y : vec3) : Prop :=
  exists F, (forall t, foot_pos q sd t = Ok (F t)) /\ continuous3 F /\ (forall t, t <= pt_start q -> F t = x) /\ (forall t, pt_end q <= t -> F t = y).

Definition paste3 (c : R) (F G : R -> vec3) (t : R) : vec3 :=
  V3 (paste c (fun t => vx (F t)) (fun t => vx (G t)) t) (paste c (fun t => vy (F t)) (fun t => vy (G t)) t) (paste c (fun t => vz (F t)) (fun t => vz (G t)) t).
Lemma paste3_left c F G t : t <= c -> paste3 c F G t = F t.
Proof. intros H. unfold paste3. rewrite !paste_left by exact H. now destruct (F t). Qed.
Lemma paste3_right c F G t : F c = G c -> c <= t -> paste3 c F G t = G t.
Proof. intros E H. unfold paste3. rewrite !paste_right_eq; [now destruct (G t)|now rewrite E|exact H|now rewrite E|exact H|now rewrite E|exact H]. Qed.
Lemma paste3_continuous c F G : continuous3 F -> continuous3 G -> F c = G c -> continuous3 (paste3 c F G).
Proof. intros (A1 & A2 & A3) (B1 & B2 & B3) E. split; [|split]; cbn; apply paste_continuity; auto; now rewrite E. Qed.

Lemma glue_pieces sd : forall l a b A, l <> [] -> contiguous a l b -> Forall (fun q => pt_start q < pt_end q) l ->
  (forall i q, nth_error l i = Some q -> piece sd q (A i) (A (S i))) ->
  exists P, continuous3 P /\ (forall t, t <= a -> P t = A 0%nat) /\ (forall t, b <= t -> P t = A (length l)) /\
    (forall t i q, right_part l t i q -> foot_pos q sd t = Ok (P t)).
Proof.
  induction l as [|q l IH]; intros a b A N C F H; [congruence|]. destruct C as [C1 C2]. inversion F as [|? ? Fq Fl]; subst.
  destruct (H 0%nat q eq_refl) as (G & G1 & G2 & G3 & G4). destruct l as [|q' l].
  - cbn in C2. subst b. exists G. split; [exact G2|]. split; [exact G3|]. split; [exact G4|]. intros t i q0 (E & _). destruct i as [|[|i]]; try discriminate E. injection E as <-. apply G1.
  - assert (N' : q' :: l <> []) by discriminate.
    destruct (IH (pt_end q) b (fun i => A (S i)) N' C2 Fl (fun i q0 => H (S i) q0)) as (P & P1 & P2 & P3 & P4).
    assert (Fl' : Forall (fun p => pt_start p <= pt_end p) (q' :: l)) by (eapply Forall_impl; [|exact Fl]; cbn; intros; lra).
    assert (E : G (pt_end q) = P (pt_end q)) by (rewrite G4, P2 by lra; reflexivity).
    assert (Lb : pt_end q <= b).
    { clear -C2 Fl'. revert C2 Fl'. generalize (pt_end q). induction (q' :: l) as [|p m IHm]; intros c C Fm; cbn in C; [lra|]. destruct C as [<- C]. inversion Fm; subst. specialize (IHm _ C H2). lra. }
    exists (paste3 (pt_end q) G P). split; [now apply paste3_continuous|]. split; [intros t Ht; rewrite paste3_left by lra; now apply G3|].
    split; [intros t Ht; rewrite paste3_right by (auto; lra); now apply P3|].
    intros t i q0 (E0 & B1 & B2). destruct i as [|i].
    + cbn in E0. injection E0 as <-. destruct B2 as [B2|B2]; [discriminate B2|]. rewrite paste3_left by exact B2. apply G1.
    + cbn [nth_error] in E0. destruct B1 as [B1|B1]; [discriminate B1|]. pose proof (start_before _ _ _ C2 Fl' i q0 E0) as B. rewrite paste3_right by (auto; lra).
      apply (P4 t i). split; [exact E0|]. split; [now right|]. destruct B2 as [B2|B2]; [left; cbn in *; lia|now right].
Qed.

(** ** Yaws *)

Lemma consecutive_nth {A} (l : list A) i p q : nth_error l i = Some p -> nth_error l (S i) = Some q -> consecutive l p q.
Proof.
  revert i. induction l as [|a l IH]; intros [|i] Hp Hq; cbn in *; try discriminate.
  - injection Hp as ->. destruct l as [|b l]; [discriminate|]. cbn in Hq. injection Hq as ->. exists [], l. reflexivity.
  - destruct (IH i Hp Hq) as (l1 & l2 & ->). exists (a :: l1), l2. reflexivity.
Qed.

Lemma yaw_curve s l : yaw_pts s l -> (2 <= length l)%nat -> exists Y W : R -> R,
  (forall t, snd (pos s t) = Ok (Y t) /\ snd (vel s t) = Ok (W t)) /\ continuity Y /\ continuity W /\
  (forall i x x', nth_error l i = Some x -> nth_error l (S i) = Some x' ->
     let a := fst (fst x) in let b := fst (fst x') in
     a < b /\ same_angle (Y a) (snd (fst x)) /\ same_angle (Y b) (snd (fst x')) /\ Rabs (Y b - Y a) <= PI /\
     exists A, cubic_between a (Y a) (snd x) b (Y b) (snd x') Y W A) /\
  (forall x, nth_error l 0 = Some x -> forall t, t <= fst (fst x) -> Y t = Y (fst (fst x))) /\
  (forall x, nth_error l (length l - 1) = Some x -> forall t, fst (fst x) <= t -> Y t = Y (fst (fst x))) /\
  (forall a b, (exists x, nth_error l 0 = Some x /\ fst (fst x) = a) -> (exists x, nth_error l (length l - 1) = Some x /\ fst (fst x) = b) ->
     forall t, a < t < b -> derivable_pt_lim Y t (W t)).
Proof.
  intros (Ha & Hr & F) Hl. pose proof (Forall2_len' _ _ _ F) as Ln. destruct (cs_points s) as [|p0 [|p1 rest]] eqn:E; cbn in Ln; [lia|lia|].
  destruct (C33_spline s p0 p1 rest Hr E) as (Y & W & A & Q & Cub & CY & CW & D & B1 & B2). cbv zeta in *. set (final := last rest p1) in *.
  assert (Lst : nth_error (cs_points s) (length l - 1) = Some final).
  { rewrite E, <- Ln. cbn [length]. replace (S (S (length rest)) - 1)%nat with (S (length rest)) by lia. cbn [nth_error]. clear. unfold final. clear final. revert p1.
    induction rest as [|q r IH]; intros p1; [reflexivity|]. cbn [length nth_error]. rewrite IH. f_equal. destruct r; [reflexivity|]. now rewrite !last_cons_ne. }
  exists Y, W. split; [intros t; split; apply Q|]. split; [exact CY|]. split; [exact CW|]. split; [|split; [|split]].
  - intros i x x' Hx Hx'. cbv zeta. destruct (Forall2_nth _ _ _ _ _ F Hx) as (p & Hp & P1 & P2 & P3). destruct (Forall2_nth _ _ _ _ _ F Hx') as (q & Hq & Q1 & Q2 & Q3).
    rewrite <- E in Hp, Hq. pose proof (consecutive_nth _ _ _ _ Hp Hq) as Cs. destruct (Cub p q Cs) as (Lt & K). rewrite <- P1, <- Q1, <- P3, <- Q3.
    pose proof (C35_consecutive _ _ _ Hr Ha Cs) as Pi. pose proof K as (k0 & k1 & k2 & k3 & _ & _ & V1 & _ & V2 & _). rewrite V1, V2.
    split; [exact Lt|]. split; [exact P2|]. split; [exact Q2|]. split; [exact Pi|]. exists A. exact K.
  - intros x Hx t Ht. destruct (Forall2_nth _ _ _ _ _ F Hx) as (p & Hp & P1 & _). cbn in Hp. injection Hp as <-. rewrite <- P1 in *.
    rewrite (proj1 (B1 t Ht)), (proj1 (B1 (sp_t p0) (Rle_refl _))). reflexivity.
  - intros x Hx t Ht. destruct (Forall2_nth _ _ _ _ _ F Hx) as (p & Hp & P1 & _). rewrite <- E, Lst in Hp. injection Hp as <-. rewrite <- P1 in *.
    rewrite (proj1 (B2 t Ht)), (proj1 (B2 (sp_t final) (Rle_refl _))). reflexivity.
  - intros a b (x & Hx & <-) (x' & Hx' & <-) t Ht. destruct (Forall2_nth _ _ _ _ _ F Hx) as (p & Hp & P1 & _). cbn in Hp. injection Hp as <-.
    destruct (Forall2_nth _ _ _ _ _ F Hx') as (p' & Hp' & P1' & _). rewrite <- E, Lst in Hp'. injection Hp' as <-. apply D. lra.
Qed.

Lemma same_angle_close a b : same_angle a b -> Rabs (a - b) <= PI -> a = b.
Proof.
  intros (k & ->) H. replace (b + IZR k * (2 * PI) - b) with (IZR k * (2 * PI)) in H by ring. pose proof PI_RGT_0. assert (k = 0)%Z as ->; [|cbn; ring].
  rewrite Rabs_mult, (Rabs_right (2 * PI)) in H by lra. assert (Rabs (IZR k) < 1). { apply (Rmult_lt_reg_r (2 * PI)); [lra|]. lra. }
  rewrite Rabs_Zabs in H1. apply lt_IZR in H1. lia.
Qed.
