(** Lemmas about the CoM trajectory over the whole walk. *)
From Coq Require Import Reals Lra Lia List ZArith Bool.
From Verif Require Import Base Linalg Geom3 Tools_model Expression_model Expression_spec Expression_proofs Problem_model Problem_spec Problem_proofs
  Problem_proofs2 Problem_proofs3 Problem_props Polynom_model Polynom_spec Polynom_props Integrator_model Integrator_spec Integrator_proofs
  Lipm_model Lipm_spec Lipm_proofs Lipm_props Spline_model Swing_model Geometry_model Footsteps_model Wpg_model Wpg_spec Wpg_proofs Wpg_proofs2.
Import ListNotations.
Open Scope R_scope.

Lemma default_duration_ok p s d : support_default_duration p s = Ok d <-> default_duration p s d.
Proof.
  unfold support_default_duration, default_duration, is_both.
  destruct (Nat.eqb _ 2); [destruct (u_start s || u_end s)|]; [destruct (startend_double_support_duration p)|destruct (double_support_duration p)|];
    split; congruence.
Qed.

Lemma remaining_duration_ok p s d : remaining_duration p s = Ok d <-> lasts p s d.
Proof.
  unfold remaining_duration, lasts. split.
  - intros E. bind E d0 E0. injection E as <-. exists d0. split; [now apply default_duration_ok|reflexivity].
  - intros (d0 & D & ->). apply default_duration_ok in D. now rewrite D.
Qed.

Lemma lasts_det p s d d' : lasts p s d -> lasts p s d' -> d = d'.
Proof. intros H H'. apply remaining_duration_ok in H, H'. congruence. Qed.

Lemma remaining_timesteps_pos p s : (0 < remaining_timesteps p s)%nat.
Proof. unfold remaining_timesteps. lia. Qed.

(** The support as the part keeps it. *)
Definition started (t : R) (s : support) : support := if Req_EM_T (u_t_start s) (-1) then Footsteps_model.set_t_start s t else s.

Section WithLibraries.
Variable L : libs.
Hypothesis He : exp_correct (l_mexp L).
Variable g : wpg.
Hypothesis Ho : g_omega_2 g <> 0.

Definition no_swing : cswing := CSwing (new_spline false) (new_spline false) (new_spline false).

(** The LIPMs and the parts built for the supports from the time [t], in the final problem [pbf]; the first LIPM starts in
    the state [Ix], [Iy]. *)
Inductive segs (pbf : problem) : states -> states -> nat -> R -> list support -> list support -> list lipm -> list part -> R -> Prop :=
| segs_nil Ix Iy i t : segs pbf Ix Iy i t [] [] [] [] t
| segs_cons Ix Iy i t s s' l q rest ss ls qs te d Sx Sy Ux Uy polygon :
    lasts (w_base (g_params g)) s d -> 0 < d ->
    lipm_history (l_mexp L) pbf l Sx Sy Ux Uy ->
    (forall x d, (d < 3)%nat -> Sx x 0%nat d = Ix x i d /\ Sy x 0%nat d = Iy x i d) ->
    lp_start l = t -> (0 < lp_timesteps l)%nat -> lp_dt l = d / INR (lp_timesteps l) ->
    lp_timesteps l = remaining_timesteps (w_base (g_params g)) s ->
    q = Part t (t + d) (started t s) None no_swing ->
    support_support_polygon (l_hull L) (started t s) = (s', Ok polygon) ->
    (forall x, good (p_cons pbf) x -> g_soft g = false -> forall k, (1 <= k <= lp_timesteps l)%nat -> step_holds g l (started t s) polygon Sx Sy x k) ->
    segs pbf Sx Sy (lp_timesteps l) (t + d) rest ss ls qs te ->
    segs pbf Ix Iy i t (s :: rest) (s' :: ss) (l :: ls) (q :: qs) te.

Definition const_state (p v a : R) : states := fun _ _ d => nth d [p; v; a] 0.

Lemma com_loop_spec t0 p v a : forall supports t pb last pbf ss ls qs te,
  Forall (fun s => forall d, lasts (w_base (g_params g)) s d -> 0 < d) supports ->
  com_loop L g t0 p v a supports t pb last = Ok (pbf, ss, ls, qs, te) ->
  forall Sx Sy i,
  match last with
  | None => t = t0 /\ i = 0%nat /\ Sx = const_state (fst p) (fst v) (fst a) /\ Sy = const_state (snd p) (snd v) (snd a)
  | Some l => t0 < t /\ i = lp_timesteps l /\ exists Ux Uy, lipm_history (l_mexp L) pb l Sx Sy Ux Uy
  end ->
  extends pb pbf /\ incl (p_cons pb) (p_cons pbf) /\ segs pbf Sx Sy i t supports ss ls qs te.
Proof.
  induction supports as [|s rest IH]; intros t pb last pbf ss ls qs te F E Ix Iy i H0; cbn [com_loop] in E.
  - injection E as <- <- <- <- <-. split; [apply extends_refl|]. split; [apply incl_refl|constructor].
  - bind E d Ed. apply remaining_duration_ok in Ed. inversion F as [|? ? Fs Fr]; subst. pose proof (Fs d Ed) as Hd.
    set (n := remaining_timesteps _ s) in *. pose proof (remaining_timesteps_pos (w_base (g_params g)) s) as Hn. fold n in Hn.
    fold (started t s) in E. bind E r Er. destruct r as [pb1 l]. cbn [fst snd] in E.
    bind E c Ec. destruct c as [pb2 s']. cbn [fst snd] in E. bind E z Ez. destruct z as [[[[pb3 ss3] ls3] qs3] te3]. injection E as <- <- <- <- <-.
    assert (I0 : exists Sx Sy Ux Uy, lipm_history (l_mexp L) pb1 l Sx Sy Ux Uy /\ extends pb pb1 /\ p_cons pb1 = p_cons pb /\
      lp_dt l = d / INR n /\ lp_timesteps l = n /\ lp_start l = t /\ forall x d, (d < 3)%nat -> Sx x 0%nat d = Ix x i d /\ Sy x 0%nat d = Iy x i d).
    { destruct last as [lp|].
      - destruct H0 as (Ht & Hi & Ux & Uy & H0). destruct (Req_EM_T t t0) as [E|_]; [lra|].
        destruct (C60_construct (l_mexp L) pb (d / INR n) n t) as (_ & _ & _ & C). destruct (C _ _ _ _ _ _ _ He H0 Er) as (C1 & C2 & C3 & _ & _ & C6).
        pose proof (history_next _ _ _ _ _ _ _ _ _ _ _ _ H0 Er) as H1. do 4 eexists. split; [exact H1|]. split; [exact C6|].
        split. { unfold new_lipm_from in Er. cbn [add_variable] in Er. bind Er e1 E1. bind Er e2 E2. bind Er e3 E3. bind Er e4 E4. injection Er as <- _. reflexivity. }
        split; [exact C1|]. split; [exact C2|]. split; [exact C3|]. intros x k Hk. cbn [jerk_run]. rewrite Hi. split; reflexivity.
      - destruct H0 as (Ht & Hi & -> & ->). destruct (Req_EM_T t t0) as [_|E]; [|congruence].
        destruct (C60_construct (l_mexp L) pb (d / INR n) n t) as (_ & _ & C & _). destruct (C _ _ _ _ _ Er) as (C1 & C2 & C3 & _ & _ & C6).
        pose proof (history_initial _ _ _ _ _ _ _ _ _ _ Er) as H1. do 4 eexists. split; [exact H1|]. split; [exact C6|].
        split. { unfold new_lipm in Er. cbn [add_variable] in Er. bind Er e1 E1. bind Er e2 E2. injection Er as <- _. reflexivity. }
        split; [exact C1|]. split; [exact C2|]. split; [exact C3|]. intros x k Hk. cbn [jerk_run]. split; reflexivity. }
    destruct I0 as (Sx & Sy & Ux & Uy & H1 & X1 & Q1 & D1 & N1 & T1 & J1).
    destruct (constrain_lipm_spec L He g pb1 l (started t s) pb2 s' _ _ _ _ Ho H1 ltac:(lia) Ec) as (X2 & I2 & polygon & P2 & F2).
    assert (Pos : t0 < t + d). { destruct last as [lp|]; [destruct H0 as (Ht & _)|destruct H0 as (Ht & _)]; lra. }
    destruct (IH (t + d) pb2 (Some l) pb3 ss3 ls3 qs3 te3 Fr Ez Sx Sy (lp_timesteps l)) as (X3 & I3 & G3).
    { split; [exact Pos|]. split; [reflexivity|]. exists Ux, Uy. exact (history_later _ _ _ _ _ _ _ _ H1 X2). }
    split; [exact (extends_trans _ _ _ X1 (extends_trans _ _ _ X2 X3))|].
    split; [rewrite <- Q1; exact (incl_tran I2 I3)|].
    refine (segs_cons pb3 Ix Iy i t s s' l _ rest ss3 ls3 qs3 te3 d Sx Sy Ux Uy polygon Ed Hd _ J1 T1 ltac:(lia) _ ltac:(lia) eq_refl P2 _ G3).
    + exact (history_later _ _ _ _ _ _ _ _ H1 (extends_trans _ _ _ X2 X3)).
    + now rewrite N1.
    + intros x Gx Hs k Hk. apply F2; [exact (good_incl _ _ _ I3 Gx)|exact Hs|lia].
Qed.

(** ** After the solve *)

Lemma solve_good pb pb' : qr_correct (l_qr L) -> qp_correct (l_qp L) -> solve pb (l_qr L) (l_qp L) = (pb', Ok tt) -> good (p_cons pb) (vat (p_x pb')).
Proof.
  intros Hqr Hqp Hs. split; [exact (C20_feasible pb _ _ pb' Hqr Hqp Hs)|].
  destruct (solve_cases pb (l_qr L) (l_qp L)) as [(pb1 & e & E & _)|[(pb1 & E)|(a & pb1 & vs & Ha & _)]];
    [rewrite E in Hs; discriminate Hs|rewrite E in Hs; discriminate Hs|].
  pose proof (assemble_ok _ _ _ Ha) as F. cbn [reset set_cons p_cons] in F. apply Forall_forall. intros c Hc.
  assert (I : In (reset_active c) (map reset_active (p_cons pb))) by (now apply in_map).
  pose proof (proj1 (Forall_forall _ _) F _ I) as (_ & W & _). cbn in W. unfold wf. now rewrite W.
Qed.

Definition com_of (p : part) (t : R) (d : nat) : outcome (R * R) :=
  match pt_com p with Some c => lt_value (l_mexp L) c t (Z.of_nat d) | None => UB end.

Definition glued (parts : list part) (X Y : nat -> R -> R) (a b : R) : Prop :=
  (forall t i p d, right_part parts t i p -> (d < 3)%nat -> com_of p t d = Ok (X d t, Y d t)) /\ motion 3 X a b /\ motion 3 Y a b.

Definition paste (c : R) (f h : R -> R) (t : R) : R := if Rle_dec t c then f t else h t.

Lemma paste_left c f h t : t <= c -> paste c f h t = f t.
Proof. intros H. unfold paste. now destruct (Rle_dec t c). Qed.
Lemma paste_right c f h t : c < t -> paste c f h t = h t.
Proof. intros H. unfold paste. destruct (Rle_dec t c); [lra|reflexivity]. Qed.
Lemma paste_right_eq c f h t : f c = h c -> c <= t -> paste c f h t = h t.
Proof. intros E H. unfold paste. destruct (Rle_dec t c); [|reflexivity]. assert (t = c) as -> by lra. exact E. Qed.

Lemma paste_continuity c f h : continuity f -> continuity h -> f c = h c -> continuity (paste c f h).
Proof.
  intros Cf Ch E t eps Heps. destruct (Cf t eps Heps) as (a1 & P1 & Q1). destruct (Ch t eps Heps) as (a2 & P2 & Q2).
  assert (Q1' : forall x, R_dist x t < a1 -> R_dist (f x) (f t) < eps).
  { intros x Hx. destruct (Req_dec t x) as [->|Ne]; [rewrite (proj2 (R_dist_refl _ _) eq_refl); exact Heps|]. apply Q1. split; [split; [exact I|exact Ne]|exact Hx]. }
  assert (Q2' : forall x, R_dist x t < a2 -> R_dist (h x) (h t) < eps).
  { intros x Hx. destruct (Req_dec t x) as [->|Ne]; [rewrite (proj2 (R_dist_refl _ _) eq_refl); exact Heps|]. apply Q2. split; [split; [exact I|exact Ne]|exact Hx]. }
  destruct (Rtotal_order t c) as [Lt|[Eq|Gt]].
  - exists (Rmin a1 (c - t)). split; [apply Rmin_glb_lt; lra|]. intros x (_ & Hx). cbn in Hx. pose proof (Rmin_l a1 (c - t)). pose proof (Rmin_r a1 (c - t)).
    cbn. rewrite (paste_left c f h t) by lra. unfold R_dist in Hx. pose proof (Rabs_def2 (x - t) _ Hx) as [A _]. rewrite paste_left by lra. apply Q1'. unfold R_dist. lra.
  - subst t. exists (Rmin a1 a2). split; [apply Rmin_glb_lt; lra|]. intros x (_ & Hx). cbn in Hx. pose proof (Rmin_l a1 a2). pose proof (Rmin_r a1 a2).
    cbn. rewrite (paste_left c f h c) by lra. unfold paste. destruct (Rle_dec x c); [apply Q1'; lra|]. rewrite E. apply Q2'. lra.
  - exists (Rmin a2 (t - c)). split; [apply Rmin_glb_lt; lra|]. intros x (_ & Hx). cbn in Hx. pose proof (Rmin_l a2 (t - c)). pose proof (Rmin_r a2 (t - c)).
    cbn. rewrite (paste_right c f h t) by lra. unfold R_dist in Hx. pose proof (Rabs_def2 (x - t) _ Hx) as [_ A]. rewrite paste_right by lra. apply Q2'. unfold R_dist. lra.
Qed.

Lemma derivable_local f h t l e : 0 < e -> (forall x, Rabs (x - t) < e -> h x = f x) -> derivable_pt_lim f t l -> derivable_pt_lim h t l.
Proof.
  intros P E D eps Heps. destruct (D eps Heps) as (del & Hd). assert (M : 0 < Rmin del e) by (apply Rmin_glb_lt; [apply cond_pos|exact P]).
  exists (mkposreal _ M). cbn [RIneq.pos]. intros k Hk Ha. pose proof (Rmin_l del e). pose proof (Rmin_r del e).
  assert (E1 : h (t + k) = f (t + k)) by (apply E; replace (t + k - t) with k by ring; lra).
  assert (E2 : h t = f t) by (apply E; replace (t - t) with 0 by ring; rewrite Rabs_R0; lra).
  rewrite E1, E2. apply Hd; [exact Hk|lra].
Qed.

Lemma paste_derivative a c b f h f' h' : a < c < b -> continuity f -> continuity h -> continuity f' -> continuity h' -> f c = h c -> f' c = h' c ->
  derivative_on f f' a c -> derivative_on h h' c b -> derivative_on (paste c f h) (paste c f' h') a b.
Proof.
  intros Hc Cf Ch Cf' Ch' E E' D1 D2.
  assert (Dl : forall t, a < t < c -> derivable_pt_lim (paste c f h) t (paste c f' h' t)).
  { intros t Ht. rewrite paste_left by lra. apply (derivable_local f _ t _ (c - t)); [lra| |apply D1; lra].
    intros x Hx. apply Rabs_def2 in Hx. apply paste_left. lra. }
  assert (Dr : forall t, c < t < b -> derivable_pt_lim (paste c f h) t (paste c f' h' t)).
  { intros t Ht. rewrite paste_right by lra. apply (derivable_local h _ t _ (t - c)); [lra| |apply D2; lra].
    intros x Hx. apply Rabs_def2 in Hx. apply paste_right. lra. }
  intros t Ht. destruct (Rtotal_order t c) as [Lt|[Eq|Gt]]; [apply Dl; lra| |apply Dr; lra]. subst t.
  apply (derivative_across _ _ c (Rmin (c - a) (b - c))); [apply Rmin_glb_lt; lra|now apply paste_continuity|now apply paste_continuity| |].
  - intros t H. pose proof (Rmin_l (c - a) (b - c)). apply Dl. lra.
  - intros t H. pose proof (Rmin_r (c - a) (b - c)). apply Dr. lra.
Qed.

Lemma paste_motion n X Z a c b : a < c < b -> motion n X a c -> motion n Z c b -> (forall d, (d < n)%nat -> X d c = Z d c) ->
  motion n (fun d => paste c (X d) (Z d)) a b.
Proof.
  intros Hc (C1 & D1 & A1 & B1) (C2 & D2 & A2 & B2) E. split; [|split; [|split]].
  - intros d Hd. apply paste_continuity; auto.
  - intros d Hd. apply paste_derivative; auto; try apply C1; try apply C2; try apply E; try lia.
  - intros t d Ht Hd. rewrite !paste_left by lra. now apply A1.
  - intros t d Ht Hd. rewrite !paste_right by lra. now apply B2.
Qed.

Lemma glue_cons q rest X Y Z W b : rest <> [] -> pt_start q < pt_end q < b -> contiguous (pt_end q) rest b -> Forall (fun p => pt_start p <= pt_end p) rest ->
  (forall t d, (d < 3)%nat -> com_of q t d = Ok (X d t, Y d t)) -> motion 3 X (pt_start q) (pt_end q) -> motion 3 Y (pt_start q) (pt_end q) ->
  glued rest Z W (pt_end q) b -> (forall d, (d < 3)%nat -> X d (pt_end q) = Z d (pt_end q) /\ Y d (pt_end q) = W d (pt_end q)) ->
  glued (q :: rest) (fun d => paste (pt_end q) (X d) (Z d)) (fun d => paste (pt_end q) (Y d) (W d)) (pt_start q) b.
Proof.
  intros N T C F V MX MY (VR & MZ & MW) J. split; [|split; apply paste_motion; auto; intros d Hd; now apply J].
  intros t i p d (Hp & A & B) Hd. destruct i as [|i]; cbn [nth_error length] in *.
  - injection Hp as <-. destruct B as [B|B]; [destruct rest; [congruence|discriminate B]|]. rewrite !paste_left by exact B. now apply V.
  - destruct A as [A|A]; [discriminate A|]. assert (Rp : right_part rest t i p) by (split; [exact Hp|split; [now right|destruct B as [B|B]; [left; lia|now right]]]).
    rewrite (VR t i p d Rp Hd). pose proof (start_before _ _ _ C F i p Hp). destruct (J d Hd) as [J1 J2].
    rewrite !paste_right_eq; auto; lra.
Qed.

Lemma glue_one q X Y : (forall t d, (d < 3)%nat -> com_of q t d = Ok (X d t, Y d t)) -> motion 3 X (pt_start q) (pt_end q) -> motion 3 Y (pt_start q) (pt_end q) ->
  glued [q] X Y (pt_start q) (pt_end q).
Proof.
  intros V MX MY. split; [|split; assumption]. intros t i p d (Hp & _) Hd. destruct i as [|[|i]]; try discriminate Hp. injection Hp as <-. now apply V.
Qed.

(** One LIPM after a successful solve. *)
Lemma lipm_motion pbf pb' l Sx Sy Ux Uy : lipm_history (l_mexp L) pbf l Sx Sy Ux Uy -> solve pbf (l_qr L) (l_qp L) = (pb', Ok tt) ->
  0 < lp_dt l -> (0 < lp_timesteps l)%nat -> let x := vat (p_x pb') in
  exists l' tr X Y, lipm_get_trajectory pb' l = Ok (l', tr) /\
    (forall t d, (d < 3)%nat -> lt_value (l_mexp L) tr t (Z.of_nat d) = Ok (X d t, Y d t)) /\
    motion 3 X (lp_start l) (lipm_t_end l) /\ motion 3 Y (lp_start l) (lipm_t_end l) /\
    (forall k d, (k <= lp_timesteps l)%nat -> (d < 3)%nat -> X d (lp_start l + INR k * lp_dt l) = Sx x k d /\ Y d (lp_start l + INR k * lp_dt l) = Sy x k d).
Proof.
  intros H Hs Hdt Hn x. destruct (C60_trajectory _ _ _ _ _ _ _ _ _ _ He H Hdt Hn Hs) as (l' & tr & X & Y & E & V & G & A & B & _ & C & D & _).
  exists l', tr, X, Y. split; [exact E|]. split; [|split; [|split; [|exact G]]].
  - intros t d Hd. destruct (V t) as (V0 & V1 & V2 & _). destruct d as [|[|[|d]]]; [exact V0|exact V1|exact V2|lia].
  - split; [intros; now apply C|]. split; [intros; apply D; lia|]. split; intros t d Ht Hd.
    + now rewrite (proj1 (A t d Ht Hd)), (proj1 (A _ d (Rle_refl _) Hd)).
    + now rewrite (proj1 (B t d Ht Hd)), (proj1 (B _ d (Rle_refl _) Hd)).
  - split; [intros; now apply C|]. split; [intros; apply D; lia|]. split; intros t d Ht Hd.
    + now rewrite (proj2 (A t d Ht Hd)), (proj2 (A _ d (Rle_refl _) Hd)).
    + now rewrite (proj2 (B t d Ht Hd)), (proj2 (B _ d (Rle_refl _) Hd)).
Qed.
End WithLibraries.
