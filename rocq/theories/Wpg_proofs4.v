(** Lemmas about the CoM trajectory over the whole walk, continued. *)
From Coq Require Import Reals Lra Lia List ZArith Bool.
From Verif Require Import Base Linalg Geom3 Tools_model Expression_model Expression_spec Problem_model Problem_spec
  Polynom_model Polynom_spec Integrator_model Integrator_spec Lipm_model Lipm_spec Lipm_proofs Lipm_props
  Spline_model Swing_model Geometry_model Footsteps_model Wpg_model Wpg_spec Wpg_proofs Wpg_proofs2 Wpg_proofs3.
Import ListNotations.
Open Scope R_scope.

Section WithLibraries.
Variable L : libs.
Hypothesis He : exp_correct (l_mexp L).
Variable g : wpg.
Hypothesis Ho : g_omega_2 g <> 0.

(** The timesteps of a part, between which the jerk is constant. *)
Definition instant (q : part) (n k : nat) : R := pt_start q + INR k * ((pt_end q - pt_start q) / INR n).

Definition zmp_at (X Y : nat -> R -> R) (t : R) : point := (X 0%nat t - X 2%nat t / g_omega_2 g, Y 0%nat t - Y 2%nat t / g_omega_2 g).

(** What the constraints of one support say of the motion. *)
Definition support_facts (s : support) (q : part) (X Y : nat -> R -> R) : Prop :=
  let n := remaining_timesteps (w_base (g_params g)) s in
  exists s' polygon, support_support_polygon (l_hull L) (started (pt_start q) s) = (s', Ok polygon) /\
  (forall k, (1 <= k <= n)%nat -> inside polygon (w_zmp_margin (g_params g)) (zmp_at X Y (instant q n k))) /\
  (u_end s = true -> exists f, support_frame s = Ok f /\ X 0%nat (pt_end q) = vx (fr_t f) /\ Y 0%nat (pt_end q) = vy (fr_t f) /\
     X 1%nat (pt_end q) = 0 /\ Y 1%nat (pt_end q) = 0 /\ X 2%nat (pt_end q) = 0 /\ Y 2%nat (pt_end q) = 0).

Lemma started_frame t s : support_frame (started t s) = support_frame s.
Proof. unfold started. now destruct (Req_EM_T _ _). Qed.
Lemma started_end t s : u_end (started t s) = u_end s.
Proof. unfold started. now destruct (Req_EM_T _ _). Qed.

Lemma support_facts_ext s q X Y X' Y' : pt_start q < pt_end q -> (forall t d, pt_start q < t -> (d < 3)%nat -> X' d t = X d t /\ Y' d t = Y d t) ->
  support_facts s q X Y -> support_facts s q X' Y'.
Proof.
  intros P E (s' & polygon & H1 & H2 & H3). exists s', polygon. split; [exact H1|]. split.
  - intros k Hk. specialize (H2 k Hk). unfold zmp_at in *. set (n := remaining_timesteps _ s) in *.
    assert (T : pt_start q < instant q n k).
    { unfold instant. assert (0 < INR k * ((pt_end q - pt_start q) / INR n)); [|lra]. apply Rmult_lt_0_compat; [apply lt_0_INR; lia|].
      apply Rdiv_lt_0_compat; [lra|apply lt_0_INR; lia]. }
    destruct (E _ 0%nat T ltac:(lia)) as [E0 E0']. destruct (E _ 2%nat T ltac:(lia)) as [E2 E2']. rewrite E0, E0', E2, E2'. exact H2.
  - intros U. destruct (H3 U) as (f & F & R). exists f. split; [exact F|].
    destruct (E _ 0%nat P ltac:(lia)) as [E0 E0']. destruct (E _ 1%nat P ltac:(lia)) as [E1 E1']. destruct (E _ 2%nat P ltac:(lia)) as [E2 E2'].
    rewrite E0, E0', E1, E1', E2, E2'. exact R.
Qed.

Lemma segs_motion pbf pb' : solve pbf (l_qr L) (l_qp L) = (pb', Ok tt) ->
  forall Ix Iy i t supports ss ls qs te, segs L g pbf Ix Iy i t supports ss ls qs te ->
  forall parts, attribute L g pb' qs ls = Ok parts -> supports <> [] -> let x := vat (p_x pb') in
  contiguous t parts te /\ Forall (fun p => pt_start p < pt_end p) parts /\ length parts = length supports /\ t < te /\
  exists X Y, glued L parts X Y t te /\ (forall d, (d < 3)%nat -> X d t = Ix x i d /\ Y d t = Iy x i d) /\
    (good (p_cons pbf) x -> g_soft g = false -> forall m s q, nth_error supports m = Some s -> nth_error parts m = Some q -> support_facts s q X Y).
Proof.
  intros Hs. induction 1 as [|Ix Iy i t s s' l q rest ss ls qs te d Sx Sy Ux Uy polygon Hd Pd H J Hst Hn Hdt Hrem Hq Hpoly Hgood Hrest IH];
    intros parts E N x; [congruence|].
  cbn [attribute] in E. bind E c Ec. destruct c as [l0 tr]. cbn [snd] in E. bind E dcm Edcm. bind E r Er. injection E as <-.
  assert (Pn : 0 < INR (lp_timesteps l)) by (now apply lt_0_INR).
  assert (Pdt : 0 < lp_dt l) by (rewrite Hdt; apply Rdiv_lt_0_compat; lra).
  destruct (lipm_motion L He pbf pb' l Sx Sy Ux Uy H Hs Pdt Hn) as (l1 & tr1 & X & Y & Et & V & MX & MY & G). rewrite Ec in Et. injection Et as <- <-.
  assert (Te : lipm_t_end l = t + d) by (unfold lipm_t_end; rewrite Hst, Hdt; field; lra).
  rewrite Te, Hst in MX, MY. rewrite Hst in G. fold x in G.
  set (q' := set_com q tr dcm). assert (Qs : pt_start q' = t) by (unfold q'; now rewrite Hq). assert (Qe : pt_end q' = t + d) by (unfold q'; now rewrite Hq).
  assert (Vq : forall t d, (d < 3)%nat -> com_of L q' t d = Ok (X d t, Y d t)) by (intros; cbn; now apply V).
  assert (G0 : forall d, (d < 3)%nat -> X d t = Ix x i d /\ Y d t = Iy x i d).
  { intros k Hk. destruct (G 0%nat k ltac:(lia) Hk) as [A B]. cbn in A, B. rewrite Rmult_0_l, Rplus_0_r in A, B. rewrite A, B. now apply J. }
  assert (Gn : forall d0, (d0 < 3)%nat -> X d0 (t + d) = Sx x (lp_timesteps l) d0 /\ Y d0 (t + d) = Sy x (lp_timesteps l) d0).
  { intros k Hk. destruct (G (lp_timesteps l) k ltac:(lia) Hk) as [A B]. replace (t + INR (lp_timesteps l) * lp_dt l) with (t + d) in A, B; [auto|].
    rewrite Hdt. field. lra. }
  assert (SF : good (p_cons pbf) x -> g_soft g = false -> support_facts s q' X Y).
  { intros Gx Hsoft. exists s', polygon. rewrite Qs. split; [exact Hpoly|]. rewrite <- Hrem. split.
    - intros k Hk. destruct (Hgood x Gx Hsoft k Hk) as [A _]. unfold zmp_at. replace (instant q' (lp_timesteps l) k) with (t + INR k * lp_dt l).
      + destruct (G k 0%nat ltac:(lia) ltac:(lia)) as [-> ->]. destruct (G k 2%nat ltac:(lia) ltac:(lia)) as [-> ->]. exact A.
      + unfold instant. rewrite Qs, Qe, Hdt. f_equal. f_equal. field. lra.
    - intros U. destruct (Hgood x Gx Hsoft (lp_timesteps l) ltac:(lia)) as [_ B]. rewrite started_end, started_frame in B.
      destruct (B U eq_refl) as (f & F & R). exists f. split; [exact F|]. rewrite Qe.
      destruct (Gn 0%nat ltac:(lia)) as [-> ->]. destruct (Gn 1%nat ltac:(lia)) as [-> ->]. destruct (Gn 2%nat ltac:(lia)) as [-> ->]. exact R. }
  destruct rest as [|s2 rest].
  - inversion Hrest; subst ss ls qs te. cbn [attribute] in Er. injection Er as <-.
    split; [cbn; auto|]. split; [constructor; [lra|constructor]|]. split; [reflexivity|]. split; [lra|].
    pose proof (glue_one L q' X Y Vq) as GG. rewrite Qs, Qe in GG. exists X, Y. split; [exact (GG MX MY)|]. split; [exact G0|].
    intros Gx Hsoft m s0 q0 Hs0 Hq0. destruct m as [|[|m]]; cbn in Hs0, Hq0; try discriminate. injection Hs0 as <-. injection Hq0 as <-. now apply SF.
  - destruct (IH r eq_refl ltac:(discriminate)) as (C & F & Ln & Lt & Z & W & Gz & Z0 & SZ).
    assert (F' : Forall (fun p => pt_start p <= pt_end p) r) by (eapply Forall_impl; [|exact F]; cbn; intros; lra).
    assert (Nr : r <> []) by (destruct r; [discriminate Ln|discriminate]).
    split; [split; [exact Qs|rewrite Qe; exact C]|]. split; [constructor; [lra|exact F]|]. split; [cbn in *; lia|]. split; [lra|].
    assert (Jn : forall d0, (d0 < 3)%nat -> X d0 (pt_end q') = Z d0 (pt_end q') /\ Y d0 (pt_end q') = W d0 (pt_end q')).
    { intros k Hk. rewrite Qe. destruct (Gn k Hk) as [-> ->]. destruct (Z0 k Hk) as [-> ->]. split; reflexivity. }
    exists (fun d => paste (pt_end q') (X d) (Z d)), (fun d => paste (pt_end q') (Y d) (W d)). split; [|split].
    + pose proof (glue_cons L q' r X Y Z W te Nr) as GG. rewrite Qs, Qe in GG. rewrite Qe in Jn |- *. apply GG; auto. lra.
    + intros k Hk. rewrite !paste_left by lra. now apply G0.
    + intros Gx Hsoft m s0 q0 Hs0 Hq0. destruct m as [|m]; cbn [nth_error] in Hs0, Hq0.
      * injection Hs0 as <-. injection Hq0 as <-. specialize (SF Gx Hsoft).
        destruct SF as (s0 & polygon0 & H1 & H2 & H3). exists s0, polygon0. split; [exact H1|]. split.
        -- intros k Hk. specialize (H2 k Hk). unfold zmp_at in *. rewrite !paste_left; [exact H2| | | |];
             (unfold instant; rewrite <- Hrem in *; rewrite Qs, Qe; 
              assert (INR k * ((t + d - t) / INR (lp_timesteps l)) <= d); [|lra];
              replace (INR k * ((t + d - t) / INR (lp_timesteps l))) with (d * (INR k / INR (lp_timesteps l))) by (field; lra);
              rewrite <- (Rmult_1_r d) at 2; apply Rmult_le_compat_l; [lra|]; apply (Rmult_le_reg_r (INR (lp_timesteps l))); [lra|];
              unfold Rdiv; rewrite Rmult_assoc, Rinv_l, Rmult_1_r, Rmult_1_l by lra; apply le_INR; lia).
        -- rewrite !paste_left by lra. exact H3.
      * specialize (SZ Gx Hsoft m s0 q0 Hs0 Hq0). pose proof (proj1 (Forall_forall _ _) F q0 (nth_error_In _ _ Hq0)) as P. cbn in P.
        pose proof (start_before _ _ _ C F' m q0 Hq0) as B.
        refine (support_facts_ext s0 q0 Z W _ _ P _ SZ). intros T k HT Hk. rewrite !paste_right by lra. split; reflexivity.
Qed.

(** ** plan_com *)

Lemma attribute_keeps pb : forall qs ls parts, attribute L g pb qs ls = Ok parts ->
  Forall2 (fun q q' => exists tr dcm, q' = set_com q tr dcm) qs parts.
Proof.
  induction qs as [|q qs IH]; intros ls parts E; cbn [attribute] in E; [injection E as <-; constructor|].
  destruct ls as [|l ls]; [discriminate E|]. bind E c Ec. bind E dcm Ed. bind E r Er. injection E as <-. constructor; [eauto|]. now apply (IH ls).
Qed.

Lemma com_loop_parts t0 p v a : forall supports t pb last pbf ss ls qs te,
  com_loop L g t0 p v a supports t pb last = Ok (pbf, ss, ls, qs, te) ->
  contiguous t qs te /\ Forall2 (carries (w_base (g_params g))) supports qs.
Proof.
  induction supports as [|s rest IH]; intros t pb last pbf ss ls qs te E; cbn [com_loop] in E.
  - injection E as <- <- <- <- <-. split; [reflexivity|constructor].
  - bind E d Ed. apply remaining_duration_ok in Ed. fold (started t s) in E. bind E r Er. bind E c Ec. bind E z Ez. destruct z as [[[[pb3 ss3] ls3] qs3] te3]. injection E as <- <- <- <- <-.
    destruct (IH _ _ _ _ _ _ _ _ Ez) as [C F]. split; [cbn; auto|]. constructor; [|exact F].
    unfold carries, started. cbn [pt_start pt_end pt_support]. replace (t + d - t) with d by ring.
    destruct (Req_EM_T (u_t_start s) (-1)); cbn [Footsteps_model.set_t_start u_footsteps u_elapsed_ratio u_time_ratio u_start u_end u_t_start]; auto 10.
Qed.
End WithLibraries.
