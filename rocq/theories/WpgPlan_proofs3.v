(** Proofs about the problem of the CoM trajectory over the whole walk. *)
From Coq Require Import Reals Lra Lia List ZArith Bool Psatz.
From Verif Require Import Base Linalg Geom3 Tools_model Expression_model Expression_spec Expression_proofs Problem_model Problem_spec Problem_proofs
  Problem_proofs2 Problem_proofs3 Problem_props Polynom_model Polynom_spec Polynom_props Integrator_model Integrator_spec Integrator_proofs
  Lipm_model Lipm_spec Lipm_proofs Lipm_props Spline_model Swing_model Geometry_model Footsteps_model Wpg_model Wpg_spec Wpg_proofs Wpg_proofs2
  Wpg_proofs3 Wpg_proofs4 Wpg_proofs5 Wpg_props KinCons_spec Kin_proofs KinCons_proofs WpgPlan_spec WpgPlan_proofs WpgPlan_proofs2.
Import ListNotations.
Open Scope R_scope.

Definition ends_ok (p : params) (supports : list support) : Prop :=
  forall l s r, supports = l ++ s :: r -> u_end s = true -> r = [] /\ forall n, steps p s n -> (3 <= n)%nat.

Lemma ends_tail p s r : ends_ok p (s :: r) -> ends_ok p r.
Proof. intros H l s' r' E U. apply (H (s :: l) s' r'); [now rewrite E|exact U]. Qed.

Lemma time_lasts p s : time_ok p s -> exists d, lasts p s d /\ 0 < d.
Proof.
  intros ((d & D & Hd) & Ht & Hel). exists ((1 - u_elapsed_ratio s) * d * u_time_ratio s). split; [exists d; auto|].
  apply Rmult_lt_0_compat; [apply Rmult_lt_0_compat; lra|exact Ht].
Qed.

Lemma polygon_full hull t s polygon : snd (support_support_polygon hull s) = Ok polygon -> exists s', support_support_polygon hull (started t s) = (s', Ok polygon).
Proof. intros E. rewrite <- (started_polygon hull t) in E. destruct (support_support_polygon hull (started t s)) as [s' o]. cbn [snd] in E. subst. eauto. Qed.

(** The assignment of the unknowns of two LIPM axes. *)
Definition assign (N n : nat) (x0 ux uy : nat -> R) (j : nat) : R :=
  if Nat.ltb j N then x0 j else if Nat.ltb j (N + n) then ux (j - N)%nat else uy (j - N - n)%nat.
Lemma assign_old N n x0 ux uy j : (j < N)%nat -> assign N n x0 ux uy j = x0 j.
Proof. intros H. unfold assign. now rewrite (proj2 (Nat.ltb_lt _ _) H). Qed.
Lemma assign_x N n x0 ux uy k : (k < n)%nat -> assign N n x0 ux uy (N + k) = ux k.
Proof.
  intros H. unfold assign. rewrite (proj2 (Nat.ltb_ge _ _)) by lia. rewrite (proj2 (Nat.ltb_lt _ _)) by lia. f_equal. lia.
Qed.
Lemma assign_y N n x0 ux uy k : assign N n x0 ux uy (N + n + k) = uy k.
Proof. unfold assign. rewrite (proj2 (Nat.ltb_ge _ _)) by lia. rewrite (proj2 (Nat.ltb_ge _ _)) by lia. f_equal. lia. Qed.

Section WithLibraries.
Variable L : libs.
Hypothesis He : exp_correct (l_mexp L).
Variable g : wpg.
Hypothesis Ho : g_omega_2 g <> 0.
Hypothesis Hw1 : 0 < g_zmp_weight g.
Hypothesis Hw2 : 0 < g_stop_weight g.
Hypothesis Hw3 : 0 < w_zmp_weight (g_params g).

Let P := w_base (g_params g).

(** The stop can be asked for freely: the unknowns reach any final state. *)
Definition free_stop (cs : list pconstraint) (N : nat) : Prop :=
  cs = [] \/ exists Sx Sy k, stop_triple N Sx Sy k cs /\ forall a b : nat -> R, exists x, forall d, (d < 3)%nat -> Sx x k d = a d /\ Sy x k d = b d.

Lemma stop_triple_mono N M Sx Sy k cs : (N <= M)%nat -> stop_triple N Sx Sy k cs -> stop_triple M Sx Sy k cs.
Proof.
  intros H (cp & cv & ca & m0 & m1 & m2 & a & b & E & A & B & C & R). exists cp, cv, ca, m0, m1, m2, a, b. split; [exact E|]. repeat (split; [lia|]). exact R.
Qed.

Lemma com_loop_total t0 p v a : forall supports t pb last Ix Iy i,
  (forall s, In s supports -> feet_ok s /\ polygon_ok (l_hull L) s /\ time_ok P s) -> ends_ok P supports ->
  match last with
  | None => t = t0 /\ i = 0%nat /\ Ix = const_state (fst p) (fst v) (fst a) /\ Iy = const_state (snd p) (snd v) (snd a)
  | Some l => t0 < t /\ i = lp_timesteps l /\ exists Ux Uy, lipm_history (l_mexp L) pb l Ix Iy Ux Uy
  end ->
  exists pbf new ss ls qs te, com_loop L g t0 p v a supports t pb last = Ok (pbf, ss, ls, qs, te) /\
    p_cons pbf = p_cons pb ++ new /\ (p_n pb <= p_n pbf)%nat /\ p_reg pbf = p_reg pb /\ p_rewrite pbf = p_rewrite pb /\
    (forall sizes, reachable pb sizes -> exists sizes', reachable pbf sizes') /\
    sound (p_n pbf) new /\ (g_soft g = true -> all_soft new) /\
    (g_soft g = false ->
       (forall x, hard_holds new x -> walkable (l_hull L) (g_params g) (g_omega_2 g) supports (Ix x i) (Iy x i)) /\
       (forall x0, walkable (l_hull L) (g_params g) (g_omega_2 g) supports (Ix x0 i) (Iy x0 i) ->
          exists x, (forall j, (j < p_n pb)%nat -> x j = x0 j) /\ hard_holds new x)) /\
    free_stop (filter hard_eq new) (p_n pbf).
Proof.
  induction supports as [|s rest IH]; intros t pb last Ix Iy i F En H0; cbn [com_loop].
  - exists pb, [], [], [], [], t. rewrite app_nil_r. split; [reflexivity|]. do 4 (split; [reflexivity || lia|]). split; [eauto|]. split; [constructor|]. split; [constructor|].
    split; [|now left]. intros _. split; [intros; exact I|]. intros x0 _. exists x0. split; [auto|apply hard_holds_nil].
  - destruct (F s (or_introl eq_refl)) as (Hf & (polygon & Hp & Hp1 & Hp2) & Ht). destruct (time_lasts P s Ht) as (d & Hd & Hd0).
    pose proof (proj2 (remaining_duration_ok P s d) Hd) as Ed. fold P. rewrite Ed. cbn [obind].
    set (n := remaining_timesteps P s). pose proof (remaining_timesteps_pos P s) as Hn. fold n in Hn. fold (started t s).
    destruct (polygon_full _ t _ _ Hp) as (s' & Hs').
    assert (Hdt : 0 < d / INR n) by (apply Rdiv_lt_0_compat; [exact Hd0|now apply lt_0_INR]).
    assert (I0 : exists l, (if Req_EM_T t t0 then new_lipm (l_mexp L) pb (d / INR n) n t p v a
            else match last with Some previous => new_lipm_from (l_mexp L) pb (d / INR n) n t previous | None => UB end)
        = Ok (fst (add_variable (fst (add_variable pb n)) n), l) /\ lp_dt l = d / INR n /\ lp_timesteps l = n /\ lp_start l = t /\
        exists Ux Uy, lipm_history (l_mexp L) (fst (add_variable (fst (add_variable pb n)) n)) l
          (fun x => jerk_run (d / INR n) (fun k => x (p_n pb + k)%nat) (Ix x i)) (fun x => jerk_run (d / INR n) (fun k => x (p_n pb + n + k)%nat) (Iy x i)) Ux Uy).
    { destruct last as [lp|].
      - destruct H0 as (Ht0 & -> & Ux & Uy & H0). destruct (Req_EM_T t t0) as [E|_]; [lra|].
        destruct (new_lipm_from_ok (l_mexp L) pb (d / INR n) n t lp Ix Iy Ux Uy He (history_inv _ _ _ _ _ _ _ He H0)) as (pb' & l & E & Ep & D1 & N1 & T1 & _).
        exists l. rewrite E, Ep. split; [reflexivity|]. do 3 (split; [assumption|]). subst pb'. do 2 eexists. exact (history_next _ _ _ _ _ _ _ _ _ _ _ _ H0 E).
      - destruct H0 as (-> & -> & -> & ->). destruct (Req_EM_T t0 t0) as [_|E]; [|congruence].
        destruct (new_lipm_ok (l_mexp L) pb (d / INR n) n t0 p v a) as (pb' & l & E & Ep & D1 & N1 & T1 & _).
        exists l. rewrite E, Ep. split; [reflexivity|]. do 3 (split; [assumption|]). subst pb'. do 2 eexists. exact (history_initial _ _ _ _ _ _ _ _ _ _ E). }
    destruct I0 as (l & El & D1 & N1 & T1 & Ux & Uy & H1). rewrite El. cbn [obind fst snd].
    set (pb1 := fst (add_variable (fst (add_variable pb n)) n)) in *.
    set (Sx := fun x : nat -> R => jerk_run (d / INR n) (fun k => x (p_n pb + k)%nat) (Ix x i)) in *.
    set (Sy := fun x : nat -> R => jerk_run (d / INR n) (fun k => x (p_n pb + n + k)%nat) (Iy x i)) in *.
    assert (Pn1 : p_n pb1 = (p_n pb + n + n)%nat) by reflexivity.
    destruct (constrain_lipm_total L He g Ho Hw1 Hw2 Hw3 l pb1 (started t s) s' polygon Sx Sy Ux Uy (feet_started t s Hf) Hs' Hp1 Hp2 H1 ltac:(lia)) as (n1 & E1 & S1 & A1 & B1 & Q1).
    rewrite E1. cbn [obind fst snd]. set (pb2 := set_cons pb1 (p_cons pb1 ++ n1)) in *.
    pose proof (history_later _ _ _ _ _ _ _ pb2 H1 (extends_set_cons _ _)) as H2.
    assert (Pos : t0 < t + d). { destruct last as [lp|]; [destruct H0 as (Ht0 & _)|destruct H0 as (Ht0 & _)]; lra. }
    destruct (IH (t + d) pb2 (Some l) Sx Sy (lp_timesteps l)) as (pbf & n2 & ss & ls & qs & te & E2 & C2 & L2 & R2 & W2 & Re2 & S2 & A2 & B2 & Q2).
    { intros s0 Hs0. apply F. now right. }
    { exact (ends_tail _ _ _ En). }
    { split; [exact Pos|]. split; [reflexivity|]. eauto. }
    rewrite E2. cbn [obind]. exists pbf, (n1 ++ n2). do 4 eexists. split; [reflexivity|].
    assert (Lc : (p_n pb <= p_n pb1 <= p_n pbf)%nat) by (split; [lia|exact L2]).
    (** where the unknowns of the previous supports are kept *)
    assert (Loc : forall x y, (forall j, (j < p_n pb)%nat -> x j = y j) -> forall e, (e < 3)%nat -> Ix x i e = Ix y i e /\ Iy x i e = Iy y i e).
    { intros x y Hxy e Hlt. destruct last as [lp|].
      - destruct H0 as (_ & -> & Vx & Vy & H0). exact (history_local _ _ _ _ _ _ _ x y He H0 Hxy _ e (le_n _) Hlt).
      - destruct H0 as (_ & _ & -> & ->). split; reflexivity. }
    assert (Put : forall x0 ux uy e k, (e < 3)%nat -> (k <= n)%nat -> let x := assign (p_n pb) n x0 ux uy in
      Sx x k e = jerk_run (d / INR n) ux (Ix x0 i) k e /\ Sy x k e = jerk_run (d / INR n) uy (Iy x0 i) k e).
    { intros x0 ux uy e k Hlt Hk x. assert (Ag : forall j, (j < p_n pb)%nat -> x j = x0 j) by (intros; now apply assign_old). unfold Sx, Sy. split; apply jerk_run_ext; auto.
      - intros q Hq. apply assign_x. lia.
      - intros e' He'. now apply (Loc x x0 Ag).
      - intros q Hq. apply assign_y.
      - intros e' He'. now apply (Loc x x0 Ag). }
    split; [rewrite C2; unfold pb2; cbn [set_cons p_cons]; now rewrite app_assoc|].
    split; [lia|]. split; [exact R2|]. split; [exact W2|].
    split. { intros sizes Hre. apply (Re2 ((sizes ++ [n]) ++ [n])). apply reachable_cons. now do 2 apply reach_variable. }
    split; [apply sound_app; [exact (sound_mono _ _ _ (proj2 Lc) S1)|exact S2]|].
    split; [intros Hq; apply Forall_app; split; [now apply A1|now apply A2]|].
    pose proof (proj2 (steps_remaining P s n) eq_refl) as Hsteps.
    split.
    + intros Hq. specialize (B1 Hq). destruct (B2 Hq) as [B3 B4]. split.
      * intros x Hx. apply hard_holds_app in Hx. destruct Hx as [Hx1 Hx2]. rewrite (B1 x) in Hx1. rewrite N1 in *. cbn [walkable].
        exists n, d, polygon, (fun k => x (p_n pb + k)%nat), (fun k => x (p_n pb + n + k)%nat). split; [exact Hsteps|]. split; [exact Hd|]. split; [exact Hp|].
        cbv zeta. split; [|split].
        -- intros k Hk. destruct (Hx1 k Hk) as [Z _]. exact Z.
        -- intros U. destruct (Hx1 n ltac:(lia)) as [_ Z]. rewrite started_end, started_frame in Z. exact (Z U (eq_sym N1)).
        -- exact (B3 x Hx2).
      * intros x0 W. cbn [walkable] in W. destruct W as (n' & d' & polygon' & ux & uy & Hn' & Hd' & Hp' & Hz & Hend & Hrest).
        apply steps_remaining in Hn'. fold P in Hn'. fold n in Hn'. subst n'. assert (d' = d) as -> by (exact (lasts_det _ _ _ _ Hd' Hd)). assert (polygon' = polygon) as -> by congruence.
        set (x1 := assign (p_n pb) n x0 ux uy). destruct (B4 x1) as (x & Hx & Hh).
        { rewrite N1. eapply walkable_ext; [|exact Hrest]. intros e Hlt. destruct (Put x0 ux uy e n Hlt (le_n _)) as [Px Py]. fold x1 in Px, Py. now rewrite Px, Py. }
        assert (Ag : forall j, (j < p_n pb1)%nat -> x j = x1 j) by (exact Hx). exists x. split; [intros j Hj; rewrite Ag by lia; now apply assign_old|].
        apply hard_holds_app. split; [|exact Hh]. rewrite (B1 x). intros k Hk. rewrite N1 in Hk.
        assert (V : forall e, (e < 3)%nat -> Sx x k e = jerk_run (d / INR n) ux (Ix x0 i) k e /\ Sy x k e = jerk_run (d / INR n) uy (Iy x0 i) k e).
        { intros e Hlt. destruct (history_local _ _ _ _ _ _ _ x x1 He H1 Ag k e ltac:(lia) Hlt) as [-> ->]. apply Put; lia. }
        unfold step_holds. rewrite started_end, started_frame, N1.
        destruct (V 0%nat ltac:(lia)) as [-> ->]. destruct (V 1%nat ltac:(lia)) as [-> ->]. destruct (V 2%nat ltac:(lia)) as [-> ->].
        split; [now apply Hz|]. intros U ->. now apply Hend.
    + rewrite filter_app. rewrite started_end in Q1. destruct (u_end s && negb (g_soft g)) eqn:Eu.
      * apply andb_true_iff in Eu. destruct Eu as [Eu _]. destruct (En [] s rest eq_refl Eu) as [-> Hn3]. specialize (Hn3 n Hsteps).
        cbn [com_loop] in E2. injection E2 as <- <- <- <- <-. assert (n2 = []) as ->.
        { unfold pb2 in C2. cbn [set_cons p_cons] in C2. rewrite <- (app_nil_r (p_cons pb1 ++ n1)) in C2 at 1. now apply app_inv_head in C2. }
        cbn [filter]. rewrite app_nil_r. right. exists Sx, Sy, n. rewrite N1 in Q1. split; [exact (stop_triple_mono _ _ _ _ _ _ (proj2 Lc) Q1)|].
        intros ta tb. set (x0 := fun _ : nat => 0). destruct (controllable (d / INR n) n (Ix x0 i) (ta 0%nat) (ta 1%nat) (ta 2%nat) Hdt Hn3) as (ux & U0 & U1 & U2).
        destruct (controllable (d / INR n) n (Iy x0 i) (tb 0%nat) (tb 1%nat) (tb 2%nat) Hdt Hn3) as (uy & Y0 & Y1 & Y2).
        exists (assign (p_n pb) n x0 ux uy). intros e Hlt. destruct (Put x0 ux uy e n Hlt (le_n _)) as [-> ->].
        destruct e as [|[|[|e]]]; [rewrite U0, Y0|rewrite U1, Y1|rewrite U2, Y2|lia]; auto.
      * rewrite Q1. exact Q2.
Qed.
End WithLibraries.
