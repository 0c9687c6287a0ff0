(** C156: footsteps that alternate give supports to walk on. *)
From Coq Require Import Reals Lra Lia List ZArith Bool.
From Verif Require Import Base Geom3 Tools_model Polynom_spec Geometry_spec Footsteps_model Footsteps_spec Footsteps_proofs2 Footsteps_props2 Wpg_model Wpg_spec Wpg_proofs2 Wpg_props WpgPlan_spec WpgPlan_proofs3 WpgPlan_props WpgFeet_spec WpgFeet_props WpgReplan_spec WpgReplan_props.
Import ListNotations.
Open Scope R_scope.

Lemma alternating_next : forall l sd i f h, alternating sd l -> nth_error l i = Some f -> nth_error l (S i) = Some h -> f_side h = other_side (f_side f).
Proof.
  induction l as [|f0 l IH]; intros sd i f h Al Hf Hh; [destruct i; discriminate Hf|]. destruct Al as [A B]. destruct i as [|i]; [|exact (IH _ _ _ _ B Hf Hh)].
  cbn in Hf, Hh. injection Hf as <-. destruct l as [|f1 l]; [discriminate Hh|]. cbn in Hh. injection Hh as <-. destruct B as [B _]. now rewrite B, A.
Qed.

Section Phases.
Variables (fs : list footstep) (sd0 : side).
Hypothesis Alt : alternating sd0 fs.

Lemma phase_feet s ph : has_feet fs s ph ->
  match ph with
  | Single i => exists f, u_footsteps s = [f] /\ nth_error fs i = Some f
  | Double i => exists f h, u_footsteps s = [f; h] /\ nth_error fs i = Some f /\ nth_error fs (S i) = Some h /\ f_side h = other_side (f_side f)
  end.
Proof.
  intros H. unfold has_feet in H. destruct ph as [i|i]; cbn [feet] in H; destruct (u_footsteps s) as [|f [|h [|x r]]]; try discriminate H.
  - cbn in H. injection H as H. exists f. auto.
  - cbn in H. injection H as H1 H2. exists f, h. do 3 (split; [auto|]). symmetry in H1, H2. exact (alternating_next _ _ _ _ _ Alt H1 H2).
Qed.

Lemma other_neq sd : other_side sd <> sd.
Proof. now destruct sd. Qed.

Lemma phase_link s s' a b : has_feet fs s a -> has_feet fs s' b -> follows a b -> lands s s' /\ lands s' s /\ kept s s'.
Proof.
  intros Ha Hb Fo. apply phase_feet in Ha. apply phase_feet in Hb. destruct a as [i|i], b as [m|m]; cbn [follows] in Fo; try contradiction; subst m.
  - destruct Ha as (f & Ef & Hf), Hb as (h & Eh & Hh). pose proof (alternating_next _ _ _ _ _ Alt Hf Hh) as Sd. unfold lands, kept, stands_on, stands_at. rewrite Ef, Eh.
    split; [|split].
    + intros x E. injection E as <-. exists h. split; [now left|exact Sd].
    + intros x E. injection E as <-. exists f. split; [now left|]. rewrite Sd. now destruct (f_side f).
    + intros sd F F' (x & [<-|[]] & X1 & X2) (y & [<-|[]] & Y1 & Y2). exfalso. rewrite <- Y1, Sd in X1. symmetry in X1. exact (other_neq _ X1).
  - destruct Ha as (f & Ef & Hf), Hb as (f' & h & Eh & Hf' & Hh & Sd). rewrite Hf in Hf'. injection Hf' as <-. unfold lands, kept, stands_on, stands_at. rewrite Ef, Eh. split; [|split].
    + intros x E. injection E as <-. exists h. split; [right; now left|exact Sd].
    + intros x E. discriminate E.
    + intros sd F F' (x & [<-|[]] & X1 & X2) (y & [<-|[<-|[]]] & Y1 & Y2); [congruence|]. exfalso. rewrite <- X1, Sd in Y1. exact (other_neq _ Y1).
  - destruct Ha as (f & h & Ef & Hf & Hh & Sd), Hb as (h' & Eh & Hh'). rewrite Hh in Hh'. injection Hh' as <-. unfold lands, kept, stands_on, stands_at. rewrite Ef, Eh. split; [|split].
    + intros x E. discriminate E.
    + intros x E. injection E as <-. exists f. split; [now left|]. rewrite Sd. now destruct (f_side f).
    + intros sd F F' (x & [<-|[<-|[]]] & X1 & X2) (y & [<-|[]] & Y1 & Y2); [|congruence]. exfalso. rewrite <- X1, Sd in Y1. exact (other_neq _ Y1).
Qed.

Lemma phases_walk : forall phs l, Forall2 (has_feet fs) l phs -> linked phs -> (exists pre i, phs = pre ++ [Double i]) ->
  feet_kept l /\ match l with [] => False | s :: r => steps_follow s r end.
Proof.
  induction phs as [|a phs IH]; intros l F Lk (pre & i & E); [destruct pre; discriminate E|]. inversion F as [|s ? l' ? Hs Fl]; subst. destruct phs as [|b phs].
  - inversion Fl; subst. split; [exact I|]. destruct pre as [|x pre]; [|destruct pre; discriminate E]. injection E as ->. apply phase_feet in Hs as (f & h & Ef & _). cbn. now rewrite Ef.
  - inversion Fl as [|s' ? l'' ? Hs' Fl']; subst. destruct Lk as [L1 L2].
    destruct (IH (s' :: l'') Fl L2) as [A B].
    { destruct pre as [|x pre]; [discriminate E|]. injection E as _ E. exists pre, i. exact E. }
    destruct (phase_link s s' a b Hs Hs' L1) as (K1 & K2 & K3). split; [split; [exact K3|exact A]|]. cbn [steps_follow]. auto.
Qed.
End Phases.

Lemma make_supports_new fs t start middle end_ l : (2 < length fs)%nat -> make_supports fs t start middle end_ = Ok l ->
  forall s, In s l -> u_elapsed_ratio s = 0 /\ u_time_ratio s = 1 /\ u_computed s = false.
Proof.
  intros N E. unfold make_supports in E. rewrite (proj2 (Nat.ltb_lt _ _) N) in E. set (d := create_footstep _ _ _) in E. set (h := if start then _ else _) in E.
  assert (Hh : forall s, In s h -> u_elapsed_ratio s = 0 /\ u_time_ratio s = 1 /\ u_computed s = false).
  { unfold h. destruct start; [intros s [<-|[]]; auto|]. intros s [<-|H]; [auto|]. destruct middle; [destruct H as [<-|[]]; auto|destruct H]. }
  assert (Hl : forall k step s, In s (steps_loop k step fs middle) -> u_elapsed_ratio s = 0 /\ u_time_ratio s = 1 /\ u_computed s = false).
  { induction k as [|k IH]; intros step s H; cbn [steps_loop] in H; [destruct H|]. apply in_app_iff in H as [H|H]; [|eapply IH; eauto].
    destruct (negb _ && middle); cbn [In] in H; repeat (destruct H as [<-|H]; [cbn; now auto|]); destruct H. }
  intros s Hs. destruct end_.
  - unfold guard in E. destruct (2 <=? length fs)%nat; [|discriminate E]. injection E as <-. apply in_app_iff in Hs as [Hs|[<-|[]]]; [|auto]. apply in_app_iff in Hs as [Hs|Hs]; eauto.
  - injection E as <-. apply in_app_iff in Hs as [Hs|Hs]; eauto.
Qed.

(** ** C156 *)

(** Three footsteps or more, with alternating sides, give supports to walk on (C151, C152) or to go on walking (C153, C154): each support has one
    foot or one foot on each side, a flying foot takes off from the previous support and lands in the next one, the feet on the ground do not move, nothing
    is over yet, and only the last support is an end. *)
Theorem C156_supports_of_footsteps p fs t start middle l sd0 : (2 < length fs)%nat -> alternating sd0 fs -> (forall f, In f fs -> only_turned (f_frame f)) ->
  make_supports fs t start middle true = Ok l -> (forall s, In s l -> exists d, default_duration p s d /\ 0 < d) ->
  feet_walk p l /\ match l with [] => False | s :: r => (start = true -> length (u_footsteps s) = 2%nat) /\ steps_follow s r end /\
  (forall l1 s r, l = l1 ++ s :: r -> u_end s = true -> r = []) /\ (forall s, In s l -> u_computed s = false).
Proof.
  intros N Alt Up E Dd. destruct (C51_make_supports fs t start middle true N) as (l' & ph & E' & F & Lk & Sg & Db & Fl). rewrite E in E'. injection E' as <-.
  pose proof (make_supports_new _ _ _ _ _ _ N E) as Nw.
  assert (Ft : forall s, In s l -> feet_ok s /\ forall f, In f (u_footsteps s) -> In f fs).
  { intros s Hs. apply In_nth_error in Hs as (i & Hi). destruct (Wpg_proofs5.Forall2_nth_l _ _ _ _ _ F Hi) as (a & Ha & Hf). apply (phase_feet fs sd0 Alt) in Hf. destruct a as [m|m].
    - destruct Hf as (f & Ef & Hf). split; [left; eauto|]. rewrite Ef. intros x [<-|[]]. exact (nth_error_In _ _ Hf).
    - destruct Hf as (f & h & Ef & Hf & Hh & Sd). split; [right; exists f, h; auto|]. rewrite Ef. intros x [<-|[<-|[]]]; eapply nth_error_In; eassumption. }
  assert (La : exists pre i, ph = pre ++ [Double i]).
  { destruct (exists_last (l := ph)) as (pre & x & ->).
    { intros ->. destruct start, middle; discriminate Db. }
    exists pre. destruct x as [i|i]; [|exists i; reflexivity]. exfalso.
    apply Forall2_app_inv_r in F as (l1 & l2 & F1 & F2 & ->). inversion F2 as [|s ? r ? Hs Fr]; subst. inversion Fr; subst.
    pose proof (proj2 (proj1 (proj2 (Fl (length l1) s ltac:(rewrite nth_error_app2, Nat.sub_diag by lia; reflexivity))))) as U. rewrite app_length in U. cbn [length] in U. specialize (U ltac:(split; [reflexivity|lia])).
    unfold make_supports in E. rewrite (proj2 (Nat.ltb_lt _ _) N) in E. unfold guard in E. destruct (2 <=? length fs)%nat; [|discriminate E]. injection E as E. apply app_inj_tail in E as [_ E]. subst s.
    apply (phase_feet fs sd0 Alt) in Hs as (f & Ef & _). discriminate Ef. }
  destruct (phases_walk fs sd0 Alt ph l F Lk La) as [K W]. split.
  - split; [|split; [exact K|]].
    + intros s Hs. destruct (Ft s Hs) as [A B]. destruct (Nw s Hs) as (N1 & N2 & _). split; [exact A|]. split; [|intros f Hf; exact (Up f (B f Hf))].
      split; [exact (Dd s Hs)|]. rewrite N1, N2. lra.
    + intros i s Hi. exact (proj1 (Nw s (nth_error_In _ _ Hi))).
  - split; [|split].
    + destruct l as [|s r]; [exact W|]. split; [|exact W]. intros ->. inversion F as [|? a ? phs Hs Fs]; subst. destruct La as (pre & i & La). unfold make_supports in E. rewrite (proj2 (Nat.ltb_lt _ _) N) in E.
      unfold guard in E. destruct (2 <=? length fs)%nat; [|discriminate E]. injection E as E _. rewrite <- E. reflexivity.
    + intros l1 s r -> U. destruct (Fl (length l1) s ltac:(rewrite nth_error_app2, Nat.sub_diag by lia; reflexivity)) as (_ & [V _] & _). destruct (V U) as [_ Ln]. rewrite app_length in Ln. cbn [length] in Ln.
      destruct r; [reflexivity|cbn [length] in Ln; lia].
    + intros s Hs. exact (proj2 (proj2 (Nw s Hs))).
Qed.
Print Assumptions C156_supports_of_footsteps.

(** ** C157 *)

Lemma find_stands s sd F : footstep_frame s sd = Ok F -> stands_at s sd F.
Proof.
  unfold footstep_frame. destruct (find _ _) as [f|] eqn:E; intros H; [|discriminate H]. injection H as <-. apply find_some in E as [E1 E2]. exists f. split; [exact E1|]. split; [|reflexivity].
  destruct (f_side f), sd; try reflexivity; discriminate E2.
Qed.

Lemma replan_supports_inv p planner j t t_last l : replan_supports p planner j t t_last = Ok l ->
  exists cur nxt f F fs s1 r d, get_support j t = Ok cur /\ get_next_support j t 1 = Ok nxt /\ u_end cur = false /\ u_start cur = false /\ u_end nxt = false /\ u_footsteps cur = [f] /\
    stands_at nxt (other_side (f_side f)) F /\
    planner (f_side f) (match f_side f with Left => f_frame f | Right => F end) (match f_side f with Left => F | Right => f_frame f end) = Ok fs /\
    make_supports fs (u_t_start cur) false (has_double_support p) true = Ok (s1 :: r) /\ support_default_duration p cur = Ok d /\
    l = Support (u_footsteps s1) (u_t_start s1) (u_elapsed_ratio cur + (t - Rmax t_last (u_t_start cur)) / (d * u_time_ratio cur)) (u_time_ratio cur) (u_target_world_dcm s1) (u_start s1) (u_end s1)
          (u_polygon s1) (u_computed s1) :: r.
Proof.
  intros E. unfold replan_supports, can_replan_supports in E. bind E can Ec. bind Ec cur Ecur. destruct (u_end cur || u_start cur) eqn:Eu; [injection Ec as <-; discriminate E|]. bind Ec nxt Enxt. injection Ec as <-.
  destruct (negb (negb (u_end nxt) && negb (is_both cur))) eqn:Eb; [discriminate E|]. cbn [obind] in E. bind E fl Efl. bind E a Ea. bind E b Eb'. bind E fs Efs. bind E l0 El. bind E d Ed.
  destruct l0 as [|s1 r]; [discriminate E|]. injection E as <-. apply orb_false_elim in Eu as [U1 U2]. apply negb_false_iff, andb_prop in Eb as [U3 _]. apply negb_true_iff in U3.
  unfold support_side in Efl. destruct (u_footsteps cur) as [|f [|h x]] eqn:Ef; [discriminate Efl| |discriminate Efl]. cbn in Efl. injection Efl as <-.
  unfold footstep_frame in Ea. rewrite Ef in Ea. cbn [find] in Ea. replace (side_eqb (f_side f) (f_side f)) with true in Ea by (now destruct (f_side f)). injection Ea as <-.
  exists cur, nxt, f, b, fs, s1, r, d. repeat (split; [first [reflexivity|assumption]|]). split; [exact (find_stands _ _ _ Eb')|]. split; [destruct (f_side f); exact Efs|]. auto.
Qed.

(** The supports that a planner gives in the middle of a step let the walk go on: the current step is finished with the same support foot, in the time
    that remains, and the flying foot lands where it was going to. They can be walked on (C153, C154). *)
Theorem C157_supports p planner j t t_last l cur nxt a b : walks_on planner -> get_support j t = Ok cur -> get_next_support j t 1 = Ok nxt ->
  (forall f, In f (u_footsteps cur) \/ In f (u_footsteps nxt) -> only_turned (f_frame f)) ->
  lasts p cur (b - a) -> a = Rmax t_last (u_t_start cur) -> t < b -> 0 < u_time_ratio cur ->
  replan_supports p planner j t t_last = Ok l -> (forall s, In s l -> exists d, default_duration p s d /\ 0 < d) ->
  feet_walk p l /\ (forall l1 s r, l = l1 ++ s :: r -> u_end s = true -> r = []) /\
  exists f F s1 s2 r, u_footsteps cur = [f] /\ stands_at nxt (other_side (f_side f)) F /\ l = s1 :: s2 :: r /\ steps_follow s1 (s2 :: r) /\
    stands_at s1 (f_side f) (f_frame f) /\ ~ stands_on s1 (other_side (f_side f)) /\ stands_at s2 (other_side (f_side f)) F /\
    lasts p s1 (b - t) /\ u_time_ratio s1 = u_time_ratio cur /\ u_t_start s1 = u_t_start cur.
Proof.
  intros Hp Hc Hn Up La Ha Ht Hr E Dd. destruct (replan_supports_inv _ _ _ _ _ _ E) as (cur' & nxt' & f & F & fs & s0 & r & d & Ec & En & U1 & U2 & U3 & Ef & SF & Epl & Em & Ed & El).
  rewrite Hc in Ec. injection Ec as <-. rewrite Hn in En. injection En as <-.
  assert (UF : only_turned F) by (destruct SF as (h & I & _ & <-); apply Up; now right).
  assert (Uf : only_turned (f_frame f)) by (apply Up; left; rewrite Ef; now left).
  destruct (Hp _ _ _ _ (match f_side f as s return only_turned (match s with Left => f_frame f | Right => F end) with Left => Uf | Right => UF end)
    (match f_side f as s return only_turned (match s with Left => F | Right => f_frame f end) with Left => UF | Right => Uf end) Epl) as (N & Alt & Ut & F0 & F1).
  set (s1 := Support _ _ _ _ _ _ _ _ _) in El. 
  assert (Dd' : forall s, In s (s0 :: r) -> exists d, default_duration p s d /\ 0 < d).
  { intros s [<-|Hs]; [|apply Dd; rewrite El; now right]. destruct (Dd s1) as (d' & D1 & D2); [rewrite El; now left|]. exists d'. split; [exact D1|exact D2]. }
  destruct (C156_supports_of_footsteps p fs _ _ _ _ _ N Alt Ut Em Dd') as ((W1 & W2 & W3) & (_ & W4) & W5 & _).
  destruct (C51_make_supports fs (u_t_start cur) false (has_double_support p) true N) as (l' & ph & E' & Fh & Lk & Sg & Db & Fl). rewrite Em in E'. injection E' as <-.
  destruct (Fl 0%nat s0 eq_refl) as (V1 & V2 & V3). assert (Us : u_start s0 = false) by (destruct (u_start s0); [destruct (proj1 V1 eq_refl); discriminate|reflexivity]).
  assert (R0 : r <> []). { intros ->. inversion Fh as [|? x ? y Hx Hy]; subst x0. subst. inversion Hy; subst. cbn in Sg. destruct x as [i|i]; cbn in Sg; [|destruct fs as [|? [|? [|? ?]]]; cbn in N; try lia; discriminate Sg].
    destruct fs as [|? [|? [|? ?]]]; cbn in N; try lia; discriminate Sg. }
  assert (Ue : u_end s0 = false). { destruct (u_end s0) eqn:X; [|reflexivity]. destruct (W5 [] s0 r eq_refl X). now destruct (R0 eq_refl). }
  destruct r as [|s2 r]; [congruence|].
  assert (Ph : exists f0 f1, nth_error fs 0 = Some f0 /\ nth_error fs 1 = Some f1 /\ u_footsteps s0 = [f0] /\ In f1 (u_footsteps s2) /\ f_side f0 = f_side f /\ f_side f1 = other_side (f_side f)).
  { destruct fs as [|f0 [|f1 [|f2 fs]]]; cbn in N; try lia. exists f0, f1. pose proof Alt as (A1 & A2 & _). do 2 (split; [reflexivity|]). 
    unfold make_supports in Em. cbn [length Nat.ltb Nat.leb guard] in Em. injection Em as Em0 Em. split; [rewrite <- Em0; reflexivity|]. split; [|auto].
    destruct (has_double_support p); cbn [app steps_loop Nat.sub] in Em.
    - injection Em as <- _. cbn. auto.
    - destruct (negb _ && false); injection Em as <- _; cbn; auto. }
  destruct Ph as (f0 & f1 & N0 & N1 & Ef0 & If1 & Sd0 & Sd1). specialize (F0 _ N0). specialize (F1 _ N1).
  assert (Fr0 : f_frame f0 = f_frame f) by (rewrite F0; now destruct (f_side f)). assert (Fr1 : f_frame f1 = F) by (rewrite F1; now destruct (f_side f)).
  assert (Dc : default_duration p cur d) by (now apply Wpg_proofs3.default_duration_ok).
  assert (Ds : default_duration p s1 d). { unfold default_duration in *. cbn [s1 u_footsteps u_start u_end]. rewrite Ef0, Us, Ue. rewrite Ef, U1, U2 in Dc. exact Dc. }
  assert (D0 : 0 < d). { destruct (Dd s1) as (d' & D1 & D2); [rewrite El; now left|]. unfold default_duration in D1, Ds. cbn [s1 u_footsteps] in D1, Ds. rewrite Ef0 in D1, Ds. cbn in D1, Ds. lra. }
  destruct La as (d' & D1 & D2). assert (d' = d) as ->. { unfold default_duration in D1, Dc. rewrite Ef in D1, Dc. cbn in D1, Dc. lra. }
  assert (Dr : 0 < d * u_time_ratio cur) by (now apply Rmult_lt_0_compat).
  assert (Rem : (1 - u_elapsed_ratio s1) * d * u_time_ratio s1 = b - t).
  { cbn [s1 u_elapsed_ratio u_time_ratio]. rewrite <- Ha. transitivity ((1 - u_elapsed_ratio cur) * d * u_time_ratio cur - (t - a)); [field; split; lra|lra]. }
  assert (El1 : u_elapsed_ratio s1 < 1).
  { assert (0 < (1 - u_elapsed_ratio s1) * (d * u_time_ratio s1)) by (rewrite <- Rmult_assoc, Rem; lra). cbn [s1 u_time_ratio] in H. change (u_time_ratio s1) with (u_time_ratio cur) in *. nra. }
  split; [|split].
  - rewrite El. split; [|split].
    + intros s [<-|Hs]; [|apply W1; now right]. destruct (W1 s0 (or_introl eq_refl)) as (X1 & _ & X3). split; [exact X1|]. split; [|exact X3]. split; [eauto|]. split; [exact Hr|exact El1].
    + exact W2.
    + intros i s Hi. exact (W3 i s Hi).
  - intros l1 s r' E1 U. rewrite El in E1. destruct l1 as [|y l1].
    + injection E1 as <- _. cbn [s1 u_end] in U. congruence.
    + injection E1 as _ E1. apply (W5 (s0 :: l1) s r'); [cbn; now rewrite E1|exact U].
  - exists f, F, s1, s2, r. do 3 (split; [assumption|]). split; [exact W4|].
    split; [exists f0; split; [cbn [s1 u_footsteps]; rewrite Ef0; now left|split; [exact Sd0|exact Fr0]]|].
    split; [intros (x & Ix & Sx); cbn [s1 u_footsteps] in Ix; rewrite Ef0 in Ix; destruct Ix as [<-|[]]; rewrite Sd0 in Sx; symmetry in Sx; exact (other_neq _ Sx)|].
    split; [exists f1; auto|]. split; [exists d; split; [exact Ds|symmetry; exact Rem]|]. split; [reflexivity|]. cbn [s1 u_t_start]. exact V3.
Qed.
Print Assumptions C157_supports.

(** When the walk is replanned on these supports, the step goes on: it ends at the same time, on the same foot, and the flying foot goes on from where it is, with
    the velocity it has, to where it was going to land. *)
Theorem C157_same_landing L g planner old t l j ss cur nxt a b : let p := w_base (g_params g) in
  walks_on planner -> get_support old t = Ok cur -> get_next_support old t 1 = Ok nxt ->
  (forall f, In f (u_footsteps cur) \/ In f (u_footsteps nxt) -> only_turned (f_frame f)) -> only_turned (j_T old) ->
  lasts p cur (b - a) -> a = Rmax (j_start old) (u_t_start cur) -> t < b -> 0 < u_time_ratio cur ->
  replan_supports p planner old t (j_start old) = Ok l -> (forall s, In s l -> exists d, default_duration p s d /\ 0 < d) ->
  replan L g l old t = Ok (j, ss) -> j_success j = true ->
  exists f F q, u_footsteps cur = [f] /\ stands_at nxt (other_side (f_side f)) F /\ nth_error (j_parts j) 0 = Some q /\ pt_start q = t /\ pt_end q = b /\
    (forall t', t <= t' <= b -> get_T_world_foot j (f_side f) t' = Ok (f_frame f)) /\
    get_T_world_foot j (other_side (f_side f)) b = Ok F /\
    get_T_world_foot j (other_side (f_side f)) t = get_T_world_foot old (other_side (f_side f)) t /\
    get_v_world_foot j (other_side (f_side f)) t = get_v_world_foot old (other_side (f_side f)) t.
Proof.
  intros p Hp Hc Hn Up Ut La Ha Ht Hr E Dd Er Hs. destruct (C157_supports p planner old t (j_start old) l cur nxt a b Hp Hc Hn Up La Ha Ht Hr E Dd) as (Fw & _ & f & F & s1 & s2 & r & Ef & SF & El & _ & S1 & N1 & S2 & L1 & _).
  destruct (C55_replan _ _ _ _ _ _ _ Er Hs) as (Sj & Cn & Ca). rewrite El in Ca. destruct (j_parts j) as [|q parts] eqn:Ej; [inversion Ca|]. assert (Cq : carries p s1 q) by (now inversion Ca). destruct Cq as (_ & _ & _ & _ & _ & _ & L2).
  assert (Sq : pt_start q = t) by exact (proj1 Cn). pose proof (Wpg_proofs3.lasts_det _ _ _ _ L1 L2) as Eq. assert (Eb : pt_end q = b) by lra.
  assert (H0 : nth_error l 0 = Some s1) by (now rewrite El).
  destruct (C153_feet L g l old t j ss (f_side f) Fw Ut Er Hs) as (P & Y & W & _ & H). destruct (H 0%nat s1 q H0 ltac:(now rewrite Ej)) as [H1 _].
  destruct (C153_feet L g l old t j ss (other_side (f_side f)) Fw Ut Er Hs) as (P' & Y' & W' & _ & H'). destruct (H' 0%nat s1 q H0 ltac:(now rewrite Ej)) as [_ H2].
  destruct (H2 N1) as (s2' & F1 & F2 & v & dy & d & V & Hs2 & SF2 & _ & G1 & G2 & _ & _ & _ & _ & G3). rewrite El in Hs2. injection Hs2 as <-. destruct (G3 eq_refl) as (_ & G4 & G5 & G6 & _).
  assert (F2 = F) as ->. { destruct Fw as (W1 & _). destruct (W1 s2) as (Fo & _ & _); [rewrite El; right; now left|]. destruct S2 as (x & Ix & Sx & <-), SF2 as (y & Iy & Sy & <-). f_equal.
    destruct Fo as [(z & Ez)|(z & w & Ez & Sw)]; rewrite Ez in Ix, Iy.
    - destruct Ix as [<-|[]], Iy as [<-|[]]. reflexivity.
    - destruct Ix as [<-|[<-|[]]], Iy as [<-|[<-|[]]]; try reflexivity; exfalso; apply (other_neq (f_side z)); congruence. }
  exists f, F, q. split; [exact Ef|]. split; [exact SF|]. split; [reflexivity|]. split; [exact Sq|]. split; [exact Eb|]. split; [intros t' Ht'; apply (H1 _ S1); lra|].
  split; [rewrite <- Eb; exact G2|]. rewrite Sq in G1. split; congruence.
Qed.
Print Assumptions C157_same_landing.

(** The walk can then be replanned again: in a walk planned on the supports of footsteps, or replanned on those of [replan_supports], each single support
    lasts what remains of it and starts with the walk or at its own time. *)
Theorem C157_again L g planner j ss :
  let p := w_base (g_params g) in
  (exists com fs t0 middle l, (2 < length fs)%nat /\ make_supports fs t0 true middle true = Ok l /\ plan L g l com t0 = Ok (j, ss) /\
     forall s, In s l -> exists d, default_duration p s d /\ 0 < d) \/
  (exists old t l cur t_last, walks_on planner /\ get_support old t = Ok cur /\ u_t_start cur <= t /\ replan_supports p planner old t t_last = Ok l /\
     (forall f nxt, get_next_support old t 1 = Ok nxt -> In f (u_footsteps cur) \/ In f (u_footsteps nxt) -> only_turned (f_frame f)) /\
     (forall s, In s l -> time_ok p s) /\
     replan L g l old t = Ok (j, ss) /\ j_success j = true) ->
  forall q f, In q (j_parts j) -> u_footsteps (pt_support q) = [f] ->
    lasts p (pt_support q) (pt_end q - pt_start q) /\ pt_start q = Rmax (j_start j) (u_t_start (pt_support q)).
Proof.
  intros p H. cut (exists l t0, j_start j = t0 /\ contiguous t0 (j_parts j) (j_end j) /\ Forall2 (carries p) l (j_parts j) /\ (forall s, In s l -> time_ok p s) /\
    forall i s f, nth_error l i = Some s -> u_footsteps s = [f] -> u_t_start s = -1 \/ (i = 0%nat /\ u_t_start s <= t0)).
  { intros (l & t0 & Sj & Cn & Ca & T & U) q f Hq Ef. assert (F : WpgReplan_proofs2.lasting (j_parts j)).
    { apply Forall_forall. intros x Hx. apply In_nth_error in Hx as (i & Hx). destruct (Wpg_proofs5.Forall2_nth _ _ _ _ _ Ca Hx) as (s & Hs & _ & _ & _ & _ & _ & _ & C7).
      destruct (time_lasts _ _ (T s (nth_error_In _ _ Hs))) as (d & Hd & Hd0). rewrite (Wpg_proofs3.lasts_det _ _ _ _ Hd C7) in Hd0. lra. }
    destruct (WpgReplan_proofs2.contiguous_starts _ _ _ _ Cn F Hq) as [S1 _]. apply In_nth_error in Hq as (i & Hq).
    destruct (Wpg_proofs5.Forall2_nth _ _ _ _ _ Ca Hq) as (s & Hs & C1 & C2 & C3 & C4 & C5 & C6 & (d & D1 & D2)). split.
    - exists d. split; [unfold default_duration in *; now rewrite C1, C4, C5|]. now rewrite C2, C3.
    - rewrite C6, Sj. destruct (Req_EM_T (u_t_start s) (-1)); [now rewrite Rmax_right|]. destruct (U i s f Hs) as [X|[-> X]]; [congruence|contradiction|]. rewrite Rmax_left by exact X.
      destruct (j_parts j); [discriminate Hq|]. cbn in Hq. injection Hq as ->. exact (proj1 Cn). }
  destruct H as [(com & fs & t0 & middle & l & N & Em & E & Dd)|(old & t & l & cur & t_last & Hp & Hc & Hle & Er & Up & T & E & Hs)].
  - destruct (C55_plan _ _ _ _ _ _ _ E) as (Sj & Cn & Ca). exists l, t0. split; [exact Sj|]. split; [exact Cn|]. split; [exact Ca|].
    destruct (C51_make_supports fs t0 true middle true N) as (l' & ph & E' & _ & _ & _ & _ & Fl). rewrite Em in E'. injection E' as <-. split.
    + intros s Hs. destruct (make_supports_new _ _ _ _ _ _ N Em s Hs) as (N1 & N2 & _). split; [exact (Dd s Hs)|]. rewrite N1, N2. lra.
    + intros i s f Hi _. destruct (Fl i s Hi) as (_ & _ & ->). destruct i as [|i]; [right; split; [reflexivity|cbn; lra]|left]. now rewrite !andb_false_r.
  - destruct (C55_replan _ _ _ _ _ _ _ E Hs) as (Sj & Cn & Ca). exists l, t. split; [exact Sj|]. split; [exact Cn|]. split; [exact Ca|]. split; [exact T|].
    destruct (replan_supports_inv _ _ _ _ _ _ Er) as (cur' & nxt & f & F & fs & s0 & r & d & Ec & En & U1 & U2 & U3 & Ef & SF & Epl & Em & Ed & El). rewrite Hc in Ec. injection Ec as <-.
    assert (UF : only_turned F) by (destruct SF as (h & I & _ & <-); apply (Up h nxt En); now right).
    assert (Uf : only_turned (f_frame f)) by (apply (Up f nxt En); left; rewrite Ef; now left).
    destruct (Hp _ _ _ _ (match f_side f as s return only_turned (match s with Left => f_frame f | Right => F end) with Left => Uf | Right => UF end)
      (match f_side f as s return only_turned (match s with Left => F | Right => f_frame f end) with Left => UF | Right => Uf end) Epl) as (N & Alt & _).
    destruct (C51_make_supports fs (u_t_start cur) false (has_double_support p) true N) as (l' & ph & E' & Fh & _ & _ & _ & Fl). rewrite Em in E'. injection E' as <-.
    intros [|i] s h Hi Eh.
    + right. split; [reflexivity|]. rewrite El in Hi. cbn in Hi. injection Hi as <-. cbn [u_t_start]. now rewrite (proj2 (proj2 (Fl 0%nat s0 eq_refl))).
    + left. rewrite El in Hi. destruct (Fl (S i) s Hi) as (_ & _ & ->). destruct i as [|i]; [|reflexivity]. cbn [Nat.eqb orb andb negb]. destruct (has_double_support p) eqn:Hd; [|reflexivity]. exfalso.
      destruct fs as [|f0 [|f1 [|f2 fs]]]; cbn in N; try lia. unfold make_supports in Em. cbn [length Nat.ltb Nat.leb guard] in Em. injection Em as _ Em. cbn [nth_error] in Hi. destruct r; [discriminate Hi|]. injection Hi as ->.
      cbn [app] in Em. injection Em as <- _. cbn in Eh. discriminate Eh.
Qed.
Print Assumptions C157_again.

(** The planners of the library give such footsteps, when they have a step to make. *)
Definition planner_of (plan : side -> frame -> frame -> option (list footstep)) (sd : side) (left right : frame) : outcome (list footstep) :=
  match plan sd left right with Some l => Ok l | None => UB end.

Lemma steps_turned p f g s : steps_by p f g s -> only_turned (f_frame f) -> only_turned (f_frame g).
Proof. intros (_ & ->) (a & Ha). unfold frame_mul, planar. cbn [fr_R]. exists (a + vz s). now rewrite Ha, rot_z_mul. Qed.

Lemma clipped_turned c p f g x y a : clipped_opposite_footstep c p f x y a = Some g -> only_turned (f_frame f) -> only_turned (f_frame g).
Proof.
  unfold clipped_opposite_footstep. cbv zeta. destruct clip as [s|]; [|discriminate]. destruct (reduce_spec p f 32 s) as (j & _ & E & _). cbv zeta in E. rewrite E. clear E. intros E. injection E as <-.
  intros (b & Hb). unfold only_turned, opposite_footstep, opposite_frame, rotate_z, translate. cbn [f_frame]. destruct (f_side f); cbn [fr_R]; rewrite Hb, rot_z_mul; eexists; reflexivity.
Qed.

Lemma chain_turned (l : list footstep) : (forall f, nth_error l 0 = Some f -> only_turned (f_frame f)) -> (forall f, nth_error l 1 = Some f -> only_turned (f_frame f)) ->
  (forall i u v, (1 <= i)%nat -> nth_error l i = Some u -> nth_error l (S i) = Some v -> only_turned (f_frame u) -> only_turned (f_frame v)) ->
  forall f, In f l -> only_turned (f_frame f).
Proof.
  intros H0 H1 H f Hf. apply In_nth_error in Hf as (i & Hi). revert f Hi. induction i as [|i IH]; intros f Hi; [exact (H0 f Hi)|]. destruct i as [|i]; [exact (H1 f Hi)|].
  destruct (nth_error l (S i)) as [u|] eqn:Eu; [exact (H (S i) u f ltac:(lia) Eu Hi (IH u eq_refl))|]. apply nth_error_None in Eu. assert (nth_error l (S (S i)) = None) by (apply nth_error_None; lia). congruence.
Qed.

Lemma target_sides (left right : frame) sd : target_of left right sd = match sd with Left => left | Right => right end /\ target_of left right (other_side sd) = match sd with Left => right | Right => left end.
Proof. now destruct sd. Qed.

Theorem C157_repetitive c p x y a nb : positive_limits p -> (0 < nb)%Z -> walks_on (planner_of (repetitive_plan c p x y a nb)).
Proof.
  intros P Nb sd left right fs Ul Ur E. destruct (C52_repetitive_plan c p x y a nb sd left right P) as (l & El & Ln & Al & N0 & N1 & St & La). unfold planner_of in E. rewrite El in E. injection E as <-.
  destruct (target_sides left right sd) as [T0 T1]. split; [lia|]. split; [exact Al|]. split; [|split; intros f Hf; [rewrite N0 in Hf|rewrite N1 in Hf]; injection Hf as <-; assumption].
  apply chain_turned.
  - intros f Hf. rewrite N0 in Hf. injection Hf as <-. cbn [create_footstep f_frame]. rewrite T0. now destruct sd.
  - intros f Hf. rewrite N1 in Hf. injection Hf as <-. cbn [create_footstep f_frame]. rewrite T1. now destruct sd.
  - intros i u v Hi Hu Hv. assert (S i < length l)%nat by (apply nth_error_Some; congruence). destruct (Nat.eq_dec i (Z.to_nat nb)) as [->|Ne].
    + exact (steps_turned p u v _ (La u v Nb Hu Hv)).
    + exact (clipped_turned c p u v x y a (St i u v ltac:(lia) Hu Hv)).
Qed.
Print Assumptions C157_repetitive.

Theorem C157_naive p n tl tr : positive_limits p -> 0 <= n_length n -> 0 <= n_width n -> 0 <= n_yaw n ->
  (forall sd left right l, naive_plan p n tl tr sd left right = Some l -> (2 < length l)%nat) -> walks_on (planner_of (naive_plan p n tl tr)).
Proof.
  intros P A B C N sd left right fs Ul Ur E. destruct (C53_naive_plan p n tl tr sd left right P A B C) as (l & El & _ & Al & N0 & N1 & St). unfold planner_of in E. rewrite El in E. injection E as <-.
  destruct (target_sides left right sd) as [T0 T1]. split; [exact (N _ _ _ _ El)|]. split; [exact Al|]. split; [|split; intros f Hf; [rewrite N0 in Hf|rewrite N1 in Hf]; injection Hf as <-; assumption].
  apply chain_turned.
  - intros f Hf. rewrite N0 in Hf. injection Hf as <-. cbn [create_footstep f_frame]. rewrite T0. now destruct sd.
  - intros f Hf. rewrite N1 in Hf. injection Hf as <-. cbn [create_footstep f_frame]. rewrite T1. now destruct sd.
  - intros i u v Hi Hu Hv. destruct (St i u v Hi Hu Hv) as (s & Hs & _). exact (steps_turned p u v s Hs).
Qed.
Print Assumptions C157_naive.

(** With double supports in the walk, the double support that follows the current step is given the time of the current step: in the new walk, its t_start is not
    the time when it starts. *)
Theorem C157_double_t_start_behaviour L g planner old t t_last l j ss cur : let p := w_base (g_params g) in
  walks_on planner -> get_support old t = Ok cur -> has_double_support p = true -> u_t_start cur <> -1 ->
  (forall f nxt, get_next_support old t 1 = Ok nxt -> In f (u_footsteps cur) \/ In f (u_footsteps nxt) -> only_turned (f_frame f)) ->
  replan_supports p planner old t t_last = Ok l -> replan L g l old t = Ok (j, ss) -> j_success j = true ->
  exists q, nth_error (j_parts j) 1 = Some q /\ is_both (pt_support q) = true /\ u_t_start (pt_support q) = u_t_start cur.
Proof.
  intros p Hp Hc Hd Hm Up Er E Hs. destruct (replan_supports_inv _ _ _ _ _ _ Er) as (cur' & nxt & f & F & fs & s0 & r & d & Ec & En & U1 & U2 & U3 & Ef & SF & Epl & Em & Ed & El). rewrite Hc in Ec. injection Ec as <-.
  assert (UF : only_turned F) by (destruct SF as (h & I & _ & <-); apply (Up h nxt En); now right).
  assert (Uf : only_turned (f_frame f)) by (apply (Up f nxt En); left; rewrite Ef; now left).
  destruct (Hp _ _ _ _ (match f_side f as s return only_turned (match s with Left => f_frame f | Right => F end) with Left => Uf | Right => UF end)
    (match f_side f as s return only_turned (match s with Left => F | Right => f_frame f end) with Left => UF | Right => Uf end) Epl) as (N & _).
  destruct fs as [|f0 [|f1 [|f2 fs]]]; cbn in N; try lia. unfold make_supports in Em. fold p in Hd. rewrite Hd in Em. cbn [length Nat.ltb Nat.leb guard app] in Em. injection Em as _ Em. destruct r as [|s2 r]; [discriminate Em|]. injection Em as <- _.
  destruct (C55_replan _ _ _ _ _ _ _ E Hs) as (_ & _ & Ca). rewrite El in Ca. destruct (Wpg_proofs5.Forall2_nth_l _ _ _ 1%nat _ Ca eq_refl) as (q & Hq & C1 & _ & _ & _ & _ & C6 & _).
  exists q. split; [exact Hq|]. split; [unfold is_both; rewrite C1; reflexivity|]. rewrite C6. cbn [u_t_start set_t_start]. destruct (Req_EM_T (u_t_start cur) (-1)); [contradiction|reflexivity].
Qed.
Print Assumptions C157_double_t_start_behaviour.

(** When the planner has no step to make, the whole remaining walk is one double support: both feet are at once where the step would have ended. *)
Theorem C157_no_step_behaviour p planner j t t_last l : (forall sd left right fs, planner sd left right = Ok fs -> exists f h, fs = [f; h] /\ f_side h = other_side (f_side f) /\ f_side f = sd /\
     f_frame f = target_of left right sd /\ f_frame h = target_of left right (other_side sd)) ->
  replan_supports p planner j t t_last = Ok l ->
  exists cur nxt f F s, get_support j t = Ok cur /\ get_next_support j t 1 = Ok nxt /\ u_footsteps cur = [f] /\ stands_at nxt (other_side (f_side f)) F /\
    l = [s] /\ stands_at s (f_side f) (f_frame f) /\ stands_at s (other_side (f_side f)) F /\ length (u_footsteps s) = 2%nat /\ u_end s = true.
Proof.
  intros Hp E. destruct (replan_supports_inv _ _ _ _ _ _ E) as (cur & nxt & f & F & fs & s0 & r & d & Ec & En & U1 & U2 & U3 & Ef & SF & Epl & Em & Ed & El).
  destruct (Hp _ _ _ _ Epl) as (f0 & f1 & -> & S1 & S0 & F0 & F1). rewrite (C51_short [f0; f1] _ _ _ _ ltac:(cbn; lia)) in Em. injection Em as <- <-.
  eexists cur, nxt, f, F, _. do 4 (split; [assumption|]). split; [exact El|]. assert (Fr0 : f_frame f0 = f_frame f) by (rewrite F0; now destruct (f_side f)). assert (Fr1 : f_frame f1 = F) by (rewrite F1; now destruct (f_side f)).
  split; [exists f0; split; [now left|auto]|]. split; [exists f1; split; [right; now left|split; [congruence|exact Fr1]]|]. split; reflexivity.
Qed.
Print Assumptions C157_no_step_behaviour.

(** ** Examples: the walk on the spot of C151, replanned in the middle of the step of the right foot by the repetitive planner *)
Definition ex_planner (nb : Z) := planner_of (repetitive_plan Ellipsoid ex_gait 0 0 0 nb).
Lemma ex_limits : positive_limits ex_gait.
Proof. unfold positive_limits, ex_gait. cbn. lra. Qed.
Lemma ex_opposite_right : opposite_footstep ex_gait ex_right 0 0 0 = ex_left.
Proof.
  unfold opposite_footstep, ex_left, ex_right, create_footstep. cbn [f_side f_frame f_width f_length f_polygon f_computed other_side]. f_equal. unfold opposite_frame, rotate_z, translate, ex_gait. cbn [fr_R fr_t p_feet_spacing].
  assert (Z : rot_z 0 = m3_id) by (unfold rot_z, m3_id; rewrite cos_0, sin_0; f_equal; ring). rewrite Z. unfold m3_mul, m3_vec, m3_id, v3_add, v3_scale. cbn. f_equal; f_equal; lra.
Qed.
Lemma ex_planner_1 : ex_planner 1 Left (f_frame ex_left) (f_frame ex_right) = Ok [ex_left; ex_right; ex_left].
Proof.
  unfold ex_planner, planner_of, repetitive_plan. change (Z.to_nat (1 - 1)) with 0%nat. cbn [Z.ltb Z.compare repeat_steps]. change (nth 1 (initial_footsteps _ _ _ _) _) with ex_right.
  rewrite (clipped_zero Ellipsoid ex_gait ex_right ex_limits), ex_opposite_right. reflexivity.
Qed.

Lemma frame_id_l F : frame_mul frame_id F = F.
Proof. destruct F as [[] []]. unfold frame_mul, frame_id, m3_mul, m3_id, m3_vec, v3_add. cbn. f_equal; f_equal; ring. Qed.

Lemma ex_middle com t old ss : plan ex_libs ex_soft ex_steps com t = Ok (old, ss) ->
  exists cur nxt, get_support old (t + 3/2) = Ok cur /\ get_next_support old (t + 3/2) 1 = Ok nxt /\ u_footsteps cur = [ex_left] /\ u_footsteps nxt = [ex_left; ex_right] /\
    u_start cur = false /\ u_end cur = false /\ u_end nxt = false /\ u_elapsed_ratio cur = 0 /\ u_time_ratio cur = 1 /\ u_t_start cur = t + 1.
Proof.
  intros E. destruct (ex_parts ex_libs ex_soft com t old ss eq_refl E) as (Ln & _ & Pt).
  assert (Fi : find_index (j_parts old) (t + 3/2) = Ok 1%nat).
  { apply Wpg_proofs.find_unique; [lia| | |].
    - intros k q Hk Hq. destruct (Pt k q Hq) as (A & B & _). assert (k = 0%nat) as -> by lia. cbn in A, B. lra.
    - intros k q Hk Hq. destruct (Pt k q Hq) as (A & B & _). assert (INR 2 <= INR k) by (apply le_INR; lia). cbn in H. lra.
    - intros q Hq. destruct (Pt 1%nat q Hq) as (A & B & _). cbn in A, B. lra. }
  destruct (Wpg_proofs5.plan_inv _ _ _ _ _ _ _ E) as (_ & j1 & Ec & Ef). destruct (Wpg_proofs5.planned_parts _ _ _ _ _ _ _ _ _ _ _ Ec Ef) as (_ & _ & _ & _ & _ & T & _). cbn [new_wtraj j_T] in T.
  destruct (nth_error (j_parts old) 1) as [q|] eqn:Hq; [|apply nth_error_None in Hq; lia]. destruct (nth_error (j_parts old) 2) as [q'|] eqn:Hq'; [|apply nth_error_None in Hq'; lia].
  destruct (Pt 1%nat q Hq) as (A & B & s & Hs & C1 & C2 & C3 & C4 & C5 & C6 & _). injection Hs as <-. destruct (Pt 2%nat q' Hq') as (_ & _ & s & Hs & D1 & _ & _ & _ & D5 & _). injection Hs as <-.
  exists (transform_support (j_T old) (pt_support q)), (transform_support (j_T old) (pt_support q')). split; [unfold get_support, find_part; rewrite Fi; cbn [obind]; rewrite (Wpg_proofs.at_index_ok _ _ _ Hq); reflexivity|].
  split; [unfold get_next_support; rewrite Fi; cbn [obind]; rewrite Ln; change (Z.of_nat 5 <=? Z.of_nat 1 + 1)%Z with false; change (Z.to_nat (Z.of_nat 1 + 1)) with 2%nat; cbn [guard Z.leb Z.compare]; rewrite (Wpg_proofs.at_index_ok _ _ _ Hq'); reflexivity|].
  rewrite T. unfold transform_support. cbn [u_footsteps u_start u_end u_elapsed_ratio u_time_ratio u_t_start]. rewrite C1, C2, C3, C4, C5, C6, D1, D5. cbn [map u_footsteps new_support u_start u_end u_elapsed_ratio u_time_ratio u_t_start].
  destruct (Req_EM_T (-1) (-1)) as [_|X]; [|congruence]. cbn in A. rewrite !frame_id_l. repeat (split; [reflexivity|]). exact A.
Qed.

Lemma ex_new_supports com t old ss planner fs s r : plan ex_libs ex_soft ex_steps com t = Ok (old, ss) -> planner Left (f_frame ex_left) (f_frame ex_right) = Ok fs ->
  make_supports fs (t + 1) false true true = Ok (s :: r) ->
  replan_supports ex_gait planner old (t + 3/2) t = Ok (Support (u_footsteps s) (u_t_start s) (1/2) 1 (u_target_world_dcm s) (u_start s) (u_end s) (u_polygon s) (u_computed s) :: r).
Proof.
  intros E Ep Em. destruct (ex_middle com t old ss E) as (cur & nxt & Ec & En & Fc & Fn & U1 & U2 & U3 & El & Tr & Ts).
  unfold replan_supports, can_replan_supports. rewrite Ec. cbn [obind]. rewrite U1, U2. cbn [orb]. rewrite En. cbn [obind]. unfold is_both. rewrite U3, Fc. cbn [negb andb length Nat.eqb obind].
  unfold support_side, footstep_frame. rewrite Fc, Fn. cbn [length Nat.ltb Nat.leb obind find f_side ex_left ex_right create_footstep side_eqb other_side]. fold ex_left ex_right.
  change (planner Left (Frame m3_id (V3 0 (1/10) 0)) (Frame m3_id (V3 0 (- (1/10)) 0))) with (planner Left (f_frame ex_left) (f_frame ex_right)). rewrite Ep. cbn [obind].
  assert (Hd : has_double_support ex_gait = true).
  { unfold has_double_support, double_support_timesteps, ex_gait. cbn [p_double_support_ratio p_single_support_timesteps]. now rewrite ex_round. }
  rewrite Hd, Ts, Em. cbn [obind]. assert (Dc : support_default_duration ex_gait cur = Ok 1).
  { apply Wpg_proofs3.default_duration_ok. unfold default_duration. rewrite Fc. reflexivity. }
  rewrite Dc. cbn [obind]. rewrite El, Tr. rewrite Rmax_right by lra. do 2 f_equal. f_equal. field.
Qed.

Lemma ex_duration s : default_duration ex_gait s 1.
Proof.
  unfold default_duration, startend_double_support_duration, double_support_duration, dt, startend_double_support_timesteps, double_support_timesteps, ex_gait. cbn [p_single_support_timesteps p_single_support_duration p_double_support_ratio p_startend_double_support_ratio Z.eqb].
  rewrite ex_round. destruct (Nat.eqb _ 2), (u_start s || u_end s); try reflexivity; f_equal; lra.
Qed.
Lemma ex_steps_number s n : u_elapsed_ratio s <= 1/2 -> steps ex_gait s n -> (3 <= n)%nat.
Proof.
  intros El H. unfold steps in H. assert (D : default_steps ex_gait s = 10%Z).
  { unfold default_steps, startend_double_support_timesteps, double_support_timesteps, ex_gait. cbn [p_single_support_timesteps p_double_support_ratio p_startend_double_support_ratio]. rewrite ex_round. now destruct (Nat.eqb _ 2), (u_start s || u_end s). }
  rewrite D in H. pose proof (Rmax_r 1 ((1 - u_elapsed_ratio s) * 10)) as M. assert (X : INR 3 < INR n + 1) by (cbn; lra). rewrite <- S_INR in X. apply INR_lt in X. lia.
Qed.

(** A support of the walk on the spot, whatever its progress. *)
Lemma ex_polygon s : u_footsteps s = [ex_left] \/ u_footsteps s = [ex_right] \/ u_footsteps s = [ex_left; ex_right] \/ u_footsteps s = [ex_right; ex_left] -> u_computed s = false -> polygon_ok ex_hull s.
Proof.
  intros H C. destruct s as [fs ts el tr dcm st en po co]. cbn in H, C. subst co.
  assert (K : forall x0 x1 y0 y1, x0 < x1 -> y0 < y1 -> snd (support_support_polygon ex_hull (Support fs ts el tr dcm st en po false)) = Ok (rectangle x0 x1 y0 y1) ->
    polygon_ok ex_hull (Support fs ts el tr dcm st en po false)).
  { intros x0 x1 y0 y1 Hx Hy Ep. exists (rectangle x0 x1 y0 y1). split; [exact Ep|]. split; [discriminate|]. intros i A B Hb. apply (rectangle_ok x0 x1 y0 y1 i); [lra|lra|exact Hb]. }
  destruct H as [->|[->|[->| ->]]].
  - apply (K (- (1/10)) (1/10) (1/20) (3/20)); [lra|lra|exact ex_left_polygon].
  - apply (K (- (1/10)) (1/10) (- (3/20)) (- (1/20))); [lra|lra|exact ex_right_polygon].
  - apply (K (- (1/10)) (1/10) (- (3/20)) (3/20)); [lra|lra|exact (ex_both_polygon false false)].
  - unfold polygon_ok. eexists. split; [reflexivity|]. split; [discriminate|]. intros i A B. cbn. unfold ex_left, ex_right, ex_gait, create_footstep, frame_act, m3_vec, v3_add, edge. cbn.
    destruct i as [|[|[|[|i]]]]; cbn; intros (E1 & E2); try (injection E1 as <-); try (injection E2 as <-); try discriminate; try (intros X; injection X; intros; lra).
Qed.

Lemma ex_success com t old ss l : plan ex_libs ex_soft ex_steps com t = Ok (old, ss) -> rewalk_ok ex_hull ex_gait l -> (forall s r f, l = s :: r -> u_footsteps s = [f] -> f_side f = Left) ->
  exists j ss', replan ex_libs ex_soft l old (t + 3/2) = Ok (j, ss') /\ j_success j = true.
Proof.
  intros E W Fl. destruct (ex_reads ex_soft com t old ss eq_refl ltac:(cbn; lra) E) as (Rc & Rt & Rf & Dd & Ut). destruct ex_contracts as (He & Hqr & Hqp & Hqr' & Hqp').
  destruct (Rc (t + 3/2)) as (p & v & a & Ep & Ev & Ea).
  destruct (C154_replanned_exactly_when_possible ex_libs ex_soft l old (t + 3/2) p v a He Hqr Hqp Hqr' Hqp' ltac:(cbn; lra) ltac:(cbn; lra) ltac:(cbn; lra) ltac:(cbn; lra) ltac:(cbn; lra) W Ep Ev Ea (Rt _)) as (j & ss' & Er & Hs).
  - intros s r f El Ef. rewrite (Fl s r f El Ef). exact Rf.
  - exact Dd.
  - exists j, ss'. split; [exact Er|]. apply Hs. now left.
Qed.

(** With one more step to make, the supports are those of the current step, then the step of the left foot; the walk is replanned and the right foot
    lands at the same place and at the same time. *)
Example C157_example com t : exists old ss l j ss', plan ex_libs ex_soft ex_steps com t = Ok (old, ss) /\ replan_supports ex_gait (ex_planner 1) old (t + 3/2) t = Ok l /\
  map u_footsteps l = [[ex_left]; [ex_left; ex_right]; [ex_right]; [ex_right; ex_left]] /\ replan ex_libs ex_soft l old (t + 3/2) = Ok (j, ss') /\ j_success j = true /\
  get_part_t_end j (t + 3/2) = Ok (t + 2) /\ get_T_world_foot j Right (t + 2) = Ok (f_frame ex_right) /\ get_T_world_foot j Right (t + 3/2) = get_T_world_foot old Right (t + 3/2) /\
  exists F, get_T_world_foot j Right (t + 3/2) = Ok F /\ vz (fr_t F) = 1/20.
Proof.
  destruct (C151_example com t) as (_ & _ & _ & (old & ss & E)). exists old, ss. pose proof (ex_new_supports com t old ss (ex_planner 1) _ _ _ E ex_planner_1 eq_refl) as El.
  eexists. cbv zeta in El. match type of El with _ = Ok ?l => set (l0 := l) in El end. assert (N : forall s, In s l0 -> u_computed s = false /\ u_time_ratio s = 1 /\ u_elapsed_ratio s <= 1/2).
  { intros s Hs. cbn in Hs. repeat (destruct Hs as [<-|Hs]; [cbn; repeat split; lra|]). destruct Hs. }
  pose proof ex_limits as Lim. destruct (ex_middle com t old ss E) as (cur & nxt & Ec & En & Fc & Fn & U1 & U2 & U3 & Ee & Tr & Ts).
  assert (Tu : forall f, In f (u_footsteps cur) \/ In f (u_footsteps nxt) -> only_turned (f_frame f)).
  { intros f Hf. assert (f = ex_left \/ f = ex_right) as [->| ->]; [|apply id_turned|apply id_turned]. rewrite Fc, Fn in Hf. cbn in Hf. intuition congruence. }
  assert (Du : forall s, In s l0 -> exists d, default_duration ex_gait s d /\ 0 < d) by (intros s _; exists 1; split; [apply ex_duration|lra]).
  assert (La : lasts ex_gait cur (t + 2 - (t + 1))) by (exists 1; split; [apply ex_duration|rewrite Ee, Tr; lra]).
  pose proof (C157_repetitive Ellipsoid ex_gait 0 0 0 1 Lim ltac:(lia)) as Wo. fold (ex_planner 1) in Wo.
  destruct (C157_supports ex_gait (ex_planner 1) old (t + 3/2) t l0 cur nxt (t + 1) (t + 2) Wo Ec En Tu La ltac:(rewrite Ts, Rmax_right; lra) ltac:(lra) ltac:(rewrite Tr; lra) El Du) as ((W1 & _) & Eo & f & F & s1 & s2 & r & _ & _ & El0 & St & _).
  assert (W : rewalk_ok ex_hull ex_gait l0).
  { split; [|split; [rewrite El0; exact St|]].
    - intros s Hs. destruct (W1 s Hs) as (A & B & _). split; [exact A|]. split; [|exact B]. apply ex_polygon; [|apply (N s Hs)]. cbn in Hs. repeat (destruct Hs as [<-|Hs]; [cbn; tauto|]). destruct Hs.
    - intros l1 s r' E1 Ue. split; [exact (Eo l1 s r' E1 Ue)|]. intros n Hn. apply (ex_steps_number s); [|exact Hn]. apply N. rewrite E1. apply in_or_app. right. now left. }
  destruct (ex_success com t old ss l0 E W) as (j & ss' & Er & Sj).
  { intros s r' f' E1 E2. injection E1 as <- <-. injection E2 as <-. reflexivity. }
  exists j, ss'. split; [exact E|]. split; [exact El|]. split; [reflexivity|]. split; [exact Er|]. split; [exact Sj|].
  destruct (C55_plan _ _ _ _ _ _ _ E) as (So & _ & _). destruct (ex_reads ex_soft com t old ss eq_refl ltac:(cbn; lra) E) as (_ & _ & _ & _ & Ut).
  pose proof El as El'. rewrite <- So in El' at 2.
  destruct (C157_same_landing ex_libs ex_soft (ex_planner 1) old (t + 3/2) l0 j ss' cur nxt (t + 1) (t + 2) Wo Ec En Tu Ut La ltac:(rewrite So, Ts, Rmax_right; lra) ltac:(lra) ltac:(rewrite Tr; lra) El' Du Er Sj)
    as (f' & F' & q & Ef' & SF & Hq & Q1 & Q2 & _ & G1 & G2 & _).
  rewrite Fc in Ef'. injection Ef' as <-. cbn [f_side ex_left create_footstep other_side] in *.
  assert (F' = f_frame ex_right) as -> by (destruct SF as (h & Ih & Sh & <-); rewrite Fn in Ih; destruct Ih as [<-|[<-|[]]]; [discriminate Sh|reflexivity]).
  split.
  { unfold get_part_t_end. destruct (C55_replan _ _ _ _ _ _ _ Er Sj) as (_ & Cn & Ca).
    assert (T : timeline (t + 3/2) (j_parts j) (j_end j)).
    { split; [intros X; rewrite X in Hq; discriminate Hq|]. split; [exact Cn|]. apply Forall_forall. intros x Hx. apply In_nth_error in Hx as (i & Hx). destruct (Wpg_proofs5.Forall2_nth _ _ _ _ _ Ca Hx) as (s & Hs & _ & _ & _ & _ & _ & _ & C7).
      destruct (W1 s (nth_error_In _ _ Hs)) as (_ & Tk & _). destruct (time_lasts _ _ Tk) as (d & Hd & Hd0). rewrite (Wpg_proofs3.lasts_det _ _ _ _ Hd C7) in Hd0. lra. }
    assert (Fi : find_index (j_parts j) (t + 3/2) = Ok 0%nat).
    { apply Wpg_proofs.find_unique; [destruct (j_parts j); [discriminate Hq|cbn; lia]|intros k x Hk; lia| |].
      - intros k x Hk Hx. destruct k as [|k]; [lia|]. destruct T as (_ & _ & T). pose proof (Wpg_proofs.contiguous_later _ _ _ Cn T k 0%nat q x Hq Hx). lra.
      - intros x Hx. rewrite Hq in Hx. injection Hx as <-. lra. }
    unfold find_part. rewrite Fi. cbn [obind]. rewrite (Wpg_proofs.at_index_ok _ _ _ Hq). cbn [obind]. now rewrite Q2. }
  split; [exact G1|]. split; [exact G2|]. rewrite G2. destruct (ex_swing ex_libs ex_soft com t old ss eq_refl eq_refl eq_refl E) as (_ & _ & Hh & _). exact Hh.
Qed.

(** With no more step to make, the right foot is suddenly on the ground, 5 cm below where it is. *)
Theorem C157_refuted : exists L g supports com t old ss planner t' l j ss', plan L g supports com t = Ok (old, ss) /\ replan_supports (w_base (g_params g)) planner old t' t = Ok l /\
  planner = planner_of (repetitive_plan Ellipsoid (w_base (g_params g)) 0 0 0 0) /\
  replan L g l old t' = Ok (j, ss') /\ j_success j = true /\
  exists F F', get_T_world_foot old Right t' = Ok F /\ get_T_world_foot j Right t' = Ok F' /\ vz (fr_t F) = 1/20 /\ vz (fr_t F') = 0.
Proof.
  destruct (C151_example (V3 0 0 1) 0) as (_ & _ & _ & (old & ss & E)). exists ex_libs, ex_soft, ex_steps, (V3 0 0 1), 0, old, ss, (ex_planner 0), (0 + 3/2).
  assert (Ep : ex_planner 0 Left (f_frame ex_left) (f_frame ex_right) = Ok [ex_left; ex_right]) by reflexivity.
  pose proof (ex_new_supports (V3 0 0 1) 0 old ss (ex_planner 0) _ _ _ E Ep eq_refl) as El. match type of El with _ = Ok [?s] => set (s0 := s) in El end.
  assert (Tk : time_ok ex_gait s0) by (split; [exists 1; split; [apply ex_duration|lra]|cbn; lra]).
  assert (Fo : feet_ok s0) by (right; exists ex_left, ex_right; split; reflexivity).
  assert (W : rewalk_ok ex_hull ex_gait [s0]).
  { split; [|split; [reflexivity|]].
    - intros s [<-|[]]. split; [exact Fo|]. split; [|exact Tk]. apply ex_polygon; [cbn; tauto|reflexivity].
    - intros l1 s r E1 _. destruct l1 as [|x l1]; [|destruct l1; discriminate E1]. injection E1 as <- <-. split; [reflexivity|]. intros n. apply ex_steps_number. cbn. lra. }
  destruct (ex_success (V3 0 0 1) 0 old ss [s0] E W) as (j & ss' & Er & Sj).
  { intros s r f E1 E2. injection E1 as <- <-. discriminate E2. }
  exists [s0], j, ss'. split; [exact E|]. split; [exact El|]. split; [reflexivity|]. split; [exact Er|]. split; [exact Sj|].
  destruct (ex_swing ex_libs ex_soft (V3 0 0 1) 0 old ss eq_refl eq_refl eq_refl E) as (_ & _ & (F & GF & Hz) & _). exists F, (f_frame ex_right). split; [exact GF|].
  destruct (ex_reads ex_soft (V3 0 0 1) 0 old ss eq_refl ltac:(cbn; lra) E) as (_ & _ & _ & _ & Ut).
  assert (Fw : feet_walk ex_gait [s0]).
  { split; [|split; [exact I|intros [|i] s Hi; discriminate Hi]]. intros s [<-|[]]. split; [exact Fo|]. split; [exact Tk|]. intros f [<-|[<-|[]]]; apply id_turned. }
  destruct (C153_feet ex_libs ex_soft [s0] old (0 + 3/2) j ss' Right Fw Ut Er Sj) as (P & Y & Wy & _ & H). destruct (C55_replan _ _ _ _ _ _ _ Er Sj) as (_ & Cn & Ca).
  destruct (j_parts j) as [|q parts]; [inversion Ca|]. destruct (H 0%nat s0 q eq_refl eq_refl) as [St _]. assert (Sq : pt_start q = 0 + 3/2) by exact (proj1 Cn).
  assert (Cq : carries (w_base (g_params ex_soft)) s0 q) by (now inversion Ca). destruct Cq as (_ & _ & _ & _ & _ & _ & C7). destruct (time_lasts _ _ Tk) as (d & Hd & Hd0). pose proof (Wpg_proofs3.lasts_det _ _ _ _ Hd C7).
  split; [apply St; [exists ex_right; split; [right; now left|split; reflexivity]|lra]|]. split; [exact Hz|]. reflexivity.
Qed.
Print Assumptions C157_refuted.

(** Three footsteps on the spot. *)
Example C156_example : exists l, make_supports [ex_left; ex_right; ex_left] 0 true true true = Ok l /\ map u_footsteps l = [[ex_left; ex_right]; [ex_right]; [ex_right; ex_left]] /\ feet_walk ex_gait l.
Proof.
  eexists. split; [reflexivity|]. split; [reflexivity|]. eapply (C156_supports_of_footsteps ex_gait [ex_left; ex_right; ex_left] 0 true true _ Left); [cbn; lia|cbn; auto| |reflexivity|].
  - intros f [<-|[<-|[<-|[]]]]; apply id_turned.
  - intros s _. exists 1. split; [apply ex_duration|lra].
Qed.
