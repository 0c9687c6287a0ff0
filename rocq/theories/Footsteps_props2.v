(** Properties of supports and planners (C51 to C53, C61, C97 to C102). *)
From Coq Require Import Reals Lra Lia List ZArith Bool.
From Verif Require Tools_proofs.
From Verif Require Import Base Linalg Angle Geom3 Tools_model Geometry_model Geometry_spec Geometry_proofs Footsteps_model Footsteps_spec Footsteps_proofs
  Footsteps_proofs2 Footsteps_proofs3 Footsteps_props.
Import ListNotations.
Open Scope R_scope.

(** ** C51 *)
Theorem C51_make_supports fs t start middle end_ : (2 < length fs)%nat ->
  exists l ph, make_supports fs t start middle end_ = Ok l /\ Forall2 (has_feet fs) l ph /\ linked ph /\
    singles ph = seq (if start then 1 else 0) (length fs - (if start then 2 else 1)) /\
    doubles ph = (if start || middle then [0%nat] else []) ++ (if middle then seq 1 (length fs - 3) else []) ++ (if end_ then [(length fs - 2)%nat] else []) /\
    (forall i s, nth_error l i = Some s ->
       (u_start s = true <-> start = true /\ i = 0%nat) /\ (u_end s = true <-> end_ = true /\ S i = length l) /\
       u_t_start s = if Nat.eqb i 0 || (Nat.eqb i 1 && middle && negb start) then t else -1).
Proof.
  intros N. unfold make_supports. assert (E : Nat.ltb 2 (length fs) = true) by (apply Nat.ltb_lt; lia). rewrite E. clear E.
  set (d := create_footstep _ Left frame_id). set (n := length fs) in *.
  set (hs := if start then _ else _). set (lp := steps_loop (n - 2) 1 fs middle).
  set (es := if end_ then [set_end (new_support [nth (n - 2) fs d; nth (n - 1) fs d]) true] else []).
  replace (if end_ then guard (2 <=? n)%nat (Ok ((hs ++ lp) ++ [set_end (new_support [nth (n - 2) fs d; nth (n - 1) fs d]) true])) else Ok (hs ++ lp))
    with (Ok (hs ++ lp ++ es)).
  2:{ unfold es. destruct end_; [|now rewrite app_nil_r]. unfold guard. replace (2 <=? n)%nat with true by (symmetry; apply Nat.leb_le; lia). now rewrite app_assoc. }
  set (hp := if start then [Double 0] else Single 0 :: (if middle then [Double 0] else [])).
  set (pp := loop_phases (n - 2) 1 n middle). set (ep := if end_ then [Double (n - 2)] else []).
  assert (Fh : Forall2 (has_feet fs) hs hp).
  { assert (D0 : has_feet fs (new_support [nth 0 fs d; nth 1 fs d]) (Double 0)) by (apply (double_feet fs d 0); lia).
    assert (S0 : has_feet fs (new_support [nth 0 fs d]) (Single 0)) by (apply (single_feet fs d 0); lia).
    unfold hs, hp. destruct start; [constructor; [exact D0|constructor]|]. constructor; [exact S0|]. destruct middle; [constructor; [exact D0|]|]; constructor. }
  assert (Fl : Forall2 (has_feet fs) lp pp) by (apply loop_feet; lia).
  assert (Fe : Forall2 (has_feet fs) es ep).
  { unfold es, ep. destruct end_; constructor; [|constructor]. unfold has_feet. cbn [set_end new_support u_footsteps].
    replace (n - 1)%nat with (n - 2 + 1)%nat by lia. apply double_feet. lia. }
  exists (hs ++ lp ++ es), (hp ++ pp ++ ep). split; [reflexivity|]. split; [now repeat apply Forall2_app|].
  destruct (loop_linked n middle ep) with (k := (n - 3)%nat) (step := 1%nat) as (Ll & r & Lr); [unfold ep; destruct end_; [now right|now left]|lia|].
  replace (S (n - 3)) with (n - 2)%nat in * by lia. fold pp in Ll, Lr.
  split; [|split; [|split]].
  - rewrite Lr in *. unfold hp. destruct start, middle; cbn [app linked follows] in *; auto.
  - unfold singles. rewrite !flat_map_app. fold (singles pp). unfold pp. rewrite loop_singles.
    assert (flat_map (fun ph => match ph with Single i => [i] | Double _ => [] end) ep = []) as -> by (unfold ep; now destruct end_).
    rewrite app_nil_r. unfold hp. destruct start, middle; cbn [flat_map app]; auto; replace (n - 1)%nat with (S (n - 2)) by lia; reflexivity.
  - unfold doubles. rewrite !flat_map_app. fold (doubles pp). unfold pp. rewrite loop_doubles by lia. replace (n - 2 - 1)%nat with (n - 3)%nat by lia.
    assert (flat_map (fun ph => match ph with Single _ => [] | Double i => [i] end) ep = if end_ then [(n - 2)%nat] else []) as -> by (unfold ep; now destruct end_).
    unfold hp. destruct start, middle; reflexivity.
  - intros i s Hi.
    assert (LF : forall s, In s lp -> u_start s = false /\ u_end s = false /\ u_t_start s = -1) by (intros; eapply loop_flags; eauto).
    assert (Lp : (0 < length lp)%nat).
    { pose proof (Tools_proofs.Forall2_len _ _ _ Fl) as Q. rewrite Q. destruct (length pp) eqn:W; [|lia]. apply length_zero_iff_nil in W.
      rewrite W in Lr. unfold ep in Lr. destruct end_; discriminate. }
    assert (Le : length es = if end_ then 1%nat else 0%nat) by (unfold es; now destruct end_).
    rewrite !app_length.
    destruct (Nat.lt_ge_cases i (length hs)) as [I|I].
    + rewrite nth_error_app1 in Hi by auto.
      assert (u_end s = false) as ->.
      { apply nth_error_In in Hi. unfold hs in Hi. destruct start; cbn [In] in Hi; [destruct Hi as [<-|[]]; reflexivity|].
        destruct Hi as [<-|Hi]; [reflexivity|]. destruct middle; cbn [In] in Hi; [destruct Hi as [<-|[]]; reflexivity|destruct Hi]. }
      split; [|split].
      * unfold hs in *. destruct start; [|destruct middle]; destruct i as [|[|i]]; cbn in Hi, I; try lia; injection Hi as <-; cbn; intuition (congruence || lia).
      * split; [discriminate|]. intros [-> W]. lia.
      * unfold hs in *. destruct start; [|destruct middle]; destruct i as [|[|i]]; cbn in Hi, I; try lia; injection Hi as <-; reflexivity.
    + rewrite nth_error_app2 in Hi by auto.
      assert (Hh : (0 < length hs)%nat) by (unfold hs; destruct start; cbn; lia).
      assert (T1 : Nat.eqb i 0 || (Nat.eqb i 1 && middle && negb start) = false).
      { destruct i as [|[|i]]; [lia| |reflexivity]. cbn. destruct start, middle; try reflexivity. unfold hs in I. cbn in I. lia. }
      rewrite T1.
      destruct (Nat.lt_ge_cases (i - length hs) (length lp)) as [J|J].
      * rewrite nth_error_app1 in Hi by auto. apply nth_error_In, LF in Hi as (-> & -> & ->).
        split; [|split]; [| |reflexivity]; (split; [discriminate|]); intros [-> W]; lia.
      * rewrite nth_error_app2 in Hi by auto. unfold es in Hi. destruct end_; [|destruct (i - length hs - length lp)%nat; discriminate].
        destruct (i - length hs - length lp)%nat as [|q] eqn:Q; [|destruct q; discriminate]. injection Hi as <-. cbn.
        split; [split; [discriminate|lia]|]. split; [|reflexivity]. split; [intros _; split; [reflexivity|lia]|reflexivity].
Qed.
Print Assumptions C51_make_supports.

(** With less than three footsteps there is only the final double support, and an access out of bounds if there is not
    even a pair of footsteps. *)
Theorem C51_short fs t start middle end_ : (length fs <= 2)%nat ->
  make_supports fs t start middle end_ =
  if end_ then match fs with [a; b] => Ok [set_end (new_support [a; b]) true] | _ => UB end else Ok [].
Proof.
  intros N. unfold make_supports. replace (Nat.ltb 2 (length fs)) with false by (symmetry; apply Nat.ltb_ge; lia).
  destruct end_; [|reflexivity]. destruct fs as [|a [|b [|c fs]]]; try reflexivity. cbn in N. lia.
Qed.
Print Assumptions C51_short.

Definition ex_walk : list footstep := initial_footsteps ex_params Left frame_id frame_id ++ initial_footsteps ex_params Left (planar 1 0 0) (planar 1 0 0).
Example C51_example : exists l, make_supports ex_walk 3 true true true = Ok l /\ length l = 5%nat /\ map is_both l = [true; false; true; false; true].
Proof. eexists. split; [reflexivity|]. split; reflexivity. Qed.

(** ** C52 *)
Lemma alternating_snoc h : forall l x s, alternating s (x :: l) -> f_side h = other_side (f_side (last (x :: l) x)) -> alternating s ((x :: l) ++ [h]).
Proof.
  induction l as [|y l IH]; intros x s [A B] H; cbn [app alternating].
  - split; auto. cbn in H. now rewrite H, A.
  - split; auto. apply IH; auto. rewrite H. f_equal. f_equal. apply (last_indep l y x y).
Qed.

Theorem C52_repetitive_plan c p x y a nb flying tl tr : positive_limits p ->
  exists l, repetitive_plan c p x y a nb flying tl tr = Some l /\
    length l = (2 + Z.to_nat nb)%nat /\ alternating flying l /\
    nth_error l 0 = Some (create_footstep p flying (target_of tl tr flying)) /\
    nth_error l 1 = Some (create_footstep p (other_side flying) (target_of tl tr (other_side flying))) /\
    (forall i u v, (1 <= i < Z.to_nat nb)%nat -> nth_error l i = Some u -> nth_error l (S i) = Some v ->
       clipped_opposite_footstep c p u x y a = Some v) /\
    (forall u v, (0 < nb)%Z -> nth_error l (Z.to_nat nb) = Some u -> nth_error l (S (Z.to_nat nb)) = Some v -> steps_by p u v v3_zero).
Proof.
  intros P. unfold repetitive_plan. set (f0 := create_footstep p flying (target_of tl tr flying)).
  set (f1 := create_footstep p (other_side flying) (target_of tl tr (other_side flying))).
  change (initial_footsteps p flying tl tr) with [f0; f1]. cbn [nth].
  destruct (Z.ltb_spec 0 nb) as [N|N].
  - destruct (repeat_spec c p x y a P (Z.to_nat (nb - 1)) f1) as (g & l & -> & L & A & La & St).
    rewrite (clipped_zero c p g P). set (h := opposite_footstep p g 0 0 0).
    exists ([f0; f1] ++ l ++ [h]). split; [reflexivity|]. split; [cbn; rewrite app_length; cbn; lia|].
    assert (Sh : f_side h = other_side (f_side (last (f1 :: l) f1))) by (rewrite La; reflexivity).
    split.
    { change ([f0; f1] ++ l ++ [h]) with (f0 :: ((f1 :: l) ++ [h])). cbn [alternating]. split; [reflexivity|]. apply alternating_snoc; auto.
      cbn [alternating]. split; [reflexivity|]. exact A. }
    split; [reflexivity|]. split; [reflexivity|].
    assert (Z1 : Z.to_nat nb = S (Z.to_nat (nb - 1))) by lia.
    split.
    + intros i u v I U V. destruct i as [|i]; [lia|]. cbn [app] in U, V.
      change (nth_error (f1 :: l ++ [h]) i = Some u) in U. change (nth_error (l ++ [h]) i = Some v) in V.
      rewrite nth_error_app1 in V by lia. change (f1 :: l ++ [h]) with ((f1 :: l) ++ [h]) in U. rewrite nth_error_app1 in U by (cbn; lia).
      eapply St; eauto.
    + intros u v _ U V. rewrite Z1 in U, V. cbn [app] in U, V.
      change (nth_error (f1 :: l ++ [h]) (Z.to_nat (nb - 1)) = Some u) in U. change (nth_error (l ++ [h]) (Z.to_nat (nb - 1)) = Some v) in V.
      rewrite nth_error_app2 in V by lia. replace (Z.to_nat (nb - 1) - length l)%nat with 0%nat in V by lia. injection V as <-.
      change (f1 :: l ++ [h]) with ((f1 :: l) ++ [h]) in U. rewrite nth_error_app1 in U by (cbn; lia). rewrite <- L in U.
      assert (u = g) as ->.
      { rewrite <- La. clear - U. revert U. generalize f1. induction l as [|z l IH]; intros f U; [now injection U|].
        cbn [length nth_error] in U. specialize (IH z U). rewrite IH. change (last (z :: l) z = last (z :: l) f). apply last_indep. }
      exact (opposite_steps p g v3_zero).
  - exists [f0; f1]. replace (Z.to_nat nb) with 0%nat by lia. split; [reflexivity|]. split; [reflexivity|]. split; [cbn; auto|].
    split; [reflexivity|]. split; [reflexivity|]. split; intros; lia.
Qed.
Print Assumptions C52_repetitive_plan.

Example C52_example : exists l, repetitive_plan Conic ex_params (1 / 10) 0 0 3 Left frame_id frame_id = Some l /\ length l = 5%nat /\ map f_side l = [Left; Right; Left; Right; Left].
Proof.
  destruct (C52_repetitive_plan Conic ex_params (1 / 10) 0 0 3 Left frame_id frame_id ex_limits) as (l & E & L & A & _).
  exists l. split; [exact E|]. split; [exact L|].
  destruct l as [|a [|b [|c [|d [|e [|]]]]]]; try discriminate L. cbn [alternating other_side] in A. destruct A as (A1 & A2 & A3 & A4 & A5 & _).
  cbn [map]. now rewrite A1, A2, A3, A4, A5.
Qed.

(** ** C53 *)
Lemma naive_move_box p n u v t a b : naive_move p n u v t a b -> exists s, steps_by p u v s /\ allowed Ellipsoid p s /\
  Rabs (vx s) <= n_length n /\ Rabs (vy s) <= n_width n /\ Rabs (vz s) <= n_yaw n.
Proof.
  intros (k & r & ex & ey & yaw & K & R & _ & _ & S & X & Y & Z & A & _). eexists. split; [exact S|]. split; [exact A|].
  cbn [v3_scale vx vy vz]. assert (H : forall e l, Rabs e <= l -> Rabs (k * e) <= l).
  { intros e l H. rewrite Rabs_mult, (Rabs_right k) by lra. pose proof (Rabs_pos e). nra. }
  auto.
Qed.

Theorem C53_naive_plan p n target_left target_right flying tl tr : positive_limits p -> 0 <= n_length n -> 0 <= n_width n -> 0 <= n_yaw n ->
  exists l, naive_plan p n target_left target_right flying tl tr = Some l /\
    (length l <= 2 + Z.to_nat (n_max_steps n))%nat /\ alternating flying l /\
    nth_error l 0 = Some (create_footstep p flying (target_of tl tr flying)) /\
    nth_error l 1 = Some (create_footstep p (other_side flying) (target_of tl tr (other_side flying))) /\
    (forall i u v, (1 <= i)%nat -> nth_error l i = Some u -> nth_error l (S i) = Some v ->
       exists s, steps_by p u v s /\ allowed Ellipsoid p s /\ Rabs (vx s) <= n_length n /\ Rabs (vy s) <= n_width n /\ Rabs (vz s) <= n_yaw n).
Proof.
  intros P A B C. unfold naive_plan. set (s0 := NState _ _ _ _ _). set (f0 := create_footstep p flying (target_of tl tr flying)).
  set (f1 := create_footstep p (other_side flying) (target_of tl tr (other_side flying))).
  change (initial_footsteps p flying tl tr) with [f0; f1].
  assert (H : history_ok p n target_left target_right [f1; f0] s0).
  { exists f1, f0, []. split; [reflexivity|]. split; [reflexivity|]. split; [cbn; now rewrite other_other|].
    split; [unfold f1, s0; destruct flying; reflexivity|]. split; unfold s0; destruct flying; discriminate. }
  destruct (naive_loop_spec p n target_left target_right P (conj A (conj B C)) (Z.to_nat (n_max_steps n)) s0 _ H) as (l & s' & -> & L & _ & _ & Al).
  destruct (Al f1 [f0] eq_refl) as (A1 & A2 & _). exists ([f0; f1] ++ l). split; [reflexivity|]. split; [cbn; lia|].
  split; [cbn [app alternating]; split; [reflexivity|]; split; [reflexivity|exact A1]|]. split; [reflexivity|]. split; [reflexivity|].
  intros [|i] u v I U V; [lia|]. destruct (A2 i u v U V) as (a & b & M). eapply naive_move_box; eauto.
Qed.
Print Assumptions C53_naive_plan.

Example C53_example : exists l, naive_plan ex_params (new_naive ex_params) (planar 1 0 0) (planar 1 (- (1 / 5)) 0) Left (planar 0 0 0) (planar 0 (- (1 / 5)) 0) = Some l /\ (length l <= 102)%nat.
Proof.
  destruct (C53_naive_plan ex_params (new_naive ex_params) (planar 1 0 0) (planar 1 (- (1 / 5)) 0) Left (planar 0 0 0) (planar 0 (- (1 / 5)) 0) ex_limits) as (l & E & L & _); [cbn; lra..|].
  exists l. split; [exact E|exact L].
Qed.

(** ** C61 *)
Theorem C61_queries s :
  (forall f, u_footsteps s = [f] -> support_side s = Ok (f_side f) /\ support_frame s = Ok (f_frame f) /\ is_both s = false /\
     footstep_frame s (f_side f) = Ok (f_frame f) /\ footstep_frame s (other_side (f_side f)) = Throw ELogic) /\
  (forall f g, u_footsteps s = [f; g] -> f_side g = other_side (f_side f) -> support_side s = Throw ERuntime /\ is_both s = true /\
     footstep_frame s (f_side f) = Ok (f_frame f) /\ footstep_frame s (f_side g) = Ok (f_frame g) /\
     support_frame s = Ok (interpolate_frames (f_frame f) (f_frame g) (1 / 2))) /\
  (u_footsteps s = [] -> support_side s = UB /\ support_frame s = UB /\ is_both s = false /\ forall d, footstep_frame s d = Throw ELogic).
Proof.
  assert (R : forall a, side_eqb a a = true) by (now intros []).
  split; [|split].
  - intros f E. unfold support_side, support_frame, is_both, footstep_frame. rewrite E. cbn [find length u_footsteps frame_loop].
    rewrite R. repeat (split; [reflexivity|]). now destruct (f_side f).
  - intros f g E S. unfold support_side, support_frame, is_both, footstep_frame. rewrite E. cbn [find length frame_loop].
    rewrite R, S. split; [reflexivity|]. split; [reflexivity|]. split; [reflexivity|]. split; [|reflexivity].
    replace (side_eqb (f_side f) (other_side (f_side f))) with false by (now destruct (f_side f)). now rewrite R.
  - intros E. unfold support_side, support_frame, is_both, footstep_frame. rewrite E. auto.
Qed.
Print Assumptions C61_queries.

(** The position of the support is the mean of those of its feet, however many there are. *)
Theorem C61_mean s f l : u_footsteps s = f :: l -> exists t, support_frame s = Ok t /\
  forall c, In c [vx; vy; vz] ->
    c (fr_t t) = fold_right Rplus 0 (map (fun g => c (fr_t (f_frame g))) (f :: l)) / INR (length (f :: l)).
Proof.
  intros E. unfold support_frame. rewrite E. eexists. split; [reflexivity|]. intros c C.
  assert (lin : forall a u b v, c (v3_add (v3_scale a u) (v3_scale b v)) = a * c u + b * c v) by (intros; destruct C as [<-|[<-|[<-|[]]]]; reflexivity).
  pose proof (frame_loop_mean c lin l (f_frame f) 1 ltac:(lia)) as M. cbn [map fold_right length].
  replace (IZR (1 + Z.of_nat (length l))) with (INR (S (length l))) in M by (rewrite INR_IZR_INZ; f_equal; lia).
  assert (INR (S (length l)) <> 0) by (apply not_0_INR; lia).
  apply (Rmult_eq_reg_l (INR (S (length l)))); auto. rewrite M. field. auto.
Qed.
Print Assumptions C61_mean.

Example C61_example : support_side (new_support [ex_foot]) = Ok Left /\ footstep_frame (new_support [ex_foot]) Right = Throw ELogic.
Proof. split; reflexivity. Qed.

(** ** C97 *)
Theorem C97_durations p : (0 < p_single_support_timesteps p)%Z -> 0 <= p_single_support_duration p ->
  exists d1 d2 d3, dt p = Some d1 /\ double_support_duration p = Some d2 /\ startend_double_support_duration p = Some d3 /\
    IZR (p_single_support_timesteps p) * d1 = p_single_support_duration p /\
    Rabs (d2 - p_double_support_ratio p * p_single_support_duration p) <= d1 / 2 /\
    Rabs (d3 - p_startend_double_support_ratio p * p_single_support_duration p) <= d1 / 2 /\
    (exists n m, d2 = IZR n * d1 /\ d3 = IZR m * d1).
Proof.
  intros N D. unfold double_support_duration, startend_double_support_duration, dt.
  destruct (Z.eqb_spec (p_single_support_timesteps p) 0); [lia|].
  assert (0 < IZR (p_single_support_timesteps p)) by (now apply IZR_lt).
  set (k := IZR (p_single_support_timesteps p)) in *. set (q := p_single_support_duration p / k).
  assert (Q : 0 <= q) by (apply Rmult_le_pos; [auto|left; now apply Rinv_0_lt_compat]).
  assert (E : k * q = p_single_support_duration p) by (unfold q; field; lra).
  do 3 eexists. split; [reflexivity|]. split; [reflexivity|]. split; [reflexivity|]. split; [exact E|].
  assert (G : forall r, Rabs (IZR (round (r * k)) * q - r * p_single_support_duration p) <= q / 2).
  { intros r. replace (IZR (round (r * k)) * q - r * p_single_support_duration p) with ((IZR (round (r * k)) - r * k) * q) by (rewrite <- E; ring).
    rewrite Rabs_mult, (Rabs_right q) by lra. pose proof (round_half (r * k)). nra. }
  split; [apply G|]. split; [apply G|]. eauto.
Qed.
Print Assumptions C97_durations.

Theorem C97_has_double_support p : (0 < p_single_support_timesteps p)%Z ->
  (has_double_support p = true <-> / 2 <= p_double_support_ratio p * IZR (p_single_support_timesteps p)) /\
  (has_double_support p = false -> 0 <= p_double_support_ratio p -> forall d, double_support_duration p = Some d -> d = 0).
Proof.
  intros N. unfold has_double_support. rewrite Z.ltb_lt. split; [apply round_pos|].
  intros H R d. apply Z.ltb_ge in H. unfold double_support_duration. destruct (dt p) as [q|]; [|discriminate]. intros E. injection E as <-.
  assert (Z : double_support_timesteps p = 0%Z); [|rewrite Z; ring].
  assert (0 <= p_double_support_ratio p * IZR (p_single_support_timesteps p)) by (apply Rmult_le_pos; [auto|apply IZR_le; lia]).
  unfold double_support_timesteps in *. set (r := p_double_support_ratio p * IZR (p_single_support_timesteps p)) in *.
  assert (0 <= round r)%Z; [|lia]. unfold round in *. destruct (Rle_dec 0 r); [|lra]. destruct (archimed (r + / 2)) as [U _].
  assert (0 < up (r + / 2))%Z; [|lia]. apply lt_IZR. lra.
Qed.
Print Assumptions C97_has_double_support.

(** 2.5 timesteps are rounded to 3. *)
Example C97_example : double_support_timesteps ex_params = 3%Z /\ has_double_support ex_params = true.
Proof.
  assert (E : double_support_timesteps ex_params = 3%Z); [|split; [exact E|unfold has_double_support; now rewrite E]].
  unfold double_support_timesteps, round, ex_params. cbn [p_double_support_ratio p_single_support_timesteps].
  destruct Rle_dec as [H|H]; [|lra]. replace (1 / 4 * 10 + / 2) with 3 by lra.
  rewrite <- (tech_up 3 4); [reflexivity|lra|lra].
Qed.

(** ** C98 *)
Theorem C98_overlap_clip c p sd st : positive_limits p -> exists r, overlap_clip c p sd st = Some r /\ - PI < vz r <= PI /\
  (p_max_dtheta p < PI -> allowed c p r) /\
  (forall t, floor_motion t -> exists g, clipped_opposite_footstep c p (create_footstep p sd t) (vx st) (vy st) (vz st) = Some g /\
     steps_by p (create_footstep p sd t) g r).
Proof.
  intros P. destruct (overlap_clip_spec c p sd st P) as (g & s & r & E & S & A & O & X & Y & Z & B).
  exists r. split; [exact O|]. split; [exact B|]. split.
  - intros T. pose proof (allowed_yaw c p s P A) as V.
    assert (vz r = vz s).
    { apply same_angle_unique; auto. revert V. unfold Rabs. destruct Rcase_abs; lra. }
    replace r with s by (apply V3_ext; auto). exact A.
  - intros t (a & x & y & z & ->). set (t0 := translate frame_id _) in *.
    assert (M : exists m, floor_motion m /\ Frame (rot_z a) (V3 x y z) = frame_mul m t0).
    { exists (frame_mul (Frame (rot_z a) (V3 x y z)) (frame_inv t0)). split.
      - unfold t0, translate, frame_inv, frame_id, frame_mul. cbn [fr_R fr_t].
        eexists a, _, _, _. apply Frame_ext; cbn [fr_R fr_t]; [|apply V3_ext; [reflexivity..]].
        apply M3_ext; m3; ring.
      - rewrite frame_mul_assoc, frame_inv_l, frame_mul_id_r by (unfold t0; apply rotation_id). reflexivity. }
    destruct M as (m & Fm & ->). rewrite create_moved, clipped_moved, E by auto. cbn [option_map]. exists (moved m g). split; [reflexivity|].
    destruct S as [S1 S2]. split; [exact S1|]. unfold moved, assign_frame. cbn [f_frame f_side]. rewrite S2, frame_mul_assoc. f_equal. f_equal.
    rewrite X, Y. now apply planar_same, same_angle_sym.
Qed.
Print Assumptions C98_overlap_clip.

Example C98_example : exists r, overlap_clip Box ex_params Left (V3 1 1 1) = Some r.
Proof. destruct (C98_overlap_clip Box ex_params Left (V3 1 1 1) ex_limits) as (r & E & _). eauto. Qed.
