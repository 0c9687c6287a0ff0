(** C158 to C162: the choice of a ZMP and the adaptation of a step to the measured DCM. *)
From Coq Require Import Reals Lra Lia List ZArith Bool Psatz Classical.
From Verif Require Import Base Linalg Geom3 Tools_model Expression_model Expression_spec Expression_proofs Problem_model Problem_spec Problem_proofs
  Problem_proofs2 Problem_proofs3 Problem_props Rewritten_props Polynom_model Polynom_spec Polynom_props Integrator_model
  Lipm_model Swing_model Geometry_model Footsteps_model Wpg_model Wpg_spec Wpg_proofs2 KinCons_spec Kin_proofs KinCons_proofs WpgPlan_spec WpgPlan_proofs WpgPlan_proofs4 WpgPlan_props
  Adapt_model Adapt_spec Adapt_proofs Adapt_proofs2.
Import ListNotations.
Open Scope R_scope.

(** ** C158 *)

Lemma ideal_unique omega d z z' a b : omega * d <> 0 -> drives omega d z a b -> drives omega d z' a b -> z = z'.
Proof.
  intros H H1 H2. apply drives_exp in H1, H2. set (E := exp (omega * d)) in *. assert (X : 1 - E <> 0). { intros Q. apply H, exp_inv. rewrite exp_0. fold E. lra. }
  destruct z as [x y], z' as [x' y']. cbn [fst snd] in *. destruct H1 as [A1 A2], H2 as [B1 B2]. f_equal; apply (Rmult_eq_reg_r (1 - E)); try exact X; lra.
Qed.
Lemma ideal_exists omega d a b : omega * d <> 0 -> exists z, drives omega d z a b.
Proof.
  intros H. set (E := exp (omega * d)). assert (X : 1 - E <> 0). { intros Q. apply H, exp_inv. rewrite exp_0. fold E. lra. }
  exists ((fst b - fst a * E) / (1 - E), (snd b - snd a * E) / (1 - E)). apply drives_exp. fold E. cbn [fst snd]. split; field; exact X.
Qed.

Lemma stands_at_inside hull p s polygon z : snd (support_support_polygon hull s) = Ok polygon -> (stands_at hull p s z <-> inside polygon (w_zmp_margin p) z).
Proof. intros E. unfold stands_at. rewrite E. split; [intros (q & Q & H); injection Q as <-; exact H|eauto]. Qed.

Theorem C158_optimal_zmp L g a b d s : qr_correct (l_qr L) -> qp_correct (l_qp L) -> ~ qr_fails (l_qr L) -> ~ qp_fails (l_qp L) ->
  polygon_ok (l_hull L) s -> g_omega g <> 0 -> d <> 0 ->
  exists ideal, drives (g_omega g) d ideal a b /\ (forall z, drives (g_omega g) d z a b -> z = ideal) /\
  ((exists z, stands_at (l_hull L) (g_params g) s z) ->
     exists z, get_optimal_zmp L g a b d s = Ok z /\ best_zmp (l_hull L) (g_params g) s ideal z) /\
  ((~ exists z, stands_at (l_hull L) (g_params g) s z) -> get_optimal_zmp L g a b d s = Throw EQP).
Proof.
  intros Hqr Hqp Fqr Fqp (polygon & Ep & Np & Ne) Ho Hd. assert (H : g_omega g * d <> 0) by now apply Rmult_integral_contrapositive_currified.
  destruct (ideal_exists (g_omega g) d a b H) as (ideal & Di). exists ideal. split; [exact Di|]. split; [intros z Dz; exact (ideal_unique _ _ _ _ _ _ H Dz Di)|].
  destruct (optimal_zmp_total L Hqr Hqp Fqr Fqp g a b d s polygon ideal Ep Np Ne H Di) as [Yes No]. pose proof (fun z => stands_at_inside (l_hull L) (g_params g) s polygon z Ep) as K. split.
  - intros (z0 & H0). apply K in H0. destruct Yes as (z & E & I & B); [eauto|]. exists z. split; [exact E|]. split; [now apply K|]. intros z' Hz'. apply B. now apply K.
  - intros Hn. apply No. intros (z & Hz). apply Hn. exists z. now apply K.
Qed.

(** There is one best ZMP, and when the ideal one is allowed it is within a ten thousandth of it. *)
Lemma inside_middle polygon m z z' : inside polygon m z -> inside polygon m z' -> inside polygon m ((fst z + fst z') / 2, (snd z + snd z') / 2).
Proof.
  intros H H' i A B E Hne. specialize (H i A B E Hne). specialize (H' i A B E Hne). unfold keeps_margin, right_area in *. cbn [fst snd]. lra.
Qed.
Theorem C158_one_best hull p s ideal z z' : best_zmp hull p s ideal z -> best_zmp hull p s ideal z' -> z = z'.
Proof.
  intros [(q & E & I) B] [(q' & E' & I') B']. rewrite E in E'. injection E' as <-. set (m := ((fst z + fst z') / 2, (snd z + snd z') / 2)).
  assert (Im : stands_at hull p s m) by (exists q; split; [exact E|exact (inside_middle _ _ _ _ I I')]). specialize (B m Im). specialize (B' m Im).
  unfold squared_distance, squared_norm, m, Rsqr in B, B'. cbn [fst snd] in B, B'. destruct z as [x y], z' as [x' y'], ideal as [u v]. cbn [fst snd] in *.
  assert (Q : (x - x') * (x - x') + (y - y') * (y - y') <= 0) by lra.
  pose proof (Rle_0_sqr (x - x')) as P1. pose proof (Rle_0_sqr (y - y')) as P2. unfold Rsqr in P1, P2. f_equal; apply Rminus_diag_uniq, Rsqr_0_uniq; unfold Rsqr; lra.
Qed.
Theorem C158_close_to_ideal hull p s ideal z : best_zmp hull p s ideal z -> stands_at hull p s ideal ->
  squared_distance z ideal <= 1 / 100000000 * squared_norm ideal.
Proof.
  intros [_ B] I. specialize (B ideal I). assert (Z : squared_distance ideal ideal = 0) by (unfold squared_distance, Rsqr; ring).
  assert (P : 0 <= squared_norm z) by (unfold squared_norm; pose proof (Rle_0_sqr (fst z)); pose proof (Rle_0_sqr (snd z)); lra). lra.
Qed.

(** ** C159 *)

Theorem C159_double_support_refused L g t current rest dcm : length (u_footsteps current) = 2%nat -> update_supports L g t (current :: rest) dcm = Throw ERuntime.
Proof. intros H. unfold update_supports. cbn [at_index nth_error obind]. unfold is_both. now rewrite H. Qed.

Lemma adapted L g t current next rest dcm f0 : qr_correct (l_qr L) -> qp_correct (l_qp L) -> ~ qr_fails (l_qr L) -> ~ qp_fails (l_qp L) ->
  u_footsteps current = [f0] -> u_footsteps next <> [] -> polygon_ok (l_hull L) current ->
  usable (w_op_space (g_params g)) -> usable (w_dcm_offset (g_params g)) -> seen_from_above (f_frame f0) ->
  0 < g_omega g -> 0 < p_single_support_duration (w_base (g_params g)) -> u_elapsed_ratio current <> 1 ->
  let p := g_params g in
  let elapsed := t - u_t_start current in
  let allowed := (exists z, stands_at (l_hull L) p current z) /\ exists u, reachable_zone p (f_side f0) u in
  (allowed -> exists ideal z u o T current' next',
     drives (g_omega g) (Rmax (1 / 100000) (p_single_support_duration (w_base p) - elapsed)) ideal dcm (u_target_world_dcm current) /\
     best_zmp (l_hull L) p current ideal z /\
     possible_step p (g_omega g) elapsed (f_side f0) (f_frame f0) z dcm u o T /\
     update_supports L g t (current :: next :: rest) dcm = Ok (current' :: next' :: rest) /\
     retimed current current' /\ lasts (w_base p) current' (Rmax (1 / 1000) (T - elapsed)) /\
     first_moved (placed (f_frame f0) u) next next' /\
     ((forall pb a, update_problem L g t current next dcm = Ok pb -> assemble pb (l_qr L) = Ok a ->
        forall c, In c (p_cons pb) -> c_prio c = Soft -> c_type c = Equality -> Problem_spec.contiguous (reduced pb a c)) ->
      forall nf, support_frame next = Ok nf -> best_step p (g_omega g) elapsed (f_side f0) (f_frame f0) z dcm (vx (fr_t nf), vy (fr_t nf)) (u_target_world_dcm current) u o T)) /\
  (~ allowed -> update_supports L g t (current :: next :: rest) dcm = Throw EQP).
Proof.
  intros Hqr Hqp Fqr Fqp Hc Hnx Hp Ho Hd Hf Hom HT Her p elapsed allowed.
  set (T0 := p_single_support_duration (w_base p)) in *. assert (HT0 : T0 <> 0) by (change (0 < T0) in HT; lra). set (d := Rmax (1 / 100000) (T0 - elapsed)).
  assert (Hd0 : d <> 0) by (unfold d; pose proof (Rmax_l (1 / 100000) (T0 - elapsed)); lra).
  destruct (C158_optimal_zmp L g dcm (u_target_world_dcm current) d current Hqr Hqp Fqr Fqp Hp ltac:(lra) Hd0) as (ideal & Di & _ & Yes & No).
  assert (Hn : exists nf, support_frame next = Ok nf) by (unfold support_frame; destruct (u_footsteps next); [congruence|eauto]). destruct Hn as (nf & Hn).
  assert (Start : update_supports L g t (current :: next :: rest) dcm = _) by (unfold update_supports; cbn [at_index nth_error obind]; unfold is_both at 1; rewrite Hc; cbn [length Nat.eqb]; reflexivity).
  rewrite Start. clear Start.
  destruct (classic (exists z, stands_at (l_hull L) p current z)) as [A|A].
  - destruct (Yes A) as (z & Ez & Bz).
    destruct (step_problem L g t current next dcm z f0 nf Hc Hn Ez Ho Hd Hom) as (pb & c8 & v0 & v1 & gap & E & N & Sp & Rw & Rg & V0 & V1 & K0 & S0 & K1 & S1 & Re & So & Fe & M8 & Hh & Hg & Hco).
    rewrite E. cbn [obind].
    assert (In' : independent_equalities pb).
    { apply (one_equality_independent pb c8 _ _ _ Fe M8); [lia|]. intros a b. destruct (placed_onto f0 Hf (a + fst z) (b + snd z)) as (u & Eu).
      exists (fun i => match i with O => fst u | S O => snd u | _ => 0 end). unfold x_zmp, x_off. cbn [fst snd]. rewrite !Rplus_0_r. replace (fst u, snd u) with u by now destruct u.
      rewrite Eu. cbn [fst snd]. split; ring. }
    destruct (solve_answers L pb _ Hqr Hqp Fqr Fqp Re ltac:(rewrite N; exact So) Rw In' ltac:(lra)) as [Can Cannot]. split.
    + intros (_ & Hz). destruct (some_step g t current dcm z f0 Hf Hz) as (u0 & o0 & T1 & P1).
      destruct Can as (pb' & Es).
      { exists (fun i => match i with O => fst u0 | 1%nat => snd u0 | 2%nat => exp (g_omega g * T1) | 3%nat => fst o0 | _ => snd o0 end). apply Hh. exists T1. split; [reflexivity|].
        unfold x_zmp, x_off. replace (fst u0, snd u0) with u0 by now destruct u0. replace (fst o0, snd o0) with o0 by now destruct o0. exact P1. }
      unfold solve_or_throw. rewrite Es. cbn [obind].
      destruct (value_read pb _ _ pb' 0 v0 Es V0) as (w & Ew & Hw). rewrite Ew. cbn [obind]. destruct (value_read pb _ _ pb' 1 v1 Es V1) as (w1 & Ew1 & Hw1). rewrite Ew1. cbn [obind].
      assert (Fc : support_frame current = Ok (f_frame f0)) by (unfold support_frame; now rewrite Hc). rewrite Fc. cbn [obind]. unfold move_first. destruct (u_footsteps next) as [|fn ln] eqn:En; [congruence|]. cbn [obind].
      unfold support_default_duration. unfold is_both. rewrite Hc. cbn [length Nat.eqb obind]. fold p. fold T0.
      pose proof (C20_feasible pb _ _ pb' Hqr Hqp Es) as Fb. apply Hh in Fb. destruct Fb as (T & ET & PT).
      assert (Ht0 : T0 * (1 - u_elapsed_ratio current) <> 0) by (apply Rmult_integral_contrapositive_currified; [exact HT0|intros Q; apply Her; lra]).
      destruct (Req_EM_T (T0 * (1 - u_elapsed_ratio current)) 0) as [Q|_]; [contradiction|]. cbn [guard tl].
      rewrite S0 in Hw. rewrite K0 in Hw. rewrite S1 in Hw1. rewrite K1 in Hw1. rewrite (Hw 0%nat), (Hw 1%nat), (Hw1 0%nat) by lia. cbn [Nat.add]. rewrite ET.
      set (x := vat (p_x pb')) in *. exists ideal, z, (x_zmp x), (x_off x), T. do 2 eexists. split; [exact Di|]. split; [exact Bz|]. split; [exact PT|]. split; [reflexivity|]. split; [repeat split|]. split.
      * exists T0. unfold default_duration. cbn [set_time_ratio u_footsteps u_elapsed_ratio u_time_ratio]. rewrite Hc. cbn [length Nat.eqb]. split; [reflexivity|].
        unfold remaining_time. destruct (Rle_dec (exp (g_omega g * T)) 0) as [Q|_]; [pose proof (exp_pos (g_omega g * T)); lra|].
        rewrite ln_exp. replace (g_omega g * T / g_omega g - (t - u_t_start current)) with (T - elapsed) by (unfold elapsed; field; lra). field. split; [intros Q; apply Her; lra|exact HT0].
      * split; [unfold first_moved; rewrite En; do 3 eexists; split; [reflexivity|]; split; [reflexivity|]; repeat split|]. intros Ct nf' Hn'. rewrite Hn in Hn'. injection Hn' as <-.
        assert (Bx : forall y, hard_holds (p_cons pb) y -> cost pb x <= cost pb y).
        { refine (proj2 (C16_rewritten_partial pb (l_qr L) (l_qp L) pb' Hqr Hqp Sp _ _ Es)).
          - intros c Hin Hs _. pose proof (proj1 (Forall_forall _ _) So c Hin) as (_ & _ & _ & S4). apply Rlt_le. now apply S4.
          - intros a Ha. exact (Ct pb a eq_refl Ha). }
        exists (Rsum (length (w_dcm_offset p)) (fun i => Rsqr (Rmin 0 (gap x i)))). split; [exists (gap x); split; [intros i A' B' He; exact (Hg x i A' B' He)|reflexivity]|].
        intros u' o' T' v' P' (gap' & G' & ->).
        set (y := fun i => match i with O => fst u' | 1%nat => snd u' | 2%nat => exp (g_omega g * T') | 3%nat => fst o' | _ => snd o' end).
        assert (Yu : x_zmp y = u') by (unfold x_zmp, y; now destruct u'). assert (Yo : x_off y = o') by (unfold x_off, y; now destruct o').
        assert (Hy : hard_holds (p_cons pb) y) by (apply Hh; exists T'; split; [reflexivity|]; rewrite Yu, Yo; exact P').
        specialize (Bx y Hy). pose proof (Hco x) as Cx. pose proof (Hco y) as Cy. rewrite Yu, Yo in Cy. change (y 2%nat) with (exp (g_omega g * T')) in Cy. rewrite ET in Cx.
        assert (Eg : Rsum (length (w_dcm_offset p)) (fun i => Rsqr (Rmin 0 (gap y i))) = Rsum (length (w_dcm_offset p)) (fun i => Rsqr (Rmin 0 (gap' i)))).
        { apply Rsum_ext. intros i Hi. destruct (edge_some (w_dcm_offset p) i Hi) as (A' & B' & He). rewrite (Hg y i A' B' He), (G' i A' B' He), Yo. reflexivity. }
        change (g_params g) with p in Cy. rewrite Eg in Cy. unfold step_cost. fold T0. change (g_params g) with p in Cx. fold T0 in Cx, Cy. apply Rle_trans with (2 * cost pb x); [rewrite Cx; apply Rle_refl|]. apply Rle_trans with (2 * cost pb y); [lra|rewrite Cy; apply Rle_refl].
    + intros Na. rewrite Cannot; [reflexivity|]. intros (x & Hx). apply Na. split; [exact A|]. apply Hh in Hx. destruct Hx as (T & _ & Z & _). eauto.
  - split; [intros [H _]; contradiction|]. intros _. specialize (No A).
    assert (E : update_problem L g t current next dcm = Throw EQP) by (eapply update_problem_throws; eassumption). now rewrite E.
Qed.
Theorem C159_step_adapted L g t current next rest dcm f0 : qr_correct (l_qr L) -> qp_correct (l_qp L) -> ~ qr_fails (l_qr L) -> ~ qp_fails (l_qp L) ->
  u_footsteps current = [f0] -> u_footsteps next <> [] -> polygon_ok (l_hull L) current ->
  usable (w_op_space (g_params g)) -> usable (w_dcm_offset (g_params g)) -> seen_from_above (f_frame f0) ->
  0 < g_omega g -> 0 < p_single_support_duration (w_base (g_params g)) -> u_elapsed_ratio current <> 1 ->
  let p := g_params g in
  let elapsed := t - u_t_start current in
  let allowed := (exists z, stands_at (l_hull L) p current z) /\ exists u, reachable_zone p (f_side f0) u in
  (allowed -> exists ideal z u o T current' next',
     drives (g_omega g) (Rmax (1 / 100000) (p_single_support_duration (w_base p) - elapsed)) ideal dcm (u_target_world_dcm current) /\
     best_zmp (l_hull L) p current ideal z /\
     possible_step p (g_omega g) elapsed (f_side f0) (f_frame f0) z dcm u o T /\
     update_supports L g t (current :: next :: rest) dcm = Ok (current' :: next' :: rest) /\
     retimed current current' /\ lasts (w_base p) current' (Rmax (1 / 1000) (T - elapsed)) /\
     first_moved (placed (f_frame f0) u) next next') /\
  (~ allowed -> update_supports L g t (current :: next :: rest) dcm = Throw EQP).
Proof.
  intros Hqr Hqp Fqr Fqp Hc Hnx Hp Ho Hd Hf Hom HT Her p elapsed allowed.
  destruct (adapted L g t current next rest dcm f0 Hqr Hqp Fqr Fqp Hc Hnx Hp Ho Hd Hf Hom HT Her) as [A B]. split; [|exact B]. intros Al.
  destruct (A Al) as (ideal & z & u & o & T & c' & n' & H1 & H2 & H3 & H4 & H5 & H6 & H7 & _). exists ideal, z, u, o, T, c', n'. auto 8.
Qed.

(** The step that is chosen has the smallest cost among the possible ones, provided the columns of the soft equalities are contiguous
    once the hard equality is eliminated. Missing: the other matrices, for which the objective may be wrong (C16). *)
Theorem C159_best_step_partial L g t current next rest dcm f0 nf : qr_correct (l_qr L) -> qp_correct (l_qp L) -> ~ qr_fails (l_qr L) -> ~ qp_fails (l_qp L) ->
  u_footsteps current = [f0] -> support_frame next = Ok nf -> polygon_ok (l_hull L) current ->
  usable (w_op_space (g_params g)) -> usable (w_dcm_offset (g_params g)) -> seen_from_above (f_frame f0) ->
  0 < g_omega g -> 0 < p_single_support_duration (w_base (g_params g)) -> u_elapsed_ratio current <> 1 ->
  (forall pb a, update_problem L g t current next dcm = Ok pb -> assemble pb (l_qr L) = Ok a ->
     forall c, In c (p_cons pb) -> c_prio c = Soft -> c_type c = Equality -> Problem_spec.contiguous (reduced pb a c)) ->
  let p := g_params g in
  let elapsed := t - u_t_start current in
  forall current' next' rest', update_supports L g t (current :: next :: rest) dcm = Ok (current' :: next' :: rest') ->
  exists z u o T,
    best_step p (g_omega g) elapsed (f_side f0) (f_frame f0) z dcm (vx (fr_t nf), vy (fr_t nf)) (u_target_world_dcm current) u o T /\
    possible_step p (g_omega g) elapsed (f_side f0) (f_frame f0) z dcm u o T /\
    lasts (w_base p) current' (Rmax (1 / 1000) (T - elapsed)) /\ first_moved (placed (f_frame f0) u) next next'.
Proof.
  intros Hqr Hqp Fqr Fqp Hc Hn Hp Ho Hd Hf Hom HT Her Ct p elapsed c' n' r' E.
  assert (Hnx : u_footsteps next <> []) by (intros Q; unfold support_frame in Hn; rewrite Q in Hn; discriminate Hn).
  destruct (adapted L g t current next rest dcm f0 Hqr Hqp Fqr Fqp Hc Hnx Hp Ho Hd Hf Hom HT Her) as [A B].
  match type of A with ?P -> _ => destruct (classic P) as [Al|Al] end; [|specialize (B Al); congruence].
  destruct (A Al) as (ideal & z & u & o & T & c & n & _ & _ & H3 & H4 & _ & H6 & H7 & H8). rewrite E in H4. injection H4 as -> -> ->. exists z, u, o, T. auto.
Qed.

(** ** What a successful call changes *)

Lemma update_inv L g t supports dcm l : update_supports L g t supports dcm = Ok l ->
  exists current next rest current' next' P, supports = current :: next :: rest /\ l = current' :: next' :: rest /\ retimed current current' /\ first_moved P next next'.
Proof.
  unfold update_supports. destruct supports as [|current [|next rest]]; cbn [at_index nth_error obind]; [discriminate|destruct (is_both current); discriminate|]. destruct (is_both current); [discriminate|].
  destruct (update_problem L g t current next dcm) as [pb| |]; cbn [obind]; [|discriminate|discriminate]. destruct (solve_or_throw L pb) as [pb'| |]; cbn [obind]; [|discriminate|discriminate].
  destruct (value_of pb' 0) as [zmp| |]; cbn [obind]; [|discriminate|discriminate]. destruct (value_of pb' 1) as [tau| |]; cbn [obind]; [|discriminate|discriminate].
  destruct (support_frame current) as [f| |]; cbn [obind]; [|discriminate|discriminate]. unfold move_first. destruct (u_footsteps next) as [|fn ln] eqn:En; cbn [obind]; [discriminate|].
  destruct (support_default_duration _ _) as [d| |]; cbn [obind]; [|discriminate|discriminate]. destruct (Req_EM_T _ _); cbn [guard]; [discriminate|]. cbn [tl]. intros E.
  match type of E with Ok (?a :: ?b :: ?r) = _ => exists current, next, rest, a, b end.
  match type of E with Ok (_ :: Support (move_footstep _ ?x ?y :: _) _ _ _ _ _ _ _ _ :: _) = _ => exists (x, y) end.
  split; [reflexivity|]. split; [now injection E as <-|]. split; [repeat split|].
  unfold first_moved. rewrite En. do 3 eexists. split; [reflexivity|]. split; [reflexivity|]. repeat split; reflexivity.
Qed.

(** ** C160 *)

(** The same support, as if no polygon had been computed. *)
Definition forget (s : support) : support :=
  Support (map (fun f => Footstep (f_width f) (f_length f) (f_side f) (f_frame f) [] false) (u_footsteps s)) (u_t_start s) (u_elapsed_ratio s) (u_time_ratio s)
    (u_target_world_dcm s) (u_start s) (u_end s) [] false.

Lemma polygons_forget l : (forall f, In f l -> f_computed f = false) ->
  snd (polygons (map (fun f => Footstep (f_width f) (f_length f) (f_side f) (f_frame f) [] false) l)) = snd (polygons l).
Proof.
  induction l as [|f l IH]; intros H; [reflexivity|]. cbn [map polygons]. specialize (IH (fun f' Hf => H f' (or_intror Hf))).
  unfold support_polygon. cbn [f_computed f_frame f_width f_length f_side]. rewrite (H f (or_introl eq_refl)). destruct (polygons l), (polygons (map _ l)). cbn [snd] in *. now subst.
Qed.

(** A support that has a polygon keeps it although its footstep is moved. *)
Theorem C160_kept_polygon_behaviour L g t current next rest dcm current' next' rest' :
  update_supports L g t (current :: next :: rest) dcm = Ok (current' :: next' :: rest') -> u_computed next = true ->
  forall hull, snd (support_support_polygon hull next') = Ok (u_polygon next).
Proof.
  intros E H hull. destruct (update_inv _ _ _ _ _ _ E) as (c & n & r & c' & n' & P & Es & El & _ & Mv). injection Es as <- <- <-. injection El as <- <- <-.
  destruct Mv as (f & f' & l & _ & _ & _ & _ & _ & _ & _ & _ & _ & _ & _ & _ & _ & _ & _ & Ep & Ec). unfold support_support_polygon. rewrite Ec, H. cbn [snd]. now rewrite Ep.
Qed.

(** Missing: the supports whose polygon, or whose footsteps', was read before. *)
Theorem C160_polygon_partial L g t current next rest dcm current' next' rest' :
  update_supports L g t (current :: next :: rest) dcm = Ok (current' :: next' :: rest') ->
  u_computed next = false -> (forall f, In f (u_footsteps next) -> f_computed f = false) ->
  forall hull, snd (support_support_polygon hull next') = snd (support_support_polygon hull (forget next')).
Proof.
  intros E H Hf hull. destruct (update_inv _ _ _ _ _ _ E) as (c & n & r & c' & n' & P & Es & El & _ & Mv). injection Es as <- <- <-. injection El as <- <- <-.
  destruct Mv as (f & f' & l & En & En' & _ & _ & _ & _ & _ & _ & Ef & _ & _ & _ & _ & _ & _ & Ep & Ec). unfold support_support_polygon. rewrite Ec, H. cbn [forget u_computed u_footsteps].
  assert (K : forall f, In f (u_footsteps next') -> f_computed f = false).
  { rewrite En'. intros x [<-|Hx]; [rewrite Ef; apply Hf; rewrite En; now left|apply Hf; rewrite En; now right]. }
  pose proof (polygons_forget _ K) as Q. destruct (polygons (u_footsteps next')) as [l1 p1], (polygons (map _ (u_footsteps next'))) as [l2 p2]. cbn [snd] in Q. subst p2. destruct (hull p1); reflexivity.
Qed.

(** ** C161 *)

(** Missing: the supports whose first footstep is that of the foot that stands. *)
Theorem C161_standing_foot_partial L g t current next rest dcm current' next' rest' f1 l :
  update_supports L g t (current :: next :: rest) dcm = Ok (current' :: next' :: rest') -> u_footsteps next = f1 :: l ->
  u_footsteps current' = u_footsteps current /\
  forall f, In f (u_footsteps next') -> f_side f <> f_side f1 -> In f (u_footsteps next).
Proof.
  intros E En. destruct (update_inv _ _ _ _ _ _ E) as (c & n & r & c' & n' & P & Es & El & Rt & Mv). injection Es as <- <- <-. injection El as <- <- <-.
  split; [apply Rt|]. destruct Mv as (f & f' & l' & E1 & E2 & _ & _ & Sd & _). rewrite En in E1. injection E1 as <- <-. rewrite E2, En. intros x [<-|Hx] Hs; [congruence|now right].
Qed.

(** The first footstep of the next support is moved, be it the foot that stands; the others are not. *)
Theorem C161_first_foot_behaviour L g t current next rest dcm current' next' rest' f1 l :
  update_supports L g t (current :: next :: rest) dcm = Ok (current' :: next' :: rest') -> u_footsteps next = f1 :: l ->
  exists f1', u_footsteps next' = f1' :: l /\ f_side f1' = f_side f1.
Proof.
  intros E En. destruct (update_inv _ _ _ _ _ _ E) as (c & n & r & c' & n' & P & Es & El & _ & Mv). injection Es as <- <- <-. injection El as <- <- <-.
  destruct Mv as (f & f' & l' & E1 & E2 & _ & _ & Sd & _). rewrite En in E1. injection E1 as <- <-. eauto.
Qed.

(** ** C162 *)

(** Missing: the zones whose image in the plane x = 0 is not themselves. *)
Theorem C162_mirrored_zone_partial p u : (forall x y, inside (w_op_space p) 0 (- x, y) <-> inside (w_op_space p) 0 (x, y)) ->
  (reachable_zone p Left u <-> reachable_zone p Right (fst u, - snd u)).
Proof. intros H. cbn [reachable_zone]. apply H. Qed.

(** ** Examples *)

Definition ex_adapt (op : list point) : wpg :=
  new_wpg (WParams ex_gait (980665 / 1000000) 0 (1/20) (1/5) (1/50) (1/1000) 0 0 op (rectangle (-1) 1 (-1) 1)).
(** Forward, and away from the other foot, when the right foot stands. *)
Definition ex_zone : list point := rectangle (1/10) (2/10) (1/10) (2/10).
Definition ex_current : support := new_support [ex_left].

Lemma rectangle_usable x0 x1 y0 y1 : x0 < x1 -> y0 < y1 -> usable (rectangle x0 x1 y0 y1).
Proof. intros Hx Hy. split; [discriminate|]. intros i A B. now apply rectangle_ok. Qed.
Lemma ex_adapt_omega op : 0 < g_omega (ex_adapt op).
Proof. cbn [ex_adapt new_wpg g_omega w_com_height]. unfold compute_omega. apply sqrt_lt_R0. lra. Qed.
Lemma ex_current_polygon : polygon_ok (l_hull ex_libs) ex_current.
Proof. exists (rectangle (- (1/10)) (1/10) (1/20) (3/20)). split; [exact ex_left_polygon|]. split; [discriminate|]. intros i A B. apply rectangle_ok; lra. Qed.
Lemma ex_current_stands op : stands_at (l_hull ex_libs) (g_params (ex_adapt op)) ex_current (0, 1/10).
Proof. exists (rectangle (- (1/10)) (1/10) (1/20) (3/20)). split; [exact ex_left_polygon|]. apply rectangle_inside; cbn; lra. Qed.
Lemma ex_left_zone u : reachable_zone (g_params (ex_adapt ex_zone)) Left u <-> - (2/10) <= fst u <= - (1/10) /\ - (2/10) <= snd u <= - (1/10).
Proof. cbn [reachable_zone ex_adapt new_wpg g_params w_op_space]. unfold ex_zone. rewrite rectangle_inside by lra. lra. Qed.

(** The ZMP, when the DCM should come back above the foot. *)
Example C158_example : polygon_ok (l_hull ex_libs) ex_current /\ g_omega (ex_adapt ex_zone) <> 0 /\
  (exists z, get_optimal_zmp ex_libs (ex_adapt ex_zone) (1/10, 0) (0, 0) 1 ex_current = Ok z) /\
  exists z, best_zmp ex_hull (g_params (ex_adapt ex_zone)) ex_current (0, 1/10) z.
Proof.
  destruct ex_contracts as (_ & Hqr & Hqp & Hqr' & Hqp'). pose proof (ex_adapt_omega ex_zone) as Om. split; [exact ex_current_polygon|]. split; [lra|].
  split; [|].
  - destruct (C158_optimal_zmp ex_libs (ex_adapt ex_zone) (1/10, 0) (0, 0) 1 ex_current Hqr Hqp Hqr' Hqp' ex_current_polygon ltac:(lra) ltac:(lra)) as (i & _ & _ & Y & _).
    destruct Y as (z & E & _); [exists (0, 1/10); apply ex_current_stands|eauto].
  - set (g := ex_adapt ex_zone) in *. destruct (C158_optimal_zmp ex_libs g (0, 1/10) (0, 1/10) 1 ex_current Hqr Hqp Hqr' Hqp' ex_current_polygon ltac:(lra) ltac:(lra)) as (i & D & U & Y & _).
    assert (Ei : (0, 1/10) = i). { apply U. apply drives_exp. cbn [fst snd]. lra. }
    destruct Y as (z & _ & B); [exists (0, 1/10); apply ex_current_stands|]. rewrite <- Ei in B. eauto.
Qed.

Lemma ex_adapted next rest dcm : u_footsteps next <> [] -> exists ideal z u o T current' next',
  drives (g_omega (ex_adapt ex_zone)) (Rmax (1 / 100000) 1) ideal dcm (0, 0) /\ best_zmp ex_hull (g_params (ex_adapt ex_zone)) ex_current ideal z /\
  possible_step (g_params (ex_adapt ex_zone)) (g_omega (ex_adapt ex_zone)) 0 Left (f_frame ex_left) z dcm u o T /\
  update_supports ex_libs (ex_adapt ex_zone) (-1) (ex_current :: next :: rest) dcm = Ok (current' :: next' :: rest) /\
  retimed ex_current current' /\ lasts ex_gait current' (Rmax (1 / 1000) T) /\ first_moved (placed (f_frame ex_left) u) next next'.
Proof.
  intros Hn. destruct ex_contracts as (_ & Hqr & Hqp & Hqr' & Hqp').
  assert (Zn : usable (w_op_space (g_params (ex_adapt ex_zone)))) by (apply rectangle_usable; lra).
  assert (Zd : usable (w_dcm_offset (g_params (ex_adapt ex_zone)))) by (apply rectangle_usable; lra).
  assert (Sf : seen_from_above (f_frame ex_left)) by (unfold seen_from_above; cbn; lra).
  destruct (C159_step_adapted ex_libs (ex_adapt ex_zone) (-1) ex_current next rest dcm ex_left Hqr Hqp Hqr' Hqp' eq_refl Hn ex_current_polygon Zn Zd Sf
    (ex_adapt_omega ex_zone) ltac:(cbn; lra) ltac:(cbn; lra)) as [Y _].
  destruct Y as (ideal & z & u & o & T & c' & n' & H).
  { split; [exists (0, 1/10); apply ex_current_stands|]. exists (- (15/100), - (15/100)). apply ex_left_zone. cbn [fst snd]. lra. }
  exists ideal, z, u, o, T, c', n'. cbn [ex_current new_support u_t_start u_target_world_dcm] in H. replace (-1 - -1) with 0 in H by ring. rewrite !Rminus_0_r in H. exact H.
Qed.

(** A step is chosen whatever the measured DCM; without a zone for the next foot, none is. *)
Example C159_example dcm : (exists c' n', update_supports ex_libs (ex_adapt ex_zone) (-1) [ex_current; new_support [ex_right]] dcm = Ok [c'; n']) /\
  update_supports ex_libs (ex_adapt (rectangle 0 1 1 0)) (-1) [ex_current; new_support [ex_right]] dcm = Throw EQP /\
  update_supports ex_libs (ex_adapt ex_zone) (-1) [new_support [ex_left; ex_right]; new_support [ex_right]] dcm = Throw ERuntime.
Proof.
  split; [|split].
  - destruct (ex_adapted (new_support [ex_right]) [] dcm ltac:(discriminate)) as (_ & _ & _ & _ & _ & c' & n' & _ & _ & _ & E & _). eauto.
  - destruct ex_contracts as (_ & Hqr & Hqp & Hqr' & Hqp'). set (op := rectangle 0 1 1 0).
    assert (N : forall i A B, edge op i A B -> A <> B) by (intros i A B E Q; subst B; destruct A as [a b]; apply rectangle_edges in E; destruct E as [E|[E|[E|E]]]; injection E; intros; lra).
    assert (Zn : usable (w_op_space (g_params (ex_adapt op)))) by (split; [discriminate|exact N]).
    assert (Zd : usable (w_dcm_offset (g_params (ex_adapt op)))) by (apply rectangle_usable; lra).
    assert (Sf : seen_from_above (f_frame ex_left)) by (unfold seen_from_above; cbn; lra). assert (Hn : u_footsteps (new_support [ex_right]) <> []) by discriminate.
    destruct (C159_step_adapted ex_libs (ex_adapt op) (-1) ex_current (new_support [ex_right]) [] dcm ex_left Hqr Hqp Hqr' Hqp' eq_refl Hn ex_current_polygon Zn Zd Sf
      (ex_adapt_omega op) ltac:(cbn; lra) ltac:(cbn; lra)) as [_ No]. apply No.
    intros (_ & (u & Hu)). cbn [ex_left create_footstep f_side reachable_zone ex_adapt new_wpg g_params w_op_space] in Hu.
    pose proof (Hu 0%nat (0, 0) (1, 0) (conj eq_refl eq_refl) ltac:(intros Q; injection Q; lra)) as H0. pose proof (Hu 2%nat (1, 1) (0, 1) (conj eq_refl eq_refl) ltac:(intros Q; injection Q; lra)) as H2.
    unfold keeps_margin, right_area in H0, H2. cbn [fst snd] in H0, H2. lra.
  - now apply C159_double_support_refused.
Qed.

(** With the polygon of the next support known, as it is after a call of plan. *)
Theorem C160_polygon_refuted : ~ forall L g t current next rest dcm current' next' rest',
  update_supports L g t (current :: next :: rest) dcm = Ok (current' :: next' :: rest') ->
  snd (support_support_polygon (l_hull L) next') = snd (support_support_polygon (l_hull L) (forget next')).
Proof.
  intros F. set (next := fst (support_support_polygon ex_hull (new_support [ex_right]))).
  destruct (ex_adapted next [] (0, 0) ltac:(discriminate)) as (_ & _ & u & _ & _ & c' & n' & _ & _ & (Hu & _) & E & _ & _ & Mv).
  specialize (F _ _ _ _ _ _ _ _ _ _ E). rewrite (C160_kept_polygon_behaviour _ _ _ _ _ _ _ _ _ _ E eq_refl) in F. apply ex_left_zone in Hu.
  destruct Mv as (f & f' & l & E1 & E2 & Et & Er & Sd & Wd & Ln & _). injection E1 as <- <-. unfold support_support_polygon in F. cbn [forget u_computed u_footsteps] in F. rewrite E2 in F.
  cbn [map polygons support_polygon f_computed f_polygon compute_polygon app ex_libs l_hull ex_hull] in F. unfold corner in F. cbn [f_frame f_length f_width] in F. rewrite Ln, Wd in F. unfold frame_act in F. rewrite Et, Er in F.
  unfold next in F. cbn in F. injection F. intros. lra.
Qed.
Example C160_example : exists c' n' c'' n'', let next := fst (support_support_polygon ex_hull (new_support [ex_right])) in
  update_supports ex_libs (ex_adapt ex_zone) (-1) [ex_current; next] (0, 0) = Ok [c'; n'] /\ u_computed next = true /\
  update_supports ex_libs (ex_adapt ex_zone) (-1) [ex_current; new_support [ex_right]] (0, 0) = Ok [c''; n''] /\ u_computed (new_support [ex_right]) = false /\
  forall f, In f (u_footsteps (new_support [ex_right])) -> f_computed f = false.
Proof.
  destruct (ex_adapted (fst (support_support_polygon ex_hull (new_support [ex_right]))) [] (0, 0) ltac:(discriminate)) as (_ & _ & _ & _ & _ & c' & n' & _ & _ & _ & E & _).
  destruct (ex_adapted (new_support [ex_right]) [] (0, 0) ltac:(discriminate)) as (_ & _ & _ & _ & _ & c'' & n'' & _ & _ & _ & E' & _).
  exists c', n', c'', n''. cbv zeta. split; [exact E|]. split; [reflexivity|]. split; [exact E'|]. split; [reflexivity|]. intros f [<-|[]]. reflexivity.
Qed.

(** The supports that the planner makes, with double supports between the steps. *)
Theorem C161_standing_foot_refuted : ~ forall L g footsteps t supports dcm current' next' rest' f f',
  make_supports footsteps (-1) false true true = Ok supports -> update_supports L g t supports dcm = Ok (current' :: next' :: rest') ->
  In f (u_footsteps current') -> In f' (u_footsteps next') -> f_side f' = f_side f -> fr_t (f_frame f') = fr_t (f_frame f).
Proof.
  intros F. assert (M : exists rest, make_supports [ex_left; ex_right; ex_left] (-1) false true true = Ok (ex_current :: new_support [ex_left; ex_right] :: rest)) by (eexists; reflexivity). destruct M as (rest & M).
  destruct (ex_adapted (new_support [ex_left; ex_right]) rest (0, 0) ltac:(discriminate)) as (_ & _ & u & _ & _ & c' & n' & _ & _ & (Hu & _) & E & Rt & _ & Mv).
  destruct Rt as (Ec & _). destruct Mv as (f & f' & l & E1 & E2 & Et & _ & Sd & _). injection E1 as <- <-. apply ex_left_zone in Hu.
  assert (Q : fr_t (f_frame f') = fr_t (f_frame ex_left)).
  { apply (F _ _ _ _ _ _ _ _ _ ex_left f' M E); [rewrite Ec; now left|rewrite E2; now left|exact Sd]. }
  rewrite Et in Q. apply (f_equal vx) in Q. cbn in Q. lra.
Qed.
Example C161_example : exists c' n' r', update_supports ex_libs (ex_adapt ex_zone) (-1) [ex_current; new_support [ex_right; ex_left]] (0, 0) = Ok (c' :: n' :: r').
Proof.
  destruct (ex_adapted (new_support [ex_right; ex_left]) [] (0, 0) ltac:(discriminate)) as (_ & _ & _ & _ & _ & c' & n' & _ & _ & _ & E & _). eauto.
Qed.

(** The robot stands on its left foot: the next foot should be in the image, in the plane y = 0, of the zone of the parameters. *)
Theorem C162_mirrored_zone_refuted : ~ forall L g t current next rest dcm current' next' rest' f0 u,
  update_supports L g t (current :: next :: rest) dcm = Ok (current' :: next' :: rest') ->
  u_footsteps current = [f0] -> f_side f0 = Left -> seen_from_above (f_frame f0) -> first_moved (placed (f_frame f0) u) next next' ->
  inside (w_op_space (g_params g)) 0 (fst u, - snd u).
Proof.
  intros F. destruct (ex_adapted (new_support [ex_right]) [] (0, 0) ltac:(discriminate)) as (_ & _ & u & _ & _ & c' & n' & _ & _ & (Hu & _) & E & _ & _ & Mv).
  specialize (F _ _ _ _ _ _ _ _ _ _ ex_left u E eq_refl eq_refl ltac:(unfold seen_from_above; cbn; lra) Mv). apply ex_left_zone in Hu.
  cbn [ex_adapt new_wpg g_params w_op_space] in F. apply rectangle_inside in F; lra.
Qed.
(** The step goes backward although the zone is in front of the robot. *)
Theorem C162_backward_behaviour : exists c' n' f', update_supports ex_libs (ex_adapt ex_zone) (-1) [ex_current; new_support [ex_right]] (0, 0) = Ok [c'; n'] /\
  u_footsteps n' = [f'] /\ vx (fr_t (f_frame f')) <= - (1/10) /\ forall x y, inside (w_op_space (g_params (ex_adapt ex_zone))) 0 (x, y) -> 1/10 <= x.
Proof.
  destruct (ex_adapted (new_support [ex_right]) [] (0, 0) ltac:(discriminate)) as (_ & _ & u & _ & _ & c' & n' & _ & _ & (Hu & _) & E & _ & _ & Mv). apply ex_left_zone in Hu.
  destruct Mv as (f & f' & l & E1 & E2 & Et & _). injection E1 as <- <-. exists c', n', f'. split; [exact E|]. split; [exact E2|]. split; [rewrite Et; cbn; lra|].
  intros x y H. cbn [ex_adapt new_wpg g_params w_op_space] in H. apply rectangle_inside in H; lra.
Qed.
Example C162_example : exists p, usable (w_op_space p) /\ (forall x y, inside (w_op_space p) 0 (- x, y) <-> inside (w_op_space p) 0 (x, y)) /\ exists u, reachable_zone p Left u.
Proof.
  exists (g_params (ex_adapt (rectangle (-1) 1 (1/10) (2/10)))). split; [apply rectangle_usable; lra|]. split.
  - intros x y. cbn [ex_adapt new_wpg g_params w_op_space]. rewrite !rectangle_inside by lra. lra.
  - exists (0, - (15/100)). cbn [reachable_zone ex_adapt new_wpg g_params w_op_space fst snd]. apply rectangle_inside; lra.
Qed.

Print Assumptions C158_optimal_zmp.
Print Assumptions C158_one_best.
Print Assumptions C158_close_to_ideal.
Print Assumptions C159_double_support_refused.
Print Assumptions C159_step_adapted.
Print Assumptions C159_best_step_partial.
Print Assumptions C160_kept_polygon_behaviour.
Print Assumptions C160_polygon_partial.
Print Assumptions C160_polygon_refuted.
Print Assumptions C161_standing_foot_partial.
Print Assumptions C161_first_foot_behaviour.
Print Assumptions C161_standing_foot_refuted.
Print Assumptions C162_mirrored_zone_partial.
Print Assumptions C162_mirrored_zone_refuted.
Print Assumptions C162_backward_behaviour.
