(** Lemmas about the model of cubic splines. *)
From Coq Require Import Reals Lra Lia List Bool Sorted.
From Verif Require Import Base Angle Tools_model Tools_proofs Spline_model Spline_spec.
Import ListNotations.
Open Scope R_scope.

(** ** fit solves its linear system *)

(** The rows of M times w. *)
Definition system (t1 t2 : R) (w : cubic) : list R :=
  [t1 * t1 * t1 * c_a w + t1 * t1 * c_b w + t1 * c_c w + 1 * c_d w;
   3 * (t1 * t1) * c_a w + 2 * t1 * c_b w + 1 * c_c w + 0 * c_d w;
   t2 * t2 * t2 * c_a w + t2 * t2 * c_b w + t2 * c_c w + 1 * c_d w;
   3 * (t2 * t2) * c_a w + 2 * t2 * c_b w + 1 * c_c w + 0 * c_d w].

Lemma fit_system t1 x1 dx1 t2 x2 dx2 : t1 <> t2 -> system t1 t2 (fit t1 x1 dx1 t2 x2 dx2) = [x1; dx1; x2; dx2].
Proof.
  intros H. unfold system, fit. cbn [c_a c_b c_c c_d]. set (h := t2 - t1). assert (Hh : h <> 0) by (unfold h; lra).
  replace t2 with (t1 + h) by (unfold h; ring). do 3 (f_equal; [field; exact Hh|]). f_equal. field. exact Hh.
Qed.

Lemma system_injective t1 t2 w w' : t1 <> t2 -> system t1 t2 w = system t1 t2 w' -> w = w'.
Proof.
  intros H. destruct w as [a b c d], w' as [a' b' c' d']. unfold system. cbn [c_a c_b c_c c_d]. intros E.
  injection E as E1 E2 E3 E4.
  set (h := t2 - t1). assert (Hh : h <> 0) by (unfold h; lra). assert (Et : t2 = t1 + h) by (unfold h; ring). rewrite Et in E3, E4.
  set (A := a - a'). set (B := b - b'). set (C := c - c'). set (D := d - d').
  assert (F1 : t1 * t1 * t1 * A + t1 * t1 * B + t1 * C + D = 0) by (unfold A, B, C, D; lra).
  assert (F2 : 3 * (t1 * t1) * A + 2 * t1 * B + C = 0) by (unfold A, B, C; lra).
  assert (F3 : (t1 + h) * (t1 + h) * (t1 + h) * A + (t1 + h) * (t1 + h) * B + (t1 + h) * C + D = 0) by (unfold A, B, C, D; lra).
  assert (F4 : 3 * ((t1 + h) * (t1 + h)) * A + 2 * (t1 + h) * B + C = 0) by (unfold A, B, C; lra).
  assert (G1 : h * h * h * A = 0).
  { replace (h * h * h * A) with (h * ((3 * ((t1 + h) * (t1 + h)) * A + 2 * (t1 + h) * B + C) + (3 * (t1 * t1) * A + 2 * t1 * B + C))
      - 2 * (((t1 + h) * (t1 + h) * (t1 + h) * A + (t1 + h) * (t1 + h) * B + (t1 + h) * C + D) - (t1 * t1 * t1 * A + t1 * t1 * B + t1 * C + D))) by ring.
    rewrite F1, F2, F3, F4. ring. }
  assert (A0 : A = 0).
  { apply Rmult_integral in G1 as [G1|G1]; [|exact G1]. exfalso. apply Rmult_integral in G1 as [G1|G1]; [|contradiction].
    apply Rmult_integral in G1 as [G1|G1]; contradiction. }
  rewrite A0 in *. assert (B0 : B = 0).
  { assert (G : 2 * h * B = 0) by lra. apply Rmult_integral in G as [G|G]; [exfalso; lra|exact G]. }
  rewrite B0 in *. assert (C0 : C = 0) by lra. rewrite C0 in *. assert (D0 : D = 0) by lra.
  unfold A, B, C, D in *. f_equal; lra.
Qed.

Lemma fit_unique t1 x1 dx1 t2 x2 dx2 w : t1 <> t2 -> system t1 t2 w = [x1; dx1; x2; dx2] -> w = fit t1 x1 dx1 t2 x2 dx2.
Proof. intros H E. apply (system_injective t1 t2); [exact H|]. now rewrite fit_system. Qed.

(** ** Gluing two functions *)

Lemma glue_derivable f f' g g' c :
  (forall t, derivable_pt_lim f t (f' t)) -> (forall t, derivable_pt_lim g t (g' t)) -> f c = g c -> f' c = g' c ->
  forall t, derivable_pt_lim (fun t => if Rle_dec t c then f t else g t) t (if Rle_dec t c then f' t else g' t).
Proof.
  intros Hf Hg E E' t eps He. destruct (Rtotal_order t c) as [Ht|[Ht|Ht]].
  - destruct (Hf t eps He) as [d Hd]. assert (Hm : 0 < Rmin d (c - t)) by (apply Rmin_pos; [apply cond_pos|lra]).
    exists (mkposreal _ Hm). cbn [RIneq.pos]. intros h Hh Hl. pose proof (Rmin_l d (c - t)). pose proof (Rmin_r d (c - t)).
    destruct (Rle_dec t c); [|lra]. destruct (Rle_dec (t + h) c) as [|N]; [apply Hd; [exact Hh|lra]|].
    exfalso. apply N. pose proof (Rle_abs h). lra.
  - subst t. destruct (Hf c eps He) as [d1 H1]. destruct (Hg c eps He) as [d2 H2].
    assert (Hm : 0 < Rmin d1 d2) by (apply Rmin_pos; apply cond_pos).
    exists (mkposreal _ Hm). cbn [RIneq.pos]. intros h Hh Hl. pose proof (Rmin_l d1 d2). pose proof (Rmin_r d1 d2).
    destruct (Rle_dec c c); [|lra]. destruct (Rle_dec (c + h) c).
    + apply H1; [exact Hh|lra].
    + rewrite E, E'. apply H2; [exact Hh|lra].
  - destruct (Hg t eps He) as [d Hd]. assert (Hm : 0 < Rmin d (t - c)) by (apply Rmin_pos; [apply cond_pos|lra]).
    exists (mkposreal _ Hm). cbn [RIneq.pos]. intros h Hh Hl. pose proof (Rmin_l d (t - c)). pose proof (Rmin_r d (t - c)).
    destruct (Rle_dec t c); [lra|]. destruct (Rle_dec (t + h) c) as [N|]; [|apply Hd; [exact Hh|lra]].
    exfalso. rewrite <- Rabs_Ropp in Hl. pose proof (Rle_abs (- h)). lra.
Qed.

Lemma glue_continuity f g c : continuity f -> continuity g -> f c = g c ->
  continuity (fun t => if Rle_dec t c then f t else g t).
Proof.
  intros Hf Hg E t eps He. unfold dist. simpl. unfold R_dist.
  destruct (Rtotal_order t c) as [Ht|[Ht|Ht]].
  - destruct (Hf t eps He) as (d & Hd & H). exists (Rmin d (c - t)). split; [apply Rmin_pos; [exact Hd|lra]|].
    intros y [[_ Hy] Hl]. pose proof (Rmin_l d (c - t)). pose proof (Rmin_r d (c - t)).
    destruct (Rle_dec t c); [|lra]. destruct (Rle_dec y c) as [|N].
    + apply H. split; [split; [exact I|exact Hy]|]. simpl. unfold R_dist. lra.
    + exfalso. apply N. pose proof (Rle_abs (y - t)). lra.
  - subst t. destruct (Hf c eps He) as (d1 & Hd1 & H1). destruct (Hg c eps He) as (d2 & Hd2 & H2).
    exists (Rmin d1 d2). split; [now apply Rmin_pos|].
    intros y [[_ Hy] Hl]. pose proof (Rmin_l d1 d2). pose proof (Rmin_r d1 d2).
    destruct (Rle_dec c c); [|lra]. destruct (Rle_dec y c).
    + apply H1. split; [split; [exact I|exact Hy]|]. simpl. unfold R_dist. lra.
    + rewrite E. apply H2. split; [split; [exact I|exact Hy]|]. simpl. unfold R_dist. lra.
  - destruct (Hg t eps He) as (d & Hd & H). exists (Rmin d (t - c)). split; [apply Rmin_pos; [exact Hd|lra]|].
    intros y [[_ Hy] Hl]. pose proof (Rmin_l d (t - c)). pose proof (Rmin_r d (t - c)).
    destruct (Rle_dec t c); [lra|]. destruct (Rle_dec y c) as [N|].
    + exfalso. rewrite <- Rabs_Ropp in Hl. pose proof (Rle_abs (- (y - t))). lra.
    + apply H. split; [split; [exact I|exact Hy]|]. simpl. unfold R_dist. lra.
Qed.

(** ** One piece *)

Definition the_fit (p q : spoint) : cubic :=
  fit (sp_t p - sp_t p) (sp_x p) (sp_dx p) (sp_t q - sp_t p) (sp_x q) (sp_dx q).

Definition one (type : value_type) (p q : spoint) (t : R) : R :=
  match type with
  | VValue => polynom_value (t - sp_t p) (the_fit p q)
  | VSpeed => polynom_diff (t - sp_t p) (the_fit p q)
  | VAcceleration => polynom_diff2 (t - sp_t p) (the_fit p q)
  end.

Lemma one_ends p q : sp_t p < sp_t q ->
  one VValue p q (sp_t p) = sp_x p /\ one VSpeed p q (sp_t p) = sp_dx p /\
  one VValue p q (sp_t q) = sp_x q /\ one VSpeed p q (sp_t q) = sp_dx q.
Proof.
  intros H. pose proof (fit_system (sp_t p - sp_t p) (sp_x p) (sp_dx p) (sp_t q - sp_t p) (sp_x q) (sp_dx q) ltac:(lra)) as E.
  fold (the_fit p q) in E. unfold one, polynom_value, polynom_diff. generalize dependent (the_fit p q). intros w E.
  unfold system in E. injection E as E1 E2 E3 E4. rewrite Rminus_eq_0 in E1, E2. rewrite Rminus_eq_0.
  split; [etransitivity; [|exact E1]; ring|]. split; [etransitivity; [|exact E2]; ring|].
  split; [etransitivity; [|exact E3]; ring|etransitivity; [|exact E4]; ring].
Qed.

Lemma one_derivable p q t : derivable_pt_lim (one VValue p q) t (one VSpeed p q t).
Proof.
  unfold one, polynom_value, polynom_diff. set (w := the_fit p q). set (s := sp_t p).
  assert (E : (t - s) * (3 * c_a w * (t - s) + 2 * c_b w) + c_c w =
    0 + (1 * ((t - s) * (c_a w * (t - s) + c_b w) + c_c w) +
         (t - s) * ((1 * (c_a w * (t - s) + c_b w) + (t - s) * (c_a w * 1 + 0)) + 0))) by ring.
  rewrite E. clear E.
  assert (Dx : derivable_pt_lim (fun t => t - s) t 1).
  { replace 1 with (1 - 0) by ring. apply derivable_pt_lim_minus; [apply derivable_pt_lim_id|apply derivable_pt_lim_const]. }
  apply (derivable_pt_lim_plus (fun _ => c_d w)); [apply derivable_pt_lim_const|].
  apply (derivable_pt_lim_mult (fun t => t - s) (fun t => (t - s) * (c_a w * (t - s) + c_b w) + c_c w)); [exact Dx|].
  apply (derivable_pt_lim_plus (fun t => (t - s) * (c_a w * (t - s) + c_b w)) (fun _ => c_c w)); [|apply derivable_pt_lim_const].
  apply (derivable_pt_lim_mult (fun t => t - s) (fun t => c_a w * (t - s) + c_b w)); [exact Dx|].
  apply (derivable_pt_lim_plus (fun t => c_a w * (t - s)) (fun _ => c_b w)); [|apply derivable_pt_lim_const].
  apply (derivable_pt_lim_scal (fun t => t - s)). exact Dx.
Qed.

Lemma one_derivable2 p q t : derivable_pt_lim (one VSpeed p q) t (one VAcceleration p q t).
Proof.
  unfold one, polynom_diff, polynom_diff2. set (w := the_fit p q). set (s := sp_t p).
  assert (E : 6 * c_a w * (t - s) + 2 * c_b w = (1 * (3 * c_a w * (t - s) + 2 * c_b w) + (t - s) * (3 * c_a w * 1 + 0)) + 0) by ring.
  rewrite E. clear E.
  assert (Dx : derivable_pt_lim (fun t => t - s) t 1).
  { replace 1 with (1 - 0) by ring. apply derivable_pt_lim_minus; [apply derivable_pt_lim_id|apply derivable_pt_lim_const]. }
  apply (derivable_pt_lim_plus (fun t => (t - s) * (3 * c_a w * (t - s) + 2 * c_b w)) (fun _ => c_c w)); [|apply derivable_pt_lim_const].
  apply (derivable_pt_lim_mult (fun t => t - s) (fun t => 3 * c_a w * (t - s) + 2 * c_b w)); [exact Dx|].
  apply (derivable_pt_lim_plus (fun t => 3 * c_a w * (t - s)) (fun _ => 2 * c_b w)); [|apply derivable_pt_lim_const].
  apply (derivable_pt_lim_scal (fun t => t - s)). exact Dx.
Qed.

Lemma derivable_continuity f f' : (forall t, derivable_pt_lim f t (f' t)) -> continuity f.
Proof. intros H t. apply derivable_continuous_pt. exists (f' t). apply H. Qed.

(** ** The pieces together, extended by the end polynomials *)

Fixpoint ext (type : value_type) (p q : spoint) (r : list spoint) (t : R) : R :=
  match r with
  | [] => one type p q t
  | q' :: r' => if Rle_dec t (sp_t q) then one type p q t else ext type q q' r' t
  end.

Definition before (p q : spoint) : Prop := sp_t p < sp_t q.

Lemma ext_start type p q r : before p q -> ext type p q r (sp_t p) = one type p q (sp_t p).
Proof. intros H. destruct r; cbn [ext]; [reflexivity|]. destruct (Rle_dec _ _) as [|N]; [reflexivity|]. unfold before in H. lra. Qed.

Lemma sorted_cons p q r : StronglySorted before (p :: q :: r) -> before p q /\ StronglySorted before (q :: r).
Proof. intros H. inversion H as [|? ? H1 H2]; subst. split; [now inversion H2|exact H1]. Qed.

Lemma ext_derivable r : forall p q, StronglySorted before (p :: q :: r) ->
  forall t, derivable_pt_lim (ext VValue p q r) t (ext VSpeed p q r t).
Proof.
  induction r as [|q' r IH]; intros p q S; destruct (sorted_cons _ _ _ S) as [Hpq S']; cbn [ext].
  - apply one_derivable.
  - destruct (sorted_cons _ _ _ S') as [Hq _]. destruct (one_ends p q Hpq) as (_ & _ & E1 & E2). destruct (one_ends q q' Hq) as (E3 & E4 & _).
    apply glue_derivable; [apply one_derivable|now apply IH| |].
    + rewrite ext_start by exact Hq. congruence.
    + rewrite ext_start by exact Hq. congruence.
Qed.

Lemma ext_continuity r : forall p q, StronglySorted before (p :: q :: r) -> continuity (ext VSpeed p q r).
Proof.
  induction r as [|q' r IH]; intros p q S; destruct (sorted_cons _ _ _ S) as [Hpq S']; cbn [ext].
  - apply (derivable_continuity _ _ (one_derivable2 p q)).
  - destruct (sorted_cons _ _ _ S') as [Hq _]. destruct (one_ends p q Hpq) as (_ & _ & E1 & E2). destruct (one_ends q q' Hq) as (E3 & E4 & _).
    apply glue_continuity; [apply (derivable_continuity _ _ (one_derivable2 p q))|now apply IH|].
    rewrite ext_start by exact Hq. congruence.
Qed.

Lemma last_sorted q r : StronglySorted before (q :: r) -> sp_t q <= sp_t (last r q).
Proof.
  intros S. destruct r as [|q' r] using rev_ind; [cbn; lra|]. rewrite last_last. inversion S as [|? ? _ F]; subst.
  apply Forall_app in F as [_ F]. inversion F as [|? ? H _]; subst. unfold before in H. lra.
Qed.

Lemma last_cons_ne {A} (a d : A) l : last (a :: l) d = last l a.
Proof. revert a d. induction l as [|b l IH]; intros a d; [reflexivity|]. change (last (a :: b :: l) d) with (last (b :: l) d).
  now rewrite IH, (IH b a). Qed.

(** In the range, the loop of interpolation is [ext]. *)
Lemma find_piece_ext type r : forall p q t, StronglySorted before (p :: q :: r) -> sp_t p <= t <= sp_t (last r q) ->
  find_piece (pieces_of (p :: q :: r)) t type = ext type p q r t.
Proof.
  induction r as [|q' r IH]; intros p q t S Ht.
  - cbn [pieces_of find_piece ext pc_start pc_end pc_poly last] in *. destruct (Rle_dec (sp_t p) t); [|lra].
    destruct (Rle_dec t (sp_t q)); [|lra]. cbn [andb]. unfold one, the_fit. now destruct type.
  - destruct (sorted_cons _ _ _ S) as [Hpq S']. rewrite last_cons_ne in Ht.
    change (pieces_of (p :: q :: q' :: r)) with
      (Piece (the_fit p q) (sp_t p) (sp_t q) :: pieces_of (q :: q' :: r)).
    cbn [find_piece pc_start pc_end pc_poly]. cbn [ext].
    destruct (Rle_dec (sp_t p) t); [|lra]. destruct (Rle_dec t (sp_t q)).
    + cbn [andb]. unfold one. now destruct type.
    + cbn [andb]. apply IH; [exact S'|]. lra.
Qed.

Lemma last_piece d r : forall p q, pc_end (last (pieces_of (p :: q :: r)) d) = sp_t (last r q).
Proof.
  induction r as [|q' r IH]; intros p q; [reflexivity|].
  change (pieces_of (p :: q :: q' :: r)) with (Piece (the_fit p q) (sp_t p) (sp_t q) :: pieces_of (q :: q' :: r)).
  rewrite (last_cons_ne q' q r).
  change (pieces_of (q :: q' :: r)) with (Piece (the_fit q q') (sp_t q) (sp_t q') :: pieces_of (q' :: r)) at 1.
  change (last (Piece (the_fit p q) (sp_t p) (sp_t q) :: Piece (the_fit q q') (sp_t q) (sp_t q') :: pieces_of (q' :: r)) d) with
    (last (pieces_of (q :: q' :: r)) d). apply IH.
Qed.

(** On each piece, [ext] is the polynomial of the piece. *)
Lemma ext_piece r : forall p q, StronglySorted before (p :: q :: r) ->
  forall u v, consecutive (p :: q :: r) u v ->
    (forall t, sp_t u <= t <= sp_t v -> ext VValue p q r t = one VValue u v t /\ ext VSpeed p q r t = one VSpeed u v t) /\
    (forall t, sp_t u < t <= sp_t v -> ext VAcceleration p q r t = one VAcceleration u v t) /\ before u v /\ sp_t p <= sp_t u /\ sp_t v <= sp_t (last r q).
Proof.
  induction r as [|q' r IH]; intros p q S u v (l1 & l2 & E); destruct (sorted_cons _ _ _ S) as [Hpq S'].
  - destruct l1 as [|a l1]; [|destruct l1 as [|b l1]; [|destruct l1; discriminate]].
    + cbn in E. injection E as <- <- _. cbn [ext last]. split; [auto|]. split; [auto|]. split; [exact Hpq|]. lra.
    + discriminate.
  - destruct l1 as [|a l1].
    + cbn in E. injection E as <- <- _. cbn [ext]. split; [|split; [|split; [exact Hpq|split; [lra|]]]].
      * intros t Ht. destruct (Rle_dec t (sp_t q)); [auto|lra].
      * intros t Ht. destruct (Rle_dec t (sp_t q)); [auto|lra].
      * rewrite last_cons_ne. pose proof (last_sorted _ _ S') as H. rewrite last_cons_ne in H. exact H.
    + cbn in E. injection E as <- E. destruct (IH q q' S' u v (ex_intro _ l1 (ex_intro _ l2 E))) as (H1 & H2 & H3 & H4 & H5).
      rewrite last_cons_ne. unfold before in *. split; [|split; [|split; [exact H3|split; [lra|exact H5]]]].
      * intros t Ht. cbn [ext]. destruct (Rle_dec t (sp_t q)) as [L|L]; [|now apply H1].
        assert (Et : t = sp_t q) by lra. subst t. destruct (H1 (sp_t q) Ht) as [G1 G2]. rewrite <- G1, <- G2.
        destruct (sorted_cons _ _ _ S') as [Hq _]. rewrite !ext_start by exact Hq.
        destruct (one_ends p q Hpq) as (_ & _ & E1 & E2). destruct (one_ends q q' Hq) as (E3 & E4 & _). split; congruence.
      * intros t Ht. cbn [ext]. destruct (Rle_dec t (sp_t q)) as [L|L]; [lra|now apply H2].
Qed.

(** ** Objects *)

Definition inv (s : cubic_spline) : Prop :=
  StronglySorted before (cs_points s) /\ (cs_dirty s = false -> cs_pieces s = pieces_of (cs_points s)).

Lemma last_point_app l p : last_point (l ++ [p]) = Some p.
Proof. unfold last_point. now rewrite rev_unit. Qed.

Lemma last_point_None l : last_point l = None <-> l = [].
Proof.
  destruct l as [|p l] using rev_ind; [now split|]. rewrite last_point_app. split; [discriminate|].
  intros H. destruct l; discriminate H.
Qed.

Lemma last_point_Some l p : last_point l = Some p <-> exists l', l = l' ++ [p].
Proof.
  destruct l as [|q l] using rev_ind.
  - split; [discriminate|]. intros ([|] & H); discriminate.
  - rewrite last_point_app. split.
    + intros H. injection H as <-. now exists l.
    + intros [l' H]. apply app_inj_tail in H as [_ ->]. reflexivity.
Qed.

Lemma sorted_app l p q : StronglySorted before (l ++ [p]) -> before p q -> StronglySorted before ((l ++ [p]) ++ [q]).
Proof.
  intros S H. induction l as [|a l IH]; cbn [app] in *.
  - constructor; [constructor; [constructor|constructor]|]. constructor; [exact H|constructor].
  - inversion S as [|? ? S' F]; subst. constructor; [now apply IH|]. apply Forall_app. split; [exact F|].
    constructor; [|constructor]. apply Forall_app in F as [_ F]. inversion F as [|? ? G _]; subst. unfold before in *. lra.
Qed.

Lemma add_point_inv s t x dx : inv s -> inv (fst (add_point s t x dx)).
Proof.
  intros [S D]. unfold add_point. destruct (last_point (cs_points s)) as [l|] eqn:E.
  - apply last_point_Some in E as [l' E]. destruct (Rle_dec t (sp_t l)) as [L|L]; [now split|]. cbn [fst]. split; cbn [cs_points cs_dirty]; [|discriminate].
    rewrite E in *. apply sorted_app; [exact S|]. unfold before. cbn [sp_t]. lra.
  - apply last_point_None in E. rewrite E. split; cbn [fst cs_points cs_dirty app]; [|discriminate]. constructor; constructor.
Qed.

Lemma interpolation_inv s t type : inv s -> inv (fst (interpolation s t type)).
Proof.
  intros [S D]. unfold interpolation. cbn [fst]. destruct (cs_dirty s) eqn:E; cbn [cs_points cs_dirty cs_pieces compute_splines].
  - split; cbn [cs_points cs_dirty cs_pieces]; [exact S|reflexivity].
  - split; [exact S|]. intros _. now apply D.
Qed.

Lemma reachable_inv s : reachable s -> inv s.
Proof.
  intros (ang & l & H).
  assert (G : forall l s, inv s -> forall s', scalls_run s l = Some s' -> inv s').
  { clear. induction l as [|c l IH]; intros s I s' H; cbn [scalls_run] in H; [injection H as <-; exact I|].
    destruct (scall_run s c) as [s1|] eqn:E; [|discriminate]. apply (IH s1); [|exact H]. clear H IH.
    destruct c as [t x dx| |t type|]; cbn [scall_run] in E.
    - pose proof (add_point_inv s t x dx I) as J. destruct (add_point s t x dx) as [s2 o]. cbn [fst] in J. destruct o; try discriminate; injection E as <-; exact J.
    - injection E as <-. split; cbn [clear cs_points cs_dirty cs_pieces]; [constructor|reflexivity].
    - pose proof (interpolation_inv s t type I) as J. destruct (interpolation s t type) as [s2 o]. cbn [fst] in J. destruct o; try discriminate; injection E as <-; exact J.
    - destruct (duration s); try discriminate; injection E as <-; exact I. }
  apply (G l (new_spline ang)); [|exact H]. split; [constructor|discriminate].
Qed.

(** What a query returns. *)
Definition clamped (p : spoint) (q : spoint) (r : list spoint) (t : R) : R := clamp (sp_t p) (sp_t (last r q)) t.

Lemma interpolation_value s p q r t type : inv s -> cs_points s = p :: q :: r ->
  snd (interpolation s t type) = Ok (ext type p q r (clamped p q r t)).
Proof.
  intros [S D] E. unfold interpolation. cbn [snd].
  set (s1 := if cs_dirty s then _ else _).
  assert (E1 : cs_points s1 = p :: q :: r) by (unfold s1; destruct (cs_dirty s); exact E).
  assert (E2 : cs_pieces s1 = pieces_of (p :: q :: r)).
  { unfold s1. destruct (cs_dirty s) eqn:Ed; cbn [compute_splines cs_pieces]; [now rewrite E|]. rewrite D, E by reflexivity. reflexivity. }
  rewrite E1, E2. rewrite E in S. destruct (sorted_cons _ _ _ S) as [Hpq S'].
  set (f := Piece (the_fit p q) (sp_t p) (sp_t q)).
  change (pieces_of (p :: q :: r)) with (f :: pieces_of (q :: r)) at 1. cbv iota.
  assert (L := last_piece f r p q). rewrite L. change (pc_start f) with (sp_t p).
  pose proof (last_sorted _ _ S') as Hl. unfold before in Hpq.
  set (b := sp_t (last r q)) in *.
  assert (Ec : (if Rlt_dec b (if Rlt_dec t (sp_t p) then sp_t p else t) then b else if Rlt_dec t (sp_t p) then sp_t p else t) = clamped p q r t).
  { unfold clamped, clamp. fold b. unfold Rmax, Rmin.
    destruct (Rlt_dec t (sp_t p)); destruct (Rle_dec b t); repeat match goal with |- context [Rlt_dec ?u ?v] => destruct (Rlt_dec u v) | |- context [Rle_dec ?u ?v] => destruct (Rle_dec u v) end; lra. }
  rewrite Ec. f_equal. apply find_piece_ext; [exact S|]. unfold clamped, clamp. fold b. unfold Rmax, Rmin.
  destruct (Rle_dec b t); repeat match goal with |- context [Rle_dec ?u ?v] => destruct (Rle_dec u v) end; lra.
Qed.

Lemma clamp_continuity a b : continuity (clamp a b).
Proof.
  intros t eps He. exists eps. split; [exact He|]. intros y [_ Hy]. simpl in *. unfold R_dist in *.
  apply Rabs_def2 in Hy as [H1 H2]. apply Rabs_def1; unfold clamp, Rmax, Rmin;
  destruct (Rle_dec b t), (Rle_dec b y);
  repeat match goal with |- context [Rle_dec ?u ?v] => destruct (Rle_dec u v) end; lra.
Qed.

Lemma clamp_in a b t : a <= t <= b -> clamp a b t = t.
Proof. intros H. unfold clamp. rewrite Rmin_right, Rmax_right by lra. reflexivity. Qed.
