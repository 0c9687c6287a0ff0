(** Proofs about the manipulability task. *)
From Coq Require Import Reals List ZArith Bool String Lra Lia.
From Verif Require Import Base Linalg Geom3 Tools_model Geometry_model Robot_model Robot_spec KinTasks_model Kin_model Kin_spec Det Det_proofs Det_proofs2 Manip_model Manip_spec.
Import ListNotations.
Open Scope R_scope.

Lemma ident_sym i j : ident i j = ident j i.
Proof. unfold ident. rewrite Nat.eqb_sym. reflexivity. Qed.

Lemma Rsum_ident_l n i f : (i < n)%nat -> Rsum n (fun k => ident i k * f k) = f i.
Proof.
  intros Hi. rewrite (Rsum_delta n i); [unfold ident; rewrite Nat.eqb_refl; ring|exact Hi|].
  intros k _ Hk. unfold ident. destruct (Nat.eqb_spec i k); [congruence|ring].
Qed.

(** The inverse of a symmetric matrix is symmetric. *)
Lemma inverse_sym n G B : (forall i j, (i < n)%nat -> (j < n)%nat -> G i j = G j i) ->
  (forall i j, (i < n)%nat -> (j < n)%nat -> Rsum n (fun k => G i k * B k j) = ident i j) ->
  forall i j, (i < n)%nat -> (j < n)%nat -> B i j = B j i.
Proof.
  intros S H i j Hi Hj.
  (* B i j = sum_k delta(k,i) B k j with delta(k,i) = sum_l G k l B l i, and G k l = G l k *)
  rewrite <- (Rsum_ident_l n i (fun k => B k j) Hi).
  transitivity (Rsum n (fun k => Rsum n (fun l => B l i * (G l k * B k j)))).
  { apply Rsum_ext. intros k Hk. rewrite ident_sym, <- (H k i Hk Hi), <- Rsum_scal_r. apply Rsum_ext. intros l Hl. rewrite (S k l Hk Hl). ring. }
  rewrite Rsum_swap.
  transitivity (Rsum n (fun l => ident j l * B l i)).
  { apply Rsum_ext. intros l Hl. rewrite Rsum_scal_l, (H l j Hl Hj), ident_sym. ring. }
  now rewrite Rsum_ident_l by exact Hj.
Qed.

Lemma gram_sym type J i j : gram type J i j = gram type J j i.
Proof. unfold gram. apply Rsum_ext. intros. ring. Qed.

Lemma mask_ok type M : mrows M = 6%nat -> (6 <= mcols M)%nat ->
  manip_mask type M = Ok (Mat (row_count type) (mcols M - 6) (fun i j => mat_at M (first_row type + i) (6 + j))).
Proof.
  intros H6 Hc. unfold manip_mask, block, guard. rewrite (proj2 (Nat.leb_le _ _) Hc), H6.
  replace (Nat.leb (6 + (mcols M - 6)) (mcols M)) with true by (symmetry; apply Nat.leb_le; lia). now destruct type.
Qed.

Lemma row_bound type i : (i < row_count type)%nat -> (first_row type + i < 6)%nat.
Proof. destruct type; cbn; lia. Qed.

(** The terms of the gradient. *)
Definition masked (type : manip_type) (M : mat) : nat -> nat -> R := fun i c => mat_at M (first_row type + i) (6 + c).
Definition frame_hess (hs : hessians) (q : vec) (f k : nat) : mat :=
  Mat 6 (mcols (hs_joint hs q (hs_parent hs f) k))
    (fun i j => Rsum 6 (fun a => mat_at (action_matrix (frame_inv (hs_placement hs f))) i a * mat_at (hs_joint hs q (hs_parent hs f) k) a j)).
Definition slope (type : manip_type) (J H B : mat) : R :=
  Rsum (row_count type) (fun a => Rsum (row_count type) (fun b => Rsum (mcols J - 6) (fun c => masked type J a c * masked type H b c) * mat_at B a b)).

Section WithRobot.
Variable pn : pin.
Variable hs : hessians.
Variable inv : mat -> mat.

Lemma gradient_ok r f type J B w n l : let q := fst (r_seen r) in
  (forall k, (k < m_nv (r_model r))%nat -> mrows (hs_joint hs q (hs_parent hs f) k) = 6%nat /\ mcols (hs_joint hs q (hs_parent hs f) k) = mcols J) ->
  (6 + n <= m_nv (r_model r))%nat -> (6 <= mcols J)%nat -> 
  manip_gradient hs r f type (Mat (row_count type) (mcols J - 6) (masked type J)) B w n = Ok l ->
  List.length l = n /\ forall i, (i < n)%nat -> nth i l 0 = w * slope type J (frame_hess hs q f (6 + i)) B.
Proof.
  intros q Hs. revert l. induction n as [|n IH]; intros l Hn Hc.
  - cbn. intros [= <-]. split; [reflexivity|lia].
  - cbn [manip_gradient]. destruct (manip_gradient hs r f type _ B w n) as [g| |]; cbn [obind]; try discriminate.
    specialize (IH g ltac:(lia) Hc eq_refl). destruct IH as [Lg IH].
    unfold get_frame_hessian, guard. destruct (Nat.ltb f _); [|discriminate]. fold q.
    unfold mat_mul at 1, guard. destruct (Hs (6 + n)%nat ltac:(lia)) as [H6 HN]. rewrite H6. cbn [mcols action_matrix Nat.eqb obind].
    fold (frame_hess hs q f (6 + n)). 
    change (Mat (mrows (action_matrix (frame_inv (hs_placement hs f)))) (mcols (hs_joint hs q (hs_parent hs f) (6 + n))) _) with (frame_hess hs q f (6 + n)).
    rewrite mask_ok by (cbn [mrows mcols frame_hess]; lia). cbn [obind]. cbn [mcols frame_hess]. rewrite HN.
    unfold mat_mul, guard. cbn [mcols mrows mat_t]. rewrite Nat.eqb_refl. cbn [obind].
    unfold cwise_sum, guard. destruct (_ && _); [|discriminate]. cbn [obind]. intros [= <-].
    split; [rewrite app_length; cbn; lia|]. intros i Hi. destruct (Nat.eq_dec i n) as [->|].
    + rewrite app_nth2, Lg, Nat.sub_diag by lia. cbn [nth]. f_equal.
    + rewrite app_nth1 by lia. apply IH. lia.
Qed.

Lemma sqrt_deriv f d : f 0 <> 0 -> derivable_pt_lim f 0 (2 * (f 0 * d)) -> derivable_pt_lim (fun u => sqrt (f u)) 0 (sqrt (f 0) * d).
Proof.
  intros H0 D. destruct (Rlt_dec 0 (f 0)) as [P|N].
  - eapply deriv_eq; [|exact (derivable_pt_lim_comp f sqrt 0 _ _ D (derivable_pt_lim_sqrt (f 0) P))].
    rewrite <- (sqrt_sqrt (f 0)) at 2 by lra. assert (0 < sqrt (f 0)) by (now apply sqrt_lt_R0). field. lra.
  - assert (C : continuity_pt f 0) by (apply derivable_continuous_pt; eexists; exact D).
    assert (N' : 0 < - f 0) by lra. destruct (C (- f 0) N') as (a & Ha & Hc).
    rewrite sqrt_neg_0 by lra. rewrite Rmult_0_l. intros eps He. exists (mkposreal a Ha). intros h Hh Hlt. cbn in Hlt.
    rewrite (sqrt_neg_0 (f 0)) by lra. rewrite (sqrt_neg_0 (f (0 + h))).
    + replace ((0 - 0) / h - 0) with 0 by (field; exact Hh). rewrite Rabs_R0. exact He.
    + specialize (Hc (0 + h)). unfold D_x, no_cond, R_dist in Hc. 
      assert (Rabs (f (0 + h) - f 0) < - f 0) as Q. { apply Hc. repeat split; try lra. cbn. unfold R_dist. replace (0 + h - 0) with h by ring. exact Hlt. }
      apply Rabs_def2 in Q. lra.
Qed.

Lemma action_rows (T : frame) (J Jj : mat) c i : linear J c = act_linear T (linear Jj c) (angular Jj c) -> angular J c = act_angular T (angular Jj c) -> (i < 6)%nat ->
  mat_at J i c = Rsum 6 (fun a => mat_at (action_matrix T) i a * mat_at Jj a c).
Proof.
  intros H1 H2 Hi. unfold linear, angular, act_linear, act_angular in *. destruct T as [[a b d e g h k l o] [x y z]].
  cbn [fr_R fr_t m3_vec v3_cross v3_add vx vy vz] in H1, H2. injection H1 as E0 E1 E2. injection H2 as E3 E4 E5.
  do 6 (destruct i as [|i]; [first [rewrite E0|rewrite E1|rewrite E2|rewrite E3|rewrite E4|rewrite E5]; cbn; ring|]). lia.
Qed.

Lemma manip_deriv m q f type k B : hessian_sound pn hs m q f -> (6 <= k < m_nv m)%nat -> let J := pn_jac pn q f Local in let n := row_count type in
  det n (gram type J) <> 0 -> (forall i j, (i < n)%nat -> (j < n)%nat -> Rsum n (fun c => gram type J i c * mat_at B c j) = ident i j) ->
  derivable_pt_lim (fun u => manipulability type (pn_jac pn (along pn m q k u) f Local)) 0 (manipulability type J * slope type J (frame_hess hs q f k) B).
Proof.
  intros Hs Hk J n Hd HB. unfold manipulability.
  set (G := fun u => gram type (pn_jac pn (along pn m q k u) f Local)).
  assert (E0 : G 0 = gram type J) by (unfold G, J; now rewrite (hd_zero _ _ _ _ _ Hs)).
  change (fun u => sqrt (det (row_count type) (gram type (pn_jac pn (along pn m q k u) f Local)))) with (fun u => sqrt ((fun v => det n (G v)) u)).
  replace (det (row_count type) (gram type J)) with ((fun v => det n (G v)) 0) by (cbn; now rewrite E0).
  apply sqrt_deriv; [rewrite E0; exact Hd|].
  set (Jf := masked type J). set (Hf := masked type (frame_hess hs q f k)). set (C := (m_nv m - 6)%nat).
  assert (Sz : forall u, mcols (pn_jac pn (along pn m q k u) f Local) = m_nv m) by (intros u; apply (hd_size _ _ _ _ _ Hs k u)).
  assert (SzJ : mcols J = m_nv m) by (unfold J; rewrite <- (hd_zero _ _ _ _ _ Hs k); apply Sz).
  assert (DJ : forall i c, (i < n)%nat -> (c < C)%nat -> derivable_pt_lim (fun u => masked type (pn_jac pn (along pn m q k u) f Local) i c) 0 (Hf i c)).
  { intros i c Hi Hc. unfold masked.
    apply deriv_ext with (f := fun u => Rsum 6 (fun a => mat_at (action_matrix (frame_inv (hs_placement hs f))) (first_row type + i) a *
       mat_at (pn_joint_jac pn (along pn m q k u) (hs_parent hs f) Local) a (6 + c))).
    { intros u. symmetry. destruct (hd_frame _ _ _ _ _ Hs k u (6 + c)%nat ltac:(unfold C in Hc; lia)) as [F1 F2]. apply action_rows; [exact F1|exact F2|now apply row_bound]. }
    unfold Hf, masked, frame_hess. cbn [mat_at].
    apply (deriv_Rsum 6 (fun u a => _ * mat_at (pn_joint_jac pn (along pn m q k u) (hs_parent hs f) Local) a (6 + c))).
    intros a Ha. apply deriv_scal. apply (hd_deriv _ _ _ _ _ Hs); unfold C in Hc; lia. }
  set (D := fun i j => Rsum C (fun c => Hf i c * Jf j c + Jf i c * Hf j c)).
  assert (DG : entries_deriv n n G 0 D).
  { intros i j Hi Hj. unfold G, gram.
    apply deriv_ext with (f := fun u => Rsum C (fun c => masked type (pn_jac pn (along pn m q k u) f Local) i c * masked type (pn_jac pn (along pn m q k u) f Local) j c)).
    { intros u. rewrite Sz. reflexivity. }
    apply (deriv_Rsum C (fun u c => masked type (pn_jac pn (along pn m q k u) f Local) i c * masked type (pn_jac pn (along pn m q k u) f Local) j c)).
    intros c Hc. assert (Z : masked type (pn_jac pn (along pn m q k 0) f Local) = Jf) by (unfold Jf, J; now rewrite (hd_zero _ _ _ _ _ Hs)).
    eapply deriv_eq; [|apply deriv_mul; [apply (DJ i c Hi Hc)|apply (DJ j c Hj Hc)]]. cbv beta. rewrite Z. reflexivity. }
  eapply deriv_eq; [|apply (det_jacobi n G 0 D (mat_at B) DG)]; [|rewrite E0; exact HB].
  rewrite E0. rewrite <- Rmult_assoc, (Rmult_comm 2), Rmult_assoc. f_equal.
  unfold slope. fold n. rewrite SzJ. fold C Jf Hf.
  assert (Sy := inverse_sym n (gram type J) (mat_at B) (fun i j _ _ => gram_sym type J i j) HB).
  transitivity (Rsum n (fun i => Rsum n (fun j => Rsum C (fun c => Jf i c * Hf j c) * mat_at B i j)) + Rsum n (fun i => Rsum n (fun j => Rsum C (fun c => Jf j c * Hf i c) * mat_at B i j))).
  - rewrite <- Rsum_plus. apply Rsum_ext. intros i Hi. rewrite <- Rsum_plus. apply Rsum_ext. intros j Hj. unfold D.
    rewrite Rsum_plus, Rmult_plus_distr_l. f_equal.
    + rewrite Rmult_comm. f_equal. apply Rsum_ext. intros; ring.
    + rewrite Rmult_comm. f_equal. 
  - rewrite (Rsum_swap n n (fun i j => Rsum C (fun c => Jf j c * Hf i c) * mat_at B i j)).
    rewrite (Rsum_ext n (fun j => Rsum n (fun i => Rsum C (fun c => Jf j c * Hf i c) * mat_at B i j)) (fun i => Rsum n (fun j => Rsum C (fun c => Jf i c * Hf j c) * mat_at B i j))).
    + ring.
    + intros i Hi. apply Rsum_ext. intros j Hj. rewrite (Sy j i Hj Hi). reflexivity.
Qed.
End WithRobot.
