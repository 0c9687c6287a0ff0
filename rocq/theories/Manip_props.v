From Coq Require Import Reals List ZArith Bool String Lra Lia.
From Verif Require Import Base Linalg Geom3 Tools_model Geometry_model Expression_model Problem_model Problem_spec Problem_props Polynom_model Robot_model Robot_spec Robot_proofs Robot_props
  KinTasks_model Kin_model Kin_spec Kin_proofs Kin_proofs2 Kin_proofs5 Kin_proofs6 Kin_props KinTasks_spec KinTasks_proofs Backends_proofs KinTasks_example
  Det Det_proofs Det_proofs2 Manip_model Manip_spec Manip_proofs.
Import ListNotations.
Open Scope R_scope.

(** ** C147 The manipulability task *)

Lemma update_inv pn hs inv N r f type lambda minimize w e : let q := fst (r_seen r) in let J := pn_jac pn q f Local in
  inverts inv -> hessian_sound pn hs (r_model r) q f -> m_nv (r_model r) = N ->
  manip_update pn hs inv N r f type lambda minimize = Ok (w, e) ->
  det (row_count type) (gram type J) <> 0 /\ lambda <> 0 /\ (6 <= N)%nat /\ w = manipulability type J /\
  exists B : mat, (forall i j, (i < row_count type)%nat -> (j < row_count type)%nat -> Rsum (row_count type) (fun c => gram type J i c * mat_at B c j) = ident i j) /\
  e = (Mat (N - 6) N (fun i j => (if Nat.eqb (6 + i) j then 1 else 0) * lambda), snd e) /\ vlen (snd e) = (N - 6)%nat /\
  forall i, (i < N - 6)%nat -> vat (snd e) i = (if minimize then -1 else 1) * (1 / (2 * lambda) * (w * slope type J (frame_hess hs q f (6 + i)) B)).
Proof.
  intros q J Hinv Hs HN E.
  destruct (hd_size _ _ _ _ _ Hs 0%nat 0) as [S6 SN]. rewrite (hd_zero _ _ _ _ _ Hs) in S6, SN. fold q J in S6, SN.
  unfold manip_update, frame_jacobian in E. fold q J in E. unfold manip_mask at 1, guard in E. destruct (Nat.leb_spec 6 (mcols J)) as [Hc|]; [|discriminate].
  assert (Hm := mask_ok type J S6 Hc). unfold manip_mask, guard in Hm. rewrite (proj2 (Nat.leb_le _ _) Hc) in Hm. rewrite Hm in E. cbn [obind] in E.
  unfold mat_mul at 1, guard, mat_t at 1 2 3 in E. cbn [mcols mrows] in E. rewrite Nat.eqb_refl in E. cbn [obind mrows mat_at mcols] in E. cbv zeta in E.
  change (fun i j => Rsum (mcols J - 6) (fun k => mat_at J (first_row type + i) (6 + k) * mat_at J (first_row type + j) (6 + k))) with (gram type J) in E.
  set (d := det (row_count type) (gram type J)) in *. destruct (Req_EM_T d 0) as [|Hd]; [discriminate|].
  rewrite SN, HN in Hc, E. rewrite (proj2 (Nat.leb_le _ _) Hc) in E. cbn [obind] in E.
  set (G := Mat (row_count type) (row_count type) (gram type J)) in *.
  destruct (manip_gradient _ _ _ _ _ _ _ _) as [l| |] eqn:El; cbn [obind] in E; try discriminate. destruct (Req_EM_T lambda 0) as [|Hl]; [discriminate|].
  injection E as Ew Ee.
  assert (El' : manip_gradient hs r f type (Mat (row_count type) (mcols J - 6) (masked type J)) (inv G) (sqrt (Rmax 0 d)) (N - 6) = Ok l) by (rewrite SN, HN; exact El).
  destruct (gradient_ok hs r f type J (inv G) (sqrt (Rmax 0 d)) (N - 6) l) as [Ll Hg]; [|lia|lia|exact El'|].
  { intros k Hk. destruct (hd_hsize _ _ _ _ _ Hs k) as [A B]. fold q. split; [exact A|rewrite SN; exact B]. }
  assert (Hw : sqrt (Rmax 0 d) = sqrt d). { unfold Rmax. destruct (Rle_dec 0 d); [reflexivity|]. rewrite sqrt_0, sqrt_neg_0; lra. }
  split; [exact Hd|]. split; [exact Hl|]. split; [exact Hc|]. split; [rewrite <- Ew; exact Hw|].
  exists (inv G). split.
  { assert (I : invertible G). { split; [reflexivity|]. destruct (det_inverse _ _ Hd) as [g Hgi]. exists (Mat (row_count type) (row_count type) g). split; [reflexivity|]. split; [reflexivity|]. exact Hgi. }
    destruct (Hinv G I) as (_ & _ & H). exact H. }
  split; [|split].
  - rewrite <- Ee. reflexivity.
  - rewrite <- Ee. cbn [snd]. now destruct minimize.
  - intros i Hi. rewrite <- Ee. cbn [snd]. rewrite <- Ew. destruct minimize; cbn [vec_scale vat]; rewrite (Hg i Hi); fold q; ring.
Qed.

(** The manipulability the task computes is the one of the frame, and the square error of its equation is, up to a constant, lambda^2 times the square of
    the displacement of the joints minus (plus, to minimize) the first order change of the manipulability. *)
Theorem C147_cost pn hs inv N r f type lambda minimize w e : let q := fst (r_seen r) in
  inverts inv -> hessian_sound pn hs (r_model r) q f -> m_nv (r_model r) = N -> manip_update pn hs inv N r f type lambda minimize = Ok (w, e) ->
  shaped N e /\ w = manipulability type (pn_jac pn q f Local) /\ lambda <> 0 /\
  exists g, manipulability_gradient pn (r_model r) q f type g /\ forall x,
    Rsum (mrows (fst e)) (fun k => Rsqr (Kin_spec.residual e x 1 k)) =
    Rsum (N - 6) (fun i => Rsqr lambda * Rsqr (x (6 + i)%nat) - (if minimize then -1 else 1) * (g (6 + i)%nat * x (6 + i)%nat) + Rsqr (g (6 + i)%nat / (2 * lambda))).
Proof.
  intros q Hinv Hs HN E. destruct (update_inv pn hs inv N r f type lambda minimize w e Hinv Hs HN E) as (Hd & Hl & Hc & Hw & B & HB & Ee & Lv & Hv). fold q in Hd, Hw, HB, Hv.
  split; [rewrite Ee; split; [reflexivity|exact Lv]|]. split; [exact Hw|]. split; [exact Hl|].
  exists (fun k => w * slope type (pn_jac pn q f Local) (frame_hess hs q f k) B). split.
  { intros k Hk. rewrite Hw. exact (manip_deriv pn hs (r_model r) q f type k B Hs Hk Hd HB). }
  intros x. rewrite Ee. cbn [fst mrows]. apply Rsum_ext. intros i Hi. unfold Kin_spec.residual. cbn [fst snd mcols mat_at].
  rewrite (Rsum_delta N (6 + i)); [|lia|].
  - rewrite Nat.eqb_refl, (Hv i Hi). set (g := w * slope type _ _ B). unfold Rsqr. destruct minimize; field; exact Hl.
  - intros j _ Hj. destruct (Nat.eqb_spec (6 + i) j); [congruence|ring].
Qed.
Print Assumptions C147_cost.

(** The penalty of a soft task in a solve. *)
Theorem C147_penalty pn hs inv log3 msqrt N s r apply qr qp s' r' delta t f type lambda minimize : let q := fst (r_seen r) in
  inverts inv -> hessian_sound pn hs (r_model r) q f -> m_nv (r_model r) = N -> kreachable pn log3 msqrt N s -> sound pn log3 msqrt s r ->
  ksolve pn log3 msqrt qr qp s r apply = (s', r', Ok delta) -> In t (ks_tasks s) -> kt_priority t = PSoft ->
  kt_kind t = manip_kind pn hs inv N f type lambda minimize ->
  exists g c, manipulability_gradient pn (r_model r) q f type g /\ forall x,
    task_penalty pn log3 msqrt s r t x = kt_weight t / 2 *
      (Rsqr lambda * Rsum (N - 6) (fun i => Rsqr (x (6 + i)%nat)) - (if minimize then -1 else 1) * Rsum (N - 6) (fun i => g (6 + i)%nat * x (6 + i)%nat) + c).
Proof.
  intros q Hinv Hs HN Rh So E Ht Hp Hk. destruct (solved_updates pn log3 msqrt N s r apply qr qp s' r' delta t Rh So E Ht) as (_ & e & Hu).
  assert (Hu' := Hu). rewrite Hk in Hu'. unfold manip_kind in Hu'. cbn [task_update] in Hu'.
  destruct (manip_update pn hs inv N r f type lambda minimize) as [[w e']| |] eqn:Em; cbn [obind snd] in Hu'; try discriminate. injection Hu' as ->.
  destruct (C147_cost pn hs inv N r f type lambda minimize w e Hinv Hs HN Em) as (_ & _ & _ & g & Hg & Hx).
  exists g, (Rsum (N - 6) (fun i => Rsqr (g (6 + i)%nat / (2 * lambda)))). split; [exact Hg|]. intros x.
  unfold task_penalty. rewrite Hp, (proj1 (reachable_knows _ _ _ _ _ Rh)), Hu. f_equal. rewrite (Hx x), Rsum_plus, Rsum_minus, !Rsum_scal_l. ring.
Qed.
Print Assumptions C147_penalty.

(** The displacement the task asks for, alone: along the gradient of the manipulability (against it, to minimize). *)
Theorem C147_step pn hs inv N r f type lambda minimize w e : let q := fst (r_seen r) in
  inverts inv -> hessian_sound pn hs (r_model r) q f -> m_nv (r_model r) = N -> manip_update pn hs inv N r f type lambda minimize = Ok (w, e) ->
  exists g, manipulability_gradient pn (r_model r) q f type g /\ forall x,
    follows e x 1 <-> forall k, (6 <= k < N)%nat -> x k = (if minimize then -1 else 1) * g k / (2 * Rsqr lambda).
Proof.
  intros q Hinv Hs HN E. destruct (update_inv pn hs inv N r f type lambda minimize w e Hinv Hs HN E) as (Hd & Hl & Hc & Hw & B & HB & Ee & Lv & Hv). fold q in Hd, Hw, HB, Hv.
  exists (fun k => w * slope type (pn_jac pn q f Local) (frame_hess hs q f k) B). split.
  { intros k Hk. rewrite Hw. exact (manip_deriv pn hs (r_model r) q f type k B Hs Hk Hd HB). }
  intros x.
  assert (Er : forall i, (i < N - 6)%nat -> Kin_spec.residual e x 1 i = lambda * x (6 + i)%nat - (if minimize then -1 else 1) * (1 / (2 * lambda) * (w * slope type (pn_jac pn q f Local) (frame_hess hs q f (6 + i)) B))).
  { intros i Hi. rewrite Ee. unfold Kin_spec.residual. cbn [fst snd mcols mat_at]. rewrite (Rsum_delta N (6 + i)); [|lia|].
    - rewrite Nat.eqb_refl, (Hv i Hi). ring.
    - intros j _ Hj. destruct (Nat.eqb_spec (6 + i) j); [congruence|ring]. }
  assert (Hl2 : lambda * lambda <> 0) by (intros Z; apply Rmult_integral in Z; tauto).
  split.
  - intros H k Hk. specialize (H (k - 6)%nat). rewrite Ee in H. cbn [fst mrows] in H. rewrite <- Ee in H. specialize (H ltac:(lia)). rewrite Er in H by lia.
    replace (6 + (k - 6))%nat with k in H by lia. set (g := w * _) in *. unfold Rsqr.
    apply (Rmult_eq_reg_l lambda); [|exact Hl]. transitivity ((if minimize then -1 else 1) * (1 / (2 * lambda) * g)); [lra|]. field. exact Hl.
  - intros H i Hi. rewrite Ee in Hi. cbn [fst mrows] in Hi. rewrite (Er i Hi), (H (6 + i)%nat) by lia. set (g := w * _). unfold Rsqr. field. exact Hl.
Qed.
Print Assumptions C147_step.

(** With fewer joints than coordinates (three for a position or an orientation, six for both) the task cannot be used: J J^T has no inverse. *)
Lemma det_gram_short type J : (mcols J - 6 < row_count type)%nat -> det (row_count type) (gram type J) = 0.
Proof.
  intros H. set (n := row_count type) in *. set (C := (mcols J - 6)%nat) in *.
  set (F := fun i j => if Nat.ltb j (n - C) then 0 else mat_at J (first_row type + i) (6 + (j - (n - C)))).
  rewrite (det_ext n (gram type J) (fun i j => Rsum n (fun k => F i k * (fun a b => F b a) k j))).
  - rewrite (det_mul n F (fun a b => F b a)). rewrite (det_zero_col n F); [ring|lia|]. intros i _. unfold F. destruct (Nat.ltb_spec 0 (n - C)); [reflexivity|lia].
  - intros i j _ _. unfold gram. fold C. replace n with ((n - C) + C)%nat at 1 by lia. rewrite Rsum_split, (Rsum_zero_ext (n - C)).
    + rewrite Rplus_0_l. apply Rsum_ext. intros c Hc. unfold F. destruct (Nat.ltb_spec (n - C + c) (n - C)); [lia|]. now replace (n - C + c - (n - C))%nat with c by lia.
    + intros k Hk. unfold F. rewrite (proj2 (Nat.ltb_lt _ _) Hk). ring.
Qed.

Theorem C147_singular pn hs inv N r f type lambda minimize : let J := pn_jac pn (fst (r_seen r)) f Local in
  mrows J = 6%nat -> det (row_count type) (gram type J) = 0 \/ (mcols J - 6 < row_count type)%nat ->
  manip_update pn hs inv N r f type lambda minimize = UB.
Proof.
  intros J H6 H. assert (Hd : det (row_count type) (gram type J) = 0) by (destruct H as [H|H]; [exact H|exact (det_gram_short type J H)]).
  unfold manip_update, frame_jacobian. fold J. destruct (Nat.leb_spec 6 (mcols J)) as [Hc|Hc].
  - rewrite (mask_ok type J H6 Hc). cbn [obind]. unfold mat_mul at 1, guard, mat_t. cbn [mcols mrows]. rewrite Nat.eqb_refl. cbn [obind mrows mat_at mcols]. cbv zeta.
    change (fun i j => Rsum (mcols J - 6) (fun k => mat_at J (first_row type + i) (6 + k) * mat_at J (first_row type + j) (6 + k))) with (gram type J).
    destruct (Req_EM_T _ 0) as [|n]; [reflexivity|contradiction].
  - unfold manip_mask, guard. destruct (Nat.leb_spec 6 (mcols J)); [lia|reflexivity].
Qed.
Print Assumptions C147_singular.

(** The names of the types. *)
Theorem C147_types r name type f : get_frame_index r name = Ok f ->
  manip_arguments r name type = match find (fun x => String.eqb (fst x) type) [("position", MPosition); ("orientation", MOrientation); ("both", MBoth)]%string with
    | Some x => Ok (f, snd x) | None => Throw ERuntime end.
Proof.
  intros H. unfold manip_arguments. cbn [find fst]. rewrite H, (String.eqb_sym type "position"), (String.eqb_sym type "orientation"), (String.eqb_sym type "both").
  destruct (String.eqb "position" type), (String.eqb "orientation" type), (String.eqb "both" type); reflexivity.
Qed.
Print Assumptions C147_types.

(** The task can be used when J J^T has an inverse and lambda is not 0. *)
Theorem C147_defined pn hs inv N r f type lambda minimize : let q := fst (r_seen r) in
  inverts inv -> hessian_sound pn hs (r_model r) q f -> m_nv (r_model r) = N -> (6 <= N)%nat -> (f < List.length (m_frames (r_model r)))%nat ->
  det (row_count type) (gram type (pn_jac pn q f Local)) <> 0 -> lambda <> 0 ->
  exists w e, manip_update pn hs inv N r f type lambda minimize = Ok (w, e).
Proof.
  intros q Hinv Hs HN Hc Hf Hd Hl. set (J := pn_jac pn q f Local) in *.
  destruct (hd_size _ _ _ _ _ Hs 0%nat 0) as [S6 SN]. rewrite (hd_zero _ _ _ _ _ Hs) in S6, SN. fold J in S6, SN.
  unfold manip_update, frame_jacobian. fold q J. rewrite (mask_ok type J S6) by lia. cbn [obind]. unfold mat_mul at 1, guard, mat_t. cbn [mcols mrows]. rewrite Nat.eqb_refl.
  cbn [obind mrows mat_at mcols]. cbv zeta.
  change (fun i j => Rsum (mcols J - 6) (fun k => mat_at J (first_row type + i) (6 + k) * mat_at J (first_row type + j) (6 + k))) with (gram type J).
  set (G := Mat (row_count type) (row_count type) (gram type J)). destruct (Req_EM_T _ 0) as [|_]; [contradiction|]. rewrite (proj2 (Nat.leb_le _ _) Hc).
  assert (I : invertible G). { split; [reflexivity|]. destruct (det_inverse _ _ Hd) as [g Hgi]. exists (Mat (row_count type) (row_count type) g). split; [reflexivity|]. split; [reflexivity|]. exact Hgi. }
  destruct (Hinv G I) as (I1 & I2 & _). cbn [mrows G] in I1, I2.
  assert (X : forall n w, (6 + n <= N)%nat -> exists l, manip_gradient hs r f type {| mrows := row_count type; mcols := mcols J - 6; mat_at := fun i j => mat_at J (first_row type + i) (6 + j) |} (inv G) w n = Ok l).
  { induction n as [|n IH]; intros w Hn; [now eexists|]. destruct (IH w ltac:(lia)) as [l El]. cbn [manip_gradient]. rewrite El. cbn [obind].
    unfold get_frame_hessian, guard. rewrite (proj2 (Nat.ltb_lt _ _) Hf). fold q. unfold mat_mul at 1, guard. destruct (hd_hsize _ _ _ _ _ Hs (6 + n)%nat) as [H6 H7]. fold q in H6, H7. rewrite H6.
    cbn [mcols action_matrix Nat.eqb obind]. rewrite mask_ok by (cbn [mrows mcols action_matrix]; lia). cbn [obind mrows mcols]. unfold mat_mul, guard, mat_t. cbn [mcols mrows]. rewrite H7, SN, Nat.eqb_refl.
    cbn [obind]. unfold cwise_sum, guard. cbn [mrows mcols]. rewrite I1, I2, !Nat.eqb_refl. cbn [andb obind]. eauto. }
  destruct (X (N - 6)%nat (sqrt (Rmax 0 (det (row_count type) (gram type J)))) ltac:(lia)) as [l El]. rewrite El. cbn [obind]. destruct (Req_EM_T lambda 0); [contradiction|]. eauto.
Qed.
Print Assumptions C147_defined.

(** *** Example: an arm that turns about the vertical, extends and goes up; its manipulability in position is its radius *)
Definition mp_model : rmodel := RModel 10 9 [Joint "root_joint" 0 7 0 6; Joint "turn" 7 1 6 1; Joint "extend" 8 1 7 1; Joint "lift" 9 1 8 1] ["universe"; "base"; "hand"]%string
  frame_id (Vec 10 (fun _ => -1000)) (Vec 10 (fun _ => 1000)) (Vec 9 (fun _ => 3)) (Vec 9 (fun _ => 4)) (Vec 9 (fun _ => 0)) (Vec 9 (fun _ => 1)) [1; 1; 1].
Definition mp_jac (q : vec) : mat := Mat 6 9 (fun i j =>
  if Nat.ltb j 6 then (if Nat.eqb i j then 1 else 0)
  else match i, j with 0%nat, 7%nat => 1 | 1%nat, 6%nat => vat q 8 | 2%nat, 8%nat => 1 | 5%nat, 6%nat => 1 | _, _ => 0 end).
Definition mp_pin : pin := Pin (pn_frame ex_pin) (fun q _ _ => mp_jac q) (pn_djac ex_pin)
  (fun q v => Vec (vlen q) (fun i => if Nat.ltb i 7 then vat q i else vat q i + vat v (i - 1))) (pn_difference ex_pin) (pn_neutral ex_pin) (pn_com ex_pin) (pn_comjac ex_pin)
  (pn_dcomjac ex_pin) (pn_centroidal ex_pin) (pn_crba ex_pin) (pn_gravity ex_pin) (pn_nle ex_pin) (fun q _ _ => mp_jac q) (pn_joint_djac ex_pin).
Definition mp_hs : hessians := Hessians (fun _ => 4%nat) (fun _ => frame_id)
  (fun _ _ k => Mat 6 9 (fun i j => if Nat.eqb k 7 && Nat.eqb i 1 && Nat.eqb j 6 then 1 else 0)).
Definition mp_q (rho : R) : vec := Vec 10 (fun k => nth k [0; 0; 0; 0; 0; 0; 1; 1/2; rho; 3] 0).
Definition mp_robot (rho : R) : robot := Robot mp_model (State (mp_q rho) (zeros 9) (zeros 9)) (mp_q rho, zeros 9).

Lemma mp_sound rho f : hessian_sound mp_pin mp_hs mp_model (mp_q rho) f.
Proof.
  split.
  - intros k. unfold along. cbn [mp_pin pn_integrate m_nv mp_model]. unfold mp_q. cbn [vlen]. f_equal. apply FunctionalExtensionality.functional_extensionality. intros i. cbn [vat].
    destruct (Nat.ltb i 7); [reflexivity|]. destruct (Nat.eqb _ _); ring.
  - intros k u. split; reflexivity.
  - intros k. split; reflexivity.
  - intros k u c Hc J Jj. cbn [mp_pin pn_jac pn_joint_jac mp_hs hs_placement hs_parent] in J, Jj. change Jj with J. unfold linear, angular, act_linear, act_angular.
    clearbody J. unfold frame_inv, m3_vec, v3_add, v3_cross, v3_scale, m3_t. split; cbn; f_equal; ring.
  - intros k a c Hk Ha Hc. cbn [mp_pin pn_joint_jac mp_hs hs_parent hs_joint]. cbn [mp_jac mat_at m_nv mp_model] in *.
    assert (Const : forall x, derivable_pt_lim (fun _ : R => x) 0 0) by (intros x; apply derivable_pt_lim_const).
    destruct (Nat.ltb_spec c 6).
    + replace (Nat.eqb c 6) with false by (symmetry; apply Nat.eqb_neq; lia). rewrite andb_false_r. apply Const.
    + assert (C : (c = 6 \/ c = 7 \/ c = 8)%nat) by lia. assert (A : (a = 0 \/ a = 1 \/ a = 2 \/ a = 3 \/ a = 4 \/ a = 5)%nat) by lia.
      destruct C as [-> | [-> | ->]]; destruct A as [-> | [-> | [-> | [-> | [-> | ->]]]]]; cbn [Nat.eqb]; rewrite ?andb_false_r; try apply Const; rewrite ?andb_false_l, ?andb_false_r; try apply Const.
      unfold along. cbn [mp_pin pn_integrate m_nv mp_model mp_q vlen vat Nat.ltb Nat.leb Nat.sub nth]. rewrite !andb_true_r. rewrite (Nat.eqb_sym 7 k).
      destruct (Nat.eqb k 7).
      * apply deriv_ext with (f := fun u => 1 * u + rho); [intros; ring|]. eapply deriv_eq; [|apply (derivable_pt_lim_plus (fun u => 1 * u) (fun _ => rho) 0 (1 * 1) 0); [apply deriv_scal, derivable_pt_lim_id|apply Const]]. ring.
      * apply Const.
Qed.

Lemma mp_gram q : det 3 (gram MPosition (mp_jac q)) = Rsqr (vat q 8).
Proof. unfold gram. cbn. unfold Rsqr. ring. Qed.

Definition mp_task : ktask := KTask (manip_kind mp_pin mp_hs some_inverse 9 2 MPosition (1 / 2) false) PSoft 1.
Definition mp_solver : ksolver := with_settings (new_ksolver (mp_robot 2)) 1 [] false false false [mp_task] [] 1 false true.

Example C147_example : exists w e s' delta,
  inverts some_inverse /\ hessian_sound mp_pin mp_hs mp_model (fst (r_seen (mp_robot 2))) 2 /\
  manip_update mp_pin mp_hs some_inverse 9 (mp_robot 2) 2 MPosition (1 / 2) false = Ok (w, e) /\ w = 2 /\ det 3 (gram MPosition (pn_jac mp_pin (mp_q 2) 2 Local)) = 4 /\
  kreachable mp_pin klog ex_sqrt 9 mp_solver /\ sound mp_pin klog ex_sqrt mp_solver (mp_robot 2) /\
  ksolve mp_pin klog ex_sqrt perfect_qr perfect_qp mp_solver (mp_robot 2) false = (s', mp_robot 2, Ok delta) /\
  (forall g, manipulability_gradient mp_pin mp_model (mp_q 2) 2 MPosition g -> g 6%nat = 0 /\ g 7%nat = 1 /\ g 8%nat = 0).
Proof.
  assert (Hd : det 3 (gram MPosition (pn_jac mp_pin (mp_q 2) 2 Local)) = 4). { cbn [mp_pin pn_jac]. rewrite mp_gram. cbn. unfold Rsqr. ring. }
  destruct (C147_defined mp_pin mp_hs some_inverse 9 (mp_robot 2) 2 MPosition (1 / 2) false some_inverse_inverts (mp_sound 2 2) eq_refl ltac:(lia) ltac:(cbn; lia)) as (w & e & E); [cbn [row_count]; cbn [mp_robot r_seen fst]; rewrite Hd; lra|lra|].
  pose proof (C147_cost mp_pin mp_hs some_inverse 9 (mp_robot 2) 2 MPosition (1 / 2) false w e some_inverse_inverts (mp_sound 2 2) eq_refl E) as (Sh & Hw & _).
  exists w, e.
  assert (Hu : task_update mp_pin klog ex_sqrt 9 1 (mp_robot 2) (kt_kind mp_task) = Ok e). { unfold mp_task, manip_kind. cbn [kt_kind task_update]. rewrite E. reflexivity. }
  set (s := mp_solver).
  assert (An : answerable mp_pin klog ex_sqrt s (mp_robot 2)).
  { split; unfold s, mp_solver; cbn [with_settings ks_tasks ks_masked ks_masked_fbase ks_joint_limits ks_velocity_limits ks_cons ks_N ks_dt new_ksolver].
    - intros t' [<-|[]]. exists e. split; [split; [now left|exact Hu]|exact Sh].
    - intros t' [<-|[]] H. cbn. lra.
    - intros j [].
    - discriminate.
    - discriminate.
    - discriminate.
    - intros c []. }
  pose proof (answerable_sound _ _ _ _ _ An) as So.
  assert (Rh : kreachable mp_pin klog ex_sqrt 9 s) by (apply kr_settings, kr_new; reflexivity).
  destruct (perfect_ksolve mp_pin klog ex_sqrt 9 s (mp_robot 2) Rh An eq_refl ltac:(cbn; lra)) as [(s' & r' & delta & Es) _].
  - unfold hard_rows. unfold s, mp_solver. cbn [with_settings ks_tasks ks_masked ks_masked_fbase ks_cons flat_map map app]. unfold task_rows. cbn [mp_task kt_priority app]. intros mu H k Hk. cbn in Hk. lia.
  - exists (fun _ => 0). split; unfold s, mp_solver, asks_for; cbn [with_settings ks_tasks ks_masked ks_masked_fbase ks_joint_limits ks_velocity_limits ks_cons ks_N ks_dt new_ksolver].
    + intros t' e' [[<-|[]] _] H. discriminate.
    + intros t' e' [[<-|[]] _] H. discriminate.
    + intros (t' & e' & [[<-|[]] _] & H & _). discriminate.
    + intros j [].
    + discriminate.
    + discriminate.
    + discriminate.
    + intros c cs [].
  - exists s', delta. pose proof (C64_no_apply mp_pin klog ex_sqrt perfect_qr perfect_qp s (mp_robot 2) s' r' _ Es) as ->.
    split; [exact some_inverse_inverts|]. split; [apply mp_sound|]. split; [exact E|]. split.
    { rewrite Hw. unfold manipulability. cbn [mp_robot r_seen fst row_count]. rewrite Hd. replace 4 with (2 * 2) by ring. apply sqrt_square. lra. }
    split; [exact Hd|]. split; [exact Rh|]. split; [exact So|]. split; [exact Es|].
    intros g Hg.
    assert (M : forall k u, manipulability MPosition (pn_jac mp_pin (along mp_pin mp_model (mp_q 2) k u) 2 Local) = Rabs (2 + if Nat.eqb 7 k then u else 0)).
    { intros k u. unfold manipulability. cbn [mp_pin pn_jac row_count]. rewrite mp_gram, sqrt_Rsqr_abs. unfold along. cbn. reflexivity. }
    assert (U : forall k d, (6 <= k < 9)%nat -> derivable_pt_lim (fun u => Rabs (2 + if Nat.eqb 7 k then u else 0)) 0 d -> g k = d).
    { intros k d Hk Hd'. specialize (Hg k Hk). eapply uniqueness_limite; [exact Hg|]. eapply deriv_ext; [|exact Hd']. intros u. symmetry. apply M. }
    split; [|split].
    + apply U; [lia|]. cbn [Nat.eqb]. apply derivable_pt_lim_const.
    + apply U; [lia|]. cbn [Nat.eqb]. intros eps He. exists (mkposreal 1 Rlt_0_1). intros h Hh Hb. cbn in Hb. apply Rabs_def2 in Hb. rewrite (Rabs_pos_eq (2 + (0 + h))), (Rabs_pos_eq (2 + 0)) by lra.
      replace ((2 + (0 + h) - (2 + 0)) / h - 1) with 0 by (field; exact Hh). rewrite Rabs_R0. exact He.
    + apply U; [lia|]. cbn [Nat.eqb]. apply derivable_pt_lim_const.
Qed.
(** A robot with one joint has no use of the task. *)
Example C147_example_singular : mrows (pn_jac ex_pin (fst (r_seen ex_robot)) 2 Local) = 6%nat /\ (mcols (pn_jac ex_pin (fst (r_seen ex_robot)) 2 Local) - 6 < row_count MPosition)%nat.
Proof. cbn. lia. Qed.
