(** Proofs about the constraints of the kinematics solver. *)
From Coq Require Import Reals List ZArith Bool String Lra Lia.
From Verif Require Import Base Linalg Angle Geom3 Tools_model Geometry_model Geometry_proofs Expression_model Expression_spec Expression_proofs Problem_model Problem_spec Problem_props Polynom_model Polynom_spec Polynom_proofs Robot_model
  Robot_spec Robot_proofs Robot_props KinTasks_model Kin_model Kin_spec Kin_proofs Kin_proofs2 Kin_proofs5 Kin_proofs6 Kin_props DynTasks_model DynTasks_proofs Tasks_spec Tasks_proofs
  KinTasks_spec KinTasks_proofs KinCons_spec.
Import ListNotations.
Open Scope R_scope.

Lemma made_penalty_ineq c w n m f x : made c Inequality Soft w n m f -> soft_penalty c x = w / 2 * Rsum n (fun i => Rsqr (Rmin 0 (f x i))).
Proof.
  intros (H1 & H2 & H3 & H4 & _ & _ & H7). unfold soft_penalty. rewrite H1, H2, H3, H4. f_equal. apply Rsum_ext. intros i Hi. now rewrite H7.
Qed.
Lemma made_same c t p w n m f x y i : made c t p w n m f -> (i < n)%nat -> (forall j, (j < m)%nat -> x j = y j) -> f x i = f y i.
Proof.
  intros (_ & _ & _ & _ & _ & H6 & H7) Hi H. rewrite <- !H7 by exact Hi. unfold row. rewrite H6. f_equal. apply Rsum_ext. intros j Hj. now rewrite H.
Qed.

(** ** Edges *)

Lemma edge_length A B : A <> B -> 0 < (snd B - snd A) * (snd B - snd A) + (fst A - fst B) * (fst A - fst B).
Proof.
  intros Hne. destruct A as [ax ay], B as [bx b_y]. cbn [fst snd].
  assert (bx <> ax \/ b_y <> ay) as [H|H].
  { destruct (Req_dec bx ax); [right|left; assumption]. intros ->. apply Hne. congruence. }
  - assert (Hn : ax - bx <> 0) by lra. pose proof (Rsqr_pos_lt _ Hn). pose proof (Rle_0_sqr (b_y - ay)). unfold Rsqr in *. lra.
  - assert (Hn : b_y - ay <> 0) by lra. pose proof (Rsqr_pos_lt _ Hn). pose proof (Rle_0_sqr (ax - bx)). unfold Rsqr in *. lra.
Qed.
Lemma edge_normal A B px py : A <> B -> let n := normalize2 (snd B - snd A, fst A - fst B) in fst n * (px - fst A) + snd n * (py - snd A) = inner_distance A B (px, py).
Proof.
  intros Hne n. pose proof (edge_length A B Hne) as Hz. unfold n, normalize2, inner_distance, right_area, distance. cbn [fst snd]. destruct (Rlt_dec 0 _) as [_|]; [cbn [fst snd]|contradiction].
  replace ((fst A - fst B)² + (snd A - snd B)²) with ((snd B - snd A) * (snd B - snd A) + (fst A - fst B) * (fst A - fst B)) by (unfold Rsqr; ring).
  set (s := sqrt _). assert (Hs : 0 < s) by (apply sqrt_lt_R0; exact Hz). field. lra.
Qed.
Lemma in_polygon_made e m f polygon margin c : denotes e 2 m f -> (0 < List.length polygon)%nat -> (forall i A B, edge polygon i A B -> A <> B) -> in_polygon_xy e polygon margin = Ok c ->
  exists g, made c Inequality Hard 1 (List.length polygon) m g /\ forall x i, (i < List.length polygon)%nat -> exists A B, edge polygon i A B /\ g x i = inner_distance A B (f x 0%nat, f x 1%nat) - margin.
Proof.
  intros D Hp Hne H. unfold in_polygon_xy in H. pose proof D as (D1 & _ & D3 & _). rewrite D1 in H. cbn [Nat.eqb negb] in H.
  destruct (edges_loop_spec e m f polygon margin D Hp (List.length polygon) 0 eq_refl) as (l & El & Ll & Hl). rewrite El in H. cbn [obind] in H.
  apply ge_d_made in H; [|reflexivity]. cbn [mrows mcols mat_at vat] in H. eexists. split; [unfold cols in D3, H; rewrite D3 in H; exact H|].
  intros x i Hi. destruct (Hl i Hi) as (A & B & r & He & Hr & Dr). cbn [Nat.add] in He. exists A, B. split; [exact He|]. cbv beta. apply denotes_elim in Dr. destruct Dr as (R1 & R2 & R3 & R4).
  specialize (R4 x 0%nat ltac:(lia)). unfold ev in R4. unfold cols in R3. unfold cols in R4. rewrite R3 in R4. rewrite (nth_error_nth _ _ _ Hr). rewrite <- (edge_normal A B _ _ (Hne i A B He)). cbv zeta in R4 |- *. lra.
Qed.

Section WithPin.
Variable pn : pin.

(** ** Each constraint *)

Lemma com_polygon_made dt r polygon margin omega dcm c q x : starts r q -> com_moves pn (r_model r) q x -> (0 < List.length polygon)%nat -> (forall i A B, edge polygon i A B -> A <> B) ->
  com_polygon_constraint pn dt r polygon margin omega dcm = Ok c -> exists g, made c Inequality Hard 1 (List.length polygon) (m_nv (r_model r)) g /\ exists v, v3_deriv (fun u => pn_com pn (q u)) 0 v /\
    forall i, (i < List.length polygon)%nat -> exists A B, edge polygon i A B /\
      let p := v3_add (pn_com pn (q 0)) (v3_add v (if dcm then v3_scale (/ omega) (v3_scale (/ dt) v) else v3_zero)) in g (vat x) i = inner_distance A B (vx p, vy p) - margin.
Proof.
  intros [Se Eq] (J1 & J2 & J3 & J4) Hp Hne H. unfold com_polygon_constraint in H. bind H J EJ. bind H J' EJ'.
  unfold com_jacobian in EJ. unfold com_world in H. rewrite Se in H. cbn [fst] in H. rewrite <- Eq in EJ, H.
  destruct (block_entry _ _ _ _ _ _ EJ) as (R1 & C1 & _ & E1).
  set (k := if dcm then 1 + 1 / (dt * omega) else 1).
  assert (X : mrows J' = 2%nat /\ mcols J' = m_nv (r_model r) /\ (dcm = true -> dt <> 0 /\ omega <> 0) /\ forall i j, mat_at J' i j = mat_at (pn_comjac pn (q 0)) i j * k).
  { unfold k. destruct dcm.
    - destruct (Req_EM_T dt 0); [discriminate|]. destruct (Req_EM_T omega 0); [discriminate|]. injection EJ' as <-. cbn. split; [reflexivity|]. split; [congruence|]. split; [tauto|]. intros i j. rewrite E1. reflexivity.
    - injection EJ' as <-. split; [exact R1|]. split; [congruence|]. split; [discriminate|]. intros i j. rewrite E1. cbn [Nat.add]. ring. }
  destruct X as (R2 & C2 & Hd & E2).
  pose proof (affine_denotes J' (Vec 2 (coord (pn_com pn (q 0)))) ltac:(cbn; congruence)) as D. rewrite R2, C2 in D.
  destruct (in_polygon_made _ _ _ _ _ _ D Hp Hne H) as (g & M & G). exists g. split; [exact M|]. exists (rows3 (pn_comjac pn (q 0)) 0 x). split; [exact J4|].
  intros i Hi. destruct (G (vat x) i Hi) as (A & B & He & Hg). exists A, B. split; [exact He|]. cbv zeta. rewrite Hg. f_equal. unfold inner_distance, right_area. f_equal. cbn [fst snd].
  assert (Rw : forall l, Rsum (m_nv (r_model r)) (fun j => mat_at J' l j * vat x j) = k * row_of (pn_comjac pn (q 0)) l x).
  { intros l. unfold row_of. rewrite J2, <- Rsum_scal_l. apply Rsum_ext. intros j _. rewrite E2. ring. }
  rewrite !Rw. unfold rows3. cbn [vat coord]. unfold k. destruct dcm; cbn [v3_add v3_scale vx vy v3_zero]; [destruct (Hd eq_refl)|].
  - field. split; assumption.
  - ring.
Qed.

Lemma half_spaces_made N r A b c (q : R -> vec) x : starts r q -> (forall j, (j < mcols A - 7)%nat -> vat (pn_integrate pn (q 0) x) (7 + j) = vat (q 0) (7 + j) + vat x (6 + j)) ->
  half_spaces_constraint N r A b = Ok c -> exists g, made c Inequality Hard 1 (mrows A) N g /\ forall i, (i < mrows A)%nat ->
    g (vat x) i = vat b i - Rsum (mcols A - 7) (fun j => mat_at A i (7 + j) * vat (pn_integrate pn (q 0) x) (7 + j)).
Proof.
  intros [Se Eq] Hi H. unfold half_spaces_constraint in H. destruct (negb (Nat.eqb (mrows A) (vlen b))) eqn:Eb; [discriminate|]. apply negb_false_iff, Nat.eqb_eq in Eb. destruct (negb _) eqn:Ec; [discriminate|]. apply negb_false_iff, Nat.eqb_eq in Ec.
  apply guard_inv in H. destruct H as [G H]. apply andb_prop in G. destruct G as [G G3]. apply andb_prop in G. destruct G as [G1 G2]. apply Nat.leb_le in G1, G2. apply Nat.eqb_eq in G3.
  bind H A' EA'. bind H s Es. bind H b' Eb'. destruct (block_entry _ _ _ _ _ _ EA') as (R1 & C1 & _ & E1). unfold segment_of in Es. apply guard_inv in Es. destruct Es as [_ Es]. injection Es as <-.
  unfold mat_vec in Eb'. apply guard_inv in Eb'. destruct Eb' as [_ Eb']. injection Eb' as <-.
  apply le_v_made in H; [|cbn; exact R1|cbn; congruence]. cbn [mrows mcols mat_at vat] in H. eexists. split; [exact H|]. intros i Hr. cbv beta. f_equal.
  rewrite C1. cbn [vat]. rewrite <- Eq.
  rewrite (Rsum_ext (mcols A - 7) (fun j => mat_at A i (7 + j) * vat (pn_integrate pn (q 0) x) (7 + j)) (fun j => mat_at A' i j * vat x (6 + j) + mat_at A' i j * vat (q 0) (7 + j)%nat)).
  2: { intros j Hj. rewrite Hi by exact Hj. rewrite E1. cbn [Nat.add]. ring. }
  rewrite Rsum_plus. f_equal. replace N with (6 + (mcols A - 7))%nat at 1 by lia. rewrite Rsum_split. rewrite (Rsum_zero_ext 6) by (intros j Hj; apply Nat.ltb_lt in Hj; rewrite Hj; ring). rewrite Rplus_0_l.
  apply Rsum_ext. intros j Hj. destruct (Nat.ltb_spec (6 + j) 6); [lia|]. replace (6 + j - 6)%nat with j by lia. reflexivity.
Qed.

Lemma distance_made N r a b max c q x : N = m_nv (r_model r) -> starts r q -> jacobian_of pn (r_model r) q 0 x a -> jacobian_of pn (r_model r) q 0 x b ->
  fr_t (pn_frame pn (q 0) a) <> fr_t (pn_frame pn (q 0) b) -> distance_constraint pn N r a b max = Ok c -> exists g, made c Inequality Hard 1 1 N g /\
    exists d, derivable_pt_lim (fun u => frames_distance pn a b (q u)) 0 d /\ forall i, (i < 1)%nat -> g (vat x) i = max - (frames_distance pn a b (q 0) + d).
Proof.
  intros HN Hs Ja Jb Hne H. unfold distance_constraint in H. bind H y Ey. destruct y as [d J]. destruct (distance_jacobian_spec pn _ _ _ _ _ _ _ _ HN Hs Ja Jb Hne Ey) as (R1 & C1 & E1 & D).
  cbn [fst snd] in H. apply le_d_made in H; [|cbn; congruence]. rewrite R1, C1 in H. eexists. split; [exact H|]. rewrite C1 in D. eexists. split; [exact D|].
  intros i Hi. replace i with 0%nat by lia. cbv beta. cbn [vat]. rewrite E1. unfold frames_distance. ring.
Qed.

(** ** Collisions *)

Lemma m3_vec_t a v : rotation a -> m3_vec a (m3_vec (m3_t a) v) = v.
Proof. intros H. rewrite <- m3_vec_mul, (rotation_r _ H). apply m3_vec_id. Qed.

Lemma carried_0 T p : rigid (T 0) -> carried T p 0 = p.
Proof. intros H. unfold carried. rewrite <- frame_act_mul, (frame_inv_r _ H). unfold frame_act. cbn. apply V3_ext; unfold m3_vec; cbn; ring. Qed.

Lemma carried_deriv T v w p : rigid (T 0) -> moves T 0 v w -> v3_deriv (carried T p) 0 (v3_add v (v3_cross w (v3_sub p (fr_t (T 0))))).
Proof.
  intros Hr [Hv Hw]. unfold carried, frame_act. set (c := v3_add _ (fr_t (frame_inv (T 0)))).
  assert (Hc : m3_vec (fr_R (T 0)) c = v3_sub p (fr_t (T 0))).
  { unfold c, frame_inv. cbn [fr_R fr_t]. rewrite m3_vec_add, m3_vec_scale, !(m3_vec_t _ _ Hr). apply V3_ext; cbn; ring. }
  pose proof (vector_deriv _ _ _ c Hw) as D. cbv beta in D. rewrite Hc in D. destruct D as (D1 & D2 & D3). destruct Hv as (V1 & V2 & V3).
  split; [|split]; cbn [v3_add vx vy vz]; (eapply lim_ext; [intros u; reflexivity| |apply deriv_plus; eassumption]); ring.
Qed.

Lemma action_rows p J C (x : vec) : mat_mul (action_matrix (Frame m3_id (v3_scale (-1) p))) J = Ok C -> mrows J = 6%nat ->
  mrows C = 6%nat /\ mcols C = mcols J /\ rows3 C 0 x = v3_add (rows3 J 0 x) (v3_cross (rows3 J 3 x) p).
Proof.
  intros H HJ. set (M := action_matrix (Frame m3_id (v3_scale (-1) p))) in H. assert (HM : mrows M = 6%nat /\ mcols M = 6%nat) by (split; reflexivity). destruct HM as [HM1 HM2].
  assert (R0 : forall j, Rsum 6 (fun i => mat_at M 0 i * mat_at J i j) = mat_at J 0 j + vz p * mat_at J 4 j - vy p * mat_at J 5 j) by (intros j; cbn; ring).
  assert (R1 : forall j, Rsum 6 (fun i => mat_at M 1 i * mat_at J i j) = mat_at J 1 j - vz p * mat_at J 3 j + vx p * mat_at J 5 j) by (intros j; cbn; ring).
  assert (R2 : forall j, Rsum 6 (fun i => mat_at M 2 i * mat_at J i j) = mat_at J 2 j + vy p * mat_at J 3 j - vx p * mat_at J 4 j) by (intros j; cbn; ring).
  clearbody M. unfold mat_mul in H. apply guard_inv in H. destruct H as [_ H]. injection H as <-. cbn [mrows mcols]. split; [exact HM1|]. split; [reflexivity|].
  unfold rows3 at 1, row_of. cbn [mcols mat_at]. rewrite HM2.
  rewrite (Rsum_ext (mcols J) (fun k => Rsum 6 (fun i => mat_at M 0 i * mat_at J i k) * vat x k) (fun k => mat_at J 0 k * vat x k + vz p * (mat_at J 4 k * vat x k) + - vy p * (mat_at J 5 k * vat x k))) by (intros j _; rewrite R0; ring).
  rewrite (Rsum_ext (mcols J) (fun k => Rsum 6 (fun i => mat_at M 1 i * mat_at J i k) * vat x k) (fun k => mat_at J 1 k * vat x k + - vz p * (mat_at J 3 k * vat x k) + vx p * (mat_at J 5 k * vat x k))) by (intros j _; rewrite R1; ring).
  rewrite (Rsum_ext (mcols J) (fun k => Rsum 6 (fun i => mat_at M 2 i * mat_at J i k) * vat x k) (fun k => mat_at J 2 k * vat x k + vy p * (mat_at J 3 k * vat x k) + - vx p * (mat_at J 4 k * vat x k))) by (intros j _; rewrite R2; ring).
  rewrite !Rsum_plus, !Rsum_scal_l. fold (row_of J 0 x) (row_of J 1 x) (row_of J 2 x) (row_of J 3 x) (row_of J 4 x) (row_of J 5 x).
  apply V3_ext; cbn [v3_add v3_cross rows3 vx vy vz]; ring.
Qed.

Lemma collision_row_spec N r margin d J y place q x : N = m_nv (r_model r) -> starts r q -> joint_moves pn (r_model r) q x place (di_A d) -> joint_moves pn (r_model r) q x place (di_B d) ->
  di_pA d <> di_pB d -> collision_row pn N r margin d = Ok (J, y) ->
  mcols J = N /\ y = di_min d - margin /\ derivable_pt_lim (separation place d) 0 (Rsum N (fun j => mat_at J 0 j * vat x j)).
Proof.
  intros HN [Se Eq] (A1 & A2 & A3 & A4 & A5) (B1 & B2 & B3 & B4 & B5) Hne H. unfold collision_row in H. rewrite Se in H. cbn [fst] in H. rewrite <- Eq in H.
  bind H JA EA. bind H JB EB. bind H D ED. bind H D' ED'. bind H J' EJ. injection H as <- <-.
  destruct (action_rows _ _ _ x EA A1) as (RA & CA & HA). destruct (action_rows _ _ _ x EB B1) as (RB & CB & HB).
  destruct (block_size _ _ _ _ _ _ ED') as [R3 C3]. destruct (row_times_apply _ _ _ (vat x) EJ R3) as (RJ & CJ & S). split; [congruence|]. split; [reflexivity|].
  rewrite C3 in CJ. rewrite CJ in S. rewrite S, (sub_apply3 _ _ _ _ _ _ x ED ED') by congruence. rewrite HA, HB.
  pose proof (carried_deriv _ _ _ (di_pA d) (A4 0) A5) as DA. pose proof (carried_deriv _ _ _ (di_pB d) (B4 0) B5) as DB.
  pose proof (v3_deriv_sub _ _ _ _ _ DB DA) as DD.
  assert (Z : v3_sub (carried (place (di_B d)) (di_pB d) 0) (carried (place (di_A d)) (di_pA d) 0) = v3_sub (di_pB d) (di_pA d)) by (rewrite (carried_0 _ _ (A4 0)), (carried_0 _ _ (B4 0)); reflexivity).
  assert (Nz : v3_sub (di_pB d) (di_pA d) <> v3_zero) by (intros E; apply Hne; assert (X := f_equal vx E); assert (Y := f_equal vy E); assert (W := f_equal vz E); cbn in X, Y, W; apply V3_ext; lra).
  pose proof (norm_deriv _ 0 _ DD) as ND. cbv beta in ND. rewrite Z in ND. specialize (ND Nz). unfold separation.
  eapply lim_ext; [intros u; reflexivity| |apply (deriv_prod (fun _ => if Rlt_dec (di_min d) 0 then -1 else 1) _ 0 0); [apply lim_const|exact ND]].
  cbv beta. destruct (Rlt_dec (di_min d) 0); unfold v3_dot, v3_sub, v3_add, v3_cross, v3_scale; cbn [vx vy vz]; ring.
Qed.

Lemma collision_rows_spec N r margin l rs : collision_rows pn N r margin l = Ok rs -> List.length rs = List.length l /\
  forall i d, nth_error l i = Some d -> exists J y, nth_error rs i = Some (J, y) /\ collision_row pn N r margin d = Ok (J, y).
Proof.
  revert rs. induction l as [|d l IH]; intros rs H; cbn [collision_rows] in H.
  - injection H as <-. split; [reflexivity|]. intros [|i] d; discriminate.
  - bind H y Ey. bind H rest Er. injection H as <-. destruct (IH rest eq_refl) as [L IHr]. split; [cbn; now rewrite L|]. intros [|i] d' Hd; cbn in Hd.
    + injection Hd as <-. destruct y as [J y]. exists J, y. split; [reflexivity|exact Ey].
    + exact (IHr i d' Hd).
Qed.

Lemma collisions_made N r distances margin trigger o place q x : N = m_nv (r_model r) -> starts r q ->
  (forall d, In d (near_pairs trigger distances) -> joint_moves pn (r_model r) q x place (di_A d) /\ joint_moves pn (r_model r) q x place (di_B d) /\ di_pA d <> di_pB d) ->
  collisions_constraint pn N r distances margin trigger = Ok o ->
  match o with
  | None => near_pairs trigger distances = []
  | Some c => exists g, made c Inequality Hard 1 (List.length (near_pairs trigger distances)) N g /\
      forall i d, nth_error (near_pairs trigger distances) i = Some d -> exists v, derivable_pt_lim (separation place d) 0 v /\ g (vat x) i = di_min d + v - margin
  end.
Proof.
  intros HN Hs Hm H. unfold collisions_constraint in H. fold (near_pairs trigger distances) in H. set (near := near_pairs trigger distances) in *.
  destruct near as [|d0 l0] eqn:En; [injection H as <-; reflexivity|]. rewrite <- En in *. clear En d0 l0. bind H rs Er. bind H c Ec. injection H as <-.
  apply ge_d_made in Ec; [|reflexivity]. cbn [mrows mcols mat_at vat] in Ec. eexists. split; [exact Ec|]. intros i d Hd. cbv beta.
  destruct (collision_rows_spec _ _ _ _ _ Er) as [_ Hr]. destruct (Hr i d Hd) as (J & y & Hn & Ey). rewrite (nth_error_nth _ _ _ Hn). cbn [fst snd].
  destruct (Hm d (nth_error_In _ _ Hd)) as (MA & MB & Hne). destruct (collision_row_spec _ _ _ _ _ _ _ _ _ HN Hs MA MB Hne Ey) as (C & -> & D). eexists. split; [exact D|]. ring.
Qed.

(** ** All of them *)

Definition prio_of (c : kconstraint) : cprio := match kc_kind c with KCollisions _ _ _ => match kc_priority c with PSoft => Soft | _ => Hard end | _ => to_priority (kc_priority c) end.
Lemma prio_hard c : constraint_hard c -> prio_of c = Hard.
Proof. unfold constraint_hard, prio_of. destruct (kc_kind c); intros H; try (rewrite H; reflexivity). destruct (kc_priority c); [reflexivity|congruence|reflexivity]. Qed.
Lemma prio_soft c : ~ constraint_hard c -> prio_of c = Soft.
Proof. unfold constraint_hard, prio_of. destruct (kc_kind c), (kc_priority c); intros H; try reflexivity; exfalso; apply H; congruence. Qed.

Lemma constraint_made N dt r c cs place q x : N = m_nv (r_model r) -> starts r q -> cons_motion pn r place q x (kc_kind c) -> constraint_add pn N dt r c = Ok cs ->
  exists n gap, gaps pn dt r place q x (kc_kind c) n gap /\
    ((cs = [] /\ n = 0%nat) \/ exists c' g, cs = [c'] /\ made c' Inequality (prio_of c) (kc_weight c) n N g /\ forall i, (i < n)%nat -> g (vat x) i = gap i).
Proof.
  intros HN Hs Hm H. unfold constraint_add in H. unfold prio_of. destruct (kc_kind c) eqn:K; cbn [cons_motion] in Hm; try contradiction.
  - bind H c' Ec. injection H as <-. destruct Hm as (Hc & Hp & Hne). destruct (com_polygon_made _ _ _ _ _ _ _ _ _ Hs Hc Hp Hne Ec) as (g & M & v & Dv & G). exists (List.length polygon), (g (vat x)). split.
    + cbn [gaps]. split; [reflexivity|]. exists v. split; [exact Dv|exact G].
    + right. eexists _, g. split; [reflexivity|]. rewrite HN. split; [eapply made_configure; exact M|reflexivity].
  - bind H c' Ec. injection H as <-. destruct (half_spaces_made _ _ _ _ _ _ _ Hs Hm Ec) as (g & M & G). exists (mrows A), (g (vat x)). split; [split; [reflexivity|exact G]|].
    right. eexists _, g. split; [reflexivity|]. split; [eapply made_configure; exact M|reflexivity].
  - bind H c' Ec. injection H as <-. destruct Hm as (Ma & Mb & Hne). destruct (distance_made _ _ _ _ _ _ _ _ HN Hs Ma Mb Hne Ec) as (g & M & d & Dd & G). exists 1%nat, (g (vat x)). split; [split; [reflexivity|exists d; split; [exact Dd|exact G]]|].
    right. eexists _, g. split; [reflexivity|]. split; [eapply made_configure; exact M|reflexivity].
  - bind H o Eo. pose proof (collisions_made _ _ _ _ _ _ _ _ _ HN Hs Hm Eo) as M. destruct o as [c'|]; injection H as <-.
    + destruct M as (g & M & G). eexists _, (g (vat x)). split; [split; [reflexivity|exact G]|]. right. eexists _, g. split; [reflexivity|]. split; [eapply made_configure; exact M|reflexivity].
    + exists 0%nat, (fun _ => 0). split; [|left; split; reflexivity]. cbn [gaps]. rewrite M. split; [reflexivity|]. intros [|i] d; discriminate.
Qed.

End WithPin.

Section WithSolver.
Variable pn : pin.
Variable log3 : mat3 -> vec3.
Variable msqrt : mat -> mat.

Lemma solved_constraints N s r apply qr qp s' r' delta c : kreachable pn log3 msqrt N s -> sound pn log3 msqrt s r ->
  ksolve pn log3 msqrt qr qp s r apply = (s', r', Ok delta) -> In c (ks_cons s) -> vlen delta = N /\ exists cs, constraint_add pn N (ks_dt s) r c = Ok cs.
Proof.
  intros R So E Hc. apply reachable_knows in R. pose proof (proj1 R) as HN.
  destruct (ksolve_solved pn log3 msqrt N s r apply qr qp s' r' delta R) as (s2 & pb' & S); [rewrite <- HN; apply So|exact E|].
  split; [apply (so_delta _ _ _ _ _ _ _ _ _ _ _ _ _ _ S)|]. 
  destruct (pr_cons _ _ _ _ _ _ _ (so_prepared _ _ _ _ _ _ _ _ _ _ _ _ _ _ S) c Hc) as (cs & E'). exists cs. rewrite <- HN. exact E'.
Qed.

Lemma hard_rows_hold N s r apply qr qp s' r' delta c cs c' g n : kreachable pn log3 msqrt N s -> sound pn log3 msqrt s r -> qr_correct qr -> qp_correct qp ->
  ksolve pn log3 msqrt qr qp s r apply = (s', r', Ok delta) -> In c (ks_cons s) -> constraint_add pn N (ks_dt s) r c = Ok cs -> In c' cs ->
  made c' Inequality Hard (c_weight c') n N g -> forall i, (i < n)%nat -> 0 <= g (vat delta) i.
Proof.
  intros R So Hqr Hqp E Hc Ec Hc' M i Hi. apply reachable_knows in R. pose proof (proj1 R) as HN.
  destruct (ksolve_allowed pn log3 msqrt N s r apply qr qp s' r' delta R So Hqr Hqp E) as [L Al]. rewrite <- HN in Ec. pose proof (al_constraints _ _ _ _ _ _ Al c cs Hc Ec) as H.
  assert (H' : holds c' (extended delta (ks_scale s'))) by (apply (H c' Hc'); apply M).
  rewrite (made_holds _ _ _ _ _ _ _ _ M) in H'. specialize (H' i Hi). cbn in H'. rewrite (made_same _ _ _ _ _ _ _ (vat delta) (extended delta (ks_scale s')) i M Hi); [exact H'|].
  intros j Hj. unfold extended. destruct (Nat.ltb_spec j (vlen delta)); [reflexivity|lia].
Qed.

End WithSolver.
