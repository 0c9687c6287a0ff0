From Coq Require Import Reals List ZArith Bool String Lra Lia.
From Verif Require Import Base Linalg Angle Geom3 Tools_model Geometry_model Geometry_proofs Expression_model Problem_model Problem_spec Polynom_model Robot_model Robot_spec
  Robot_proofs Robot_props KinTasks_model Kin_model Kin_spec Kin_proofs Kin_proofs2 Kin_proofs5 Kin_proofs6 Kin_proofs7 Kin_props DynTasks_model DynTasks_proofs Tasks_spec Tasks_proofs
  KinTasks_spec KinTasks_proofs KinCons_spec KinCons_proofs KinReg_spec.
Import ListNotations.
Open Scope R_scope.

(** ** Regularization *)

Lemma put_find {V} (l : list (string * V)) a v name : name_find name (name_put a v l) = if String.eqb name a then Some v else name_find name l.
Proof.
  induction l as [|[b u] l IH]; cbn [name_put name_find].
  - destruct (String.eqb_spec name a); reflexivity.
  - destruct (String.eqb_spec a b) as [->|].
    + cbn [name_find]. destruct (String.eqb name b); reflexivity.
    + cbn [name_find]. destruct (String.eqb_spec name b) as [->|]; [|exact IH]. destruct (String.eqb_spec b a); [congruence|reflexivity].
Qed.
Lemma put_names {V} (l : list (string * V)) a v name : In name (map fst (name_put a v l)) -> name = a \/ In name (map fst l).
Proof.
  induction l as [|[b u] l IH]; cbn [name_put map fst In]; [intros [H|[]]; auto|]. destruct (String.eqb_spec a b) as [->|]; cbn [map fst In]; [intros [H|H]; auto|].
  intros [H|H]; [auto|]. destruct (IH H); auto.
Qed.
Lemma put_nodup {V} (l : list (string * V)) a v : NoDup (map fst l) -> NoDup (map fst (name_put a v l)).
Proof.
  induction l as [|[b u] l IH]; cbn [name_put map fst]; [intros _; repeat constructor; intros []|]. intros H. inversion H as [|? ? Hn ND]; subst.
  destruct (String.eqb_spec a b) as [->|]; cbn [map fst]; [exact H|]. constructor; [|auto]. intros Hi. apply put_names in Hi. destruct Hi; [congruence|contradiction].
Qed.
Lemma find_in {V} (l : list (string * V)) name v : NoDup (map fst l) -> (name_find name l = Some v <-> In (name, v) l).
Proof.
  induction l as [|[b u] l IH]; cbn [name_find map fst In]; [intros _; split; [discriminate|intros []]|]. intros H. inversion H as [|? ? Hn ND]; subst. destruct (String.eqb_spec name b) as [->|].
  - split; [intros [= ->]; auto|]. intros [[= ->]|Hi]; [reflexivity|]. exfalso. apply Hn. apply (in_map fst) in Hi. exact Hi.
  - rewrite (IH ND). split; [auto|intros [[= -> _]|Hi]; [congruence|exact Hi]].
Qed.

(** The state of a task after some calls. *)
Lemma reg_state N r l t : reg_after N r l = Ok t ->
  rg_default t = default_weight l /\ (forall name, name_find name (rg_weights t) = joint_weight l name) /\ NoDup (map fst (rg_weights t)) /\
  (forall W, rg_W t = Some W -> reg_matrix N r (rg_weights t) (rg_default t) = Ok W).
Proof.
  revert t. induction l as [|c l IH]; intros t; cbn [reg_after].
  - intros [= <-]. cbn. split; [reflexivity|]. split; [reflexivity|]. split; [constructor|discriminate].
  - intros H. bind H t0 E. destruct (IH t0 eq_refl) as (D & F & ND & C). destruct c as [w|name w|]; cbn [reg_step] in H.
    + injection H as <-. cbn. split; [reflexivity|]. split; [exact F|]. split; [exact ND|discriminate].
    + injection H as <-. cbn. split; [exact D|]. split; [intros n; rewrite put_find, F; reflexivity|]. split; [apply put_nodup, ND|discriminate].
    + bind H x E1. injection H as <-. unfold regularization_update in E1. bind E1 W E2. apply guard_inv in E1. destruct E1 as [_ E1]. bind E1 A E3. injection E1 as <-. cbn.
      split; [exact D|]. split; [exact F|]. split; [exact ND|]. intros W' [= <-]. destruct (rg_W t0) as [W0|] eqn:E0; [injection E2 as <-; apply C; reflexivity|exact E2].
Qed.

Lemma overrides_spec N r l diag d : well_formed (r_model r) -> NoDup (map fst l) -> reg_overrides N r l diag = Ok d -> forall j,
  (forall name w, In (name, w) l -> dof_of r name j -> d j = sqrt w) /\ ((forall name w, In (name, w) l -> ~ dof_of r name j) -> d j = diag j).
Proof.
  intros Wf. revert diag. induction l as [|[a v] l IH]; intros diag ND H j; cbn [reg_overrides] in H.
  - injection H as <-. split; [intros ? ? []|reflexivity].
  - bind H k E. bind H n E'. apply guard_inv in H. destruct H as [_ H]. cbn [map fst] in ND. inversion ND as [|? ? Hn ND']; subst.
    destruct (v_offset_ok r a k Wf E) as (b & Hb & Hna & Hk & Hj). unfold get_joint_v_size in E'. rewrite Hj in E'. injection E' as <-.
    assert (Ha : dof_of r a j <-> (k <= j < k + jt_nv b)%nat) by (rewrite <- Hk; apply dof_of_joint; auto).
    destruct (IH _ ND' H j) as [H1 H2]. split.
    + intros name w [[= <- <-]|Hi] Hd; [|apply (H1 name w Hi Hd)]. rewrite H2.
      * apply Ha in Hd. replace (Nat.leb k j) with true by (symmetry; apply Nat.leb_le; lia). replace (Nat.ltb j (k + jt_nv b)) with true by (symmetry; apply Nat.ltb_lt; lia). reflexivity.
      * intros name' w' Hi' Hd'. assert (Hne : name' <> a) by (intros ->; apply Hn; apply (in_map fst) in Hi'; exact Hi').
        destruct Hd' as (b' & Hb' & Hn' & Hr'). apply Ha in Hd. destruct Wf as (_ & _ & _ & Wf & _). destruct (Wf b b' Hb Hb' ltac:(congruence)) as [_ Ap]. unfold apart in Ap. lia.
    + intros Hno. rewrite H2 by (intros name w Hi; apply Hno with (w := w); now right).
      assert (X : ~ (k <= j < k + jt_nv b)%nat) by (rewrite <- Ha; apply (Hno a v); now left).
      destruct (Nat.leb_spec k j); [|reflexivity]. destruct (Nat.ltb_spec j (k + jt_nv b)); [lia|reflexivity].
Qed.

Lemma joint_weight_in l name w : joint_weight l name = Some w -> In (RJoint name w) l.
Proof.
  induction l as [|c l IH]; cbn [joint_weight]; [discriminate|]. destruct c as [v|n v|]; try (intros H; right; auto; fail). destruct (String.eqb_spec name n) as [->|]; [intros [= ->]; now left|intros H; right; auto].
Qed.
Lemma default_weight_in l : default_weight l = 1 \/ In (RWeight (default_weight l)) l.
Proof. induction l as [|c l IH]; cbn [default_weight]; [auto|]. destruct c as [v|n v|]; [right; now left| |]; (destruct IH as [->|IH]; [auto|right; right; exact IH]). Qed.
Lemma dof_weight_nonneg r l j w : no_negative l -> dof_weight r l j w -> 0 <= w.
Proof.
  intros Hn [(name & _ & H)|[_ ->]].
  - apply joint_weight_in in H. exact (Hn _ H).
  - destruct (default_weight_in l) as [->|H]; [lra|exact (Hn _ H)].
Qed.

(** The rows of the task: the square roots of the weights. *)
Lemma reg_rows N r l t e : well_formed (r_model r) -> reg_after N r l = Ok t -> (x <- regularization_update N r t ;; Ok (snd x)) = Ok e ->
  (6 <= N)%nat /\ mrows (fst e) = (N - 6)%nat /\ (forall i, (i < N - 6)%nat -> vat (snd e) i = 0) /\
  exists d, (forall i j, (i < N - 6)%nat -> (j < N)%nat -> mat_at (fst e) i j = if Nat.eqb (6 + i) j then d j else 0) /\ mcols (fst e) = N /\ forall j w, dof_weight r l j w -> d j = sqrt w.
Proof.
  intros Wf Ht H. destruct (reg_state N r l t Ht) as (D & F & ND & C). bind H x E. injection H as <-. unfold regularization_update in E. bind E W EW. apply guard_inv in E. destruct E as [H6 E].
  apply Nat.leb_le in H6. bind E A EA. injection E as <-. cbn [fst snd].
  assert (EM : reg_matrix N r (rg_weights t) (rg_default t) = Ok W). { destruct (rg_W t) as [W0|]; [injection EW as <-; auto|exact EW]. }
  unfold reg_matrix in EM. bind EM d Ed. injection EM as <-. destruct (block_entry _ _ _ _ _ _ EA) as (R1 & C1 & _ & En). split; [exact H6|]. split; [exact R1|]. split; [intros i _; reflexivity|]. exists d. split; [|split; [exact C1|]].
  - intros i j Hi Hj. rewrite En. cbn [mat_at]. change (0 + j)%nat with j. destruct (Nat.eqb_spec (6 + i) j) as [E|]; [rewrite E|]; reflexivity.
  - intros j w Hw. destruct (overrides_spec N r _ _ d Wf ND Ed j) as [H1 H2]. destruct Hw as [(name & Hd & Hj)|[Hno ->]].
    + apply (H1 name w); [|exact Hd]. apply find_in; [exact ND|]. rewrite F. exact Hj.
    + rewrite H2, D; [reflexivity|]. intros name w Hi Hd. apply (find_in _ _ _ ND) in Hi. rewrite F, (Hno name Hd) in Hi. discriminate.
Qed.

Lemma reg_cost N r l t e (x : nat -> R) (W : nat -> R) : well_formed (r_model r) -> reg_after N r l = Ok t -> (x <- regularization_update N r t ;; Ok (snd x)) = Ok e -> no_negative l ->
  (forall j, (6 <= j < N)%nat -> dof_weight r l j (W j)) ->
  Rsum (mrows (fst e)) (fun k => Rsqr (Kin_spec.residual e x 1 k)) = Rsum (N - 6) (fun i => W (6 + i)%nat * Rsqr (x (6 + i)%nat)).
Proof.
  intros Wf Ht Hu Hn HW. destruct (reg_rows N r l t e Wf Ht Hu) as (H6 & HR & Hb & d & HA & HC & Hd). rewrite HR. apply Rsum_ext. intros i Hi. unfold Kin_spec.residual. rewrite HC, (Hb i Hi).
  rewrite (Rsum_delta N (6 + i)).
  - rewrite HA by lia. rewrite Nat.eqb_refl. pose proof (HW (6 + i)%nat ltac:(lia)) as Hw. rewrite (Hd _ _ Hw). pose proof (dof_weight_nonneg r l _ _ Hn Hw) as P.
    unfold Rsqr. rewrite <- (sqrt_sqrt (W (6 + i)%nat)) at 3 by exact P. ring.
  - lia.
  - intros j Hj Hne. rewrite HA by lia. destruct (Nat.eqb_spec (6 + i) j); [congruence|ring].
Qed.

(** ** Kinetic energy *)

Lemma square_sum n (S : nat -> nat -> R) (x : nat -> R) : (forall i j, (i < n)%nat -> (j < n)%nat -> S i j = S j i) ->
  Rsum n (fun i => Rsqr (Rsum n (fun j => S i j * x j))) = quadratic n (fun i j => Rsum n (fun k => S i k * S k j)) x.
Proof.
  intros Hs. unfold quadratic. transitivity (Rsum n (fun i => Rsum n (fun j => Rsum n (fun k => x j * (S i j * S i k) * x k)))).
  - apply Rsum_ext. intros i _. unfold Rsqr. rewrite <- Rsum_scal_r. apply Rsum_ext. intros j _. rewrite <- Rsum_scal_l. apply Rsum_ext. intros k _. ring.
  - rewrite Rsum_swap. apply Rsum_ext. intros j Hj. rewrite Rsum_swap. apply Rsum_ext. intros k Hk. rewrite <- Rsum_scal_l, <- Rsum_scal_r. apply Rsum_ext. intros i Hi. rewrite (Hs i j) by assumption. reflexivity.
Qed.
Lemma kinetic_cost pn msqrt N dt r M e (x : nat -> R) : mass_matrix pn r = Ok M -> square_root M (msqrt M) -> kinetic_update pn msqrt N dt r = Ok e -> mrows M = N ->
  dt <> 0 /\ Rsum (mrows (fst e)) (fun k => Rsqr (Kin_spec.residual e x 1 k)) = kinetic_energy M (fun j => x j / dt).
Proof.
  intros HM (C1 & C2 & C3 & Hs & Hp) H HN. unfold kinetic_update in H. rewrite HM in H. cbn [obind] in H. destruct (Req_EM_T dt 0) as [|Hd]; [discriminate|]. injection H as <-. split; [exact Hd|].
  unfold kinetic_energy. cbn [fst mrows]. rewrite C2.
  pose proof (square_sum (mrows M) (mat_at (msqrt M)) (fun j => x j / dt) Hs) as Q.
  transitivity (1 / 2 * Rsum (mrows M) (fun i => Rsqr (Rsum (mrows M) (fun j => mat_at (msqrt M) i j * (x j / dt))))).
  - rewrite <- Rsum_scal_l. apply Rsum_ext. intros i Hi. unfold Kin_spec.residual. cbn [fst snd mcols mat_at zeros vat]. rewrite C3.
    rewrite (Rsum_ext (mrows M) (fun j => mat_at (msqrt M) i j / (sqrt 2 * dt) * x j) (fun j => / sqrt 2 * (mat_at (msqrt M) i j * (x j / dt)))).
    + rewrite Rsum_scal_l. set (a := Rsum _ _). assert (P : 0 < sqrt 2) by (apply sqrt_lt_R0; lra). pose proof (sqrt_sqrt 2 ltac:(lra)) as Q2. unfold Rsqr.
      replace (/ sqrt 2 * a - 1 * 0) with (/ sqrt 2 * a) by ring. replace (/ sqrt 2 * a * (/ sqrt 2 * a)) with (a * a / (sqrt 2 * sqrt 2)) by (field; lra). rewrite Q2. field.
    + intros j _. field. split; [exact Hd|]. apply Rgt_not_eq, sqrt_lt_R0; lra.
  - f_equal. rewrite Q. unfold quadratic. apply Rsum_ext. intros i Hi. apply Rsum_ext. intros j Hj. rewrite Hp by assumption. reflexivity.
Qed.

(** ** Centroidal momentum *)

Lemma centroidal_rows pn N dt r L m e q x : up_to_date r -> q = st_q (r_state r) -> mcols (pn_centroidal pn q) = N -> vlen x = N -> centroidal_update pn N dt r L m = Ok e ->
  dt <> 0 /\ mrows (fst e) = List.length (m_indices m) /\ forall k, (k < List.length (m_indices m))%nat ->
    vat (snd e) k = v3_dot (mask_axis m (row3 (m_R_local m)) k) L /\
    Rsum (mcols (fst e)) (fun j => mat_at (fst e) k j * vat x j) = v3_dot (mask_axis m (row3 (m_R_local m)) k) (rows3 (pn_centroidal pn q) 3 (vec_scale (/ dt) x)).
Proof.
  intros Se -> HC HL H. unfold centroidal_update in H. bind H G EG. destruct (Req_EM_T dt 0) as [|Hd]; [discriminate|]. bind H A EA. bind H b Eb. injection H as <-. cbn [fst snd mrows mcols mat_at].
  destruct (block_size _ _ _ _ _ _ EG) as [RG CG]. destruct (mask_size _ _ _ EA) as [RA CA]. split; [exact Hd|]. split; [exact RA|]. intros k Hk. split; [exact (mask_v_entry m L b k Eb Hk)|].
  rewrite (Rsum_ext _ _ (fun j => mat_at A k j * vat (vec_scale (/ dt) x) j)) by (intros j _; cbn; field; exact Hd).
  rewrite (mask_row m G A k _ EA RG Hk). unfold centroidal_map in EG. rewrite (block_apply3 _ _ _ _ (vec_scale (/ dt) x) EG HC). reflexivity.
Qed.

(** ** Wheels *)

Lemma rotation_cross_t a u v : rotation a -> m3_vec (m3_t a) (v3_cross u v) = v3_cross (m3_vec (m3_t a) u) (m3_vec (m3_t a) v).
Proof.
  intros Hr. pose proof (rotation_equations a Hr) as E. pose proof (orthogonal_adj a (proj1 Hr)) as Ad. rewrite (proj2 Hr) in Ad.
  assert (A : m3_t a = m3_adj a). { rewrite <- Ad. apply M3_ext; unfold m3_scale; cbn; ring. }
  clear E Ad. pose proof (orthogonal_adj (m3_t a) (orthogonal_t _ (proj1 Hr))) as Ad. rewrite m3_det_t, (proj2 Hr), m3_t_t in Ad. 
  assert (B : a = m3_adj (m3_t a)). { rewrite <- Ad. apply M3_ext; unfold m3_scale; cbn; ring. }
  assert (C : m3_t a = m3_t (m3_adj (m3_t a))) by (rewrite <- B; reflexivity). rewrite C at 1. clear. destruct a, u, v. apply V3_ext; unfold m3_vec, m3_t, m3_adj, v3_cross; cbn; ring.
Qed.
Lemma rotation_cross a u v : rotation a -> m3_vec a (v3_cross u v) = v3_cross (m3_vec a u) (m3_vec a v).
Proof. intros Hr. rewrite <- (m3_t_t a). apply rotation_cross_t. now apply rotation_t. Qed.

(** The first three rows of the action matrix. *)
Lemma action_apply T J C (x : vec) : mat_mul (action_matrix T) J = Ok C -> mrows J = 6%nat ->
  mrows C = 6%nat /\ mcols C = mcols J /\ rows3 C 0 x = v3_add (m3_vec (fr_R T) (rows3 J 0 x)) (v3_cross (fr_t T) (m3_vec (fr_R T) (rows3 J 3 x))).
Proof.
  intros H HJ. set (M := action_matrix T) in H. assert (HM : mrows M = 6%nat /\ mcols M = 6%nat) by (split; reflexivity). destruct HM as [HM1 HM2].
  set (a := fr_R T). set (S := m3_mul (skew (fr_t T)) a).
  assert (R0 : forall j, Rsum 6 (fun i => mat_at M 0 i * mat_at J i j) = m00 a * mat_at J 0 j + m01 a * mat_at J 1 j + m02 a * mat_at J 2 j + m00 S * mat_at J 3 j + m01 S * mat_at J 4 j + m02 S * mat_at J 5 j) by (intros j; unfold S, a, m3_mul; cbn; ring).
  assert (R1 : forall j, Rsum 6 (fun i => mat_at M 1 i * mat_at J i j) = m10 a * mat_at J 0 j + m11 a * mat_at J 1 j + m12 a * mat_at J 2 j + m10 S * mat_at J 3 j + m11 S * mat_at J 4 j + m12 S * mat_at J 5 j) by (intros j; unfold S, a, m3_mul; cbn; ring).
  assert (R2 : forall j, Rsum 6 (fun i => mat_at M 2 i * mat_at J i j) = m20 a * mat_at J 0 j + m21 a * mat_at J 1 j + m22 a * mat_at J 2 j + m20 S * mat_at J 3 j + m21 S * mat_at J 4 j + m22 S * mat_at J 5 j) by (intros j; unfold S, a, m3_mul; cbn; ring).
  clearbody M. unfold mat_mul in H. apply guard_inv in H. destruct H as [_ H]. injection H as <-. cbn [mrows mcols]. split; [exact HM1|]. split; [reflexivity|].
  assert (X : v3_add (m3_vec a (rows3 J 0 x)) (v3_cross (fr_t T) (m3_vec a (rows3 J 3 x))) = v3_add (m3_vec a (rows3 J 0 x)) (m3_vec S (rows3 J 3 x))).
  { f_equal. unfold S. rewrite m3_vec_mul. unfold skew. apply V3_ext; cbn; ring. }
  rewrite X. clearbody a S. unfold rows3 at 1, row_of. cbn [mcols mat_at]. rewrite HM2.
  assert (G : forall c0 c1 c2 c3 c4 c5 i, (forall j, Rsum 6 (fun k => mat_at M i k * mat_at J k j) = c0 * mat_at J 0 j + c1 * mat_at J 1 j + c2 * mat_at J 2 j + c3 * mat_at J 3 j + c4 * mat_at J 4 j + c5 * mat_at J 5 j) ->
    Rsum (mcols J) (fun k => Rsum 6 (fun k0 => mat_at M i k0 * mat_at J k0 k) * vat x k) =
    c0 * row_of J 0 x + c1 * row_of J 1 x + c2 * row_of J 2 x + c3 * row_of J 3 x + c4 * row_of J 4 x + c5 * row_of J 5 x).
  { intros c0 c1 c2 c3 c4 c5 i Hi. unfold row_of. rewrite <- !Rsum_scal_l, <- !Rsum_plus. apply Rsum_ext. intros k _. rewrite Hi. ring. }
  rewrite (G _ _ _ _ _ _ _ R0), (G _ _ _ _ _ _ _ R1), (G _ _ _ _ _ _ _ R2). unfold rows3. apply V3_ext; cbn; ring.
Qed.

Definition ez : vec3 := V3 0 0 1.
Lemma z_axis_vec T : z_axis T = m3_vec (fr_R T) ez.
Proof. destruct T as [[] t]. apply V3_ext; unfold z_axis, m3_vec, ez; cbn; ring. Qed.
Lemma basis_rotation x : v3_dot x x = 1 -> vz x = 0 -> rotation (columns x (v3_cross ez x) ez).
Proof.
  intros H1 H0. destruct x as [a b c]. cbn in H0. subst c. unfold v3_dot in H1. cbn in H1. split.
  - apply M3_ext; unfold columns, v3_cross, ez; m3; try ring; lra.
  - unfold columns, v3_cross, ez, m3_det. cbn. lra.
Qed.

Lemma contact_lowest S T radius : rigid S -> rigid T -> v3_cross (z_axis T) (z_axis S) <> v3_zero -> 0 <= radius ->
  let C := wheel_contact (frame_mul (frame_inv S) T) radius in
  wheel_contact_point S T radius (frame_act S (fr_t C)) /\ height S (frame_act S (fr_t C)) = vz (fr_t C) /\ rotation (fr_R C) /\
  frame_axis (fr_R C) 2 = ez /\ v3_dot (frame_axis (fr_R C) 0) (m3_vec (fr_R (frame_mul (frame_inv S) T)) ez) = 0.
Proof.
  intros HS HT Hx Hr C. set (W := frame_mul (frame_inv S) T) in *. set (p := frame_act S (fr_t C)).
  assert (RW : fr_R W = m3_mul (m3_t (fr_R S)) (fr_R T)) by reflexivity. assert (HW : rotation (fr_R W)) by (apply rotation_mul; [apply rotation_t; exact HS|exact HT]).
  assert (SW : m3_mul (fr_R S) (fr_R W) = fr_R T) by (rewrite RW, <- m3_mul_assoc, (rotation_r _ HS); apply m3_mul_id_l).
  assert (TW : fr_t T = frame_act S (fr_t W)).
  { unfold W, frame_act. cbn [frame_mul frame_inv fr_R fr_t]. rewrite m3_vec_add, m3_vec_scale, !(m3_vec_t _ _ HS). apply V3_ext; cbn; ring. }
  set (g := m3_vec (m3_t (fr_R W)) ez).
  assert (Hg : g = V3 (m20 (fr_R W)) (m21 (fr_R W)) (m22 (fr_R W))) by (unfold g; destruct (fr_R W); apply V3_ext; unfold m3_vec, m3_t, ez; cbn; ring).
  assert (NX : v3_cross (m3_vec (fr_R W) ez) ez <> v3_zero).
  { intros E. apply Hx. rewrite !z_axis_vec. rewrite <- SW, m3_vec_mul, <- (rotation_cross (fr_R S)) by exact HS. rewrite E. apply V3_ext; unfold m3_vec; cbn; ring. }
  assert (NG : V3 (- vx g) (- vy g) 0 <> v3_zero).
  { intros E. apply NX. assert (E' : g = V3 0 0 (vz g)) by (destruct g as [a b c]; cbn in E; injection E as E1 E2; cbn; f_equal; lra).
    assert (E2 : ez = v3_scale (vz g) (m3_vec (fr_R W) ez)).
    { rewrite <- m3_vec_scale. replace (v3_scale (vz g) ez) with g by (rewrite E' at 1; apply V3_ext; cbn; ring). unfold g. rewrite (m3_vec_t _ _ HW). reflexivity. }
    set (z := m3_vec (fr_R W) ez) in *. rewrite E2. apply V3_ext; unfold v3_cross, v3_scale; cbn; ring. }
  set (dw := v3_normalize (V3 (- vx g) (- vy g) 0)).
  assert (TC : fr_t C = v3_add (fr_t W) (v3_scale radius (m3_vec (fr_R W) dw))) by (unfold C, wheel_contact, dw; cbn [fr_t]; rewrite Hg; reflexivity).
  assert (Dp : v3_sub p (fr_t T) = m3_vec (fr_R T) (v3_scale radius dw)).
  { unfold p. rewrite TW, TC. unfold frame_act. rewrite m3_vec_add, m3_vec_scale, <- m3_vec_mul, SW, m3_vec_scale. apply V3_ext; cbn; ring. }
  assert (Udw : v3_dot dw dw = 1) by (apply v3_normalize_unit; exact NG).
  assert (Zdw : vz dw = 0) by (unfold dw; rewrite (normalize_scale _ NG); cbn; ring).
  assert (Hh : forall p', height S p' = v3_dot g (m3_vec (m3_t (fr_R T)) (v3_sub p' (fr_t T))) + height S (fr_t T)).
  { intros p'. unfold height. rewrite z_axis_vec. unfold g. rewrite <- (m3_dot_t (fr_R T)), <- m3_vec_mul.
    replace (m3_mul (fr_R T) (m3_t (fr_R W))) with (fr_R S).
    - unfold v3_dot, v3_sub. cbn. ring.
    - rewrite <- SW, m3_mul_assoc, (rotation_r _ HW). symmetry. apply m3_mul_id_r. }
  assert (Hp : m3_vec (m3_t (fr_R T)) (v3_sub p (fr_t T)) = v3_scale radius dw).
  { rewrite Dp, <- m3_vec_mul, (rotation_l _ HT). apply m3_vec_id. }
  split; [split; [split|]|].
  - rewrite Dp, z_axis_vec, (orthogonal_dot _ _ _ (proj1 HT)). unfold v3_dot, ez. cbn. rewrite Zdw. ring.
  - rewrite Dp. unfold v3_norm. rewrite (orthogonal_dot _ _ _ (proj1 HT)). replace (v3_dot (v3_scale radius dw) (v3_scale radius dw)) with (Rsqr radius * v3_dot dw dw) by (unfold v3_dot, Rsqr; cbn; ring).
    rewrite Udw, Rmult_1_r. apply sqrt_Rsqr. exact Hr.
  - intros p' [O1 O2]. rewrite (Hh p), (Hh p'), Hp. apply Rplus_le_compat_r. set (d := m3_vec (m3_t (fr_R T)) (v3_sub p' (fr_t T))) in *.
    assert (Dz : vz d = 0). { rewrite z_axis_vec in O1. unfold d. rewrite <- O1. rewrite <- (m3_t_t (fr_R T)) at 2. rewrite <- (m3_dot_t (m3_t (fr_R T))). unfold v3_dot, ez. cbn [vx vy vz]. ring. }
    assert (Dn : v3_dot d d = radius * radius).
    { unfold d. rewrite (orthogonal_dot _ _ _ (orthogonal_t _ (proj1 HT))). rewrite <- O2. unfold v3_norm. rewrite sqrt_sqrt; [reflexivity|]. unfold v3_dot. nra. }
    unfold dw. rewrite (normalize_scale _ NG). set (h := V3 (- vx g) (- vy g) 0) in *. pose proof (norm_pos _ NG) as Pn. set (n := v3_norm h) in *.
    assert (Hn : n * n = vx g * vx g + vy g * vy g). { unfold n, v3_norm. rewrite sqrt_sqrt; [unfold v3_dot, h; cbn; ring|]. unfold v3_dot. nra. }
    replace (v3_dot g (v3_scale radius (v3_scale (/ n) h))) with (- (radius * n)).
    + unfold v3_dot in *. rewrite Dz in *. set (X := vx g * vx d + vy g * vy d). assert (CS : X * X <= (radius * n) * (radius * n)).
      { unfold X. replace ((radius * n) * (radius * n)) with ((radius * radius) * (n * n)) by ring. rewrite Hn, <- Dn. assert (0 <= Rsqr (vx g * vy d - vy g * vx d)) by apply Rle_0_sqr. unfold Rsqr in *. nra. }
      assert (0 <= radius * n) by (apply Rmult_le_pos; lra). replace (X + vz g * 0) with X by ring. nra.
    + unfold v3_dot, h, v3_scale. cbn [vx vy vz]. replace (radius * n) with (radius * (n * n) / n) by (field; lra). rewrite Hn. field. lra.
  - split; [|split].
    + unfold p, height, frame_act. rewrite z_axis_vec. replace (v3_sub (v3_add (m3_vec (fr_R S) (fr_t C)) (fr_t S)) (fr_t S)) with (m3_vec (fr_R S) (fr_t C)) by (apply V3_ext; cbn; ring).
      rewrite (orthogonal_dot _ _ _ (proj1 HS)). unfold v3_dot, ez. cbn. ring.
    + unfold C, wheel_contact. cbn [fr_R]. replace (V3 (m02 (fr_R W)) (m12 (fr_R W)) (m22 (fr_R W))) with (m3_vec (fr_R W) ez) by (destruct (fr_R W); apply V3_ext; unfold m3_vec, ez; cbn; ring).
      apply basis_rotation; [apply v3_normalize_unit; exact NX|]. fold ez. rewrite (normalize_scale _ NX). unfold v3_cross, v3_scale, ez. cbn. ring.
    + split; [reflexivity|]. unfold C, wheel_contact. cbn [fr_R]. replace (V3 (m02 (fr_R W)) (m12 (fr_R W)) (m22 (fr_R W))) with (m3_vec (fr_R W) ez) by (destruct (fr_R W); apply V3_ext; unfold m3_vec, ez; cbn; ring).
      fold ez. rewrite (normalize_scale _ NX). set (z := m3_vec (fr_R W) ez). clearbody z. unfold columns, frame_axis, v3_dot, v3_cross, v3_scale, ez. cbn. ring.
Qed.

(** The rows of a wheel task: the velocity of the point of the wheel that is in contact, in the axes of the contact. *)
Lemma wheel_rows pn r S joint radius omni e q x T : starts r q -> wheel_moves pn r q x joint T -> rigid S ->
  v3_cross (z_axis (T 0)) (z_axis S) <> v3_zero -> 0 <= radius -> wheel_update pn r S joint radius omni = Ok e ->
  exists p v Q, wheel_contact_point S (T 0) radius p /\ v3_deriv (carried T p) 0 v /\ rotation Q /\ frame_axis Q 2 = z_axis S /\ v3_dot (frame_axis Q 0) (z_axis (T 0)) = 0 /\
    mrows (fst e) = (if omni then 2 else 3)%nat /\
    forall k, (k < mrows (fst e))%nat -> let i := if omni then (if Nat.eqb k 0 then 0 else 2)%nat else k in
      vat (snd e) k = coord (V3 0 0 (- height S p)) i /\ Rsum (mcols (fst e)) (fun j => mat_at (fst e) k j * vat x j) = v3_dot (frame_axis Q i) v.
Proof.
  intros [Se Eq] (f & j & Hf & Hj & HT & HR & J1 & J2 & J3 & Hm) HS Hx Hr H. unfold wheel_update in H. bind H T0 ET. bind H J EJ. bind H A EA. bind H B EB. injection H as He.
  assert (E0 : T0 = T 0). { unfold get_T_world_frame_name in ET. rewrite Hf in ET. cbn [obind] in ET. destruct (frame_at _ _ _ _ ET) as [_ ->]. rewrite HT, Se, Eq. reflexivity. }
  assert (EJ' : J = pn_joint_jac pn (q 0) j Local). { unfold joint_jacobian_name in EJ. rewrite Hj in EJ. cbn in EJ. injection EJ as <-. rewrite Se, Eq. reflexivity. }
  subst T0. set (W := frame_mul (frame_inv S) (T 0)) in *. set (C := wheel_contact W radius) in *.
  destruct (contact_lowest S (T 0) radius HS (HR 0) Hx Hr) as (Hc & Hh & HC & Hz & H0). fold W in Hc, Hh, HC, Hz, H0. fold C in Hc, Hh, HC, Hz, H0.
  set (p := frame_act S (fr_t C)) in *. set (a := fr_R (T 0)) in *. set (vB := rows3 (pn_joint_jac pn (q 0) j Local) 0 x) in *. set (wB := rows3 (pn_joint_jac pn (q 0) j Local) 3 x) in *.
  set (Q := m3_mul (fr_R S) (fr_R C)). assert (HQ : rotation Q) by (apply rotation_mul; assumption).
  exists p, (v3_add (m3_vec a vB) (v3_cross (m3_vec a wB) (v3_sub p (fr_t (T 0))))), Q. split; [exact Hc|]. split; [apply carried_deriv; [exact (HR 0)|exact Hm]|]. split; [exact HQ|].
  assert (AQ : forall i, (i < 3)%nat -> frame_axis Q i = m3_vec (fr_R S) (frame_axis (fr_R C) i)).
  { intros i Hi. unfold Q. generalize (fr_R S) (fr_R C). intros a1 a2. destruct i as [|[|[|i]]]; [| | |lia]; apply V3_ext; unfold frame_axis, m3_vec, m3_mul; cbn; ring. }
  split; [rewrite AQ, Hz, z_axis_vec by lia; reflexivity|]. split.
  { rewrite AQ by lia. rewrite z_axis_vec. fold a. assert (SW : a = m3_mul (fr_R S) (fr_R W)) by (unfold W, a; cbn [frame_mul frame_inv fr_R]; rewrite <- m3_mul_assoc, (rotation_r _ HS); symmetry; apply m3_mul_id_l).
    rewrite SW, m3_vec_mul, (orthogonal_dot _ _ _ (proj1 HS)). exact H0. }
  rewrite EJ' in EA. destruct (action_apply _ _ _ x EA J1) as (RA & CA & VA). fold vB in VA. fold wB in VA.
  assert (V : rows3 A 0 x = m3_vec (m3_t Q) (v3_add (m3_vec a vB) (v3_cross (m3_vec a wB) (v3_sub p (fr_t (T 0)))))).
  { rewrite VA. cbn [frame_mul frame_inv fr_R fr_t]. rewrite m3_vec_add, (rotation_cross_t Q) by exact HQ.
    assert (RQ : m3_mul (m3_t (fr_R C)) (fr_R W) = m3_mul (m3_t Q) a) by (unfold Q, a, W; cbn [frame_mul frame_inv fr_R]; rewrite m3_t_mul, m3_mul_assoc; reflexivity).
    rewrite RQ, !m3_vec_mul. f_equal.
    assert (TQ : v3_add (m3_vec (m3_t (fr_R C)) (fr_t W)) (v3_scale (-1) (m3_vec (m3_t (fr_R C)) (fr_t C))) = m3_vec (m3_t Q) (v3_sub (fr_t (T 0)) p)).
    { unfold Q, p, frame_act. clearbody C. unfold W. cbn [frame_mul frame_inv fr_R fr_t]. rewrite m3_t_mul, m3_vec_mul. replace (v3_sub (fr_t (T 0)) (v3_add (m3_vec (fr_R S) (fr_t C)) (fr_t S))) with (v3_sub (v3_sub (fr_t (T 0)) (fr_t S)) (m3_vec (fr_R S) (fr_t C))) by (apply V3_ext; cbn; ring).
      rewrite !m3_vec_sub, m3_vec_add, m3_vec_scale. assert (G : m3_vec (m3_t (fr_R S)) (m3_vec (fr_R S) (fr_t C)) = fr_t C) by (rewrite <- m3_vec_mul, (rotation_l _ HS); apply m3_vec_id). rewrite G. apply V3_ext; cbn; ring. }
    rewrite TQ. rewrite !m3_vec_sub. apply V3_ext; unfold v3_cross, v3_sub; cbn; ring. }
  destruct (block_entry _ _ _ _ _ _ EB) as (RB & CB & _ & EnB).
  assert (Row : forall i, (i < 3)%nat -> Rsum (mcols A) (fun k => mat_at B i k * vat x k) = v3_dot (frame_axis Q i) (v3_add (m3_vec a vB) (v3_cross (m3_vec a wB) (v3_sub p (fr_t (T 0)))))).
  { intros i Hi. set (v := v3_add _ _) in V |- *. clearbody v. transitivity (coord (rows3 A 0 x) i).
    - rewrite (Rsum_ext _ _ (fun k => mat_at A i k * vat x k)) by (intros k _; rewrite EnB; reflexivity). destruct i as [|[|[|i]]]; [reflexivity|reflexivity|reflexivity|lia].
    - rewrite V. generalize Q. intros Q'. destruct i as [|[|[|i]]]; [| | |lia]; unfold frame_axis, v3_dot, m3_vec, m3_t; cbn; ring. }
  destruct omni; subst e; cbn [fst snd mrows mcols mat_at vat].
  - split; [reflexivity|]. intros k Hk. rewrite CB. destruct k as [|[|k]]; [| |lia]; cbn [Nat.eqb]; (split; [cbn; rewrite ?Hh; reflexivity|apply Row; lia]).
  - split; [exact RB|]. intros k Hk. rewrite CB. split; [rewrite Hh; reflexivity|apply Row; lia].
Qed.

(** The components of a vector in the axes of a rotation. *)
Lemma in_axes Q u v : rotation Q -> v3_dot u v = v3_dot (frame_axis Q 0) u * v3_dot (frame_axis Q 0) v + v3_dot (frame_axis Q 1) u * v3_dot (frame_axis Q 1) v + v3_dot (frame_axis Q 2) u * v3_dot (frame_axis Q 2) v.
Proof.
  intros H. rewrite <- (orthogonal_dot _ u v (orthogonal_t _ (proj1 H))). unfold v3_dot, frame_axis, m3_vec, m3_t. cbn. ring.
Qed.
