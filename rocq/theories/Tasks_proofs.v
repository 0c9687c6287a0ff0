From Coq Require Import Reals List ZArith Bool String Lra Lia.
From Verif Require Import Base Linalg Geom3 Tools_model Geometry_model Expression_model Problem_model Polynom_model Robot_model Robot_spec Robot_proofs KinTasks_model
  Kin_model Kin_proofs Kin_proofs6 DynTasks_model Tasks_spec.
Import ListNotations.
Open Scope R_scope.

Lemma dot_axis v i : v3_dot (world_axis i) v = coord v i.
Proof. destruct i as [|[|i]]; unfold v3_dot; cbn; ring. Qed.
Lemma row3_of3 a i : (i < 3)%nat -> row3 (mat_of3 (m3_t a)) i = frame_axis a i.
Proof. intros Hi. do 3 (destruct i as [|i]; [reflexivity|]). lia. Qed.
Lemma coord_v3 a b c i : coord (V3 a b c) i = match i with 0 => a | 1 => b | _ => c end%nat.
Proof. now destruct i as [|[|i]]. Qed.

(** A column of a matrix with three rows. *)
Definition column (M : mat) (j : nat) : vec3 := V3 (mat_at M 0 j) (mat_at M 1 j) (mat_at M 2 j).

Lemma mask_entry m M A k j : apply_mask m M = Ok A -> mrows M = 3%nat -> (k < List.length (m_indices m))%nat ->
  (nth k (m_indices m) 0 < match m_frame m with TaskFrame => 3 | LocalFrame => mrows (m_R_local m) | CustomFrame => mrows (m_R_custom m) end)%nat /\
  mat_at A k j = v3_dot (mask_axis m (row3 (m_R_local m)) k) (column M j).
Proof.
  intros H HM Hk. unfold apply_mask in H. bind H B EB. apply guard_inv in H. destruct H as [Hi H]. injection H as <-. cbn [mat_at].
  rewrite forallb_forall in Hi. specialize (Hi _ (nth_In _ 0%nat Hk)). apply Nat.ltb_lt in Hi. unfold mask_axis. set (i := nth k (m_indices m) 0%nat) in *.
  assert (X : forall Q C, mat_mul Q M = Ok C -> mrows C = mrows Q /\ mat_at C i j = v3_dot (row3 Q i) (column M j)).
  { intros Q C HQ. unfold mat_mul in HQ. apply guard_inv in HQ. destruct HQ as [Hc HQ]. injection HQ as <-. apply Nat.eqb_eq in Hc. cbn [mat_at mrows]. split; [reflexivity|].
    rewrite Hc, HM. unfold v3_dot, row3, column. cbn. ring. }
  destruct (m_frame m).
  - injection EB as <-. rewrite HM in Hi. split; [exact Hi|]. rewrite dot_axis. unfold column. rewrite coord_v3. do 3 (destruct i as [|i]; [reflexivity|]). lia.
  - destruct (X _ _ EB) as [R E]. rewrite R in Hi. auto.
  - destruct (X _ _ EB) as [R E]. rewrite R in Hi. auto.
Qed.

(** A vector in the row of a mask. *)
Lemma mask_v_entry m v b k : mask_v m v = Ok b -> (k < List.length (m_indices m))%nat -> vat b k = v3_dot (mask_axis m (row3 (m_R_local m)) k) v.
Proof.
  intros H Hk. unfold mask_v in H. bind H A EA. injection H as <-. cbn [vec_of_col vat]. destruct (mask_entry m (col3 v) A k 0 EA eq_refl Hk) as [_ ->]. now destruct v.
Qed.

Definition apply3 (M : mat) (x : nat -> R) : vec3 := V3 (Rsum (mcols M) (fun j => mat_at M 0 j * x j)) (Rsum (mcols M) (fun j => mat_at M 1 j * x j)) (Rsum (mcols M) (fun j => mat_at M 2 j * x j)).

(** A row of the masked matrix, applied to a displacement or an acceleration. *)
Lemma mask_row m M A k x : apply_mask m M = Ok A -> mrows M = 3%nat -> (k < List.length (m_indices m))%nat ->
  Rsum (mcols A) (fun j => mat_at A k j * x j) = v3_dot (mask_axis m (row3 (m_R_local m)) k) (apply3 M x).
Proof.
  intros H HM Hk. destruct (mask_size _ _ _ H) as [_ ->]. unfold apply3. set (a := mask_axis m (row3 (m_R_local m)) k).
  rewrite (Rsum_ext _ _ (fun j => vx a * (mat_at M 0 j * x j) + (vy a * (mat_at M 1 j * x j) + vz a * (mat_at M 2 j * x j)))).
  - rewrite !Rsum_plus, !Rsum_scal_l. unfold v3_dot. cbn. ring.
  - intros j _. destruct (mask_entry m M A k j H HM Hk) as [_ ->]. fold a. unfold v3_dot, column. cbn. ring.
Qed.

Lemma block_entry M i j p q B : block M i j p q = Ok B -> mrows B = p /\ mcols B = q /\ (i + p <= mrows M /\ j + q <= mcols M)%nat /\
  forall a b, mat_at B a b = mat_at M (i + a) (j + b).
Proof.
  intros H. unfold block in H. apply guard_inv in H. destruct H as [G H]. injection H as <-. apply andb_prop in G. destruct G as [G1 G2]. apply Nat.leb_le in G1, G2. cbn.
  repeat split; auto.
Qed.

(** The three rows of a Jacobian from the row [i], over all its columns. *)
Lemma block_apply3 M i N B (x : vec) : block M i 0 3 N = Ok B -> mcols M = N -> apply3 B (vat x) = rows3 M i x.
Proof.
  intros H HN. destruct (block_entry _ _ _ _ _ _ H) as (_ & C & _ & E). unfold apply3, rows3, row_of. rewrite C, HN.
  f_equal; apply Rsum_ext; intros j _; rewrite E; f_equal; f_equal; lia.
Qed.

Lemma times3_inv J qd v : times3 J qd = Ok v -> mrows J = 3%nat /\ vlen qd = mcols J /\ v = apply3 J (vat qd).
Proof.
  intros H. unfold times3 in H. apply guard_inv in H. destruct H as [G H]. apply Nat.eqb_eq in G. bind H w Ew. injection H as <-. unfold mat_vec in Ew. apply guard_inv in Ew.
  destruct Ew as [G' Ew]. apply Nat.eqb_eq in G'. injection Ew as <-. cbn. auto.
Qed.

(** ** Derivatives *)

Lemma deriv_prod f g t a b : derivable_pt_lim f t a -> derivable_pt_lim g t b -> derivable_pt_lim (fun u => f u * g u) t (a * g t + f t * b).
Proof. intros F G. exact (derivable_pt_lim_mult f g t a b F G). Qed.
Lemma deriv_plus f g t a b : derivable_pt_lim f t a -> derivable_pt_lim g t b -> derivable_pt_lim (fun u => f u + g u) t (a + b).
Proof. intros F G. exact (derivable_pt_lim_plus f g t a b F G). Qed.
Lemma deriv_const c t : derivable_pt_lim (fun _ => c) t 0.
Proof. exact (derivable_pt_lim_const c t). Qed.
Lemma deriv_Rsum n (f : nat -> R -> R) t (d : nat -> R) : (forall k, (k < n)%nat -> derivable_pt_lim (f k) t (d k)) -> derivable_pt_lim (fun u => Rsum n (fun k => f k u)) t (Rsum n d).
Proof.
  induction n as [|n IH]; intros H; cbn [Rsum]; [apply deriv_const|]. apply deriv_plus; [apply IH; intros k Hk; apply H; lia|apply H; lia].
Qed.

(** A row of a Jacobian times the velocity. *)
Lemma deriv_row (M : R -> mat) (D : mat) (qd : R -> vec) (qdd : vec) t i : mat_deriv M t D -> (forall u, mcols (M u) = mcols D) -> (i < mrows D)%nat ->
  (forall k, (k < mcols D)%nat -> derivable_pt_lim (fun u => vat (qd u) k) t (vat qdd k)) ->
  derivable_pt_lim (fun u => row_of (M u) i (qd u)) t (row_of (M t) i qdd + row_of D i (qd t)).
Proof.
  intros (H1 & H2 & H3) Hc Hi Hq. eapply lim_ext; [intros u; unfold row_of; rewrite (Hc u); reflexivity| |apply deriv_Rsum; intros k Hk; apply deriv_prod; [apply H3; assumption|now apply Hq]].
  unfold row_of. rewrite <- H2, <- Rsum_plus. apply Rsum_ext. intros k _. ring.
Qed.
Lemma deriv_rows3 (M : R -> mat) (D : mat) (qd : R -> vec) (qdd : vec) t i : mat_deriv M t D -> (forall u, mcols (M u) = mcols D) -> (S (S i) < mrows D)%nat ->
  (forall k, (k < mcols D)%nat -> derivable_pt_lim (fun u => vat (qd u) k) t (vat qdd k)) ->
  v3_deriv (fun u => rows3 (M u) i (qd u)) t (v3_add (rows3 (M t) i qdd) (rows3 D i (qd t))).
Proof. intros H1 H2 H3 H4. split; [|split]; cbn [rows3 v3_add vx vy vz]; apply deriv_row; auto; lia. Qed.

Lemma twice_sub f df t ddf g dg ddg : twice f df t ddf -> twice g dg t ddg -> twice (fun u => v3_sub (f u) (g u)) (fun u => v3_sub (df u) (dg u)) t (v3_sub ddf ddg).
Proof. intros [F1 F2] [G1 G2]. split; [intros u; now apply v3_deriv_sub|now apply v3_deriv_sub]. Qed.

(** The position of a frame, the position of the center of mass, and the angular velocity, along a motion. *)
Lemma frame_twice pn r q qd t qdd f : in_motion r q qd t qdd -> frame_contract pn (r_model r) q qd t f ->
  twice (fun u => fr_t (pn_frame pn (q u) f)) (fun u => rows3 (pn_jac pn (q u) f LocalWorldAligned) 0 (qd u)) t
    (v3_add (rows3 (frame_jacobian pn r f LocalWorldAligned) 0 qdd) (rows3 (frame_jacobian_time_variation pn r f LocalWorldAligned) 0 (st_qd (r_state r)))).
Proof.
  intros [Se Eq Ed [S1 S2] Sd] [C1 C2]. split; [intros u; apply (C1 u)|]. unfold frame_jacobian, frame_jacobian_time_variation. rewrite Se. cbn [fst snd]. rewrite <- Eq, <- Ed.
  destruct (C1 t) as (J1 & J2 & _). pose proof C2 as (D1 & D2 & _).
  apply (deriv_rows3 (fun u => pn_jac pn (q u) f LocalWorldAligned)); [exact C2| | |].
  - intros u. destruct (C1 u) as (_ & Ju & _). rewrite Ju, D2, J2. reflexivity.
  - rewrite D1, J1. lia.
  - intros k Hk. apply Sd. rewrite D2, J2 in Hk. exact Hk.
Qed.
Lemma com_twice pn r q qd t qdd : in_motion r q qd t qdd -> com_contract pn (r_model r) q qd t ->
  twice (fun u => pn_com pn (q u)) (fun u => rows3 (pn_comjac pn (q u)) 0 (qd u)) t
    (v3_add (rows3 (com_jacobian pn r) 0 qdd) (rows3 (com_jacobian_time_variation pn r) 0 (st_qd (r_state r)))).
Proof.
  intros [Se Eq Ed [S1 S2] Sd] [C1 C2]. split; [intros u; apply (C1 u)|]. unfold com_jacobian, com_jacobian_time_variation. rewrite <- Eq, <- Ed.
  destruct (C1 t) as (J1 & J2 & _). pose proof C2 as (D1 & D2 & _).
  apply (deriv_rows3 (fun u => pn_comjac pn (q u))); [exact C2| | |].
  - intros u. destruct (C1 u) as (_ & Ju & _). rewrite Ju, D2, J2. reflexivity.
  - rewrite D1, J1. lia.
  - intros k Hk. apply Sd. rewrite D2, J2 in Hk. exact Hk.
Qed.
Lemma angular_deriv pn r q qd t qdd f : in_motion r q qd t qdd -> frame_contract_world pn (r_model r) q qd t f ->
  v3_deriv (fun u => rows3 (pn_jac pn (q u) f World) 3 (qd u)) t
    (v3_add (rows3 (frame_jacobian pn r f World) 3 qdd) (rows3 (frame_jacobian_time_variation pn r f World) 3 (st_qd (r_state r)))).
Proof.
  intros [Se Eq Ed [S1 S2] Sd] [C1 C2]. unfold frame_jacobian, frame_jacobian_time_variation. rewrite Se. cbn [fst snd]. rewrite <- Eq, <- Ed.
  destruct (C1 t) as (J1 & J2 & _). pose proof C2 as (D1 & D2 & _).
  apply (deriv_rows3 (fun u => pn_jac pn (q u) f World)); [exact C2| | |].
  - intros u. destruct (C1 u) as (_ & Ju & _). rewrite Ju, D2, J2. reflexivity.
  - rewrite D1, J1. lia.
  - intros k Hk. apply Sd. rewrite D2, J2 in Hk. exact Hk.
Qed.
