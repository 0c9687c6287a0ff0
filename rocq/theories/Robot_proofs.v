(** Proofs about the robot model. *)
From Coq Require Import Reals Lra Lia List ZArith Bool String.
From Verif Require Import Base Linalg Geom3 Tools_model Geometry_model Geometry_proofs Robot_model Robot_spec.
Import ListNotations.
Open Scope R_scope.

(** ** Joints *)

Lemma find_joint_in m name : In name (map jt_name (m_joints m)) ->
  exists j, find_joint m name = Some j /\ In j (m_joints m) /\ jt_name j = name.
Proof.
  intros H. unfold find_joint. destruct (find (fun j => String.eqb (jt_name j) name) (m_joints m)) as [j|] eqn:E.
  - apply find_some in E. destruct E as [Hj E]. apply String.eqb_eq in E. exists j; repeat split; assumption.
  - exfalso. apply in_map_iff in H. destruct H as [j [<- Hj]].
    apply (find_none _ _ E) in Hj. rewrite String.eqb_refl in Hj. discriminate.
Qed.

Lemma find_joint_not m name : ~ In name (map jt_name (m_joints m)) -> find_joint m name = None.
Proof.
  intros H. unfold find_joint. destruct (find (fun j => String.eqb (jt_name j) name) (m_joints m)) as [j|] eqn:E; [exfalso|reflexivity].
  apply find_some in E. destruct E as [Hj E]. apply String.eqb_eq in E. apply H. subst. apply in_map; assumption.
Qed.

Lemma joint_of_in m name : well_formed m -> In name (map jt_name (m_joints m)) ->
  exists j, joint_of m name = Ok j /\ In j (m_joints m) /\ jt_name j = name /\ exist_joint_name m name = true.
Proof.
  intros (_ & Hu & _) H. destruct (find_joint_in m name H) as (j & Ej & Hj & En). exists j.
  assert (Hn : String.eqb name "universe" = false).
  { apply String.eqb_neq. intros ->. contradiction. }
  unfold joint_of, exist_joint_name. rewrite Hn, Ej. repeat split; assumption.
Qed.

Lemma vec_set_ok v i x : (i < vlen v)%nat ->
  vec_set v i x = Ok (Vec (vlen v) (fun k => if Nat.eqb k i then x else vat v k)).
Proof. intros H. unfold vec_set, guard. apply Nat.ltb_lt in H. rewrite H. reflexivity. Qed.

Lemma vec_get_ok v i : (i < vlen v)%nat -> vec_get v i = Ok (vat v i).
Proof. intros H. unfold vec_get, guard. apply Nat.ltb_lt in H. rewrite H. reflexivity. Qed.

(** ** Placements *)

Lemma q_base_rigid q : unit_base q -> rigid (q_base q).
Proof.
  intros (_ & H). unfold rigid, q_base. cbn [fr_R]. apply quat_matrix_rotation. unfold unit_quat, quat_dot. cbn [qw qx qy qz]. lra.
Qed.

Lemma with_base_unit q T : (7 <= vlen q)%nat -> rigid T -> unit_base (with_base q T).
Proof.
  intros Hq HT. split; [exact Hq|]. cbn. pose proof (quat_of_unit _ HT) as H. unfold unit_quat, quat_dot in H. lra.
Qed.

Lemma with_base_base q T : rigid T -> q_base (with_base q T) = T.
Proof.
  intros HT. apply Frame_ext; [|cbn; destruct (fr_t T); reflexivity].
  unfold q_base, with_base. cbn [fr_R vat]. transitivity (quat_matrix (quat_of (fr_R T))); [|exact (quat_matrix_of _ HT)]. f_equal.
  destruct (quat_of (fr_R T)); reflexivity.
Qed.

Lemma with_base_joints q T : same_joints (with_base q T) q.
Proof.
  split; [reflexivity|]. intros k [Hk _]. cbn. do 7 (destruct k as [|k]; [lia|]). reflexivity.
Qed.

Lemma set_fbase_ok r T : (7 <= vlen (st_q (r_state r)))%nat ->
  set_T_world_fbase r T = Ok (set_q r (with_base (st_q (r_state r)) (frame_mul (frame_inv (m_root (r_model r))) T))).
Proof. intros H. unfold set_T_world_fbase, guard. apply Nat.leb_le in H. rewrite H. reflexivity. Qed.

Lemma get_fbase_ok r : (7 <= vlen (st_q (r_state r)))%nat ->
  get_T_world_fbase r = Ok (frame_mul (m_root (r_model r)) (q_base (st_q (r_state r)))).
Proof. intros H. unfold get_T_world_fbase, guard. apply Nat.leb_le in H. rewrite H. reflexivity. Qed.

Lemma root_cancel a b : rigid a -> frame_mul a (frame_mul (frame_inv a) b) = b.
Proof. intros H. rewrite <- frame_mul_assoc, frame_inv_r by exact H. apply frame_mul_id_l. Qed.

Lemma root_cancel' a b : rigid a -> frame_mul (frame_inv a) (frame_mul a b) = b.
Proof. intros H. rewrite <- frame_mul_assoc, frame_inv_l by exact H. apply frame_mul_id_l. Qed.

(** ** Derivatives *)

Lemma lim_ext f g t d d' : (forall u, f u = g u) -> d = d' -> derivable_pt_lim f t d -> derivable_pt_lim g t d'.
Proof.
  intros H <- Hf eps He. destruct (Hf eps He) as [delta Hd]. exists delta. intros h H0 Hh. rewrite <- !H. apply Hd; assumption.
Qed.

Lemma deriv_dot (f1 f2 f3 g1 g2 g3 : R -> R) t a1 a2 a3 b1 b2 b3 :
  derivable_pt_lim f1 t a1 -> derivable_pt_lim f2 t a2 -> derivable_pt_lim f3 t a3 ->
  derivable_pt_lim g1 t b1 -> derivable_pt_lim g2 t b2 -> derivable_pt_lim g3 t b3 ->
  derivable_pt_lim (fun u => f1 u * g1 u + f2 u * g2 u + f3 u * g3 u) t
    (a1 * g1 t + f1 t * b1 + (a2 * g2 t + f2 t * b2) + (a3 * g3 t + f3 t * b3)).
Proof.
  intros F1 F2 F3 G1 G2 G3.
  pose proof (derivable_pt_lim_plus _ _ _ _ _ (derivable_pt_lim_plus _ _ _ _ _ (derivable_pt_lim_mult _ _ _ _ _ F1 G1)
    (derivable_pt_lim_mult _ _ _ _ _ F2 G2)) (derivable_pt_lim_mult _ _ _ _ _ F3 G3)) as H.
  eapply lim_ext; [|reflexivity|exact H]. reflexivity.
Qed.

Lemma deriv_sub f g t a b : derivable_pt_lim f t a -> derivable_pt_lim g t b -> derivable_pt_lim (fun u => f u - g u) t (a - b).
Proof. intros F G. exact (derivable_pt_lim_minus _ _ _ _ _ F G). Qed.

Lemma frame_inv_mul_t a b : fr_t (frame_mul (frame_inv a) b) = m3_vec (m3_t (fr_R a)) (v3_sub (fr_t b) (fr_t a)).
Proof. destruct a as [[] []], b as [[] []]. apply V3_ext; cbn; ring. Qed.

(** A rotation keeps cross products. *)
Lemma rotation_cross a u v : rotation a -> v3_cross (m3_vec a u) (m3_vec a v) = m3_vec a (v3_cross u v).
Proof.
  intros [Ho Hd]. pose proof (orthogonal_adj a Ho) as E. rewrite Hd in E.
  transitivity (m3_vec (m3_t (m3_adj a)) (v3_cross u v)).
  - apply V3_ext; unfold m3_adj; m3; ring.
  - rewrite <- E. apply V3_ext; unfold m3_scale; m3; ring.
Qed.

Lemma skew_vec a u : m3_vec (skew a) u = v3_cross a u.
Proof. apply V3_ext; unfold skew; m3; ring. Qed.

Ltac entry H e := let K := fresh "D" in assert (K := H e); cbn [In] in K; specialize (K ltac:(tauto)).

(** The derivative of R^T d. *)
Lemma rotated_deriv (A : R -> mat3) (d : R -> vec3) t w v : m3_deriv A t (m3_mul (skew w) (A t)) -> v3_deriv d t v ->
  v3_deriv (fun u => m3_vec (m3_t (A u)) (d u)) t (m3_vec (m3_t (A t)) (v3_add v (v3_cross (d t) w))).
Proof.
  intros HA (H0 & H1 & H2). entry HA m00. entry HA m01. entry HA m02. entry HA m10. entry HA m11. entry HA m12. entry HA m20. entry HA m21. entry HA m22.
  split; [|split].
  - eapply lim_ext; [| |exact (deriv_dot _ _ _ _ _ _ _ _ _ _ _ _ _ D D2 D5 H0 H1 H2)].
    + intros u. reflexivity.
    + unfold skew. m3. ring.
  - eapply lim_ext; [| |exact (deriv_dot _ _ _ _ _ _ _ _ _ _ _ _ _ D0 D3 D6 H0 H1 H2)].
    + intros u. reflexivity.
    + unfold skew. m3. ring.
  - eapply lim_ext; [| |exact (deriv_dot _ _ _ _ _ _ _ _ _ _ _ _ _ D1 D4 D7 H0 H1 H2)].
    + intros u. reflexivity.
    + unfold skew. m3. ring.
Qed.

Lemma v3_deriv_ext f g t d d' : (forall u, f u = g u) -> d = d' -> v3_deriv f t d -> v3_deriv g t d'.
Proof.
  intros H <- (H0 & H1 & H2). split; [|split]; (eapply lim_ext; [|reflexivity|eassumption]; intros u; cbn beta; rewrite H; reflexivity).
Qed.

Lemma v3_deriv_sub f g t a b : v3_deriv f t a -> v3_deriv g t b -> v3_deriv (fun u => v3_sub (f u) (g u)) t (v3_sub a b).
Proof.
  intros (F0 & F1 & F2) (G0 & G1 & G2). split; [|split]; cbn [v3_sub vx vy vz]; apply deriv_sub; assumption.
Qed.

(** The derivative of the position of [b] in [a]. *)
Lemma relative_position_deriv (A B : R -> frame) t va wa vb wb : rotation (fr_R (A t)) ->
  moves A t va wa -> moves B t vb wb ->
  v3_deriv (fun u => fr_t (frame_mul (frame_inv (A u)) (B u))) t
    (v3_add (m3_vec (m3_t (fr_R (A t))) (v3_sub vb va))
            (m3_vec (m3_mul (skew (fr_t (frame_mul (frame_inv (A t)) (B t)))) (m3_t (fr_R (A t)))) wa)).
Proof.
  intros HR (Pa & Ra) (Pb & _).
  eapply v3_deriv_ext; [| |exact (rotated_deriv _ _ t wa _ Ra (v3_deriv_sub _ _ _ _ _ Pb Pa))].
  - intros u. symmetry. apply frame_inv_mul_t.
  - rewrite m3_vec_mul, skew_vec, frame_inv_mul_t, rotation_cross by (apply rotation_t; exact HR).
    rewrite m3_vec_add. reflexivity.
Qed.

(** ** Joint accessors *)

Lemma offsets r name : well_formed_robot r -> has_joint r name ->
  exists j, In j (m_joints (r_model r)) /\ jt_name j = name /\ get_joint_offset r name = Ok (jt_idx_q j) /\
    get_joint_v_offset r name = Ok (jt_idx_v j) /\ (jt_idx_q j < m_nq (r_model r))%nat /\ (jt_idx_v j < m_nv (r_model r))%nat.
Proof.
  intros (Hw & _) Hn. destruct (joint_of_in _ _ Hw Hn) as (j & Ej & Hj & En & Ee). exists j.
  pose proof (proj1 (proj2 (proj2 Hw)) j Hj) as (H1 & H2 & H3 & H4).
  split; [exact Hj|]. split; [exact En|]. unfold get_joint_offset, get_joint_v_offset. rewrite Ee, Ej. cbn [negb obind].
  do 2 (split; [reflexivity|]). split; lia.
Qed.

Lemma offsets_differ r j k : well_formed_robot r -> In j (m_joints (r_model r)) -> In k (m_joints (r_model r)) -> jt_name j <> jt_name k ->
  jt_idx_q j <> jt_idx_q k /\ jt_idx_v j <> jt_idx_v k.
Proof.
  intros (Hw & _) Hj Hk Hn. destruct Hw as (_ & _ & Hs & Ha & _). destruct (Ha j k Hj Hk Hn) as [A B].
  destruct (Hs j Hj) as (? & ? & ? & ?), (Hs k Hk) as (? & ? & ? & ?). unfold apart in *. lia.
Qed.

Lemma to_same name A (a : A) : to name name a = Some a.
Proof. unfold to. rewrite String.eqb_refl. reflexivity. Qed.
Lemma to_other name n A (a : A) : n <> name -> to name n a = None.
Proof. intros H. unfold to. apply String.eqb_neq in H. rewrite H. reflexivity. Qed.

Definition or_else {A} (o : option A) (d : outcome A) : outcome A := match o with Some a => Ok a | None => d end.

Ltac wf := match goal with
  | H : well_formed_robot ?r |- _ => let A := fresh "Hw" in let B := fresh "Lq" in let C := fresh "Lv" in let D := fresh "La" in
      destruct H as (A & B & C & D); let E := fresh "Hl" in pose proof A as E; destruct E as (_ & _ & _ & _ & ? & ? & ? & ? & ? & ?)
  end.

(** What one call does. *)
Lemma call_spec r o : well_formed_robot r -> has_joint r (op_name o) ->
  exists r', call r o = Ok r' /\ well_formed_robot r' /\ m_joints (r_model r') = m_joints (r_model r) /\ r_seen r' = r_seen r /\
    (forall name, has_joint r name ->
       get_joint r' name = or_else (joint_written name o) (get_joint r name) /\
       get_joint_velocity r' name = or_else (velocity_written name o) (get_joint_velocity r name) /\
       get_joint_acceleration r' name = or_else (acceleration_written name o) (get_joint_acceleration r name) /\
       get_joint_limits r' name = or_else (limits_written name o) (get_joint_limits r name) /\
       velocity_limit_of r' name = or_else (velocity_limit_written name o) (velocity_limit_of r name) /\
       torque_limit_of r' name = or_else (torque_limit_written name o) (torque_limit_of r name)) /\
    (forall k, (forall n x, o = SetJoint n x -> get_joint_offset r n <> Ok k) -> vat (st_q (r_state r')) k = vat (st_q (r_state r)) k).
Proof.
  intros Hr Hn. destruct (offsets r _ Hr Hn) as (j & Hj & En & Oq & Ov & Bq & Bv).
  assert (D : forall name, has_joint r name -> exists i, get_joint_offset r name = Ok (jt_idx_q i) /\ get_joint_v_offset r name = Ok (jt_idx_v i) /\
     (jt_idx_q i < m_nq (r_model r))%nat /\ (jt_idx_v i < m_nv (r_model r))%nat /\
     (op_name o = name -> jt_idx_q i = jt_idx_q j /\ jt_idx_v i = jt_idx_v j) /\
     (op_name o <> name -> jt_idx_q i <> jt_idx_q j /\ jt_idx_v i <> jt_idx_v j)).
  { intros name Hm. destruct (offsets r _ Hr Hm) as (i & Hi & Ei & Iq & Iv & Ciq & Civ). exists i. do 4 (split; [assumption|]). split.
    - intros E. rewrite E in *. rewrite Iq in Oq. rewrite Iv in Ov. injection Oq as ->. injection Ov as ->. split; reflexivity.
    - intros E. apply (offsets_differ r i j Hr Hi Hj). congruence. }
  clear Hj En. pose proof Hr as Hr'. wf.
  assert (Jo : forall m s v name, m_joints m = m_joints (r_model r) ->
     get_joint_offset (Robot m s v) name = get_joint_offset r name /\ get_joint_v_offset (Robot m s v) name = get_joint_v_offset r name).
  { intros m s v name Em. unfold get_joint_offset, get_joint_v_offset, exist_joint_name, joint_of, find_joint. cbn [r_model]. rewrite Em. split; reflexivity. }
  assert (Bq' := Bq). assert (Bv' := Bv).
  destruct o as [n x|n x|n x|n l u|n x|n x]; cbn [op_name] in *; cbn [call];
    unfold set_joint, set_joint_velocity, set_joint_acceleration, set_joint_limits, set_velocity_limit, set_torque_limit;
    rewrite ?Oq, ?Ov; cbn [obind]; rewrite ?vec_set_ok by congruence; cbn [obind]; eexists; (split; [reflexivity|]);
    unfold set_q, set_qd, set_qdd, set_state, set_model, with_limits; cbn [r_model m_joints r_seen r_state st_q st_qd st_qdd];
    (split; [unfold well_formed_robot, well_formed in *; cbn [r_model r_state st_q st_qd st_qdd vlen m_nq m_nv m_joints m_lower m_upper m_velocity m_effort m_rotor m_gear]; tauto|]);
    (split; [reflexivity|]); (split; [reflexivity|]);
    (split;
      [intros name Hm; destruct (D name Hm) as (i & Iq & Iv & Ciq & Civ & Ds & Dd);
       unfold get_joint, get_joint_velocity, get_joint_acceleration, get_joint_limits, velocity_limit_of, torque_limit_of;
       repeat match goal with
       | |- context [get_joint_offset (Robot ?m ?s ?v) name] => rewrite (proj1 (Jo m s v name eq_refl))
       | |- context [get_joint_v_offset (Robot ?m ?s ?v) name] => rewrite (proj2 (Jo m s v name eq_refl))
       end; rewrite !Iq, !Iv; cbn [obind];
       cbn [r_state st_q st_qd st_qdd r_model m_lower m_upper m_velocity m_effort];
       rewrite ?vec_get_ok by (cbn [vlen]; congruence); cbn [vat];
       cbn [joint_written velocity_written acceleration_written limits_written velocity_limit_written torque_limit_written or_else];
       destruct (string_dec n name) as [E|E];
       [destruct (Ds E) as [-> ->]; rewrite E, !to_same, ?Nat.eqb_refl; cbn [or_else]; repeat split; reflexivity
       |destruct (Dd E) as [Nq Nv]; apply Nat.eqb_neq in Nq; apply Nat.eqb_neq in Nv; rewrite !to_other by exact E; rewrite ?Nq, ?Nv;
        cbn [or_else]; repeat split; reflexivity]
      |intros k Hk; try reflexivity;
       (cbn [vat]; destruct (Nat.eqb_spec k (jt_idx_q j)) as [->|]; [exfalso; eapply Hk; [reflexivity|exact Oq]|reflexivity])]).
Qed.
