From Coq Require Import Reals List Arith Bool String Lia.
From Verif Require Import Base Linalg Robot_model Robot_spec Robot_proofs Robot_props KinTasks_model DynTasks_model Dyn_model Humanoid_model KinReg_proofs Dicts_model Dicts_spec.
Import ListNotations.
Open Scope R_scope.

Lemma put_new {V} (l : list (string * V)) k v : ~ In k (map fst l) -> name_put k v l = l ++ [(k, v)].
Proof.
  induction l as [|[b u] l IH]; cbn [name_put map fst In app]; [reflexivity|]. intros H. destruct (String.eqb_spec k b) as [->|]; [tauto|].
  rewrite IH by tauto. reflexivity.
Qed.

Definition actuated (r : robot) : list joint := filter (fun j => negb (String.eqb (jt_name j) "root_joint")) (m_joints (r_model r)).

Lemma actuated_names r : ~ In "universe"%string (map jt_name (m_joints (r_model r))) -> joint_names r false = map jt_name (actuated r).
Proof.
  unfold joint_names, actuated. cbn [filter String.eqb Ascii.eqb Bool.eqb negb]. generalize (m_joints (r_model r)) as l.
  induction l as [|j l IH]; intros H; [reflexivity|]. cbn [map In] in H. cbn [map filter].
  destruct (String.eqb_spec (jt_name j) "universe") as [E|_]; [tauto|]. cbn [negb filter]. destruct (negb (String.eqb (jt_name j) "root_joint")); cbn [map]; rewrite IH by tauto; reflexivity.
Qed.

Lemma joint_found m j : well_formed m -> In j (m_joints m) -> joint_of m (jt_name j) = Ok j.
Proof.
  intros (ND & Nu & _) Hj. unfold joint_of. destruct (String.eqb_spec (jt_name j) "universe") as [E|_].
  { exfalso. apply Nu. rewrite <- E. now apply in_map. }
  unfold find_joint. revert ND Hj. generalize (m_joints m) as l. induction l as [|i l IH]; cbn [map In find]; [intros _ []|].
  intros ND [->|Hj]; [now rewrite String.eqb_refl|]. inversion ND as [|? ? Hn ND']; subst. destruct (String.eqb_spec (jt_name i) (jt_name j)) as [E|_].
  - exfalso. apply Hn. rewrite E. now apply in_map.
  - apply IH; assumption.
Qed.

Lemma NoDup_filter_names (p : joint -> bool) l : NoDup (map jt_name l) -> NoDup (map jt_name (filter p l)).
Proof.
  induction l as [|j l IH]; cbn [map filter]; [constructor|]. intros H. inversion H as [|? ? Hn ND]; subst. destruct (p j); [|auto]. cbn [map]. constructor; [|auto].
  intros Hi. apply Hn. apply in_map_iff in Hi. destruct Hi as (x & <- & Hx). apply filter_In in Hx. apply in_map. tauto.
Qed.

Lemma dict_loop shift r tau js : well_formed (r_model r) -> (forall j, In j js -> In j (m_joints (r_model r)) /\ (shift <= jt_idx_v j /\ jt_idx_v j - shift < vlen tau)%nat) ->
  forall acc, NoDup (map fst acc ++ map jt_name js) ->
  fold_left (fun o dof => d <- o ;; k <- get_joint_v_offset r dof ;; x <- guard (Nat.leb shift k) (vec_get tau (k - shift)) ;; Ok (name_put dof x d)) (map jt_name js) (Ok acc) =
  Ok (acc ++ map (fun j => (jt_name j, vat tau (jt_idx_v j - shift))) js).
Proof.
  intros W. induction js as [|j js IH]; intros Hj acc ND; cbn [map fold_left app]; [now rewrite app_nil_r|].
  destruct (Hj j (or_introl eq_refl)) as (Hin & H1 & H2). cbn [obind]. unfold get_joint_v_offset. rewrite (joint_found _ _ W Hin). cbn [obind].
  apply Nat.leb_le in H1. apply Nat.ltb_lt in H2. unfold guard, vec_get. rewrite H1. unfold guard. rewrite H2. cbn [obind].
  cbn [map] in ND. pose proof (NoDup_remove_2 _ _ _ ND) as Hn. rewrite in_app_iff in Hn. rewrite put_new by tauto.
  rewrite IH.
  - rewrite <- app_assoc. reflexivity.
  - intros i Hi. apply Hj. right. exact Hi.
  - rewrite map_app. cbn [map fst]. rewrite <- app_assoc. exact ND.
Qed.

Lemma dict_made shift r tau : well_formed (r_model r) ->
  (forall j, In j (m_joints (r_model r)) -> jt_name j <> "root_joint"%string -> (shift <= jt_idx_v j /\ jt_idx_v j - shift < vlen tau)%nat) ->
  exists d, torques_by_joint shift r tau = Ok d /\ by_joint r d (fun k => vat tau (k - shift)).
Proof.
  intros W H. exists (map (fun j => (jt_name j, vat tau (jt_idx_v j - shift))) (actuated r)). pose proof W as (ND & Nu & _). split.
  - unfold torques_by_joint. rewrite (actuated_names r Nu). rewrite (dict_loop shift r tau (actuated r) W); [reflexivity| |].
    + intros j Hj. apply filter_In in Hj. destruct Hj as [Hj Hr]. apply negb_true_iff, String.eqb_neq in Hr. split; [exact Hj|]. exact (H j Hj Hr).
    + cbn [map app]. now apply NoDup_filter_names.
  - split.
    + rewrite map_map. cbn [fst]. now apply NoDup_filter_names.
    + intros name x. rewrite in_map_iff. split.
      * intros (j & [= <- <-] & Hj). apply filter_In in Hj. destruct Hj as [Hj Hr]. apply negb_true_iff, String.eqb_neq in Hr. split; [exact Hr|]. exists j. auto.
      * intros (Hr & j & Hj & <- & ->). exists j. split; [reflexivity|]. apply filter_In. split; [exact Hj|]. apply negb_true_iff, String.eqb_neq. exact Hr.
Qed.

Lemma after_base r j : well_formed (r_model r) -> floating_base r -> In j (m_joints (r_model r)) -> jt_name j <> "root_joint"%string ->
  (6 <= jt_idx_v j /\ jt_idx_v j < m_nv (r_model r))%nat.
Proof.
  intros (_ & _ & Hs & Ha & _) (b & Hb & Nb & I0 & N6) Hj Hr. destruct (Hs j Hj) as (_ & _ & H1 & H2).
  destruct (Ha b j Hb Hj ltac:(congruence)) as [_ [A|A]]; rewrite I0, ?N6 in A; lia.
Qed.

(** ** set_joints *)

Lemma update_find m d name : different_keys d -> name_find name (update_map m d) = match given d name with Some x => Some x | None => name_find name m end.
Proof.
  unfold different_keys. revert m. induction d as [|[[k|] [x|]] d IH]; intros m; cbn [flat_map fst app update_map given]; [reflexivity| | |exact (IH m)|exact (IH m)].
  - intros ND. inversion ND as [|? ? Hn ND']; subst. rewrite (IH _ ND'), put_find, String.eqb_sym. destruct (String.eqb_spec k name) as [->|]; [|reflexivity].
    replace (given d name) with (@None R); [reflexivity|]. symmetry. clear -Hn. induction d as [|[[k|] x] d IH]; cbn [flat_map fst app In given] in *; [reflexivity| |auto].
    destruct (String.eqb_spec k name); [tauto|auto].
  - intros ND. inversion ND as [|? ? Hn ND']; subst. rewrite (IH _ ND'). destruct (String.eqb_spec k name) as [->|]; [|reflexivity].
    replace (given d name) with (@None R); [reflexivity|]. symmetry. clear -Hn. induction d as [|[[k|] x] d IH]; cbn [flat_map fst app In given] in *; [reflexivity| |auto].
    destruct (String.eqb_spec k name); [tauto|auto].
Qed.

Lemma update_clean m l : update_map m (clean l) = fold_left (fun m e => name_put (fst e) (snd e) m) l m.
Proof. revert m. induction l as [|[k x] l IH]; intros m; [reflexivity|]. cbn [clean map fst snd update_map fold_left]. apply IH. Qed.

Lemma update_nodup m d : NoDup (map fst m) -> NoDup (map fst (update_map m d)).
Proof. revert m. induction d as [|[[k|] [x|]] d IH]; intros m H; cbn [update_map]; auto. apply IH. now apply put_nodup. Qed.

Lemma read_find m name : name_find name (targets_read m) =
  match name_find name (jm_joints m) with
  | Some x => Some (x, or_zero (name_find name (jm_djoints m)), or_zero (name_find name (jm_ddjoints m)))
  | None => None
  end.
Proof.
  unfold targets_read. generalize (jm_djoints m) as v, (jm_ddjoints m) as a. intros v a. induction (jm_joints m) as [|[k x] l IH]; [reflexivity|].
  cbn [map fst snd name_find]. destruct (String.eqb_spec name k) as [->|]; [reflexivity|exact IH].
Qed.

Lemma read_set m joint x v a : NoDup (map fst (jm_joints m)) -> targets_read (maps_set_joint m joint x v a) = joints_dset (targets_read m) joint x v a.
Proof.
  unfold targets_read, maps_set_joint, joints_dset. cbn [jm_joints jm_djoints jm_ddjoints]. intros ND.
  assert (E : forall l : list (string * R), ~ In joint (map fst l) ->
    map (fun e => (fst e, (snd e, or_zero (name_find (fst e) (name_put joint v (jm_djoints m))), or_zero (name_find (fst e) (name_put joint a (jm_ddjoints m)))))) l =
    map (fun e => (fst e, (snd e, or_zero (name_find (fst e) (jm_djoints m)), or_zero (name_find (fst e) (jm_ddjoints m))))) l).
  { intros l Hl. apply map_ext_in. intros [k y] Hk. cbn [fst snd]. rewrite !put_find. destruct (String.eqb_spec k joint) as [->|]; [|reflexivity].
    exfalso. apply Hl. apply (in_map fst) in Hk. exact Hk. }
  revert ND. generalize (jm_joints m) as l. induction l as [|[k y] l IH]; intros ND; cbn [name_put map fst snd].
  - rewrite !put_find, String.eqb_refl. reflexivity.
  - inversion ND as [|? ? Hn ND']; subst. destruct (String.eqb_spec joint k) as [->|Hk]; cbn [map fst snd].
    + rewrite !put_find, String.eqb_refl. cbn [or_zero]. rewrite E by exact Hn. reflexivity.
    + rewrite (IH ND'), !put_find. destruct (String.eqb_spec k joint); [congruence|reflexivity].
Qed.

(** ** The torques, in terms of the inverse *)

Lemma fixed_explicit pn inv r qdd_a f M : inverts inv -> jacobian_sized pn r f -> dynamics_sized pn r -> well_formed_robot r ->
  vlen qdd_a = (m_nv (r_model r) - 6)%nat -> invertible (base_jacobian_t (frame_jacobian pn r f LocalWorldAligned)) -> mass_matrix pn r = Ok M ->
  let n := m_nv (r_model r) in let J := frame_jacobian pn r f LocalWorldAligned in let h := non_linear_effects pn r in
  torques_from_acceleration_with_fixed_frame pn inv r qdd_a f = Ok (Vec (n - 6) (fun k => Rsum (n - 6) (fun j => mat_at M (6 + k) (6 + j) * vat qdd_a j) + vat h (6 + k) -
    wrench_effort J (fun i => Rsum 6 (fun j => mat_at (inv (base_jacobian_t J)) i j * vat h j)) (6 + k))).
Proof.
  intros Hi (Jr & Jc & H6) (_ & Hh & HM) Hr Lq Hv EM. cbv zeta. destruct (Hi _ Hv) as (R1 & C1 & _). cbn [base_jacobian_t mrows] in R1, C1.
  set (n := m_nv (r_model r)) in *.
  set (J := frame_jacobian pn r f LocalWorldAligned) in *. set (h := non_linear_effects pn r) in *.
  assert (Lh : vlen h = n) by apply Hh. destruct (HM (st_q (r_state r))) as [Mr Mc].
  destruct Hr as ((_ & _ & _ & _ & _ & _ & _ & _ & Lr & Lg) & _). fold n in Lr, Lg.
  set (w := fun i => Rsum 6 (fun j => mat_at (inv (base_jacobian_t J)) i j * vat h j)).
  assert (EM' : mrows M = n /\ mcols M = n).
  { unfold mass_matrix, guard in EM. fold n in EM. rewrite Mr, Mc, Lr, Lg, Nat.eqb_refl in EM. replace (Nat.leb n n) with true in EM by (symmetry; apply Nat.leb_le; lia). injection EM as <-. split; reflexivity. }
  destruct EM' as [Nr Nc].
  assert (E : Mat 6 6 (fun k l : nat => mat_at (mat_t J) (0 + k) (0 + l)) = base_jacobian_t J) by reflexivity.
  unfold torques_from_acceleration_with_fixed_frame, block, segment_of, mat_vec, vec_sub, vec_add, bottom_rows, guard.
    fold J. fold h. fold n. rewrite EM. cbn [obind]. cbn [mat_t mrows mcols]. rewrite Jr, Jc, Lh.
    replace (Nat.leb (0 + 6) n) with true by (symmetry; apply Nat.leb_le; lia).
    replace (Nat.leb 6 n) with true by (symmetry; apply Nat.leb_le; lia). cbn [Nat.add Nat.leb andb obind].
    cbn [Nat.add] in E. change (Mat 6 6 (fun k l : nat => mat_at (mat_t J) k l)) with (base_jacobian_t J). rewrite R1, C1. cbn [vlen Nat.eqb obind].
    replace (Nat.leb (n - 6) n) with true by (symmetry; apply Nat.leb_le; lia). cbn [obind].
    rewrite Nr, Nc. replace (Nat.leb (n - (n - 6) + (n - 6)) n) with true by (symmetry; apply Nat.leb_le; lia). cbn [andb obind mcols vlen mrows].
    rewrite Lq, Nat.eqb_refl. cbn [obind vlen mrows]. rewrite Nat.eqb_refl. cbn [obind mcols mrows vlen vat]. cbn [Nat.eqb obind vlen].
    replace (Nat.leb (n - 6) n) with true by (symmetry; apply Nat.leb_le; lia). cbn [obind vlen vat]. rewrite Nat.eqb_refl.
    replace (n - (n - 6))%nat with 6%nat by lia. cbn [mat_at]. reflexivity.
Qed.

Lemma static_explicit pn inv r f : inverts inv -> jacobian_sized pn r f -> dynamics_sized pn r ->
  invertible (base_jacobian_t (frame_jacobian pn r f LocalWorldAligned)) ->
  let n := m_nv (r_model r) in let J := frame_jacobian pn r f LocalWorldAligned in let g := generalized_gravity pn r in
  static_gravity_compensation_torques pn inv r f = Ok (Vec n (fun k => vat g k -
    wrench_effort J (fun i => Rsum 6 (fun j => mat_at (inv (base_jacobian_t J)) i j * vat g j)) k)).
Proof.
  intros Hi (Jr & Jc & H6) (Hg & _) Hv. cbv zeta. destruct (Hi _ Hv) as (R1 & C1 & _). cbn [base_jacobian_t mrows] in R1, C1.
  set (J := frame_jacobian pn r f LocalWorldAligned) in *. set (g := generalized_gravity pn r).
  assert (Lg : vlen g = m_nv (r_model r)) by apply Hg.
  set (w := fun i => Rsum 6 (fun j => mat_at (inv (base_jacobian_t J)) i j * vat g j)).
  assert (E : mat_t (Mat 6 6 (fun k l : nat => mat_at J (0 + k) (0 + l))) = base_jacobian_t J) by reflexivity.
  unfold static_gravity_compensation_torques, block, segment_of, mat_vec, vec_sub, guard. fold J. fold g. rewrite Jr, Jc, Lg.
    replace (Nat.leb (0 + 6) (m_nv (r_model r))) with true by (symmetry; apply Nat.leb_le; lia). cbn [Nat.add Nat.leb andb obind].
    cbn [Nat.add] in E. rewrite E, R1, C1. cbn [vlen Nat.eqb obind mat_t mcols mrows vat]. rewrite Jr, Jc. cbn [Nat.eqb obind vlen]. rewrite Nat.eqb_refl.
    reflexivity.
Qed.
