From Coq Require Import Reals List ZArith Bool String Lra Lia.
From Verif Require Import Base Linalg Angle Geom3 Tools_model Geometry_model Geometry_spec Geometry_proofs Geometry_props Footsteps_model Robot_model Robot_spec Robot_proofs Robot_props
  DynSet_props Humanoid_model Humanoid_spec Humanoid_proofs Humanoid_proofs2 Humanoid_props Replay_model Replay_spec.
Import ListNotations.
Open Scope R_scope.

Lemma rotation_rx a : rotation (roll_x a).
Proof. pose proof (sin2_cos2 a) as H. unfold Rsqr in H. split; [unfold orthogonal, roll_x; apply M3_ext; m3; lra|unfold m3_det, roll_x; m3; lra]. Qed.
Lemma rotation_ry a : rotation (rot_y a).
Proof. pose proof (sin2_cos2 a) as H. unfold Rsqr in H. split; [unfold orthogonal, rot_y; apply M3_ext; m3; lra|unfold m3_det, rot_y; m3; lra]. Qed.
Lemma rpy_eq r p y : rpy_to_matrix r p y = m3_mul (m3_mul (rot_z y) (rot_y p)) (roll_x r).
Proof. reflexivity. Qed.
Lemma rpy_rotation r p y : rotation (rpy_to_matrix r p y).
Proof. rewrite rpy_eq. apply rotation_mul; [apply rotation_mul; [apply rotation_z|apply rotation_ry]|apply rotation_rx]. Qed.

(** The joints. *)
Definition velocities_told (m : rmodel) (l : list string) (v : vec) (qd qd' : vec) : Prop :=
  forall j, In j (m_joints m) -> In (jt_name j) l -> vat qd' (jt_idx_v j) = vat v (jt_idx_v j - 6).
Lemma replay_joint_spec log t source v r name : well_formed_robot r -> floating (r_model r) -> actuated r name -> has_number log t (source ++ ":" ++ name) ->
  ((1 < vlen v)%nat -> vlen v = (m_nv (r_model r) - 6)%nat) ->
  exists r' j x, replay_joint log t source v r name = Ok r' /\ In j (m_joints (r_model r)) /\ jt_name j = name /\ number log (source ++ ":" ++ name) t = Ok x /\
    well_formed_robot r' /\ r_model r' = r_model r /\ r_seen r' = r_seen r /\ st_qdd (r_state r') = st_qdd (r_state r) /\
    st_q (r_state r') = Vec (m_nq (r_model r)) (fun k => if Nat.eqb k (jt_idx_q j) then x else vat (st_q (r_state r)) k) /\
    ((1 < vlen v)%nat -> st_qd (r_state r') = Vec (m_nv (r_model r)) (fun k => if Nat.eqb k (jt_idx_v j) then vat v (jt_idx_v j - 6) else vat (st_qd (r_state r)) k)) /\
    ((vlen v <= 1)%nat -> st_qd (r_state r') = st_qd (r_state r)).
Proof.
  intros Hw Hf [Hj Hn] [x Ex] Hv. destruct (offsets r name Hw Hj) as (j & Ij & En & Oq & Ov & Lq & Lv). pose proof Hw as (W & Wq & Wv & Wa).
  destruct (Hf j Ij) as [F7 F6]; [congruence|]. unfold replay_joint. rewrite Ex. cbn [obind]. unfold set_joint. rewrite Oq. cbn [obind]. rewrite vec_set_ok by congruence. cbn [obind].
  destruct (Nat.ltb_spec 1 (vlen v)) as [H1|H1].
  - specialize (Hv H1). unfold get_joint_v_offset in *. cbn [set_q set_state r_model]. rewrite Ov. cbn [obind]. unfold guard at 1. rewrite leb_true by exact F6. rewrite vec_get_ok by lia. cbn [obind].
    unfold set_joint_velocity, get_joint_v_offset. cbn [set_q set_state r_model r_state st_qd]. rewrite Ov. cbn [obind]. rewrite vec_set_ok by congruence. cbn [obind].
    eexists _, j, x. split; [reflexivity|]. cbn [set_qd set_q set_state r_model r_state r_seen st_q st_qd st_qdd]. split; [exact Ij|]. split; [exact En|]. split; [reflexivity|].
    split. { split; [exact W|]. cbn. auto. } do 3 (split; [reflexivity|]). split; [now rewrite Wq|]. split; [intros _; now rewrite Wv|lia].
  - eexists _, j, x. split; [reflexivity|]. cbn [set_qd set_q set_state r_model r_state r_seen st_q st_qd st_qdd]. split; [exact Ij|]. split; [exact En|]. split; [reflexivity|].
    split. { split; [exact W|]. cbn. auto. } do 3 (split; [reflexivity|]). split; [now rewrite Wq|]. split; [lia|auto].
Qed.

Lemma get_joint_at r j : well_formed_robot r -> In j (m_joints (r_model r)) ->
  get_joint r (jt_name j) = Ok (vat (st_q (r_state r)) (jt_idx_q j)) /\ get_joint_velocity r (jt_name j) = Ok (vat (st_qd (r_state r)) (jt_idx_v j)).
Proof.
  intros Hw Hj. destruct (offsets r (jt_name j) Hw) as (k & Ik & En & Oq & Ov & Lq & Lv); [apply in_map, Hj|].
  assert (k = j). { destruct Hw as ((Nd & _) & _). revert Nd En Ik Hj. generalize (m_joints (r_model r)). clear. induction l as [|a l IH]; cbn; intros Nd En Ik Hj; [tauto|].
    inversion Nd; subst. destruct Ik as [->|Ik], Hj as [->|Hj]; auto; exfalso; apply H1; [rewrite En|rewrite <- En]; now apply in_map. }
  subst k. unfold get_joint, get_joint_velocity. rewrite Oq, Ov. cbn [obind]. destruct Hw as (_ & Wq & Wv & _). rewrite !vec_get_ok by congruence. auto.
Qed.

Lemma replay_joints_spec log t source v : forall l r, well_formed_robot r -> floating (r_model r) -> NoDup l ->
  (forall name, In name l -> actuated r name /\ has_number log t (source ++ ":" ++ name)) ->
  ((1 < vlen v)%nat -> vlen v = (m_nv (r_model r) - 6)%nat) ->
  exists r', replay_joints log t source v r l = Ok r' /\ well_formed_robot r' /\ r_model r' = r_model r /\ r_seen r' = r_seen r /\ st_qdd (r_state r') = st_qdd (r_state r) /\
    (forall k, (k < 7)%nat -> vat (st_q (r_state r')) k = vat (st_q (r_state r)) k) /\
    (forall j x, In j (m_joints (r_model r)) -> In (jt_name j) l -> number log (source ++ ":" ++ jt_name j) t = Ok x -> vat (st_q (r_state r')) (jt_idx_q j) = x) /\
    (forall j, In j (m_joints (r_model r)) -> ~ In (jt_name j) l -> vat (st_q (r_state r')) (jt_idx_q j) = vat (st_q (r_state r)) (jt_idx_q j) /\ vat (st_qd (r_state r')) (jt_idx_v j) = vat (st_qd (r_state r)) (jt_idx_v j)) /\
    ((1 < vlen v)%nat -> forall j, In j (m_joints (r_model r)) -> In (jt_name j) l -> vat (st_qd (r_state r')) (jt_idx_v j) = vat v (jt_idx_v j - 6)) /\
    ((vlen v <= 1)%nat -> st_qd (r_state r') = st_qd (r_state r)).
Proof.
  induction l as [|name l IH]; intros r Hw Hf Nd Hl Hv.
  - exists r. cbn [replay_joints]. repeat (split; [solve [auto|tauto]|]). split; [intros; contradiction|]. split; [auto|]. split; [intros; contradiction|auto].
  - inversion Nd as [|a l' Nin Nd']; subst. destruct (Hl name (or_introl eq_refl)) as [Ha Hx].
    destruct (replay_joint_spec log t source v r name Hw Hf Ha Hx Hv) as (r1 & j & x & E & Ij & En & Ex & W1 & M1 & S1 & A1 & Q1 & V1 & V1').
    destruct (IH r1) as (r' & E' & W' & M' & S' & A' & B' & J' & K' & V' & V''); try assumption.
    { now rewrite M1. } { intros n Hn. destruct (Hl n (or_intror Hn)) as [X Y]. split; [|exact Y]. unfold actuated, has_joint in *. now rewrite M1. } { now rewrite M1. }
    rewrite M1 in *. exists r'. cbn [replay_joints]. rewrite E. cbn [obind]. split; [exact E'|]. split; [exact W'|]. split; [exact M'|]. split; [congruence|]. split; [congruence|].
    destruct (Hf j Ij) as [F7 F6]; [rewrite En; apply Ha|].
    assert (Dif : forall k, In k (m_joints (r_model r)) -> jt_name k <> name -> jt_idx_q k <> jt_idx_q j /\ jt_idx_v k <> jt_idx_v j) by (intros k Hk Nk; apply (offsets_differ r k j Hw Hk Ij); congruence).
    assert (Same : forall k, In k (m_joints (r_model r)) -> jt_name k = name -> k = j).
    { intros k Hk Nk. destruct Hw as ((Nd0 & _) & _). rewrite <- En in Nk. revert Nd0 Nk Hk Ij. generalize (m_joints (r_model r)). clear. induction l as [|a l IH]; cbn; intros Nd En Ik Hj; [tauto|].
      inversion Nd; subst. destruct Ik as [->|Ik], Hj as [->|Hj]; auto; exfalso; apply H1; [rewrite En|rewrite <- En]; now apply in_map. }
    split. { intros k Hk. rewrite B' by exact Hk. rewrite Q1. cbn [vat]. replace (Nat.eqb k (jt_idx_q j)) with false; [reflexivity|symmetry; apply Nat.eqb_neq; lia]. }
    split. { intros k y Hk Hin Ey. destruct (in_dec string_dec (jt_name k) l) as [Hl'|Hl']; [now apply J'|]. destruct Hin as [Hin|Hin]; [|contradiction].
      destruct (K' k Hk Hl') as [-> _]. rewrite (Same k Hk (eq_sym Hin)) in *. rewrite Q1. cbn [vat]. rewrite Nat.eqb_refl. congruence. }
    split. { intros k Hk Nk. destruct (K' k Hk) as [-> ->]; [intros C; apply Nk; now right|]. destruct (Dif k Hk) as [D1 D2]; [intros C; apply Nk; now left|].
      rewrite Q1. cbn [vat]. apply Nat.eqb_neq in D1, D2. rewrite D1. split; [reflexivity|]. destruct (Nat.le_gt_cases (vlen v) 1) as [C|C]; [now rewrite V1'|]. rewrite V1 by exact C. cbn [vat]. now rewrite D2. }
    split. { intros H1 k Hk Hin. destruct (in_dec string_dec (jt_name k) l) as [Hl'|Hl']; [now apply V'|]. destruct Hin as [Hin|Hin]; [|contradiction].
      destruct (K' k Hk Hl') as [_ ->]. rewrite (Same k Hk (eq_sym Hin)) in *. rewrite V1 by exact H1. cbn [vat]. now rewrite Nat.eqb_refl. }
    intros H1. rewrite V'' by exact H1. now apply V1'.
Qed.

(** The support. *)
Lemma pressure_told log t : (forall s, In s sensors -> has_number log t s) ->
  exists left right, pressure log t "left" = Ok left /\ pressure log t "right" = Ok right /\ feels log t Left left /\ feels log t Right right.
Proof.
  intros H. assert (G : forall s, In s sensors -> exists x, number log s t = Ok x) by exact H.
  destruct (G "left_pressure_0"%string) as [a Ea]; [cbn; tauto|]. destruct (G "left_pressure_1"%string) as [b Eb]; [cbn; tauto|].
  destruct (G "left_pressure_2"%string) as [c Ec]; [cbn; tauto|]. destruct (G "left_pressure_3"%string) as [d Ed]; [cbn; tauto|].
  destruct (G "right_pressure_0"%string) as [a' Ea']; [cbn; tauto|]. destruct (G "right_pressure_1"%string) as [b' Eb']; [cbn; tauto|].
  destruct (G "right_pressure_2"%string) as [c' Ec']; [cbn; tauto|]. destruct (G "right_pressure_3"%string) as [d' Ed']; [cbn; tauto|].
  exists (a + b + c + d), (a' + b' + c' + d'). unfold pressure. cbn [String.append]. rewrite Ea, Eb, Ec, Ed, Ea', Eb', Ec', Ed'. cbn [obind].
  do 2 (split; [reflexivity|]). split; [exists a, b, c, d|exists a', b', c', d']; auto.
Qed.

Lemma support_spec pn moving h s : hsound pn moving h -> hr_frame h = foot h (hr_side h) ->
  exists h', update_support_side pn h s = Ok h' /\ hsound pn moving h' /\ hr_robot h' = hr_robot h /\ hr_side h' = s /\ hr_frame h' = foot h s /\
    hr_left h' = hr_left h /\ hr_right h' = hr_right h /\ hr_trunk h' = hr_trunk h /\ (s = hr_side h -> hr_T h' = hr_T h) /\
    (s <> hr_side h -> hr_T h' = flatten_on_floor (pn_frame pn (fst (r_seen (hr_robot h))) (foot h s))).
Proof.
  intros Hh Hf. pose proof Hh as (H1 & H2 & H3 & H4 & H5 & H6 & H7 & H8 & H9). unfold update_support_side, update_support_frame.
  change (match s with Left => hr_left h | Right => hr_right h end) with (foot h s). destruct (Nat.eqb_spec (foot h s) (hr_frame h)) as [E|E].
  - assert (s = hr_side h) by (rewrite Hf in E; destruct s, (hr_side h); cbn [foot] in E; congruence). subst s. exists h. do 8 (split; [solve [auto|congruence]|]). split; [reflexivity|congruence].
  - assert (Hb : body_frame moving (hr_robot h) (foot h s)) by (destruct s; assumption). rewrite get_frame_ok by apply Hb. cbn [obind]. eexists. split; [reflexivity|].
    split. { unfold hsound, with_support, body_frame in *. cbn [hr_robot hr_frame hr_left hr_right hr_trunk hr_T]. do 8 (split; [assumption|]). apply rotation_z. }
    do 6 (split; [reflexivity|]). split; [intros ->; congruence|reflexivity].
Qed.

(** The velocity of the base. *)
Lemma base_velocity_spec pn inv h w v it : let r := hr_robot h in let n := m_nv (r_model r) in get_frame_index r "trunk" = Ok it ->
  let A := frame_jacobian pn r (hr_frame h) Local in let B := frame_jacobian pn r it Local in
  mrows A = 6%nat -> mcols A = n -> mrows B = 6%nat -> mcols B = n -> (6 <= n)%nat -> vlen v = (n - 6)%nat ->
  inverts_both inv -> (exists V, two_sided (Mat 6 6 (stacked A B)) V) ->
  exists u, base_velocity pn inv h w v = Ok u /\ vlen u = 6%nat /\
    forall i, (i < 6)%nat -> Rsum n (fun k => stacked A B i k * (if Nat.ltb k 6 then vat u k else vat v (k - 6))) = gyro w i.
Proof.
  intros r n It A B A1 A2 B1 B2 H6 Lv Hinv Hv. destruct (Hinv (Mat 6 6 (stacked A B)) eq_refl Hv) as [Hr (V1 & V2 & _)]. pose proof Hr as (V3 & V4 & _). cbn [mrows mcols] in *.
  set (V := inv (Mat 6 6 (stacked A B))) in *. eexists. split.
  { unfold base_velocity. fold r. unfold frame_jacobian_name. rewrite It. cbn [obind]. change (string_to_reference "local") with (@Ok ref Local). cbn [obind]. fold B.
    unfold stack_rows. fold A. unfold block at 1. unfold guard at 1. rewrite A1, A2, !leb_true by lia. cbn [andb obind].
    unfold block at 1. unfold guard at 1 2. rewrite B1, B2, !leb_true by lia. cbn [andb obind mcols]. unfold guard at 1. rewrite Nat.eqb_refl. cbn [mat_at obind].
    unfold guard at 1. cbn [mcols]. fold n. rewrite Nat.eqb_refl. cbn [obind].
    unfold left_cols at 1. unfold block at 1. unfold guard at 1. cbn [mrows mcols]. rewrite !leb_true by lia. cbn [andb obind mat_at].
    unfold right_cols at 1. unfold block at 1. unfold guard at 1 2 3. cbn [mrows mcols]. rewrite !leb_true by lia. cbn [andb obind mat_at].
    assert (EM : Mat 6 6 (fun k l : nat => if Nat.ltb (0 + k) 3 then mat_at A (0 + (0 + k)) (0 + (0 + l)) else mat_at B (6 - 3 + (0 + k - 3)) (0 + (0 + l))) = Mat 6 6 (stacked A B)).
    { f_equal. apply FunctionalExtensionality.functional_extensionality. intros k. apply FunctionalExtensionality.functional_extensionality. intros l. unfold stacked. cbn [Nat.add]. destruct (Nat.ltb_spec k 3); [reflexivity|]. f_equal. lia. }
    rewrite EM. fold V. unfold mat_vec at 1. unfold guard at 1. cbn [mcols mrows]. rewrite Lv, Nat.eqb_refl. cbn [obind].
    unfold vec_sub at 1. unfold guard at 1. cbn [vlen Nat.eqb obind]. unfold mat_vec at 1. unfold guard at 1. rewrite V4. cbn [vlen Nat.eqb]. reflexivity. }
  cbn [vlen]. split; [exact V3|]. intros i Hi. replace n with (6 + (n - 6))%nat at 1 by lia. rewrite Rsum_split.
  set (d := fun k => gyro w k - Rsum (n - 6) (fun j => stacked A B k (6 + j) * vat v j)).
  rewrite (Rsum_ext 6 _ (fun k => stacked A B i k * Rsum 6 (fun j => mat_at V k j * d j))).
  - pose proof (inverse_applied (Mat 6 6 (stacked A B)) V 6 d i Hr eq_refl eq_refl Hi) as X. cbn [mat_at] in X. rewrite X. unfold d.
    match goal with |- _ + ?Z = _ => replace Z with (Rsum (n - 6) (fun j => stacked A B i (6 + j) * vat v j)); [ring|] end.
    apply Rsum_ext. intros j Hj. replace (Nat.ltb (6 + j) 6) with false by (symmetry; apply Nat.ltb_ge; lia). do 2 f_equal. lia.
  - intros k Hk. apply Nat.ltb_lt in Hk. rewrite Hk. f_equal. cbn [vat]. apply Rsum_ext. intros j Hj. f_equal. unfold d. f_equal.
    apply Rsum_ext. intros l Hl. f_equal. unfold stacked. cbn [Nat.add]. cbn [mat_at]. destruct (Nat.ltb_spec j 3); f_equal; lia.
Qed.

(** One reading. *)
Definition placed_at (h h' : hrobot) : Prop :=
  r_model (hr_robot h') = r_model (hr_robot h) /\ hr_left h' = hr_left h /\ hr_right h' = hr_right h /\ hr_trunk h' = hr_trunk h.

Lemma joints_phase log t source v h use_imu : well_formed_robot (hr_robot h) -> floating (r_model (hr_robot h)) -> ((1 < vlen v)%nat -> vlen v = (m_nv (r_model (hr_robot h)) - 6)%nat) ->
  complete log t source (hr_robot h) use_imu (Nat.ltb 1 (vlen v)) ->
  let r := hr_robot h in
  exists r', replay_joints log t source v r (joint_names r false) = Ok r' /\ well_formed_robot r' /\ r_model r' = r_model r /\ r_seen r' = r_seen r /\
    (unit_base (st_q (r_state r)) -> unit_base (st_q (r_state r'))) /\
    (forall j x, In j (m_joints (r_model r)) -> jt_name j <> "root_joint"%string -> number log (source ++ ":" ++ jt_name j) t = Ok x -> vat (st_q (r_state r')) (jt_idx_q j) = x) /\
    ((1 < vlen v)%nat -> forall j, In j (m_joints (r_model r)) -> jt_name j <> "root_joint"%string -> vat (st_qd (r_state r')) (jt_idx_v j) = vat v (jt_idx_v j - 6)) /\
    ((vlen v <= 1)%nat -> st_qd (r_state r') = st_qd (r_state r)).
Proof.
  intros Hw Hf Hv (C1 & _) r. destruct (C107_joint_names r Hw) as (Nd & Hin & _).
  destruct (replay_joints_spec log t source v (joint_names r false) r Hw Hf Nd) as (r' & E & W & M & Sn & A & B & J & K & V & V'); [|exact Hv|].
  { intros name Hn. apply Hin in Hn. split; [exact Hn|now apply C1]. }
  exists r'. do 4 (split; [assumption|]).
  assert (Names : forall j, In j (m_joints (r_model r)) -> jt_name j <> "root_joint"%string -> In (jt_name j) (joint_names r false)) by (intros j Hj Nj; apply Hin; split; [now apply in_map|exact Nj]).
  split. { intros [L U]. pose proof W as (_ & Wq & _). pose proof Hw as (_ & Wq0 & _). rewrite M in Wq. split; [unfold r in *; lia|]. now rewrite !B by lia. }
  split; [intros; apply J; auto|]. split; [intros; apply V; auto|exact V'].
Qed.

Lemma same_joint_at r r' j : well_formed_robot r -> floating (r_model r) -> In j (m_joints (r_model r)) -> jt_name j <> "root_joint"%string ->
  same_joints (st_q (r_state r')) (st_q (r_state r)) -> vat (st_q (r_state r')) (jt_idx_q j) = vat (st_q (r_state r)) (jt_idx_q j).
Proof.
  intros Hw Hf Hj Nj [L Hs]. destruct (Hf j Hj Nj) as [F7 _]. apply Hs. split; [exact F7|]. rewrite L. destruct Hw as ((_ & _ & Hb & _) & Wq & _). rewrite Wq. destruct (Hb j Hj) as (? & ? & _). lia.
Qed.
Lemma wf_moved r r' : well_formed_robot r -> r_model r' = r_model r -> same_joints (st_q (r_state r')) (st_q (r_state r)) -> vlen (st_qd (r_state r')) = vlen (st_qd (r_state r)) -> vlen (st_qdd (r_state r')) = vlen (st_qdd (r_state r)) -> well_formed_robot r'.
Proof. intros (W & Wq & Wv & Wa) M [L _] Lv La. unfold well_formed_robot. rewrite M. split; [exact W|]. split; [congruence|]. split; congruence. Qed.

Lemma read_spec pn moving inv h log t source use_imu v : replayable pn moving h -> complete log t source (hr_robot h) use_imu (Nat.ltb 1 (vlen v)) -> inverts_both inv -> well_posed pn h v ->
  exists h', read_from_histories pn inv h log t source use_imu v = Ok h' /\ replayable pn moving h' /\ placed_at h h' /\ stands pn h' /\
    joints_told log t source (hr_robot h') /\ carries log t (hr_side h') /\
    fr_t (hr_T h') = fr_t (if side_dec (hr_side h') (hr_side h) then hr_T h else flatten_on_floor (pn_frame pn (fst (r_seen (hr_robot h))) (foot h (hr_side h')))) /\
    (use_imu = false -> hr_T h' = if side_dec (hr_side h') (hr_side h) then hr_T h else flatten_on_floor (pn_frame pn (fst (r_seen (hr_robot h))) (foot h (hr_side h')))) /\
    (use_imu = true -> tells_orientation log t (fr_R (at_frame pn h' (hr_trunk h')))) /\
    ((vlen v <= 1)%nat -> st_qd (r_state (hr_robot h')) = st_qd (r_state (hr_robot h))) /\
    ((1 < vlen v)%nat -> (forall j, In j (m_joints (r_model (hr_robot h))) -> jt_name j <> "root_joint"%string -> get_joint_velocity (hr_robot h') (jt_name j) = Ok (vat v (jt_idx_v j - 6))) /\
       forall w, tells_rates log t w -> exists u, vlen u = 6%nat /\ (forall k, (k < 6)%nat -> vat (st_qd (r_state (hr_robot h'))) k = vat u k) /\
         forall i, (i < 6)%nat -> Rsum (m_nv (r_model (hr_robot h))) (fun k => stacked (pn_jac pn (st_q (r_state (hr_robot h'))) (hr_frame h') Local) (pn_jac pn (st_q (r_state (hr_robot h'))) (hr_trunk h') Local) i k * (if Nat.ltb k 6 then vat u k else vat v (k - 6))) = gyro w i).
Proof.
  intros (Hh & Hw & Hf & Hfr & Htr) Hc Hinv Hv. pose proof Hh as (H1 & H2 & H3 & H4 & H5 & H6 & H7 & H8 & H9).
  destruct (joints_phase log t source v h use_imu Hw Hf (fun X => proj1 (Hv X)) Hc) as (r1 & E1 & W1 & M1 & S1 & U1 & J1 & V1 & V1'). cbv zeta in *. destruct Hc as (_ & C2 & C3 & C4).
  assert (Hh1 : hsound pn moving (with_robot h r1)).
  { unfold hsound, with_robot, body_frame in *. cbn [hr_robot hr_frame hr_left hr_right hr_trunk hr_T]. rewrite M1. do 2 (split; [assumption|]). split; [exact (U1 H3)|]. auto 10. }
  destruct (pressure_told log t C2) as (left & right & El & Er & Fl & Fr).
  set (s := if Rlt_dec right left then Left else Right).
  assert (Cs : carries log t s). { exists left, right. split; [exact Fl|]. split; [exact Fr|]. unfold s. destruct (Rlt_dec right left); split; intros; (reflexivity || discriminate || assumption || contradiction). }
  destruct (support_spec pn moving (with_robot h r1) s Hh1 Hfr) as (h2 & E2 & S2 & R2 & Si2 & Fr2 & L2 & Ri2 & T2 & Tsame & Tdiff).
  destruct (floor_spec pn moving h2 S2) as (h3 & E3 & P3).
  set (T0 := if side_dec s (hr_side h) then hr_T h else flatten_on_floor (pn_frame pn (fst (r_seen (hr_robot h))) (foot h s))).
  assert (ET0 : hr_T h2 = T0). { unfold T0. destruct (side_dec s (hr_side h)) as [D|D]; [now apply Tsame|]. rewrite (Tdiff D). cbn [with_robot hr_robot]. now rewrite S1. }
  destruct P3 as (S3 & M3 & U3 & Fr3 & Si3 & L3 & Ri3 & Tr3 & T3 & Jo3 & Qd3 & Qdd3 & At3 & _).
  (* the IMU *)
  assert (X : exists h4, replay_imu pn log t use_imu h3 = Ok h4 /\ hsound pn moving h4 /\ r_model (hr_robot h4) = r_model (hr_robot h3) /\ up_to_date (hr_robot h4) /\ hr_frame h4 = hr_frame h3 /\ hr_side h4 = hr_side h3 /\
    hr_left h4 = hr_left h3 /\ hr_right h4 = hr_right h3 /\ hr_trunk h4 = hr_trunk h3 /\ same_joints (st_q (r_state (hr_robot h4))) (st_q (r_state (hr_robot h3))) /\ st_qd (r_state (hr_robot h4)) = st_qd (r_state (hr_robot h3)) /\
    st_qdd (r_state (hr_robot h4)) = st_qdd (r_state (hr_robot h3)) /\ at_frame pn h4 (hr_frame h4) = hr_T h4 /\ fr_t (hr_T h4) = fr_t (hr_T h3) /\ (use_imu = false -> hr_T h4 = hr_T h3) /\
    (use_imu = true -> tells_orientation log t (fr_R (at_frame pn h4 (hr_trunk h4))))).
  { unfold replay_imu. destruct use_imu.
    - destruct (C3 eq_refl "imu_yaw"%string) as [yaw Ey]; [cbn; tauto|]. destruct (C3 eq_refl "imu_pitch"%string) as [pitch Ep]; [cbn; tauto|]. destruct (C3 eq_refl "imu_roll"%string) as [roll Ero]; [cbn; tauto|].
      rewrite Ey, Ep, Ero. cbn [obind]. destruct (oriented_spec pn moving h3 (rpy_to_matrix roll pitch yaw) S3 (rpy_rotation _ _ _)) as (h4 & T & _ & E4 & (S4 & M4 & U4 & Fr4 & Si4 & L4 & Ri4 & Tr4 & T4 & Jo4 & Qd4 & Qdd4 & At4 & _) & Et & Ero').
      exists h4. do 12 (split; [assumption|]). split; [now rewrite T4|]. split; [now rewrite T4|]. split; [discriminate|]. intros _. exists roll, pitch, yaw. do 3 (split; [assumption|]). intros x. rewrite Ero', rpy_eq, !m3_vec_mul. reflexivity.
    - exists h3. split; [reflexivity|]. do 2 (split; [solve [auto]|]). split; [exact U3|]. do 5 (split; [reflexivity|]). split; [split; [reflexivity|auto]|]. do 2 (split; [reflexivity|]). split; [now rewrite At3, T3|]. split; [reflexivity|]. split; [reflexivity|discriminate]. }
  destruct X as (h4 & E4 & S4 & M4 & U4 & Fr4 & Si4 & L4 & Ri4 & Tr4 & Jo4 & Qd4 & Qdd4 & At4 & Tt4 & Tf4 & Im4).
  assert (Mh4 : r_model (hr_robot h4) = r_model (hr_robot h)) by (rewrite M4, M3, R2; exact M1).
  assert (Jo : same_joints (st_q (r_state (hr_robot h4))) (st_q (r_state r1))).
  { destruct Jo4 as [A4 B4], Jo3 as [A3 B3]. rewrite R2 in A3, B3. cbn [with_robot hr_robot] in A3, B3. split; [congruence|]. intros k Hk. rewrite B4 by exact Hk. apply B3. lia. }
  assert (Qd : st_qd (r_state (hr_robot h4)) = st_qd (r_state r1)) by (rewrite Qd4, Qd3, R2; reflexivity).
  assert (Qdd : st_qdd (r_state (hr_robot h4)) = st_qdd (r_state r1)) by (rewrite Qdd4, Qdd3, R2; reflexivity).
  assert (W4 : well_formed_robot (hr_robot h4)) by (apply (wf_moved r1); [exact W1|congruence|exact Jo|congruence|congruence]).
  assert (Ft : forall x, foot h4 x = foot h x). { intros x. unfold foot. destruct x; [rewrite L4, L3, L2|rewrite Ri4, Ri3, Ri2]; reflexivity. }
  assert (Frs : hr_frame h4 = foot h s) by (rewrite Fr4, Fr3, Fr2; reflexivity). assert (Sis : hr_side h4 = s) by congruence.
  assert (JT : forall q, same_joints q (st_q (r_state r1)) -> forall r', r_model r' = r_model (hr_robot h) -> st_q (r_state r') = q -> well_formed_robot r' -> joints_told log t source r').
  { intros q Sq r' Mr Qr Wr name x [Hn Nn] Ex. unfold has_joint in Hn. rewrite Mr in Hn. apply in_map_iff in Hn as (j & <- & Ij). rewrite (proj1 (get_joint_at r' j Wr ltac:(now rewrite Mr))). f_equal.
    rewrite (same_joint_at r1 r' j W1) by (try (rewrite M1; assumption); try (rewrite Qr; exact Sq); assumption). now apply J1. }
  assert (TT : hr_T h3 = T0) by congruence.
  assert (E5 : read_from_histories pn inv h log t source use_imu v = replay_velocity pn inv log t v h4).
  { unfold read_from_histories. rewrite E1. cbn [obind]. unfold replay_support. rewrite El, Er. cbn [obind]. fold s. rewrite E2. cbn [obind]. rewrite E3. cbn [obind]. rewrite E4. reflexivity. }
  rewrite E5. unfold replay_velocity. destruct (Nat.ltb_spec 1 (vlen v)) as [N1|N1].
  - destruct (Hv N1) as (Lv & N6 & Js & Ob). destruct (C4 eq_refl "gyro_x"%string) as [x Ex]; [cbn; tauto|]. destruct (C4 eq_refl "gyro_y"%string) as [y Ey]; [cbn; tauto|]. destruct (C4 eq_refl "gyro_z"%string) as [z Ez]; [cbn; tauto|].
    rewrite Ex, Ey, Ez. cbn [obind]. pose proof S4 as (_ & _ & Ub4 & _).
    assert (FJ : forall f, frame_jacobian pn (hr_robot h4) f Local = pn_jac pn (st_q (r_state (hr_robot h4))) f Local) by (intros f; unfold frame_jacobian; rewrite U4; reflexivity).
    destruct (base_velocity_spec pn inv h4 (V3 x y z) v (hr_trunk h4)) as (u & Eu & Lu & Hu).
    { unfold get_frame_index in *. rewrite Mh4, Tr4, Tr3, T2. exact Htr. }
    { rewrite FJ. apply Js. } { rewrite FJ, Mh4. apply Js. } { rewrite FJ. apply Js. } { rewrite FJ, Mh4. apply Js. } { now rewrite Mh4. } { now rewrite Mh4. } { exact Hinv. }
    { rewrite !FJ. replace (hr_trunk h4) with (hr_trunk h) by (rewrite Tr4, Tr3, T2; reflexivity). rewrite Frs. exact (Ob _ s Ub4). }
    rewrite Eu. cbn [obind]. unfold with_base_velocity, guard. pose proof W4 as (_ & _ & Wv4 & _). rewrite Wv4, Lu, Mh4, !leb_true by lia. cbn [andb obind]. rewrite !FJ, Mh4 in Hu.
    eexists. split; [reflexivity|]. set (r5 := set_qd (hr_robot h4) _).
    assert (W5 : well_formed_robot r5). { destruct W4 as (A & B & C & D). split; [exact A|]. split; [exact B|]. split; [cbn; now rewrite Mh4|exact D]. }
    assert (M5 : r_model r5 = r_model (hr_robot h)) by exact Mh4.
    split. { split; [unfold hsound, with_robot, body_frame, at_frame in *; cbn [hr_robot hr_frame hr_left hr_right hr_trunk hr_T r5 set_qd set_state r_model r_state st_q]; exact S4|]. split; [exact W5|]. split; [cbn [with_robot hr_robot]; now rewrite M5|].
      split; [cbn [with_robot hr_frame hr_side]; rewrite Frs, Sis, <- Ft; reflexivity|]. cbn [with_robot hr_robot hr_trunk]. unfold get_frame_index in *. rewrite M5, Tr4, Tr3, T2. exact Htr. }
    split. { split; [exact M5|]. cbn [with_robot hr_left hr_right hr_trunk]. rewrite L4, L3, L2, Ri4, Ri3, Ri2, Tr4, Tr3, T2. auto. }
    split. { split; [cbn [with_robot hr_robot r5 set_qd set_state r_seen r_state st_q]; rewrite U4; reflexivity|]. exact At4. }
    split. { apply (JT (st_q (r_state (hr_robot h4))) Jo r5 M5 eq_refl W5). }
    cbn [with_robot hr_side hr_T hr_robot]. rewrite Sis. split; [exact Cs|]. fold T0. split; [now rewrite Tt4, TT|]. split; [intros X; now rewrite (Tf4 X)|]. split; [exact Im4|]. split; [lia|]. intros _. split.
    + intros j Ij Nj. rewrite (proj2 (get_joint_at r5 j W5 ltac:(now rewrite M5))). f_equal. cbn [r5 set_qd set_state r_state st_qd vat]. destruct (Hf j Ij Nj) as [_ F6]. replace (Nat.ltb (jt_idx_v j) 6) with false by (symmetry; apply Nat.ltb_ge; exact F6).
      rewrite Qd. now apply V1.
    + intros w (Wx & Wy & Wz). exists u. split; [exact Lu|]. split. { intros k Hk. cbn [r5 set_qd set_state r_state st_qd vat]. apply Nat.ltb_lt in Hk. now rewrite Hk. }
      intros i Hi. cbn [with_robot hr_frame hr_trunk r5 set_qd set_state r_state st_q]. rewrite (Hu i Hi). replace w with (V3 x y z); [reflexivity|]. apply V3_ext; cbn; congruence.
  - exists h4. split; [reflexivity|]. split. { split; [exact S4|]. split; [exact W4|]. split; [now rewrite Mh4|]. split; [rewrite Frs, Sis, Ft; reflexivity|]. unfold get_frame_index in *. rewrite Mh4, Tr4, Tr3, T2. exact Htr. }
    split. { split; [exact Mh4|]. rewrite L4, L3, L2, Ri4, Ri3, Ri2, Tr4, Tr3, T2. auto. }
    split. { split; [rewrite U4; reflexivity|exact At4]. }
    split. { exact (JT _ Jo _ Mh4 eq_refl W4). }
    rewrite Sis. split; [exact Cs|]. fold T0. split; [now rewrite Tt4, TT|]. split; [intros X; now rewrite (Tf4 X)|]. split; [exact Im4|]. split; [intros _; rewrite Qd; now apply V1'|lia].
Qed.
