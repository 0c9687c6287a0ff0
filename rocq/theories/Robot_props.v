(** Theorems about the robot model (C74, C75, C76 and C107 to C111). *)
From Coq Require Import Reals Lra Lia List ZArith Bool String.
From Verif Require Import Base Linalg Geom3 Tools_model Geometry_model Geometry_proofs Robot_model Robot_spec Robot_proofs.
Import ListNotations.
Open Scope R_scope.

(** ** C74: set_T_world_frame *)

(** Wherever the frame was thought to be, the robot is moved by T * (where it was)^-1, without moving its joints. *)
Theorem C74_stale_behaviour pn moving r f T : frames_correct pn (r_model r) moving -> rigid (m_root (r_model r)) ->
  unit_base (st_q (r_state r)) -> unit_base (fst (r_seen r)) -> (f < List.length (m_frames (r_model r)))%nat -> moving f -> rigid T ->
  exists r', set_T_world_frame pn r f T = Ok r' /\ unit_base (st_q (r_state r')) /\ same_joints (st_q (r_state r')) (st_q (r_state r)) /\
    st_qd (r_state r') = st_qd (r_state r) /\ st_qdd (r_state r') = st_qdd (r_state r) /\ r_model r' = r_model r /\ r_seen r' = r_seen r /\
    forall g, moving g -> pn_frame pn (st_q (r_state r')) g =
      frame_mul T (frame_mul (frame_inv (pn_frame pn (fst (r_seen r)) f)) (pn_frame pn (st_q (r_state r)) g)).
Proof.
  intros (rel & Hrig & Hrel & Hfr) Hroot Hq Hs Hf Hm HT.
  set (W := pn_frame pn (fst (r_seen r)) f).
  assert (HW : rigid W).
  { unfold W. rewrite Hfr by assumption. apply rigid_mul; [apply rigid_mul; [exact Hroot|apply q_base_rigid; exact Hs]|apply Hrig]. }
  set (B := frame_mul (m_root (r_model r)) (q_base (st_q (r_state r)))).
  assert (HB : rigid B) by (apply rigid_mul; [exact Hroot|apply q_base_rigid; exact Hq]).
  set (N := frame_mul T (frame_mul (frame_inv W) B)).
  assert (HN : rigid N) by (apply rigid_mul; [exact HT|apply rigid_mul; [apply rigid_inv; exact HW|exact HB]]).
  assert (HM : rigid (frame_mul (frame_inv (m_root (r_model r))) N)) by (apply rigid_mul; [apply rigid_inv; exact Hroot|exact HN]).
  exists (set_q r (with_base (st_q (r_state r)) (frame_mul (frame_inv (m_root (r_model r))) N))).
  split.
  { unfold set_T_world_frame. rewrite get_fbase_ok by apply Hq. cbn [obind].
    unfold get_T_world_frame, guard. apply Nat.ltb_lt in Hf. rewrite Hf. cbn [obind]. rewrite set_fbase_ok by apply Hq. reflexivity. }
  cbn [set_q set_state r_state st_q st_qd st_qdd r_model r_seen].
  split; [apply with_base_unit; [apply Hq|exact HM]|]. split; [apply with_base_joints|]. do 4 (split; [reflexivity|]).
  intros g Hg. rewrite (Hfr _ g Hg (with_base_unit _ _ (proj1 Hq) HM)), (Hfr (st_q (r_state r)) g Hg Hq).
  rewrite with_base_base by exact HM. rewrite root_cancel by exact Hroot.
  rewrite (Hrel _ (st_q (r_state r)) g) by apply with_base_joints.
  unfold N. fold B. rewrite !frame_mul_assoc. reflexivity.
Qed.
Print Assumptions C74_stale_behaviour.

(** When the kinematics are up to date the frame is placed at the target, and the robot is moved as a whole. *)
Theorem C74_place_by_frame pn moving r f T : frames_correct pn (r_model r) moving -> rigid (m_root (r_model r)) ->
  unit_base (st_q (r_state r)) -> up_to_date r -> (f < List.length (m_frames (r_model r)))%nat -> moving f -> rigid T ->
  exists r', set_T_world_frame pn r f T = Ok r' /\ get_T_world_frame pn (update_kinematics r') f = Ok T /\
    (forall a b, moving a -> moving b -> get_T_a_b pn (update_kinematics r') a b = get_T_a_b pn r a b) /\
    same_joints (st_q (r_state r')) (st_q (r_state r)) /\ st_qd (r_state r') = st_qd (r_state r) /\
    st_qdd (r_state r') = st_qdd (r_state r) /\ unit_base (st_q (r_state r')).
Proof.
  intros Hfc Hroot Hq Hu Hf Hm HT. assert (Es : fst (r_seen r) = st_q (r_state r)) by (rewrite Hu; reflexivity).
  destruct (C74_stale_behaviour pn moving r f T Hfc Hroot Hq ltac:(rewrite Es; exact Hq) Hf Hm HT)
    as (r' & E & Hq' & Hj & Ed & Edd & Em & _ & Hg). rewrite Es in Hg.
  assert (Hr : forall g, moving g -> rigid (pn_frame pn (st_q (r_state r)) g)).
  { intros g G. destruct Hfc as (rel & Hrig & _ & Hfr). rewrite Hfr by assumption.
    apply rigid_mul; [apply rigid_mul; [exact Hroot|apply q_base_rigid; exact Hq]|apply Hrig]. }
  exists r'. split; [exact E|]. split; [|split; [|auto]].
  - unfold get_T_world_frame, update_kinematics. cbn [r_model r_seen fst]. rewrite Em. unfold guard. apply Nat.ltb_lt in Hf. rewrite Hf.
    rewrite Hg by exact Hm. rewrite frame_inv_l by (apply Hr; exact Hm). rewrite frame_mul_id_r. reflexivity.
  - intros a b Ha Hb. unfold get_T_a_b, get_T_world_frame, update_kinematics. cbn [r_model r_seen fst]. rewrite Em. unfold guard.
    destruct (Nat.ltb a _); cbn [obind]; [|reflexivity]. destruct (Nat.ltb b _); cbn [obind]; [|reflexivity].
    rewrite Es, !Hg by assumption. f_equal.
    set (K := frame_mul T (frame_inv (pn_frame pn (st_q (r_state r)) f))).
    assert (HK : rigid K) by (apply rigid_mul; [exact HT|apply rigid_inv, Hr; exact Hm]).
    rewrite <- !(frame_mul_assoc T). fold K. rewrite frame_inv_mul by (try exact HK; apply Hr; assumption).
    rewrite !frame_mul_assoc. f_equal. apply root_cancel'. exact HK.
Qed.
Print Assumptions C74_place_by_frame.

(** The pose of the base is the one that was set. *)
Theorem C74_base r T : rigid (m_root (r_model r)) -> (7 <= vlen (st_q (r_state r)))%nat -> rigid T ->
  exists r', set_T_world_fbase r T = Ok r' /\ get_T_world_fbase r' = Ok T /\ same_joints (st_q (r_state r')) (st_q (r_state r)) /\
    st_qd (r_state r') = st_qd (r_state r) /\ st_qdd (r_state r') = st_qdd (r_state r) /\ unit_base (st_q (r_state r')).
Proof.
  intros Hroot Hq HT. eexists. split; [apply set_fbase_ok; exact Hq|].
  assert (HM : rigid (frame_mul (frame_inv (m_root (r_model r))) T)) by (apply rigid_mul; [apply rigid_inv; exact Hroot|exact HT]).
  cbn [set_q set_state r_state st_q st_qd st_qdd]. split; [|split; [apply with_base_joints|split; [reflexivity|split; [reflexivity|apply with_base_unit; assumption]]]].
  rewrite get_fbase_ok by exact Hq. cbn [set_q set_state r_state st_q r_model].
  rewrite with_base_base by exact HM. rewrite root_cancel by exact Hroot. reflexivity.
Qed.
Print Assumptions C74_base.

(** A robot: a floating base and a hinge around z at (0, 0, 1), and three frames: the world, the base and the hinge. *)
Definition ex_model : rmodel := RModel 8 7 [Joint "root_joint" 0 7 0 6; Joint "head" 7 1 6 1] ["universe"; "base"; "head"]%string
  (Frame m3_id (V3 0 0 (1/2))) (Vec 8 (fun k => if Nat.eqb k 7 then -1 else - 1000)) (Vec 8 (fun k => if Nat.eqb k 7 then 2 else 1000))
  (Vec 7 (fun _ => 3)) (Vec 7 (fun _ => 4)) (Vec 7 (fun k => if Nat.eqb k 6 then 1/10 else 0)) (Vec 7 (fun _ => 10)) [0; 5; 1].
Definition ex_q : vec := Vec 8 (fun k => nth k [1; 2; 0; 0; 0; 0; 1; 1/2] 0).
Definition ex_rel (q : vec) (f : nat) : frame := if Nat.eqb f 2 && Nat.ltb 7 (vlen q) then Frame (rot_z (vat q 7)) (V3 0 0 1) else frame_id.
Definition ex_pin : pin := Pin
  (fun q f => if Nat.eqb f 0 then frame_id else frame_mul (frame_mul (m_root ex_model) (q_base q)) (ex_rel q f))
  (fun _ _ _ => Mat 6 7 (fun i j => if Nat.eqb i j then 1 else 0)) (fun _ _ _ _ => Mat 6 7 (fun _ _ => 0))
  (fun q v => q) (fun q q' => zeros 7) ex_q (fun _ => v3_zero) (fun _ => Mat 3 7 (fun _ _ => 0)) (fun _ _ => Mat 3 7 (fun _ _ => 0))
  (fun _ => Mat 6 7 (fun _ _ => 0)) (fun _ => Mat 7 7 (fun i j => if Nat.eqb i j then 2 else if Nat.ltb i j then 1 else 0))
  (fun _ => Vec 7 (fun k => INR k)) (fun _ _ => Vec 7 (fun k => INR k)) (fun _ _ _ => Mat 6 7 (fun i j => if Nat.eqb i j then 1 else 0))
  (fun _ _ _ _ => Mat 6 7 (fun _ _ => 0)).
Definition ex_robot : robot := Robot ex_model (State ex_q (zeros 7) (zeros 7)) (ex_q, zeros 7).

Lemma ex_frames_correct : frames_correct ex_pin ex_model (fun f => f = 1%nat \/ f = 2%nat).
Proof.
  exists ex_rel. split; [|split].
  - intros q f. unfold ex_rel. destruct (_ && _); [apply rotation_z|apply rotation_id].
  - intros q q' f (En & H). unfold ex_rel. rewrite En in *. destruct (Nat.eqb f 2); cbn [andb]; [|reflexivity].
    destruct (Nat.ltb_spec 7 (vlen q')); [rewrite (H 7%nat) by lia|]; reflexivity.
  - intros q f [-> | ->] _; reflexivity.
Qed.

Lemma ex_unit : unit_base ex_q.
Proof. split; [cbn; lia|]. cbn. ring. Qed.

(** The hinge of the example can be placed anywhere. *)
Example C74_example : rigid (m_root (r_model ex_robot)) /\ unit_base (st_q (r_state ex_robot)) /\ up_to_date ex_robot /\
  frames_correct ex_pin (r_model ex_robot) (fun f => f = 1%nat \/ f = 2%nat) /\
  exists r', set_T_world_frame ex_pin ex_robot 2 (Frame (rot_z 1) (V3 5 6 7)) = Ok r' /\
    get_T_world_frame ex_pin (update_kinematics r') 2 = Ok (Frame (rot_z 1) (V3 5 6 7)) /\ vat (st_q (r_state r')) 7 = 1 / 2.
Proof.
  split; [exact rotation_id|]. split; [exact ex_unit|]. split; [reflexivity|]. split; [exact ex_frames_correct|].
  destruct (C74_place_by_frame ex_pin _ ex_robot 2 (Frame (rot_z 1) (V3 5 6 7)) ex_frames_correct rotation_id ex_unit eq_refl
    ltac:(cbn; lia) (or_intror eq_refl) (rotation_z 1)) as (r' & E & F & _ & (En & J) & _).
  exists r'. split; [exact E|]. split; [exact F|]. rewrite J by (rewrite En; cbn; lia). reflexivity.
Qed.

(** The frame "universe" is accepted, although it cannot be placed: the robot is moved, the frame is not. *)
Theorem C74_universe_refuted : exists pn moving r r' T, frames_correct pn (r_model r) moving /\ rigid (m_root (r_model r)) /\
  unit_base (st_q (r_state r)) /\ up_to_date r /\ rigid T /\ set_T_world_frame_name pn r "universe" T = Ok r' /\
  get_T_world_frame_name pn (update_kinematics r') "universe" <> Ok T /\ get_T_world_fbase r' <> get_T_world_fbase r.
Proof.
  exists ex_pin, (fun f => f = 1%nat \/ f = 2%nat), ex_robot.
  eexists. exists (Frame m3_id (V3 0 0 1)). split; [exact ex_frames_correct|]. split; [exact rotation_id|]. split; [exact ex_unit|].
  split; [reflexivity|]. split; [exact rotation_id|]. split.
  { unfold set_T_world_frame_name. change (get_frame_index ex_robot "universe") with (@Ok nat 0%nat). cbn [obind].
    unfold set_T_world_frame. rewrite get_fbase_ok by (cbn; lia). cbn [obind]. unfold get_T_world_frame, guard. cbn [ex_robot r_model ex_model m_frames List.length Nat.ltb Nat.leb obind].
    apply set_fbase_ok. cbn; lia. }
  split.
  - unfold get_T_world_frame_name. cbn. intros H. injection H as H. lra.
  - rewrite !get_fbase_ok by (cbn; lia). intros H.
    apply (f_equal (fun o => match o with Ok T => vz (fr_t T) | _ => 0 end)) in H. cbn in H. lra.
Qed.
Print Assumptions C74_universe_refuted.

(** ** C75: joint accessors *)

(** After any sequence of calls, each accessor of each joint reads the last value that was written by its own setter, to its own joint, and
    the initial value when there is none. *)
Theorem C75_history r l : well_formed_robot r -> (forall o, In o l -> has_joint r (op_name o)) ->
  exists r', calls r l = Ok r' /\ well_formed_robot r' /\ m_joints (r_model r') = m_joints (r_model r) /\
    forall name, has_joint r name ->
      get_joint r' name = last_written (joint_written name) l (get_joint r name) /\
      get_joint_velocity r' name = last_written (velocity_written name) l (get_joint_velocity r name) /\
      get_joint_acceleration r' name = last_written (acceleration_written name) l (get_joint_acceleration r name) /\
      get_joint_limits r' name = last_written (limits_written name) l (get_joint_limits r name) /\
      velocity_limit_of r' name = last_written (velocity_limit_written name) l (velocity_limit_of r name) /\
      torque_limit_of r' name = last_written (torque_limit_written name) l (torque_limit_of r name).
Proof.
  revert r. induction l as [|o l IH]; intros r Hr Hl.
  - exists r. cbn [calls last_written]. split; [reflexivity|]. split; [exact Hr|]. split; [reflexivity|]. intros name _. auto 10.
  - destruct (call_spec r o Hr (Hl o (or_introl eq_refl))) as (r1 & E1 & H1 & J1 & _ & V1 & _).
    destruct (IH r1 H1) as (r' & E & Hr' & J & V).
    { intros o' Ho. unfold has_joint. rewrite J1. apply Hl. right; exact Ho. }
    exists r'. cbn [calls last_written]. rewrite E1. cbn [obind]. split; [exact E|]. split; [exact Hr'|]. split; [congruence|].
    intros name Hn. destruct (V name) as (A & B & C & D & F & G); [unfold has_joint; rewrite J1; exact Hn|].
    destruct (V1 name Hn) as (A1 & B1 & C1 & D1 & F1 & G1).
    rewrite A, B, C, D, F, G, A1, B1, C1, D1, F1, G1. repeat split; reflexivity.
Qed.
Print Assumptions C75_history.

(** set_joint writes one number of q: the base and the other joints keep theirs. *)
Theorem C75_only_one_entry r name x : well_formed_robot r -> has_joint r name ->
  exists r' k, set_joint r name x = Ok r' /\ get_joint_offset r name = Ok k /\ vat (st_q (r_state r')) k = x /\
    (forall i, i <> k -> vat (st_q (r_state r')) i = vat (st_q (r_state r)) i) /\
    st_qd (r_state r') = st_qd (r_state r) /\ st_qdd (r_state r') = st_qdd (r_state r) /\ r_model r' = r_model r.
Proof.
  intros Hr Hn. destruct (offsets r name Hr Hn) as (j & Hj & En & Oq & Ov & Bq & Bv). destruct Hr as (Hw & Lq & _).
  eexists. exists (jt_idx_q j). unfold set_joint. rewrite Oq. cbn [obind]. rewrite vec_set_ok by congruence. cbn [obind]. split; [reflexivity|].
  split; [reflexivity|]. unfold set_q, set_state. cbn [r_state st_q st_qd st_qdd r_model vat]. rewrite Nat.eqb_refl. split; [reflexivity|].
  split; [|repeat split; reflexivity]. intros i Hi. apply Nat.eqb_neq in Hi. rewrite Hi. reflexivity.
Qed.
Print Assumptions C75_only_one_entry.

(** The names that are not known are refused by the accessors of q and by those of the limits of q. *)
Theorem C75_unknown_partial r name x y : ~ has_joint r name -> name <> "universe"%string ->
  get_joint r name = Throw ERuntime /\ set_joint r name x = Throw ERuntime /\
  get_joint_limits r name = Throw ERuntime /\ set_joint_limits r name x y = Throw ERuntime.
Proof.
  intros Hn Hu. assert (E : get_joint_offset r name = Throw ERuntime).
  { unfold get_joint_offset, exist_joint_name. rewrite find_joint_not by exact Hn. apply String.eqb_neq in Hu. rewrite Hu. reflexivity. }
  unfold get_joint, set_joint, get_joint_limits, set_joint_limits. rewrite E. repeat split; reflexivity.
Qed.
Print Assumptions C75_unknown_partial.

(** ... but not by the accessors of velocities, accelerations, velocity limits, torque limits, rotor inertias and gear ratios, which access
    a joint that does not exist. *)
Theorem C75_unknown_refuted r name x : ~ has_joint r name ->
  get_joint_velocity r name = UB /\ set_joint_velocity r name x = UB /\ get_joint_acceleration r name = UB /\
  set_joint_acceleration r name x = UB /\ set_velocity_limit r name x = UB /\ set_torque_limit r name x = UB /\
  set_rotor_inertia r name x = UB /\ set_gear_ratio r name x = UB.
Proof.
  intros Hn. assert (E : get_joint_v_offset r name = UB).
  { unfold get_joint_v_offset, joint_of. rewrite find_joint_not by exact Hn. destruct (String.eqb name "universe"); reflexivity. }
  unfold get_joint_velocity, set_joint_velocity, get_joint_acceleration, set_joint_acceleration, set_velocity_limit, set_torque_limit,
    set_rotor_inertia, set_gear_ratio. rewrite E. repeat split; reflexivity.
Qed.
Print Assumptions C75_unknown_refuted.

Lemma ex_well_formed : well_formed_robot ex_robot.
Proof.
  split; [|split; [reflexivity|split; reflexivity]]. split; [|split; [|split; [|split]]].
  - cbn. repeat constructor; cbn; intuition discriminate.
  - cbn. intuition discriminate.
  - intros j [<-|[<-|[]]]; cbn; lia.
  - intros j k [<-|[<-|[]]] [<-|[<-|[]]] Hn; cbn in *; try congruence; unfold apart; lia.
  - cbn. auto 10.
Qed.

Example C75_example : well_formed_robot ex_robot /\ has_joint ex_robot "head" /\ ~ has_joint ex_robot "tail" /\
  exists r', calls ex_robot [SetJoint "head" 1; SetVelocity "head" 4; SetJoint "root_joint" 9; SetJoint "head" 3; SetLimits "head" (-5) 6] = Ok r' /\
    get_joint r' "head" = Ok 3 /\ get_joint_velocity r' "head" = Ok 4 /\ get_joint_acceleration r' "head" = Ok 0 /\
    get_joint_limits r' "head" = Ok (-5, 6).
Proof.
  split; [exact ex_well_formed|]. split; [cbn; auto|]. split; [cbn; intuition discriminate|].
  destruct (C75_history ex_robot [SetJoint "head" 1; SetVelocity "head" 4; SetJoint "root_joint" 9; SetJoint "head" 3; SetLimits "head" (-5) 6]
    ex_well_formed) as (r' & E & _ & _ & V).
  { cbn. intros o H. unfold has_joint. cbn. intuition (subst; cbn; auto). }
  exists r'. split; [exact E|]. destruct (V "head"%string) as (A & B & C & D & _); [cbn; auto|]. rewrite A, B, C, D. repeat split; reflexivity.
Qed.

(** ** C107: joint names, and the limits of all the velocities *)

(** joint_names() is the list of the joints of the robot, without the world and the floating base. *)
Theorem C107_joint_names r : well_formed_robot r ->
  NoDup (joint_names r false) /\ (forall name, In name (joint_names r false) <-> has_joint r name /\ name <> "root_joint"%string) /\
  joint_names r true = "universe"%string :: map jt_name (m_joints (r_model r)).
Proof.
  intros ((Hd & Hu & _) & _). split; [|split; [|reflexivity]].
  - unfold joint_names. apply NoDup_filter, NoDup_filter. constructor; assumption.
  - intros name. unfold joint_names. rewrite !filter_In. cbn [In]. rewrite !negb_true_iff, !String.eqb_neq. unfold has_joint.
    split; [intuition congruence|]. intros [H N]. repeat split; auto. intros ->. contradiction.
Qed.
Print Assumptions C107_joint_names.

(** set_velocity_limits gives the same limit to every joint but the floating base, and changes nothing else. For the joints with more than one
    velocity, only the first one is limited. *)
Theorem C107_set_velocity_limits r limit : well_formed_robot r ->
  exists r', set_velocity_limits r limit = Ok r' /\ well_formed_robot r' /\ r_state r' = r_state r /\
    m_lower (r_model r') = m_lower (r_model r) /\ m_upper (r_model r') = m_upper (r_model r) /\ m_effort (r_model r') = m_effort (r_model r) /\
    forall k, vat (m_velocity (r_model r')) k = limit /\ (exists j, In j (m_joints (r_model r)) /\ jt_name j <> "root_joint"%string /\ jt_idx_v j = k) \/
              vat (m_velocity (r_model r')) k = vat (m_velocity (r_model r)) k /\
              ~ (exists j, In j (m_joints (r_model r)) /\ jt_name j <> "root_joint"%string /\ jt_idx_v j = k).
Proof.
  intros Hr. unfold set_velocity_limits.
  assert (G : forall l r1, well_formed_robot r1 -> m_joints (r_model r1) = m_joints (r_model r) -> (forall n, In n l -> has_joint r n) ->
    exists r', fold_left (fun o name => r0 <- o ;; set_velocity_limit r0 name limit) l (Ok r1) = Ok r' /\ well_formed_robot r' /\
      r_state r' = r_state r1 /\ m_lower (r_model r') = m_lower (r_model r1) /\ m_upper (r_model r') = m_upper (r_model r1) /\
      m_effort (r_model r') = m_effort (r_model r1) /\
      forall k, vat (m_velocity (r_model r')) k = limit /\ (exists n, In n l /\ get_joint_v_offset r n = Ok k) \/
              vat (m_velocity (r_model r')) k = vat (m_velocity (r_model r1)) k /\ ~ (exists n, In n l /\ get_joint_v_offset r n = Ok k)).
  { induction l as [|n l IH]; intros r1 H1 J1 Hl.
    - exists r1. cbn. split; [reflexivity|]. split; [exact H1|]. do 4 (split; [reflexivity|]). intros k. right. split; [reflexivity|].
      intros (n & [] & _).
    - assert (Hn1 : has_joint r1 n) by (unfold has_joint; rewrite J1; apply Hl; left; reflexivity).
      assert (Eo : forall n, get_joint_v_offset r1 n = get_joint_v_offset r n).
      { intros m. unfold get_joint_v_offset, joint_of, find_joint. rewrite J1. reflexivity. }
      destruct (offsets r1 n H1 Hn1) as (j & Hj & En & Oq & Ov & Bq & Bv).
      destruct (call_spec r1 (SetVelocityLimit n limit) H1 Hn1) as (r2 & E2 & W2 & J2 & _). cbn [call] in E2.
      cbn [fold_left obind]. rewrite E2.
      destruct (IH r2 W2 ltac:(congruence) ltac:(intros m Hm; apply Hl; right; exact Hm)) as (r' & E & W & S & L & U & F & K).
      exists r'. split; [exact E|]. split; [exact W|].
      unfold set_velocity_limit in E2. rewrite Ov in E2. cbn [obind] in E2. pose proof H1 as ((_ & _ & _ & _ & _ & _ & Lv & _) & _).
      rewrite vec_set_ok in E2 by congruence. cbn [obind] in E2. injection E2 as <-. cbn [set_model r_state with_limits r_model m_lower m_upper m_effort m_velocity vat] in *.
      do 4 (split; [assumption|]). intros k. destruct (K k) as [(A & m & Hm & B)|(A & B)].
      + left. split; [exact A|]. exists m. split; [right; exact Hm|exact B].
      + rewrite A. destruct (Nat.eqb_spec k (jt_idx_v j)) as [Ek|Nk].
        * left. split; [reflexivity|]. exists n. split; [left; reflexivity|rewrite <- Eo, Ek; exact Ov].
        * right. split; [reflexivity|]. intros (m & [<-|Hm] & C); [rewrite <- Eo, Ov in C; congruence|]. apply B. exists m. split; assumption. }
  destruct (C107_joint_names r Hr) as (_ & Hin & _).
  destruct (G (joint_names r false) r Hr eq_refl) as (r' & E & W & S & L & U & F & K); [intros n Hn; apply Hin, Hn|].
  exists r'. do 6 (split; [assumption|]). intros k.
  assert (Eq : (exists n, In n (joint_names r false) /\ get_joint_v_offset r n = Ok k) <->
               (exists j, In j (m_joints (r_model r)) /\ jt_name j <> "root_joint"%string /\ jt_idx_v j = k)).
  { split.
    - intros (n & Hn & Ek). apply Hin in Hn. destruct Hn as [Hn Nr]. destruct (offsets r n Hr Hn) as (j & Hj & En & _ & Ov & _).
      exists j. split; [exact Hj|]. split; congruence.
    - intros (j & Hj & Nr & Ek). exists (jt_name j). assert (Hn : has_joint r (jt_name j)) by (apply in_map; exact Hj).
      split; [apply Hin; split; assumption|]. destruct (offsets r _ Hr Hn) as (i & Hi & En & _ & Ov & _). rewrite Ov. rewrite <- Ek.
      do 2 f_equal. destruct Hr as ((Hd & _) & _). clear -Hd Hi Hj En.
      induction (m_joints (r_model r)) as [|x l IH]; [destruct Hi|]. cbn in Hd. inversion Hd as [|? ? Hx Hd' [Ex El]]. clear Hd.
      destruct Hi as [->|Hi], Hj as [->|Hj]; [reflexivity| | |auto].
      + exfalso. apply Hx. rewrite En. apply in_map. exact Hj.
      + exfalso. apply Hx. rewrite <- En. apply in_map. exact Hi. }
  destruct (K k) as [(A & B)|(A & B)]; [left|right]; (split; [exact A|]); rewrite <- Eq; exact B.
Qed.
Print Assumptions C107_set_velocity_limits.

Example C107_example : well_formed_robot ex_robot /\ joint_names ex_robot false = ["head"%string] /\
  exists r', set_velocity_limits ex_robot 8 = Ok r' /\ velocity_limit_of r' "head" = Ok 8 /\ velocity_limit_of r' "root_joint" = Ok 3.
Proof. split; [exact ex_well_formed|]. split; [reflexivity|]. eexists. split; [reflexivity|]. split; reflexivity. Qed.

(** ** C76: static gravity compensation *)

(** A system with the transposed base Jacobian, solved. *)
Lemma base_solved inv J (b : nat -> R) : inverts inv -> invertible (base_jacobian_t J) ->
  forall k, (k < 6)%nat -> wrench_effort J (fun i => Rsum 6 (fun j => mat_at (inv (base_jacobian_t J)) i j * b j)) k = b k.
Proof.
  intros Hi Hv k Hk. destruct (Hi _ Hv) as (_ & _ & H). cbn [base_jacobian_t mrows mcols mat_at] in H. unfold wrench_effort.
  rewrite (Rsum_ext 6 _ (fun i => Rsum 6 (fun j => mat_at J i k * mat_at (inv (base_jacobian_t J)) i j * b j)))
    by (intros i _; rewrite <- Rsum_scal_l; apply Rsum_ext; intros; ring).
  rewrite Rsum_swap. rewrite (Rsum_ext 6 _ (fun j => (if Nat.eqb k j then 1 else 0) * b j)).
  - rewrite (Rsum_delta 6 k) by (try exact Hk; intros i _ Ne; apply not_eq_sym, Nat.eqb_neq in Ne; rewrite Ne; ring). rewrite Nat.eqb_refl. ring.
  - intros j Hj. rewrite Rsum_scal_r, H by assumption. reflexivity.
Qed.

(** The torques of the floating base are zero, and with the wrench at the contact frame they balance gravity. *)
Theorem C76_static_gravity pn inv r f : inverts inv -> jacobian_sized pn r f -> dynamics_sized pn r ->
  invertible (base_jacobian_t (frame_jacobian pn r f LocalWorldAligned)) ->
  exists tau w, static_gravity_compensation_torques pn inv r f = Ok tau /\ vlen tau = m_nv (r_model r) /\
    (forall k, (k < 6)%nat -> vat tau k = 0) /\
    (forall k, (k < m_nv (r_model r))%nat ->
       vat tau k + wrench_effort (frame_jacobian pn r f LocalWorldAligned) w k = vat (generalized_gravity pn r) k).
Proof.
  intros Hi (Jr & Jc & H6) (Hg & _) Hv. destruct (Hi _ Hv) as (R1 & C1 & _). cbn [base_jacobian_t mrows] in R1, C1.
  set (J := frame_jacobian pn r f LocalWorldAligned) in *. set (g := generalized_gravity pn r).
  assert (Lg : vlen g = m_nv (r_model r)) by apply Hg.
  set (w := fun i => Rsum 6 (fun j => mat_at (inv (base_jacobian_t J)) i j * vat g j)).
  exists (Vec (m_nv (r_model r)) (fun k => vat g k - wrench_effort J w k)), w.
  assert (E : mat_t (Mat 6 6 (fun k l : nat => mat_at J (0 + k) (0 + l))) = base_jacobian_t J) by reflexivity.
  split; [|split; [reflexivity|split]].
  - unfold static_gravity_compensation_torques, block, segment_of, mat_vec, vec_sub, guard. fold J. fold g. rewrite Jr, Jc, Lg.
    replace (Nat.leb (0 + 6) (m_nv (r_model r))) with true by (symmetry; apply Nat.leb_le; lia). cbn [Nat.add Nat.leb andb obind].
    cbn [Nat.add] in E. rewrite E, R1, C1. cbn [vlen Nat.eqb obind mat_t mcols mrows vat]. rewrite Jr, Jc. cbn [Nat.eqb obind vlen]. rewrite Nat.eqb_refl.
    reflexivity.
  - intros k Hk. cbn [vat]. unfold w. rewrite base_solved by assumption. ring.
  - intros k Hk. cbn [vat]. ring.
Qed.
Print Assumptions C76_static_gravity.

(** ** C109: torques for an acceleration, a frame being fixed *)

(** What is computed: the wrench balances the bias forces of the base, as if nothing was accelerated, and the torques accelerate the joints as
    if the base was not accelerated. *)
Theorem C109_behaviour pn inv r qdd_a f : inverts inv -> jacobian_sized pn r f -> dynamics_sized pn r -> well_formed_robot r ->
  vlen qdd_a = (m_nv (r_model r) - 6)%nat -> invertible (base_jacobian_t (frame_jacobian pn r f LocalWorldAligned)) ->
  exists tau M w, torques_from_acceleration_with_fixed_frame pn inv r qdd_a f = Ok tau /\ mass_matrix pn r = Ok M /\
    vlen tau = (m_nv (r_model r) - 6)%nat /\
    (forall k, (k < 6)%nat -> vat (non_linear_effects pn r) k = wrench_effort (frame_jacobian pn r f LocalWorldAligned) w k) /\
    (forall k, (k < m_nv (r_model r) - 6)%nat ->
       Rsum (m_nv (r_model r) - 6) (fun j => mat_at M (6 + k) (6 + j) * vat qdd_a j) + vat (non_linear_effects pn r) (6 + k) =
       vat tau k + wrench_effort (frame_jacobian pn r f LocalWorldAligned) w (6 + k)).
Proof.
  intros Hi (Jr & Jc & H6) (_ & Hh & HM) Hr Lq Hv. destruct (Hi _ Hv) as (R1 & C1 & _). cbn [base_jacobian_t mrows] in R1, C1.
  set (n := m_nv (r_model r)) in *.
  set (J := frame_jacobian pn r f LocalWorldAligned) in *. set (h := non_linear_effects pn r).
  assert (Lh : vlen h = n) by apply Hh. destruct (HM (st_q (r_state r))) as [Mr Mc].
  destruct Hr as ((_ & _ & _ & _ & _ & _ & _ & _ & Lr & Lg) & _). fold n in Lr, Lg.
  set (w := fun i => Rsum 6 (fun j => mat_at (inv (base_jacobian_t J)) i j * vat h j)).
  set (M := Mat n n (fun i j => (if Nat.ltb j i then mat_at (pn_crba pn (st_q (r_state r))) j i else mat_at (pn_crba pn (st_q (r_state r))) i j)
      + (if Nat.eqb i j then vat (m_gear (r_model r)) i * vat (m_gear (r_model r)) i * vat (m_rotor (r_model r)) i else 0))).
  assert (EM : mass_matrix pn r = Ok M).
  { unfold mass_matrix, guard. rewrite Mr, Mc, Lr, Lg, Nat.eqb_refl. replace (Nat.leb n n) with true by (symmetry; apply Nat.leb_le; lia). reflexivity. }
  exists (Vec (n - 6) (fun k => Rsum (n - 6) (fun j => mat_at M (6 + k) (6 + j) * vat qdd_a j) + vat h (6 + k) - wrench_effort J w (6 + k))), M, w.
  assert (E : Mat 6 6 (fun k l : nat => mat_at (mat_t J) (0 + k) (0 + l)) = base_jacobian_t J) by reflexivity.
  split; [|split; [exact EM|split; [reflexivity|split]]].
  - unfold torques_from_acceleration_with_fixed_frame, block, segment_of, mat_vec, vec_sub, vec_add, bottom_rows, guard.
    fold J. fold h. fold n. rewrite EM. cbn [obind]. cbn [mat_t mrows mcols]. rewrite Jr, Jc, Lh.
    replace (Nat.leb (0 + 6) n) with true by (symmetry; apply Nat.leb_le; lia).
    replace (Nat.leb 6 n) with true by (symmetry; apply Nat.leb_le; lia). cbn [Nat.add Nat.leb andb obind].
    cbn [Nat.add] in E. change (Mat 6 6 (fun k l : nat => mat_at (mat_t J) k l)) with (base_jacobian_t J). rewrite R1, C1. cbn [vlen Nat.eqb obind].
    replace (Nat.leb (n - 6) n) with true by (symmetry; apply Nat.leb_le; lia). cbn [obind].
    cbn [M mrows mcols]. replace (Nat.leb (n - (n - 6) + (n - 6)) n) with true by (symmetry; apply Nat.leb_le; lia). cbn [andb obind mcols vlen mrows].
    rewrite Lq, Nat.eqb_refl. cbn [obind vlen mrows]. rewrite Nat.eqb_refl. cbn [obind mcols mrows vlen vat]. cbn [Nat.eqb obind vlen].
    replace (Nat.leb (n - 6) n) with true by (symmetry; apply Nat.leb_le; lia). cbn [obind vlen vat]. rewrite Nat.eqb_refl.
    replace (n - (n - 6))%nat with 6%nat by lia. cbn [mat_at]. reflexivity.
  - intros k Hk. unfold w. rewrite base_solved by assumption. reflexivity.
  - intros k Hk. cbn [vat]. ring.
Qed.
Print Assumptions C109_behaviour.

(** The equation of motion is satisfied when the base does not accelerate and is not pushed by the accelerations of the joints (in particular
    when the robot does not accelerate). *)
Theorem C109_equation_partial pn inv r qdd_a f M : inverts inv -> jacobian_sized pn r f -> dynamics_sized pn r -> well_formed_robot r ->
  vlen qdd_a = (m_nv (r_model r) - 6)%nat -> invertible (base_jacobian_t (frame_jacobian pn r f LocalWorldAligned)) -> mass_matrix pn r = Ok M ->
  (forall k, (k < 6)%nat -> Rsum (m_nv (r_model r) - 6) (fun j => mat_at M k (6 + j) * vat qdd_a j) = 0) ->
  exists tau w, torques_from_acceleration_with_fixed_frame pn inv r qdd_a f = Ok tau /\
    equation_of_motion (m_nv (r_model r)) M (non_linear_effects pn r) (frame_jacobian pn r f LocalWorldAligned)
      (fun j => if Nat.ltb j 6 then 0 else vat qdd_a (j - 6)) (vat tau) w.
Proof.
  intros Hi Hj Hd Hr Lq Hv EM Hu.
  destruct (C109_behaviour pn inv r qdd_a f Hi Hj Hd Hr Lq Hv) as (tau & M' & w & E & EM' & _ & Hb & Ha). rewrite EM in EM'. injection EM' as <-.
  exists tau, w. split; [exact E|]. intros k Hk. destruct Hj as (_ & _ & H6).
  assert (S : forall i, Rsum (m_nv (r_model r)) (fun j => mat_at M i j * (if Nat.ltb j 6 then 0 else vat qdd_a (j - 6))) =
    Rsum (m_nv (r_model r) - 6) (fun j => mat_at M i (6 + j) * vat qdd_a j)).
  { intros i. replace (m_nv (r_model r)) with (6 + (m_nv (r_model r) - 6))%nat at 1 by lia. rewrite Rsum_split.
    rewrite (Rsum_zero_ext 6) by (intros j Hj; apply Nat.ltb_lt in Hj; rewrite Hj; ring). rewrite Rplus_0_l. apply Rsum_ext. intros j _.
    destruct (Nat.ltb_spec (6 + j) 6) as [|_]; [lia|]. replace (6 + j - 6)%nat with j by lia. reflexivity. }
  rewrite S. destruct (Nat.ltb_spec k 6) as [Hk6|Hk6].
  - rewrite Hu, Hb by exact Hk6. ring.
  - pose proof (Ha (k - 6)%nat ltac:(lia)) as A. replace (6 + (k - 6))%nat with k in A by lia. exact A.
Qed.
Print Assumptions C109_equation_partial.

(** The same robot, at rest, held by a frame that the hinge moves twice as fast as the base along x. *)
Definition ex_J : mat := Mat 6 7 (fun i j => if Nat.eqb i j then 1 else if Nat.eqb i 0 && Nat.eqb j 6 then 2 else 0).
Definition ex_pin2 : pin := Pin (pn_frame ex_pin) (fun _ _ _ => ex_J) (pn_djac ex_pin) (pn_integrate ex_pin) (pn_difference ex_pin)
  (pn_neutral ex_pin) (pn_com ex_pin) (pn_comjac ex_pin) (pn_dcomjac ex_pin) (pn_centroidal ex_pin) (pn_crba ex_pin) (pn_gravity ex_pin)
  (pn_nle ex_pin) (pn_joint_jac ex_pin) (pn_joint_djac ex_pin).

Lemma ex_J_identity i j : (i < 6)%nat -> (j < 6)%nat -> mat_at ex_J i j = if Nat.eqb i j then 1 else 0.
Proof. intros Hi Hj. cbn. destruct (Nat.eqb i j); [reflexivity|]. do 6 (destruct j as [|j]; [rewrite andb_false_r; reflexivity|]). lia. Qed.

Lemma ex_inverse : times_is_identity (base_jacobian_t ex_J) (base_jacobian_t ex_J).
Proof.
  split; [reflexivity|]. split; [reflexivity|]. cbn [base_jacobian_t mrows mcols mat_at]. intros i j Hi Hj.
  rewrite (Rsum_delta 6 i).
  - rewrite !ex_J_identity by assumption. rewrite Nat.eqb_refl, Nat.eqb_sym. ring.
  - exact Hi.
  - intros k Hk Ne. rewrite ex_J_identity by assumption. apply Nat.eqb_neq in Ne. rewrite Ne. ring.
Qed.

Lemma ex_sized f : jacobian_sized ex_pin2 ex_robot f /\ dynamics_sized ex_pin2 ex_robot.
Proof. repeat split; try reflexivity. cbn. lia. Qed.

(** An inverse, for the matrices that have one. *)
From Coq Require Import ClassicalEpsilon.
Definition some_inverse (A : mat) : mat :=
  match excluded_middle_informative (exists B, times_is_identity A B) with
  | left H => proj1_sig (constructive_indefinite_description _ H)
  | right _ => A
  end.
Lemma some_inverse_inverts : inverts some_inverse.
Proof.
  intros A (_ & H). unfold some_inverse. destruct (excluded_middle_informative _) as [H'|]; [|contradiction].
  destruct (constructive_indefinite_description _ H') as [B HB]. exact HB.
Qed.

Example C76_example : inverts some_inverse /\ jacobian_sized ex_pin2 ex_robot 2 /\ dynamics_sized ex_pin2 ex_robot /\
  invertible (base_jacobian_t (frame_jacobian ex_pin2 ex_robot 2 LocalWorldAligned)) /\
  exists tau, static_gravity_compensation_torques ex_pin2 some_inverse ex_robot 2 = Ok tau /\ vat tau 3 = 0.
Proof.
  split; [exact some_inverse_inverts|]. split; [apply ex_sized|]. split; [apply (ex_sized 0)|].
  assert (Hv : invertible (base_jacobian_t (frame_jacobian ex_pin2 ex_robot 2 LocalWorldAligned))) by (split; [reflexivity|eexists; exact ex_inverse]).
  split; [exact Hv|].
  destruct (C76_static_gravity ex_pin2 some_inverse ex_robot 2 some_inverse_inverts (proj1 (ex_sized 2)) (proj2 (ex_sized 2)) Hv) as (tau & w & E & _ & Z & _).
  exists tau. split; [exact E|]. apply Z. lia.
Qed.

(** With the frame fixed (J qdd = 0, the robot being at rest), no wrench and no base acceleration make the torques that are returned produce
    the acceleration that was asked for. *)
Theorem C109_equation_refuted : exists pn r qdd_a f M,
  jacobian_sized pn r f /\ dynamics_sized pn r /\ well_formed_robot r /\ vlen qdd_a = (m_nv (r_model r) - 6)%nat /\
  invertible (base_jacobian_t (frame_jacobian pn r f LocalWorldAligned)) /\ mass_matrix pn r = Ok M /\ st_qd (r_state r) = zeros (m_nv (r_model r)) /\
  forall inv tau qdd w, inverts inv -> torques_from_acceleration_with_fixed_frame pn inv r qdd_a f = Ok tau ->
    (forall k, (k < m_nv (r_model r) - 6)%nat -> qdd (6 + k)%nat = vat qdd_a k) ->
    (forall i, (i < 6)%nat -> Rsum (m_nv (r_model r)) (fun j => mat_at (frame_jacobian pn r f LocalWorldAligned) i j * qdd j) = 0) ->
    ~ equation_of_motion (m_nv (r_model r)) M (non_linear_effects pn r) (frame_jacobian pn r f LocalWorldAligned) qdd (vat tau) w.
Proof.
  assert (Hv : invertible (base_jacobian_t (frame_jacobian ex_pin2 ex_robot 2 LocalWorldAligned))) by (split; [reflexivity|eexists; exact ex_inverse]).
  exists ex_pin2, ex_robot, (Vec 1 (fun _ => 1)), 2%nat. eexists.
  split; [apply ex_sized|]. split; [apply (ex_sized 0)|]. split; [exact ex_well_formed|]. split; [reflexivity|]. split; [exact Hv|].
  split; [reflexivity|]. split; [reflexivity|]. intros inv tau qdd w Hi E Hq HJ Heq.
  destruct (C109_behaviour ex_pin2 inv ex_robot (Vec 1 (fun _ => 1)) 2 Hi (proj1 (ex_sized 2)) (proj2 (ex_sized 2)) ex_well_formed eq_refl Hv)
    as (tau' & M' & w' & E' & EM & _ & Hb & Ha).
  rewrite E in E'. injection E' as <-. injection EM as <-.
  pose proof (Ha 0%nat ltac:(cbn; lia)) as T. pose proof (Hb 0%nat ltac:(lia)) as B0.
  pose proof (Hq 0%nat ltac:(cbn; lia)) as Q6. pose proof (HJ 0%nat ltac:(lia)) as J0. pose proof (HJ 1%nat ltac:(lia)) as J1.
  pose proof (HJ 2%nat ltac:(lia)) as J2. pose proof (HJ 3%nat ltac:(lia)) as J3. pose proof (HJ 4%nat ltac:(lia)) as J4.
  pose proof (HJ 5%nat ltac:(lia)) as J5. pose proof (Heq 0%nat ltac:(cbn; lia)) as E0. pose proof (Heq 6%nat ltac:(cbn; lia)) as E6.
  clear Hi E Hq HJ Heq Hb Ha Hv. unfold wrench_effort in *. cbn in *. lra.
Qed.
Print Assumptions C109_equation_refuted.

(** ** C108: the Jacobian of the relative position *)

(** When the robot moves, relative_position_jacobian gives the velocity, in the frame [a], of the origin of the frame [b]. *)
Theorem C108_relative_position_jacobian pn r q t qd a b : fst (r_seen r) = q t ->
  (a < List.length (m_frames (r_model r)))%nat -> (b < List.length (m_frames (r_model r)))%nat ->
  jacobian_of pn (r_model r) q t qd a -> jacobian_of pn (r_model r) q t qd b ->
  exists J, relative_position_jacobian pn r a b = Ok J /\ mrows J = 3%nat /\ mcols J = m_nv (r_model r) /\
    v3_deriv (fun u => fr_t (frame_mul (frame_inv (pn_frame pn (q u) a)) (pn_frame pn (q u) b))) t (rows3 J 0 qd).
Proof.
  intros Es Ha Hb (Ra & Ca & Lq & Rig & Ma) (Rb & Cb & _ & _ & Mb).
  pose proof (relative_position_deriv _ _ t _ _ _ _ Rig Ma Mb) as D.
  unfold relative_position_jacobian, get_T_world_frame, frame_jacobian. rewrite Es. unfold guard at 1 2.
  apply Nat.ltb_lt in Ha. apply Nat.ltb_lt in Hb. rewrite Ha, Hb. cbn [obind].
  set (A := pn_frame pn (q t) a) in *. set (B := pn_frame pn (q t) b) in *.
  set (Ja := pn_jac pn (q t) a LocalWorldAligned) in *. set (Jb := pn_jac pn (q t) b LocalWorldAligned) in *.
  set (n := m_nv (r_model r)) in *. unfold block, guard. rewrite Ra, Ca, Rb, Cb.
  cbn [Nat.add]. replace (Nat.leb n n) with true by (symmetry; apply Nat.leb_le; lia). cbn [Nat.leb andb obind].
  unfold mat_sub, guard. cbn [mrows mcols]. rewrite !Nat.eqb_refl. cbn [andb obind].
  unfold mat_mul, mat_of3, guard. cbn [mrows mcols Nat.eqb obind]. unfold mat_add, guard. cbn [mrows mcols]. rewrite !Nat.eqb_refl. cbn [andb].
  eexists. split; [reflexivity|]. cbn [mrows mcols]. split; [reflexivity|]. split; [reflexivity|].
  eapply v3_deriv_ext; [intros u; reflexivity| |exact D].
  set (S := m3_mul (skew (fr_t (frame_mul (frame_inv A) B))) (m3_t (fr_R A))). set (T := m3_t (fr_R A)).
  assert (L : forall x1 x2 x3 x4 x5 x6 (f1 f2 f3 f4 f5 f6 f7 f8 f9 y : nat -> R),
    Rsum n (fun k => (0 + x1 * (f1 k - f2 k) + x2 * (f3 k - f4 k) + x3 * (f5 k - f6 k) + (0 + x4 * f7 k + x5 * f8 k + x6 * f9 k)) * y k) =
    x1 * (Rsum n (fun k => f1 k * y k) - Rsum n (fun k => f2 k * y k)) + x2 * (Rsum n (fun k => f3 k * y k) - Rsum n (fun k => f4 k * y k))
    + x3 * (Rsum n (fun k => f5 k * y k) - Rsum n (fun k => f6 k * y k)) +
    (x4 * Rsum n (fun k => f7 k * y k) + x5 * Rsum n (fun k => f8 k * y k) + x6 * Rsum n (fun k => f9 k * y k))).
  { intros. rewrite <- !Rsum_minus, <- !Rsum_scal_l, <- !Rsum_plus. apply Rsum_ext. intros; ring. }
  apply V3_ext; cbn [rows3 vx vy vz v3_add v3_sub m3_vec]; unfold row_of; cbn [mcols mat_at]; rewrite Ca, Cb; cbn [Rsum]; rewrite L; reflexivity.
Qed.
Print Assumptions C108_relative_position_jacobian.

(** A robot that slides along x with its base and turns its hinge. *)
Definition ex_path (t : R) : vec := Vec 8 (fun k => nth k [t; 2; 0; 0; 0; 0; 1; t] 0).
Definition ex_pin3 : pin := Pin (pn_frame ex_pin)
  (fun _ f _ => Mat 6 7 (fun i j => if Nat.eqb i j then 1 else if Nat.eqb f 2 && Nat.eqb i 5 && Nat.eqb j 6 then 1 else 0))
  (pn_djac ex_pin) (fun q v => Vec (vlen q) (fun k => if Nat.eqb k 7 then vat q 7 + vat v 6 else vat q k)) (pn_difference ex_pin)
  (pn_neutral ex_pin) (pn_com ex_pin) (pn_comjac ex_pin) (pn_dcomjac ex_pin) (pn_centroidal ex_pin) (pn_crba ex_pin) (pn_gravity ex_pin)
  (pn_nle ex_pin) (pn_joint_jac ex_pin) (pn_joint_djac ex_pin).
Definition ex_speed : vec := Vec 7 (fun k => nth k [1; 0; 0; 0; 0; 0; 1] 0).

Lemma ex_frame2 u : pn_frame ex_pin3 (ex_path u) 2 = Frame (rot_z u) (V3 u 2 (1 + 1 / 2)).
Proof.
  unfold ex_pin3, ex_pin, pn_frame, ex_path, ex_rel, q_base. cbn [Nat.eqb vat nth m_root ex_model vlen Nat.ltb Nat.leb andb].
  apply Frame_ext; [apply M3_ext|apply V3_ext]; unfold frame_mul, quat_matrix, rot_z; cbn [fr_R fr_t qw qx qy qz]; m3; cbn; field.
Qed.
Lemma ex_frame1 u : pn_frame ex_pin3 (ex_path u) 1 = Frame m3_id (V3 u 2 (1 / 2)).
Proof.
  unfold ex_pin3, ex_pin, pn_frame, ex_path, ex_rel, q_base. cbn [Nat.eqb vat nth m_root ex_model vlen Nat.ltb Nat.leb andb].
  apply Frame_ext; [apply M3_ext|apply V3_ext]; unfold frame_mul, quat_matrix, rot_z; cbn [fr_R fr_t qw qx qy qz]; m3; cbn; field.
Qed.

Lemma lim_const c t : derivable_pt_lim (fun _ => c) t 0. Proof. apply derivable_pt_lim_const. Qed.
Lemma lim_id t : derivable_pt_lim (fun u => u) t 1. Proof. apply derivable_pt_lim_id. Qed.

Lemma ex_jacobians t : jacobian_of ex_pin3 ex_model ex_path t ex_speed 1 /\ jacobian_of ex_pin3 ex_model ex_path t ex_speed 2.
Proof.
  split; (split; [reflexivity|]; split; [reflexivity|]; split; [reflexivity|]).
  - split; [unfold rigid; rewrite ex_frame1; apply rotation_id|]. split.
    + split; [|split]; (eapply lim_ext; [intros u; rewrite ex_frame1; reflexivity| |cbn [fr_t vx vy vz]; first [apply lim_id|apply lim_const]]);
        rewrite ?ex_frame1; cbn; ring.
    + intros e He. cbn [In] in He. repeat (destruct He as [<-|He]); try destruct He;
        (eapply lim_ext; [intros u; rewrite ex_frame1; reflexivity| |cbn [fr_R m3_id m00 m01 m02 m10 m11 m12 m20 m21 m22]; apply lim_const]); rewrite ex_frame1; cbn; ring.
  - split; [unfold rigid; rewrite ex_frame2; apply rotation_z|]. split.
    + split; [|split]; (eapply lim_ext; [intros u; rewrite ex_frame2; reflexivity| |cbn [fr_t vx vy vz]; first [apply lim_id|apply lim_const]]);
        rewrite ?ex_frame2; cbn; ring.
    + intros e He. cbn [In] in He. repeat (destruct He as [<-|He]); try destruct He;
        (eapply lim_ext; [intros u; rewrite ex_frame2; reflexivity| |cbn [fr_R rot_z m00 m01 m02 m10 m11 m12 m20 m21 m22];
          first [apply derivable_pt_lim_cos|apply derivable_pt_lim_sin|apply (derivable_pt_lim_opp sin), derivable_pt_lim_sin|apply lim_const]]);
        rewrite ex_frame2; cbn; ring.
Qed.

Example C108_example t : exists r J, fst (r_seen r) = ex_path t /\ r_model r = ex_model /\ jacobian_of ex_pin3 ex_model ex_path t ex_speed 1 /\
  jacobian_of ex_pin3 ex_model ex_path t ex_speed 2 /\ relative_position_jacobian ex_pin3 r 2 1 = Ok J /\ mrows J = 3%nat.
Proof.
  destruct (ex_jacobians t) as [H1 H2]. exists (Robot ex_model (State (ex_path t) ex_speed (zeros 7)) (ex_path t, ex_speed)).
  destruct (C108_relative_position_jacobian ex_pin3 (Robot ex_model (State (ex_path t) ex_speed (zeros 7)) (ex_path t, ex_speed)) ex_path t ex_speed 2 1
    eq_refl ltac:(cbn; lia) ltac:(cbn; lia) H2 H1) as (J & E & Hr & _).
  exists J. do 2 (split; [reflexivity|]). do 2 (split; [assumption|]). split; assumption.
Qed.

(** get_T_a_b(a, b) is the transformation that, composed after the one of [a], gives the one of [b]; and it is the only rigid one. *)
Theorem C108_get_T_a_b pn r a b : (a < List.length (m_frames (r_model r)))%nat -> (b < List.length (m_frames (r_model r)))%nat ->
  rigid (pn_frame pn (fst (r_seen r)) a) ->
  exists T, get_T_a_b pn r a b = Ok T /\ frame_mul (pn_frame pn (fst (r_seen r)) a) T = pn_frame pn (fst (r_seen r)) b /\
    forall T', frame_mul (pn_frame pn (fst (r_seen r)) a) T' = pn_frame pn (fst (r_seen r)) b -> T' = T.
Proof.
  intros Ha Hb Hr. apply Nat.ltb_lt in Ha. apply Nat.ltb_lt in Hb. unfold get_T_a_b, get_T_world_frame. unfold guard. rewrite Ha, Hb. cbn [obind].
  eexists. split; [reflexivity|]. split.
  - rewrite <- frame_mul_assoc, frame_inv_r by exact Hr. apply frame_mul_id_l.
  - intros T' <-. rewrite <- frame_mul_assoc, frame_inv_l by exact Hr. symmetry. apply frame_mul_id_l.
Qed.
Print Assumptions C108_get_T_a_b.

Example C108_get_T_a_b_example t : exists r T, r_model r = ex_model /\ fst (r_seen r) = ex_path t /\ get_T_a_b ex_pin3 r 2 1 = Ok T /\
  frame_mul (Frame (rot_z t) (V3 t 2 (1 + 1 / 2))) T = Frame m3_id (V3 t 2 (1 / 2)).
Proof.
  exists (Robot ex_model (State (ex_path t) ex_speed (zeros 7)) (ex_path t, ex_speed)).
  destruct (C108_get_T_a_b ex_pin3 (Robot ex_model (State (ex_path t) ex_speed (zeros 7)) (ex_path t, ex_speed)) 2 1) as (T & E & H & _);
    [cbn; lia|cbn; lia|cbn [r_seen fst]; rewrite ex_frame2; apply rotation_z|].
  exists T. cbn [r_seen fst] in H. rewrite ex_frame1, ex_frame2 in H. auto.
Qed.

(** ** C110: the mass matrix *)

(** The mass matrix is symmetric, and it is the mass matrix [M0] of the bodies, of which crba computes the upper triangle, plus the
    inertia of the rotors seen through the gears. *)
Theorem C110_mass_matrix pn r M0 : well_formed_robot r -> dynamics_sized pn r -> (forall i j, M0 i j = M0 j i) ->
  (forall i j, (i <= j < m_nv (r_model r))%nat -> mat_at (pn_crba pn (st_q (r_state r))) i j = M0 i j) ->
  exists M, mass_matrix pn r = Ok M /\ mrows M = m_nv (r_model r) /\ mcols M = m_nv (r_model r) /\
    (forall i j, (i < m_nv (r_model r))%nat -> (j < m_nv (r_model r))%nat -> mat_at M i j = mat_at M j i) /\
    (forall x, quadratic (m_nv (r_model r)) (mat_at M) x = quadratic (m_nv (r_model r)) M0 x +
       Rsum (m_nv (r_model r)) (fun i => vat (m_rotor (r_model r)) i * (vat (m_gear (r_model r)) i * x i) ^ 2)).
Proof.
  intros Hr (_ & _ & HM) Hs Hc. destruct (HM (st_q (r_state r))) as [Mr Mc]. set (n := m_nv (r_model r)) in *.
  destruct Hr as ((_ & _ & _ & _ & _ & _ & _ & _ & Lr & Lg) & _). fold n in Lr, Lg.
  unfold mass_matrix, guard. rewrite Mr, Mc, Lr, Lg, Nat.eqb_refl. replace (Nat.leb n n) with true by (symmetry; apply Nat.leb_le; lia).
  cbn [andb]. eexists. split; [reflexivity|]. cbn [mrows mcols mat_at]. split; [reflexivity|]. split; [reflexivity|].
  assert (E : forall i j, (i < n)%nat -> (j < n)%nat ->
    (if Nat.ltb j i then mat_at (pn_crba pn (st_q (r_state r))) j i else mat_at (pn_crba pn (st_q (r_state r))) i j) = M0 i j).
  { intros i j Hi Hj. destruct (Nat.ltb_spec j i); rewrite Hc by lia; [apply Hs|reflexivity]. }
  split.
  - intros i j Hi Hj. rewrite !E by assumption. rewrite (Hs i j), (Nat.eqb_sym j i). destruct (Nat.eqb_spec i j) as [->|]; reflexivity.
  - intros x. unfold quadratic. rewrite <- Rsum_plus. apply Rsum_ext. intros i Hi.
    rewrite (Rsum_ext n _ (fun j => x i * M0 i j * x j +
      (if Nat.eqb i j then vat (m_gear (r_model r)) i * vat (m_gear (r_model r)) i * vat (m_rotor (r_model r)) i else 0) * x i * x j))
      by (intros j Hj; rewrite E by assumption; ring).
    rewrite Rsum_plus. f_equal. rewrite (Rsum_delta n i).
    + rewrite Nat.eqb_refl. ring.
    + exact Hi.
    + intros j _ Ne. apply not_eq_sym, Nat.eqb_neq in Ne. rewrite Ne. ring.
Qed.
Print Assumptions C110_mass_matrix.

(** So the kinetic energy cannot be negative when that of the bodies cannot, and rotors only add to it. *)
Corollary C110_kinetic_energy pn r M0 M x : well_formed_robot r -> dynamics_sized pn r -> (forall i j, M0 i j = M0 j i) ->
  (forall i j, (i <= j < m_nv (r_model r))%nat -> mat_at (pn_crba pn (st_q (r_state r))) i j = M0 i j) ->
  (forall i, (i < m_nv (r_model r))%nat -> 0 <= vat (m_rotor (r_model r)) i) -> mass_matrix pn r = Ok M ->
  quadratic (m_nv (r_model r)) M0 x <= quadratic (m_nv (r_model r)) (mat_at M) x.
Proof.
  intros Hr Hd Hs Hc Hi E. destruct (C110_mass_matrix pn r M0 Hr Hd Hs Hc) as (M' & E' & _ & _ & _ & Q). rewrite E in E'. injection E' as <-.
  rewrite Q. assert (0 <= Rsum (m_nv (r_model r)) (fun i => vat (m_rotor (r_model r)) i * (vat (m_gear (r_model r)) i * x i) ^ 2)); [|lra].
  apply Rsum_nonneg. intros i Hn. apply Rmult_le_pos; [apply Hi; exact Hn|apply pow2_ge_0].
Qed.
Print Assumptions C110_kinetic_energy.

Example C110_example : well_formed_robot ex_robot /\ dynamics_sized ex_pin2 ex_robot /\
  (forall i j, (i <= j < 7)%nat -> mat_at (pn_crba ex_pin2 (st_q (r_state ex_robot))) i j = if Nat.eqb i j then 2 else 1) /\
  exists M, mass_matrix ex_pin2 ex_robot = Ok M /\ mat_at M 6 6 = 12 /\ mat_at M 6 0 = 1.
Proof.
  split; [exact ex_well_formed|]. split; [apply (ex_sized 0)|]. split.
  - intros i j H. cbn [pn_crba ex_pin2 ex_pin mat_at]. destruct (Nat.eqb_spec i j); [reflexivity|]. destruct (Nat.ltb_spec i j); [reflexivity|lia].
  - eexists. split; [reflexivity|]. split; cbn; lra.
Qed.

(** ** C111: random configurations stay within the limits *)

(** add_q_noise moves each joint that has limits towards a random configuration; it keeps the limits, the base and the joints without limits. *)
Theorem C111_add_q_noise huge random r noise : vlen (st_q (r_state r)) = m_nq (r_model r) -> 0 <= noise <= 1 ->
  (forall k, (k < m_nq (r_model r))%nat -> vat (m_lower (r_model r)) k <= vat random k <= vat (m_upper (r_model r)) k) ->
  let q := st_q (r_state r) in let q' := st_q (r_state (add_q_noise huge random r noise)) in
  vlen q' = vlen q /\
  (forall k, (k < 7)%nat -> vat q' k = vat q k) /\
  (forall k, (k < vlen q)%nat -> vat (m_lower (r_model r)) k = - huge \/ vat (m_upper (r_model r)) k = huge -> vat q' k = vat q k) /\
  (forall k, (k < vlen q)%nat -> vat (m_lower (r_model r)) k <= vat q k <= vat (m_upper (r_model r)) k ->
     vat (m_lower (r_model r)) k <= vat q' k <= vat (m_upper (r_model r)) k) /\
  (forall k, (7 <= k < vlen q)%nat -> vat (m_lower (r_model r)) k <> - huge -> vat (m_upper (r_model r)) k <> huge ->
     vat q' k = (1 - noise) * vat q k + noise * vat random k) /\
  st_qd (r_state (add_q_noise huge random r noise)) = st_qd (r_state r) /\ r_model (add_q_noise huge random r noise) = r_model r.
Proof.
  intros Lq Hn Hr q q'. unfold q', add_q_noise, set_q, set_state. cbn [r_state st_q st_qd r_model vlen vat]. fold q.
  assert (F : forall k, (k < vlen q)%nat -> Nat.leb (m_nq (r_model r)) k = false) by (intros k Hk; apply Nat.leb_gt; unfold q in Hk; lia).
  split; [reflexivity|]. split; [intros k Hk; apply Nat.ltb_lt in Hk; rewrite Hk; reflexivity|]. split; [|split; [|split; [|split; reflexivity]]].
  - intros k Hk Hu. destruct (Nat.ltb k 7); [reflexivity|]. rewrite F by exact Hk. cbn [orb].
    destruct (Req_EM_T (vat (m_lower (r_model r)) k) (- huge)); [reflexivity|].
    destruct (Req_EM_T (vat (m_upper (r_model r)) k) huge); [reflexivity|]. tauto.
  - intros k Hk Hb. destruct (_ || _); [exact Hb|]. specialize (Hr k ltac:(unfold q in Hk; lia)). clear F. nra.
  - intros k Hk Hl Hu. destruct (Nat.ltb_spec k 7); [lia|]. rewrite F by lia. cbn [orb].
    destruct (Req_EM_T (vat (m_lower (r_model r)) k) (- huge)); [contradiction|].
    destruct (Req_EM_T (vat (m_upper (r_model r)) k) huge); [contradiction|]. ring.
Qed.
Print Assumptions C111_add_q_noise.

(** The joints without limits in the file (both limits zero) are not limited, and add_q_noise does not move them. *)
Theorem C111_undefined_limits huge m s v random noise k : vlen (st_q s) = m_nq m -> (k < vlen (st_q s))%nat -> 0 <= noise <= 1 ->
  (forall k, (k < m_nq m)%nat -> vat (m_lower (patch_limits huge m)) k <= vat random k <= vat (m_upper (patch_limits huge m)) k) ->
  vat (m_lower m) k = 0 -> vat (m_upper m) k = 0 ->
  vat (st_q (r_state (add_q_noise huge random (Robot (patch_limits huge m) s v) noise))) k = vat (st_q s) k.
Proof.
  intros Lq Hk Hn Hr Hl Hu.
  destruct (C111_add_q_noise huge random (Robot (patch_limits huge m) s v) noise Lq Hn Hr) as (_ & _ & H & _).
  apply H; [exact Hk|]. left. cbn. destruct (Req_EM_T (vat (m_lower m) k) 0); [|contradiction]. destruct (Req_EM_T (vat (m_upper m) k) 0); [reflexivity|contradiction].
Qed.
Print Assumptions C111_undefined_limits.

Example C111_example : exists r', r' = add_q_noise 1000 (Vec 8 (fun k => if Nat.eqb k 7 then 2 else 0)) ex_robot (1 / 2) /\
  (forall k, (k < 8)%nat -> vat (m_lower ex_model) k <= vat (Vec 8 (fun k => if Nat.eqb k 7 then 2 else 0)) k <= vat (m_upper ex_model) k) /\
  vat (st_q (r_state r')) 7 = 5 / 4 /\ vat (st_q (r_state r')) 0 = 1.
Proof.
  eexists. split; [reflexivity|]. split.
  - intros k Hk. cbn. destruct (Nat.eqb k 7); lra.
  - split; [|reflexivity]. cbn. destruct (Req_EM_T (-1) (- (1000))); [exfalso; lra|]. destruct (Req_EM_T 2 1000); [exfalso; lra|]. lra.
Qed.

(** ** C112: Jacobians by name *)

(** The Jacobians of frames by name are those of the frame of that name, in the reference of that name; unknown names throw. *)
Theorem C112_by_name pn r name reference :
  (forall i k, position_of name (m_frames (r_model r)) = Some i -> In (reference, k) [("local_world_aligned"%string, LocalWorldAligned); ("local"%string, Local); ("world"%string, World)] ->
     nth_error (m_frames (r_model r)) i = Some name /\
     frame_jacobian_name pn r name reference = Ok (frame_jacobian pn r i k) /\
     frame_jacobian_time_variation_name pn r name reference = Ok (frame_jacobian_time_variation pn r i k)) /\
  (~ In name (m_frames (r_model r)) \/ ~ In reference ["local_world_aligned"; "local"; "world"]%string ->
     frame_jacobian_name pn r name reference = Throw ERuntime /\ frame_jacobian_time_variation_name pn r name reference = Throw ERuntime).
Proof.
  assert (P : forall l i, position_of name l = Some i -> nth_error l i = Some name).
  { induction l as [|n l IH]; intros i H; [discriminate|]. cbn in H. destruct (String.eqb_spec n name) as [->|].
    - injection H as <-. reflexivity.
    - destruct (position_of name l) as [j|]; [|discriminate]. injection H as <-. cbn. apply IH. reflexivity. }
  assert (Q : forall l, ~ In name l -> position_of name l = None).
  { induction l as [|n l IH]; intros H; [reflexivity|]. cbn. destruct (String.eqb_spec n name) as [->|]; [exfalso; apply H; left; reflexivity|].
    rewrite IH; [reflexivity|]. intros K. apply H. right. exact K. }
  split.
  - intros i k E H. split; [apply P; exact E|]. unfold frame_jacobian_name, frame_jacobian_time_variation_name, get_frame_index. rewrite E. cbn [obind].
    destruct H as [H|[H|[H|[]]]]; injection H as <- <-; split; reflexivity.
  - intros H. unfold frame_jacobian_name, frame_jacobian_time_variation_name, get_frame_index.
    destruct (position_of name (m_frames (r_model r))) as [i|] eqn:E; [|split; reflexivity]. cbn [obind].
    destruct H as [H|H]; [rewrite Q in E by exact H; discriminate|].
    unfold string_to_reference. destruct (String.eqb_spec reference "local_world_aligned") as [->|]; [exfalso; apply H; cbn; auto|].
    destruct (String.eqb_spec reference "local") as [->|]; [exfalso; apply H; cbn; auto|].
    destruct (String.eqb_spec reference "world") as [->|]; [exfalso; apply H; cbn; auto|]. split; reflexivity.
Qed.
Print Assumptions C112_by_name.

(** joint_jacobian_time_variation by name gives the Jacobian, not its time variation. *)
Theorem C112_joint_time_variation_refuted : exists pn r name reference j k J,
  joint_index r name = Ok j /\ string_to_reference reference = Ok k /\
  joint_jacobian_time_variation_name pn r name reference = Ok J /\ joint_jacobian_name pn r name reference = Ok J /\
  ~ mat_eq J (joint_jacobian_time_variation pn r j k).
Proof.
  exists ex_pin, ex_robot, "head"%string, "local"%string, 2%nat, Local. eexists. do 4 (split; [reflexivity|]).
  intros (_ & _ & H). specialize (H 0%nat 0%nat ltac:(cbn; lia) ltac:(cbn; lia)). cbn in H. lra.
Qed.
Print Assumptions C112_joint_time_variation_refuted.

(** ** C113: integrate *)

(** Semi-implicit Euler: the new velocity is the one that is integrated. *)
Theorem C113_integrate pn r dt : well_formed_robot r -> (0 < m_nv (r_model r))%nat -> integrates pn (r_model r) ->
  exists r', integrate pn r dt = Ok r' /\ well_formed_robot r' /\ r_model r' = r_model r /\ st_qdd (r_state r') = st_qdd (r_state r) /\
    (forall k, vat (st_qd (r_state r')) k = vat (st_qd (r_state r)) k + dt * vat (st_qdd (r_state r)) k) /\
    (forall j, In j (m_joints (r_model r)) -> jt_nq j = 1%nat -> jt_nv j = 1%nat ->
       vat (st_q (r_state r')) (jt_idx_q j) = vat (st_q (r_state r)) (jt_idx_q j) + dt * vat (st_qd (r_state r')) (jt_idx_v j)).
Proof.
  intros (Hw & Lq & Lv & La) Hn Hi. unfold integrate. rewrite Lv, La. destruct (m_nv (r_model r)) as [|n] eqn:En; [lia|].
  cbn [Nat.eqb]. unfold vec_add, guard, vec_scale. cbn [vlen vat]. rewrite Lv, La, Nat.eqb_refl. cbn [obind].
  eexists. split; [reflexivity|]. cbn [set_state r_state r_model st_q st_qd st_qdd vlen vat].
  destruct (Hi (st_q (r_state r)) (Vec (S n) (fun i => dt * (vat (st_qd (r_state r)) i + dt * vat (st_qdd (r_state r)) i))) Lq ltac:(cbn; congruence)) as [Li Hj].
  split; [|split; [reflexivity|split; [reflexivity|split; [reflexivity|]]]].
  - split; [exact Hw|]. cbn [set_state r_state r_model st_q st_qd st_qdd vlen]. repeat split; congruence.
  - intros j Hin Hq Hv. rewrite Hj by assumption. reflexivity.
Qed.
Print Assumptions C113_integrate.

Example C113_example : well_formed_robot ex_robot /\ integrates ex_pin3 (r_model ex_robot) /\
  exists r', integrate ex_pin3 (set_qdd ex_robot (Vec 7 (fun _ => 2))) (1 / 2) = Ok r' /\ vat (st_q (r_state r')) 7 = 1.
Proof.
  split; [exact ex_well_formed|]. split.
  - intros q v Eq Ev. split; [exact Eq|]. intros j [<-|[<-|[]]]; cbn; [discriminate|]. reflexivity.
  - eexists. split; [reflexivity|]. cbn. lra.
Qed.
