(** C164 and C165: a robot that replays a log. *)
From Coq Require Import Reals List ZArith Bool String Lra Lia.
From Verif Require Import Base Linalg Angle Geom3 Tools_model Geometry_model Geometry_spec Geometry_proofs Footsteps_model Robot_model Robot_spec Robot_proofs Robot_props
  DynSet_props Humanoid_model Humanoid_spec Humanoid_proofs Humanoid_proofs2 Humanoid_proofs3 Humanoid_props Humanoid_props2 Humanoid_props3 Replay_model Replay_spec Replay_proofs.
Import ListNotations.
Open Scope R_scope.

(** ** C164: the configuration *)

(** A reading succeeds exactly when the log has what is read in it. *)
Lemma joints_need log t source v : forall l r r', replay_joints log t source v r l = Ok r' -> forall name, In name l -> has_number log t (source ++ ":" ++ name).
Proof.
  induction l as [|n l IH]; intros r r' E name Hn; [destruct Hn|destruct Hn as [<-|H]]; cbn [replay_joints] in E.
  - unfold replay_joint in E. destruct (number log (source ++ ":" ++ n) t) as [x| |] eqn:X; try discriminate. now exists x.
  - destruct (replay_joint log t source v r n) as [r1| |]; try discriminate. exact (IH r1 r' E name H).
Qed.
Theorem C164_complete pn moving inv h log t source use_imu v : replayable pn moving h -> inverts_both inv -> well_posed pn h v ->
  (exists h', read_from_histories pn inv h log t source use_imu v = Ok h') <-> complete log t source (hr_robot h) use_imu (Nat.ltb 1 (vlen v)).
Proof.
  intros Hr Hi Hv. split; [|intros Hc; destruct (read_spec pn moving inv h log t source use_imu v Hr Hc Hi Hv) as (h' & E & _); now exists h'].
  intros (h' & E). unfold read_from_histories in E.
  destruct (replay_joints log t source v (hr_robot h) (joint_names (hr_robot h) false)) as [r1| |] eqn:E1; try discriminate. cbn [obind] in E.
  destruct (replay_support pn log t (with_robot h r1)) as [h2| |] eqn:E2; try discriminate. cbn [obind] in E.
  destruct (replay_imu pn log t use_imu h2) as [h3| |] eqn:E3; try discriminate. cbn [obind] in E.
  split; [|split; [|split]].
  - intros name Hn. apply (joints_need _ _ _ _ _ _ _ E1). apply (C107_joint_names (hr_robot h)); [apply Hr|exact Hn].
  - unfold replay_support, pressure in E2. cbn [String.append] in E2. intros s Hs. unfold has_number.
    repeat match type of E2 with context [number log ?n t] => let X := fresh "X" in let y := fresh "y" in destruct (number log n t) as [y| |] eqn:X; cbn [obind] in E2; try discriminate end.
    cbn in Hs. repeat (destruct Hs as [<-|Hs]; [eexists; eassumption|]). destruct Hs.
  - intros -> s Hs. unfold replay_imu in E3. unfold has_angle.
    repeat match type of E3 with context [angle log ?n t] => let X := fresh "X" in let y := fresh "y" in destruct (angle log n t) as [y| |] eqn:X; cbn [obind] in E3; try discriminate end.
    cbn in Hs. repeat (destruct Hs as [<-|Hs]; [eexists; eassumption|]). destruct Hs.
  - intros B s Hs. unfold replay_velocity in E. rewrite B in E. unfold has_number.
    repeat match type of E with context [number log ?n t] => let X := fresh "X" in let y := fresh "y" in destruct (number log n t) as [y| |] eqn:X; cbn [obind] in E; try discriminate end.
    cbn in Hs. repeat (destruct Hs as [<-|Hs]; [eexists; eassumption|]). destruct Hs.
Qed.
Print Assumptions C164_complete.

(** At all the times of a replay, the robot has the joints of the log, it stands on the floor on the foot that carries it, which has not slid since the state before, and its trunk is
    oriented as its IMU tells, when it is used; when it is not, a foot that still carries the robot has not turned either. *)
Theorem C164_replay pn moving inv log source use_imu qds ts h : inverts_both inv -> replayable pn moving h -> stands pn h -> vz (fr_t (hr_T h)) = 0 ->
  (forall t, In t ts -> complete log t source (hr_robot h) use_imu (Nat.ltb 1 (vlen (qds t))) /\ well_posed pn h (qds t)) ->
  exists l, replay pn inv h log source use_imu qds ts = Ok l /\ follows_log pn log source use_imu h ts l.
Proof.
  intros Hi. revert h. induction ts as [|t ts IH]; intros h Hr [Hs1 Hs2] Hz Ht; [exists []; split; [reflexivity|exact I]|].
  destruct (Ht t (or_introl eq_refl)) as [Hc Hv].
  destruct (read_spec pn moving inv h log t source use_imu (qds t) Hr Hc Hi Hv) as (h' & E & Rp & (M & Pl & Pr & Pt) & St & Jt & Ca & Tt & Tf & Im & _).
  assert (Frame_h' : hr_frame h' = foot h (hr_side h')). { destruct Rp as (_ & _ & _ & F & _). rewrite F. unfold foot. now rewrite Pl, Pr. }
  assert (Seen : pn_frame pn (fst (r_seen (hr_robot h))) (foot h (hr_side h')) = at_frame pn h (foot h (hr_side h'))) by (unfold at_frame; now rewrite Hs1).
  rewrite Seen in Tt, Tf. pose proof St as [St1 St2].
  assert (Z : vz (fr_t (hr_T h')) = 0). { rewrite Tt. destruct (side_dec _ _); [exact Hz|reflexivity]. }
  destruct (IH h' Rp St Z) as (l & El & Fl).
  { intros t' Ht'. destruct (Ht t' (or_intror Ht')) as [C W]. split.
    - unfold complete, actuated, has_joint in *. now rewrite M.
    - unfold well_posed, foot in *. now rewrite M, Pl, Pr, Pt. }
  exists (h' :: l). cbn [replay]. rewrite E. cbn [obind]. rewrite El. cbn [obind]. split; [reflexivity|]. cbn [follows_log].
  split; [exact Jt|]. split; [exact Ca|]. split; [exact Frame_h'|]. split; [exact St|]. split; [now rewrite St2|].
  assert (F0 : hr_side h' = hr_side h -> foot h (hr_side h') = hr_frame h) by (intros ->; symmetry; apply Hr).
  split. { unfold did_not_slide. rewrite St2, Tt, Frame_h'. destruct (side_dec (hr_side h') (hr_side h)) as [D|D]; [rewrite (F0 D), Hs2; auto|split; reflexivity]. }
  split. { intros U. eexists. split; [exact (Im U)|reflexivity]. }
  split; [|exact Fl]. intros U D. rewrite St2, (Tf U), Hs2. destruct (side_dec _ _); [reflexivity|contradiction].
Qed.
Print Assumptions C164_replay.

(** ** C165: the velocities *)

(** With two velocities of joints or more, the joints have these velocities, and that of the base is such that, in every motion of the robot at its velocities, the support does not move and
    the trunk turns as the gyroscope tells. *)
Theorem C165_velocity_partial pn moving inv h log t source use_imu v h' : replayable pn moving h -> inverts_both inv -> well_posed pn h v -> (1 < vlen v)%nat ->
  read_from_histories pn inv h log t source use_imu v = Ok h' ->
  (forall j, In j (m_joints (r_model (hr_robot h))) -> jt_name j <> "root_joint"%string -> get_joint_velocity (hr_robot h') (jt_name j) = Ok (vat v (jt_idx_v j - 6))) /\
  ((forall k, (6 <= k < m_nv (r_model (hr_robot h)))%nat -> exists j, In j (m_joints (r_model (hr_robot h))) /\ jt_name j <> "root_joint"%string /\ jt_idx_v j = k) ->
   forall w q s, tells_rates log t w -> q s = st_q (r_state (hr_robot h')) ->
     local_jacobian_of pn (r_model (hr_robot h)) q s (st_qd (r_state (hr_robot h'))) (hr_frame h') -> local_jacobian_of pn (r_model (hr_robot h)) q s (st_qd (r_state (hr_robot h'))) (hr_trunk h') ->
     v3_deriv (fun x => fr_t (pn_frame pn (q x) (hr_frame h'))) s v3_zero /\
     exists vt, moves (fun x => pn_frame pn (q x) (hr_trunk h')) s vt (m3_vec (fr_R (pn_frame pn (q s) (hr_trunk h'))) w)).
Proof.
  intros Hr Hi Hv N1 E. pose proof (proj1 (C164_complete pn moving inv h log t source use_imu v Hr Hi Hv) (ex_intro _ h' E)) as Hc.
  destruct (read_spec pn moving inv h log t source use_imu v Hr Hc Hi Hv) as (h2 & E2 & Rp & (M & _) & _ & _ & _ & _ & _ & _ & _ & V). rewrite E in E2. injection E2 as <-. destruct (V N1) as [V1 V2]. split; [exact V1|].
  intros Hall w q s Hw Hq (A1 & A2 & A3 & A4 & A5) (B1 & B2 & B3 & B4 & B5). destruct (V2 w Hw) as (u & Lu & Hu & Hx). rewrite <- Hq in Hx.
  set (JF := pn_jac pn (q s) (hr_frame h') Local) in *. set (JT := pn_jac pn (q s) (hr_trunk h') Local) in *.
  assert (Eq : forall k, (k < m_nv (r_model (hr_robot h)))%nat -> (if Nat.ltb k 6 then vat u k else vat v (k - 6)) = vat (st_qd (r_state (hr_robot h'))) k).
  { intros k Hk. destruct (Nat.ltb_spec k 6) as [H6|H6]; [symmetry; now apply Hu|]. destruct (Hall k) as (j & Ij & Nj & <-); [lia|]. destruct Rp as (_ & Wf & _).
    pose proof (V1 j Ij Nj) as Y. rewrite (proj2 (get_joint_at (hr_robot h') j Wf ltac:(now rewrite M))) in Y. now injection Y as ->. }
  assert (G : forall i, (i < 6)%nat -> Rsum (m_nv (r_model (hr_robot h))) (fun k => stacked JF JT i k * vat (st_qd (r_state (hr_robot h'))) k) = gyro w i).
  { intros i H6. rewrite <- (Hx i H6). apply Rsum_ext. intros k Hk. now rewrite Eq. }
  assert (Z : rows3 JF 0 (st_qd (r_state (hr_robot h'))) = v3_zero).
  { unfold rows3, row_of. rewrite A2. pose proof (G 0%nat ltac:(lia)) as G0. pose proof (G 1%nat ltac:(lia)) as G1. pose proof (G 2%nat ltac:(lia)) as G2. unfold stacked in G0, G1, G2. cbn [Nat.ltb Nat.leb gyro] in G0, G1, G2. unfold v3_zero. now rewrite G0, G1, G2. }
  assert (W : rows3 JT 3 (st_qd (r_state (hr_robot h'))) = w).
  { unfold rows3, row_of. rewrite B2. pose proof (G 3%nat ltac:(lia)) as G0. pose proof (G 4%nat ltac:(lia)) as G1. pose proof (G 5%nat ltac:(lia)) as G2. unfold stacked in G0, G1, G2. cbn [Nat.ltb Nat.leb gyro] in G0, G1, G2. rewrite G0, G1, G2. now destruct w. }
  rewrite Z in A5. rewrite W in B5. split; [|eexists; exact B5].
  refine (v3_deriv_ext _ _ s _ _ (fun _ => eq_refl) _ (proj1 A5)). apply V3_ext; m3; ring.
Qed.
Print Assumptions C165_velocity_partial.

(** The documentation says that the velocities are used when there are any. For a robot with one joint, they are not: the velocity of the joint is the one it had. *)
Theorem C165_single_refuted pn moving inv h log t source use_imu v : replayable pn moving h -> inverts_both inv -> complete log t source (hr_robot h) use_imu false -> vlen v = 1%nat ->
  exists h', read_from_histories pn inv h log t source use_imu v = Ok h' /\ st_qd (r_state (hr_robot h')) = st_qd (r_state (hr_robot h)).
Proof.
  intros Hr Hi Hc L. destruct (read_spec pn moving inv h log t source use_imu v Hr) as (h' & E & _ & _ & _ & _ & _ & _ & _ & _ & V & _); [rewrite L; exact Hc|exact Hi|intros H; lia|].
  exists h'. split; [exact E|apply V; lia].
Qed.
Print Assumptions C165_single_refuted.

(** ** Example *)

(** The humanoid of Humanoid_props3, with its joints: the left foot slides along x under the trunk. The log makes it walk: it stands on its left foot at 0, on its right foot at 1. *)
Definition rx_names : list string := ["slide"; "a"; "b"; "c"; "d"; "e"; "f"; "g"; "h"; "i"; "j"; "k"; "l"; "m"; "n"; "o"; "p"; "q"; "r"; "s"]%string.
Definition rx_joints : list joint := Joint "root_joint" 0 7 0 6 :: map (fun i => Joint (nth i rx_names ""%string) (7 + i) 1 (6 + i) 1) (seq 0 20).
Definition rx_model : rmodel := RModel 27 26 rx_joints (m_frames hx_model) frame_id (zeros 27) (zeros 27) (zeros 26) (zeros 26) (zeros 26) (zeros 26) [1].
Definition rx_robot : robot := Robot rx_model (State (hx_q 0 0) (zeros 26) (zeros 26)) (hx_q 0 0, zeros 26).
Definition rx : hrobot := HRobot rx_robot 2 Left (Frame m3_id (V3 0 (1 / 10) 0)) 2 3 1 None None None.
Definition rx_log : histories := Histories
  (fun name t => if String.eqb name "read:slide" then Ok t else if String.eqb name "left_pressure_0" then Ok (1 - t) else if String.eqb name "right_pressure_3" then Ok (1 / 2) else Ok 0) (fun _ t => Ok t).
Definition rx_qds (t : R) : vec := Vec 20 (fun k => if Nat.eqb k 0 then 1 else 0).

Lemma rx_sound : hsound hx_pin hx_moving rx.
Proof.
  unfold hsound, body_frame, hx_moving. cbn [rx hr_robot hr_frame hr_left hr_right hr_trunk hr_T rx_robot r_model r_state st_q]. split; [exact hx_frames|]. split; [exact rotation_id|]. split; [apply hx_unit|].
  cbn [rx_model hx_model m_frames List.length m_root]. split; [lia|]. split; [lia|]. split; [lia|]. split; [lia|]. split; [lia|]. exact rotation_id.
Qed.
Definition apart_b (i n j m : nat) : bool := Nat.leb (i + n) j || Nat.leb (j + m) i.
Definition rx_check : bool := forallb (fun j => Nat.leb (jt_idx_q j + jt_nq j) 27 && Nat.ltb 0 (jt_nq j) && Nat.leb (jt_idx_v j + jt_nv j) 26 && Nat.ltb 0 (jt_nv j) &&
  forallb (fun k => String.eqb (jt_name j) (jt_name k) || apart_b (jt_idx_q j) (jt_nq j) (jt_idx_q k) (jt_nq k) && apart_b (jt_idx_v j) (jt_nv j) (jt_idx_v k) (jt_nv k)) rx_joints &&
  (String.eqb (jt_name j) "root_joint" || Nat.leb 7 (jt_idx_q j) && Nat.leb 6 (jt_idx_v j))) rx_joints.
Lemma rx_checked j : In j rx_joints -> (jt_idx_q j + jt_nq j <= 27 /\ 0 < jt_nq j /\ jt_idx_v j + jt_nv j <= 26 /\ 0 < jt_nv j)%nat /\
  (forall k, In k rx_joints -> jt_name j <> jt_name k -> apart (jt_idx_q j) (jt_nq j) (jt_idx_q k) (jt_nq k) /\ apart (jt_idx_v j) (jt_nv j) (jt_idx_v k) (jt_nv k)) /\
  (jt_name j <> "root_joint"%string -> (7 <= jt_idx_q j /\ 6 <= jt_idx_v j)%nat).
Proof.
  intros Hj. assert (C : rx_check = true) by (vm_compute; reflexivity). unfold rx_check in C. rewrite forallb_forall in C. specialize (C j Hj). rewrite !andb_true_iff in C. destruct C as (((((C1 & C2) & C3) & C4) & C5) & C6).
  apply Nat.leb_le in C1, C3. apply Nat.ltb_lt in C2, C4. split; [auto|]. split.
  - intros k Hk Hn. rewrite forallb_forall in C5. specialize (C5 k Hk). apply String.eqb_neq in Hn. rewrite Hn in C5. cbn [orb] in C5. apply andb_true_iff in C5 as [A B]. unfold apart_b in A, B. apply orb_true_iff in A, B. rewrite !Nat.leb_le in A, B. split; assumption.
  - intros Hn. apply String.eqb_neq in Hn. rewrite Hn in C6. cbn [orb] in C6. apply andb_true_iff in C6 as [A B]. apply Nat.leb_le in A, B. auto.
Qed.
Lemma rx_well_formed : well_formed_robot rx_robot.
Proof.
  split; [|repeat split]. unfold well_formed. cbn [rx_robot r_model rx_model m_joints m_nq m_nv m_lower m_upper m_velocity m_effort m_rotor m_gear].
  split; [cbn; repeat constructor; cbn; intuition discriminate|]. split; [cbn; intuition discriminate|]. split; [intros j Hj; apply (rx_checked j Hj)|].
  split; [|repeat split]. intros j k Hj Hk H. now apply (rx_checked j Hj).
Qed.
Lemma rx_observable q f : (0 < f)%nat -> observable hx_pin q f 1.
Proof.
  intros Hf. eexists. apply (diagonal_two_sided 1); [lra|reflexivity|reflexivity|]. intros i j Hi Hj. cbn [mat_at hx_pin pn_jac hx_jac]. unfold hx_left.
  do 6 (destruct i as [|i]; [do 6 (destruct j as [|j]; [cbn; rewrite ?andb_false_r; cbn; ring|]); lia|]). lia.
Qed.

Example C164_example use_imu : inverts_both both_inverse /\ replayable hx_pin hx_moving rx /\ stands hx_pin (with_support rx 2 Left (at_frame hx_pin rx 2)) /\
  (exists h, ensure_on_floor hx_pin rx = Ok h /\ replayable hx_pin hx_moving h /\ stands hx_pin h /\ vz (fr_t (hr_T h)) = 0 /\
     (forall t, complete rx_log t "read" (hr_robot h) use_imu (Nat.ltb 1 (vlen (rx_qds t))) /\ well_posed hx_pin h (rx_qds t)) /\
     exists h1 h2, replay hx_pin both_inverse h rx_log "read" use_imu rx_qds [0; 1] = Ok [h1; h2] /\ hr_side h1 = Left /\ hr_side h2 = Right /\ get_joint (hr_robot h2) "slide" = Ok 1) /\
  (forall k, (6 <= k < m_nv rx_model)%nat -> exists j, In j (m_joints rx_model) /\ jt_name j <> "root_joint"%string /\ jt_idx_v j = k) /\
  vlen (rx_qds 0) = (m_nv rx_model - 6)%nat.
Proof.
  split; [exact both_inverse_ok|].
  assert (F : floating rx_model). { intros j Hj. apply (rx_checked j Hj). }
  assert (Rp : replayable hx_pin hx_moving rx) by (split; [exact rx_sound|split; [exact rx_well_formed|split; [exact F|split; reflexivity]]]).
  split; [exact Rp|]. split; [split; reflexivity|]. split; [|split; [|reflexivity]].
  - destruct (floor_spec hx_pin hx_moving rx rx_sound) as (h & E & (S1 & M & U & Fr & Si & L & Ri & Tr & T & Jo & Qd & Qdd & At & _)). exists h. split; [exact E|].
    assert (Rh : replayable hx_pin hx_moving h).
    { split; [exact S1|]. split; [apply (wf_moved rx_robot); [exact rx_well_formed|exact M|exact Jo|now rewrite Qd|now rewrite Qdd]|]. rewrite M. split; [exact F|]. split; [unfold foot; rewrite Fr, Si, L; reflexivity|].
      unfold get_frame_index. rewrite M, Tr. reflexivity. }
    split; [exact Rh|]. assert (St : stands hx_pin h) by (split; [now rewrite U|now rewrite T]). split; [exact St|]. assert (Z : vz (fr_t (hr_T h)) = 0) by (rewrite T; reflexivity). split; [exact Z|].
    assert (Num : forall t s, has_number rx_log t s). { intros t s. unfold has_number, rx_log. cbn [number]. destruct (String.eqb s _); [now eexists|]. destruct (String.eqb s _); [now eexists|]. destruct (String.eqb s _); now eexists. }
    assert (C : forall t, complete rx_log t "read" (hr_robot h) use_imu (Nat.ltb 1 (vlen (rx_qds t))) /\ well_posed hx_pin h (rx_qds t)).
    { intros t. split.
      - split; [intros; apply Num|]. split; [intros; apply Num|]. split; [intros _ s _; now eexists|intros _ s _; apply Num].
      - intros _. rewrite M. split; [reflexivity|]. split; [cbn; lia|]. split; [intros; split; reflexivity|]. intros q s _. rewrite Tr. unfold foot. rewrite L, Ri. apply rx_observable. destruct s; cbn; lia. }
    split; [exact C|].
    destruct (C164_replay hx_pin hx_moving both_inverse rx_log "read" use_imu rx_qds [0; 1] h both_inverse_ok Rh St Z (fun t _ => C t)) as (l & El & Fl).
    destruct l as [|h1 [|h2 [|h3 l]]]; cbn [follows_log] in Fl; try tauto. exists h1, h2. split; [exact El|].
    assert (Car : forall t s, carries rx_log t s -> (s = Left <-> 1 / 2 < 1 - t)).
    { intros t s (pl & pr & (a & b & c & d & -> & A1 & A2 & A3 & A4) & (a' & b' & c' & d' & -> & A1' & A2' & A3' & A4') & Hs). cbn in *. rewrite Hs. injection A1 as <-. injection A2 as <-. injection A3 as <-. injection A4 as <-.
      injection A1' as <-. injection A2' as <-. injection A3' as <-. injection A4' as <-. split; intros; lra. }
    destruct Fl as (J1 & C1 & _ & _ & _ & _ & _ & _ & J2 & C2 & _). split; [apply (Car _ _ C1); lra|].
    split. { destruct (hr_side h2) eqn:Es; [|reflexivity]. pose proof (proj1 (Car _ _ C2) eq_refl). lra. }
    apply J2; [|reflexivity]. split; [|discriminate].
    cbn [replay] in El. destruct (read_from_histories hx_pin both_inverse h rx_log 0 "read" use_imu (rx_qds 0)) as [a1| |] eqn:R1; try discriminate. cbn [obind] in El.
    destruct (read_from_histories hx_pin both_inverse a1 rx_log 1 "read" use_imu (rx_qds 1)) as [a2| |] eqn:R2; try discriminate. cbn [obind] in El. injection El as -> ->.
    destruct (read_spec hx_pin hx_moving both_inverse h rx_log 0 "read" use_imu (rx_qds 0) Rh (proj1 (C 0)) both_inverse_ok (proj2 (C 0))) as (b1 & R1' & Rb1 & (Mb1 & Lb & Rb & Tb) & _). rewrite R1 in R1'. injection R1' as <-.
    destruct (read_spec hx_pin hx_moving both_inverse h1 rx_log 1 "read" use_imu (rx_qds 1) Rb1) as (b2 & R2' & Rb2 & (Mb2 & _) & _).
    { destruct (C 1) as [X _]. unfold complete, actuated, has_joint in *. now rewrite Mb1. } { exact both_inverse_ok. } { destruct (C 1) as [_ X]. unfold well_posed, foot in *. now rewrite Mb1, Lb, Rb, Tb. }
    rewrite R2 in R2'. injection R2' as <-. unfold has_joint. rewrite Mb2, Mb1, M. cbn. tauto.
  - intros k [K1 K2]. cbn in K2. exists (Joint (nth (k - 6) rx_names ""%string) (7 + (k - 6)) 1 (6 + (k - 6)) 1). split; [|split; [|cbn; lia]].
    + right. apply in_map_iff. exists (k - 6)%nat. split; [reflexivity|]. apply in_seq. lia.
    + cbn [jt_name]. assert (X : forall i, (i < 20)%nat -> nth i rx_names ""%string <> "root_joint"%string). { intros i Hi. do 20 (destruct i as [|i]; [discriminate|]). lia. } apply X. lia.
Qed.
