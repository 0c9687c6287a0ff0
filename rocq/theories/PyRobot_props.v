(** C174: the attribute [robot] of a solver, in Python. *)
From Coq Require Import Reals List Arith Bool String Lra Lia.
From Verif Require Import Base Geom3 Robot_model Robot_spec Robot_proofs Robot_props PyRobot_model PyRobot_spec.
Import ListNotations.
Open Scope R_scope.

(** The attribute of a kinematics solver is the robot. *)
Theorem C174_kinematics : is_the_robot kinematics_robot.
Proof.
  intros [r c] f. cbn. unfold kinematics_robot, execute. cbn [sh_robot sh_copies]. destruct (f r); cbn; [eexists; split; reflexivity|reflexivity|reflexivity].
Qed.
Print Assumptions C174_kinematics.

Lemma as_robot_last s : as_robot (Shared (sh_robot s) (sh_copies s ++ [(r_model (sh_robot s), r_state (sh_robot s))])) (List.length (sh_copies s)) =
  Some (sh_robot s).
Proof.
  unfold as_robot. cbn [sh_robot sh_copies]. rewrite nth_error_app2 by lia. rewrite Nat.sub_diag. cbn. destruct s as [[m st sn] c]. reflexivity.
Qed.

(** That of a dynamics solver throws as the robot would. When it returns, the model and the state of the robot are those it had, and what it knows of its
    frames is what the method computed. *)
Theorem C174_dynamics_behaviour : forall s f,
  match f (sh_robot s) with
  | Ok r => exists s', dynamics_robot s f = Ok s' /\ r_model (sh_robot s') = r_model (sh_robot s) /\ r_state (sh_robot s') = r_state (sh_robot s) /\
      r_seen (sh_robot s') = r_seen r
  | Throw e => dynamics_robot s f = Throw e
  | UB => dynamics_robot s f = UB
  end.
Proof.
  intros s f. unfold dynamics_robot. cbn [execute obind]. rewrite as_robot_last. cbn [obind sh_robot sh_copies].
  destruct (f (sh_robot s)) as [r|e|]; cbn [obind]; [|reflexivity|reflexivity]. eexists. split; [reflexivity|]. repeat split.
Qed.
Print Assumptions C174_dynamics_behaviour.

(** So it serves for the methods that keep the state, update_kinematics among them. *)
Theorem C174_dynamics_partial : forall s f, keeps_the_state f ->
  match f (sh_robot s) with
  | Ok r => exists s', dynamics_robot s f = Ok s' /\ sh_robot s' = r
  | Throw e => dynamics_robot s f = Throw e
  | UB => dynamics_robot s f = UB
  end.
Proof.
  intros s f K. pose proof (C174_dynamics_behaviour s f) as H. destruct (f (sh_robot s)) as [r|e|] eqn:E; [|exact H|exact H].
  destruct H as (s' & E' & A & B & C). exists s'. split; [exact E'|]. destruct (K _ _ E) as [K1 K2].
  destruct (sh_robot s') as [m st sn], r as [m1 st1 sn1]. cbn in *. congruence.
Qed.
Print Assumptions C174_dynamics_partial.

Example C174_update : keeps_the_state (fun r => Ok (update_kinematics r)).
Proof. intros r r' E. injection E as <-. split; reflexivity. Qed.

(** But not for those that change it: setting a joint through the attribute of a dynamics solver has no effect, for every robot, joint and value. *)
Theorem C174_set_joint_behaviour : forall s name x, well_formed_robot (sh_robot s) -> has_joint (sh_robot s) name ->
  exists s', dynamics_robot s (fun r => set_joint r name x) = Ok s' /\ sh_robot s' = sh_robot s.
Proof.
  intros s name x Hw Hj. destruct (C75_only_one_entry (sh_robot s) name x Hw Hj) as (r' & k & E & _).
  assert (Sn : r_seen r' = r_seen (sh_robot s)).
  { unfold set_joint in E. destruct (get_joint_offset _ _); cbn in E; try discriminate. destruct (vec_set _ _ _); cbn in E; try discriminate.
    injection E as <-. reflexivity. }
  pose proof (C174_dynamics_behaviour s (fun r => set_joint r name x)) as H. cbn beta in H. rewrite E in H. destruct H as (s' & E' & A & B & C).
  exists s'. split; [exact E'|]. rewrite Sn in C. destruct (sh_robot s') as [m st sn], (sh_robot s) as [m1 st1 sn1]. cbn in *. congruence.
Qed.
Print Assumptions C174_set_joint_behaviour.

(** So the attribute of a dynamics solver is not the robot. *)
Theorem C174_dynamics_refuted : ~ is_the_robot dynamics_robot.
Proof.
  intros H. specialize (H (Shared ex_robot []) (fun r => set_joint r "head" 1)). cbn beta in H. cbn [sh_robot] in H.
  assert (Hj : has_joint ex_robot "head") by (cbn; auto).
  destruct (C75_only_one_entry ex_robot "head" 1 ex_well_formed Hj) as (r' & k & E & Ek & V & _). rewrite E in H.
  destruct (C174_set_joint_behaviour (Shared ex_robot []) "head" 1 ex_well_formed Hj) as (s1 & E1 & S1).
  destruct H as (s2 & E2 & S2). rewrite E1 in E2. injection E2 as <-. cbn [sh_robot] in S1. rewrite S1 in S2. subst r'.
  cbn in Ek. injection Ek as <-. cbn in V. lra.
Qed.
Print Assumptions C174_dynamics_refuted.

(** Whatever is done with the copies, in any order, the model and the state of the robot are not changed. *)
Theorem C174_state_kept : forall l s s', Forall through_copies l -> execute_all s l = Ok s' ->
  r_model (sh_robot s') = r_model (sh_robot s) /\ r_state (sh_robot s') = r_state (sh_robot s).
Proof.
  induction l as [|c l IH]; intros s s' Hl E.
  - injection E as <-. split; reflexivity.
  - inversion Hl as [|? ? Hc Hl']. subst. cbn [execute_all] in E. destruct (execute s c) as [s1|e|] eqn:E1; cbn [obind] in E; try discriminate.
    destruct (IH s1 s' Hl' E) as [A B]. rewrite A, B. destruct c as [|f|i f]; cbn in Hc; [|contradiction|]; cbn [execute] in E1.
    + injection E1 as <-. split; reflexivity.
    + destruct (as_robot s i); [|discriminate]. destruct (f r); cbn [obind] in E1; try discriminate. injection E1 as <-. split; reflexivity.
Qed.
Print Assumptions C174_state_kept.

Lemma nth_replace {A : Type} (l : list A) i j x : nth_error (replace_nth i x l) j =
  if Nat.eqb i j then match nth_error l j with Some _ => Some x | None => None end else nth_error l j.
Proof.
  revert i j. induction l as [|y l IH]; intros i j.
  - destruct i, j; cbn; try reflexivity. now destruct (Nat.eqb i j).
  - destruct i, j; cbn; try reflexivity. apply IH.
Qed.

(** And a copy keeps the state it was read with, whatever is done with the robot and with the other copies. *)
Theorem C174_copy_kept : forall l s s' i m st, Forall (fun c => match c with OnCopy j _ => j <> i | _ => True end) l -> execute_all s l = Ok s' ->
  nth_error (sh_copies s) i = Some (m, st) -> exists r, as_robot s' i = Some r /\ r_model r = m /\ r_state r = st /\ r_seen r = r_seen (sh_robot s').
Proof.
  induction l as [|c l IH]; intros s s' i m st Hl E N.
  - injection E as <-. exists (Robot m st (r_seen (sh_robot s))). unfold as_robot. rewrite N. repeat split.
  - inversion Hl as [|? ? Hc Hl']. subst. cbn [execute_all] in E. destruct (execute s c) as [s1|e|] eqn:E1; cbn [obind] in E; try discriminate.
    apply (IH s1 s' i m st Hl' E). destruct c as [|f|j f]; cbn [execute] in E1.
    + injection E1 as <-. cbn [sh_copies]. rewrite nth_error_app1; [exact N|]. apply nth_error_Some. congruence.
    + destruct (f (sh_robot s)); cbn [obind] in E1; try discriminate. injection E1 as <-. exact N.
    + destruct (as_robot s j); [|discriminate]. destruct (f r); cbn [obind] in E1; try discriminate. injection E1 as <-. cbn [sh_copies].
      rewrite nth_replace. apply Nat.eqb_neq in Hc. rewrite Hc. exact N.
Qed.
Print Assumptions C174_copy_kept.

(** But the frames of the robot are those computed by the copy: after [r = solver.robot; r.set_joint(name, x); r.update_kinematics()], the robot still gives
    its own joints, and the placements of its frames for those of the copy. *)
Theorem C174_frames_behaviour : forall pn s name x f, well_formed_robot (sh_robot s) -> has_joint (sh_robot s) name ->
  (f < List.length (m_frames (r_model (sh_robot s))))%nat ->
  let i := List.length (sh_copies s) in
  exists s' r', execute_all s [Attribute; OnCopy i (fun r => set_joint r name x); OnCopy i (fun r => Ok (update_kinematics r))] = Ok s' /\
    set_joint (sh_robot s) name x = Ok r' /\
    (forall n, get_joint (sh_robot s') n = get_joint (sh_robot s) n) /\
    get_T_world_frame pn (sh_robot s') f = get_T_world_frame pn (update_kinematics r') f.
Proof.
  intros pn s name x f Hw Hj Hf i. destruct (C75_only_one_entry (sh_robot s) name x Hw Hj) as (r' & k & E & Ek & Vk & Vo & Dv & Da & M).
  eexists. exists r'. split; [|split; [exact E|]].
  - cbn [execute_all execute obind]. unfold i. rewrite as_robot_last. rewrite E. cbn [obind]. unfold as_robot at 1. cbn [sh_copies sh_robot].
    rewrite nth_replace, Nat.eqb_refl. rewrite nth_error_app2 by lia. rewrite Nat.sub_diag. cbn [nth_error obind]. reflexivity.
  - split; [intros n; reflexivity|]. cbn [sh_robot]. unfold get_T_world_frame, update_kinematics. cbn [r_model r_seen fst st_q r_state]. rewrite M. reflexivity.
Qed.
Print Assumptions C174_frames_behaviour.

(** In the example, the hinge turns for the robot although its joint did not move. *)
Theorem C174_frames_refuted : exists s s' T, execute_all s [Attribute; OnCopy 0 (fun r => set_joint r "head" 0); OnCopy 0 (fun r => Ok (update_kinematics r))] = Ok s' /\
  well_formed_robot (sh_robot s) /\ up_to_date (sh_robot s) /\ r_state (sh_robot s') = r_state (sh_robot s) /\
  get_T_world_frame ex_pin (sh_robot s) 2 = Ok T /\ get_T_world_frame ex_pin (sh_robot s') 2 <> Ok T.
Proof.
  assert (Hj : has_joint ex_robot "head") by (cbn; auto). assert (Hf : (2 < List.length (m_frames (r_model (sh_robot (Shared ex_robot [])))))%nat) by (cbn; lia).
  destruct (C174_frames_behaviour ex_pin (Shared ex_robot []) "head" 0 2 ex_well_formed Hj Hf) as (s' & r' & E & Er & _ & F).
  exists (Shared ex_robot []), s'. eexists. split; [exact E|]. split; [exact ex_well_formed|]. split; [reflexivity|]. split.
  - apply (C174_state_kept _ _ _ ltac:(repeat constructor) E).
  - split; [unfold get_T_world_frame; reflexivity|]. rewrite F. cbn in Er. injection Er as <-. unfold get_T_world_frame, guard. cbn [r_model set_q set_state ex_robot ex_model m_frames List.length Nat.ltb Nat.leb update_kinematics].
    intros H. apply (f_equal (fun o => match o with Ok T => m10 (fr_R T) | _ => 0 end)) in H.
    assert (P : 0 < sin (1 / 2)) by (apply sin_gt_0; [lra|]; pose proof PI2_1; lra).
    cbn in H. rewrite sin_0 in H. lra.
Qed.
Print Assumptions C174_frames_refuted.
