(** C186: the rotors of the actuators in the mass matrix. *)
From Coq Require Import Reals List Arith Bool String Lia Lra.
From Verif Require Import Base Geom3 Linalg Robot_model Robot_spec Robot_proofs Robot_props Rotor_spec Rotor_proofs.
Import ListNotations.
Open Scope R_scope.

(** mass_matrix is the matrix of the bodies plus, for each degree of freedom, the inertia of its rotor seen through the gear. *)
Theorem C186_matrix pn r B : well_formed_robot r -> bodies pn r B ->
  exists M, mass_matrix pn r = Ok M /\ mrows M = m_nv (r_model r) /\ mcols M = m_nv (r_model r) /\ (forall i j, mat_at M i j = mat_at M j i) /\
    (forall i j, i <> j -> mat_at M i j = B i j) /\
    (forall k, mat_at M k k = B k k + vat (m_rotor (r_model r)) k * (vat (m_gear (r_model r)) k) ^ 2).
Proof.
  intros Hr HB. destruct (mass_entries pn r B Hr HB) as (M & E & H1 & H2 & H3). destruct HB as (_ & _ & HS & _).
  exists M. split; [exact E|]. split; [exact H1|]. split; [exact H2|]. split; [|split].
  - intros i j. rewrite !H3, (HS j i), (Nat.eqb_sym j i). destruct (Nat.eqb_spec i j) as [->|]; reflexivity.
  - intros i j NE. rewrite H3. apply Nat.eqb_neq in NE. rewrite NE. ring.
  - intros k. rewrite H3, Nat.eqb_refl. ring.
Qed.
Print Assumptions C186_matrix.

(** The energy: that of the bodies, plus that of the rotors, which turn at the speed of their joint times the ratio of the gear. So with rotors of nonnegative
    inertia the energy is at least that of the bodies: the matrix is positive definite when that of the bodies is. *)
Theorem C186_energy pn r B M v : well_formed_robot r -> bodies pn r B -> mass_matrix pn r = Ok M ->
  energy (m_nv (r_model r)) (mat_at M) v =
    energy (m_nv (r_model r)) B v + Rsum (m_nv (r_model r)) (fun k => vat (m_rotor (r_model r)) k * Rsqr (vat (m_gear (r_model r)) k * v k)) /\
  ((forall k, (k < m_nv (r_model r))%nat -> 0 <= vat (m_rotor (r_model r)) k) -> energy (m_nv (r_model r)) B v <= energy (m_nv (r_model r)) (mat_at M) v).
Proof.
  intros Hr HB E. destruct (mass_entries pn r B Hr HB) as (M' & E' & _ & _ & H3). rewrite E in E'. injection E' as <-.
  assert (Q : energy (m_nv (r_model r)) (mat_at M) v =
    energy (m_nv (r_model r)) B v + Rsum (m_nv (r_model r)) (fun k => vat (m_rotor (r_model r)) k * Rsqr (vat (m_gear (r_model r)) k * v k))).
  { transitivity (energy (m_nv (r_model r)) (fun i j => B i j + if Nat.eqb i j then vat (m_gear (r_model r)) i * vat (m_gear (r_model r)) i * vat (m_rotor (r_model r)) i else 0) v).
    - unfold energy. apply Rsum_ext. intros i _. apply Rsum_ext. intros j _. now rewrite H3.
    - rewrite (energy_split _ B (fun i => vat (m_gear (r_model r)) i * vat (m_gear (r_model r)) i * vat (m_rotor (r_model r)) i)). f_equal.
      apply Rsum_ext. intros k _. unfold Rsqr. ring. }
  split; [exact Q|]. intros Hp. rewrite Q.
  assert (0 <= Rsum (m_nv (r_model r)) (fun k => vat (m_rotor (r_model r)) k * Rsqr (vat (m_gear (r_model r)) k * v k))); [|lra].
  apply Rsum_nonneg. intros k Hk. apply Rmult_le_pos; [now apply Hp|apply Rle_0_sqr].
Qed.
Print Assumptions C186_energy.

(** Any history of set_rotor_inertia, set_gear_ratio and writes of the state and of the limits, on joints the robot has: the diagonal entry of a joint uses the
    last inertia and the last ratio that were given for it, the other entries are those of the bodies, and all the rest of the robot is what it would be without
    the calls on the rotors. *)
Theorem C186_history pn r l : well_formed_robot r -> (forall c, In c l -> has_joint r (rotor_call_name c)) ->
  exists r' r'', rotor_run r l = Ok r' /\ calls r (without_rotors l) = Ok r'' /\ well_formed_robot r' /\
    r_state r' = r_state r'' /\ r_seen r' = r_seen r'' /\
    m_lower (r_model r') = m_lower (r_model r'') /\ m_upper (r_model r') = m_upper (r_model r'') /\ m_velocity (r_model r') = m_velocity (r_model r'') /\
    m_effort (r_model r') = m_effort (r_model r'') /\ m_joints (r_model r') = m_joints (r_model r'') /\ m_frames (r_model r') = m_frames (r_model r'') /\
    m_root (r_model r') = m_root (r_model r'') /\ m_masses (r_model r') = m_masses (r_model r'') /\ m_nq (r_model r') = m_nq (r_model r'') /\
    m_nv (r_model r') = m_nv (r_model r'') /\
    forall B, bodies pn r' B -> exists M, mass_matrix pn r' = Ok M /\ (forall i j, i <> j -> mat_at M i j = B i j) /\
      (forall name k, has_joint r name -> get_joint_v_offset r name = Ok k ->
         mat_at M k k = B k k + last_inertia l name (vat (m_rotor (r_model r)) k) * (last_ratio l name (vat (m_gear (r_model r)) k)) ^ 2) /\
      (forall k, (forall name, has_joint r name -> get_joint_v_offset r name <> Ok k) ->
         mat_at M k k = B k k + vat (m_rotor (r_model r)) k * (vat (m_gear (r_model r)) k) ^ 2).
Proof.
  intros Hr Hl. destruct (run_rotors l r Hr Hl) as (r' & r'' & E' & E'' & W' & B' & J' & V & V'). exists r', r''.
  split; [exact E'|]. split; [exact E''|]. split; [exact W'|].
  assert (F : forall (A : Type) (f : robot -> A), f (bare r') = f (bare r'')) by (intros A f; now rewrite B').
  split; [exact (F _ r_state)|]. split; [exact (F _ r_seen)|].
  split; [exact (F _ (fun r => m_lower (r_model r)))|]. split; [exact (F _ (fun r => m_upper (r_model r)))|]. split; [exact (F _ (fun r => m_velocity (r_model r)))|].
  split; [exact (F _ (fun r => m_effort (r_model r)))|]. split; [exact (F _ (fun r => m_joints (r_model r)))|]. split; [exact (F _ (fun r => m_frames (r_model r)))|].
  split; [exact (F _ (fun r => m_root (r_model r)))|]. split; [exact (F _ (fun r => m_masses (r_model r)))|]. split; [exact (F _ (fun r => m_nq (r_model r)))|].
  split; [exact (F _ (fun r => m_nv (r_model r)))|].
  intros B HB. destruct (C186_matrix pn r' B W' HB) as (M & EM & _ & _ & _ & M1 & M2). exists M. split; [exact EM|]. split; [exact M1|]. split.
  - intros name k Hn Hk. destruct (V name k Hn Hk) as (V1 & V2). now rewrite M2, V1, V2.
  - intros k Hk. destruct (V' k Hk) as (V1 & V2). now rewrite M2, V1, V2.
Qed.
Print Assumptions C186_history.

(** The matrix of the bodies of the robot of the examples; its head has a rotor of inertia 1/10 behind a gear of ratio 10, then of inertia 3 behind a gear of ratio 2. *)
Definition ex_bodies (i j : nat) : R := if Nat.eqb i j then 2 else 1.
Lemma ex_bodies_ok r : m_nv (r_model r) = 7%nat -> bodies ex_pin r ex_bodies.
Proof.
  intros Hn. unfold bodies. cbv zeta. cbn [pn_crba ex_pin mrows mcols mat_at]. rewrite Hn. split; [reflexivity|]. split; [reflexivity|]. unfold ex_bodies. split.
  - intros i j. now rewrite (Nat.eqb_sym j i).
  - intros i j Hij. destruct (Nat.eqb_spec i j); [reflexivity|]. destruct (Nat.ltb_spec i j); [reflexivity|lia].
Qed.
Definition ex_rotor_calls : list rotor_call :=
  [RotorInertia "head" 5; OtherCall (SetJoint "head" 1); GearRatio "head" 2; RotorInertia "root_joint" 4; RotorInertia "head" 3].
Example C186_example : well_formed_robot ex_robot /\ (forall c, In c ex_rotor_calls -> has_joint ex_robot (rotor_call_name c)) /\ bodies ex_pin ex_robot ex_bodies /\
  (exists M, mass_matrix ex_pin ex_robot = Ok M /\ mat_at M 6 6 = 12) /\
  exists r' M, rotor_run ex_robot ex_rotor_calls = Ok r' /\ get_joint r' "head" = Ok 1 /\ mass_matrix ex_pin r' = Ok M /\ mat_at M 6 6 = 14 /\ mat_at M 0 0 = 402 /\ mat_at M 1 1 = 2.
Proof.
  split; [exact ex_well_formed|].
  assert (HL : forall c, In c ex_rotor_calls -> has_joint ex_robot (rotor_call_name c)).
  { cbn. intros c H. unfold has_joint. cbn. intuition (subst; cbn; auto). }
  split; [exact HL|]. split; [apply ex_bodies_ok; reflexivity|]. split.
  - destruct (C186_matrix ex_pin ex_robot ex_bodies ex_well_formed (ex_bodies_ok ex_robot eq_refl)) as (M & E & _ & _ & _ & _ & D). exists M. split; [exact E|].
    rewrite D. unfold ex_bodies. cbn. lra.
  - destruct (C186_history ex_pin ex_robot ex_rotor_calls ex_well_formed HL) as (r' & r'' & E1 & E2 & W & S1 & _ & _ & _ & _ & _ & S2 & _ & _ & _ & _ & S3 & H).
    cbn [without_rotors ex_rotor_calls calls] in E2. destruct (call ex_robot (SetJoint "head" 1)) as [r1| |] eqn:E3; cbn [obind] in E2; try discriminate. injection E2 as <-.
    assert (NV : m_nv (r_model r') = 7%nat) by (rewrite S3; cbn in E3; injection E3 as <-; reflexivity).
    destruct (H ex_bodies (ex_bodies_ok _ NV)) as (M & EM & _ & D1 & D2). exists r', M. split; [exact E1|]. split.
    { unfold get_joint, get_joint_offset, exist_joint_name, joint_of, find_joint. rewrite S2, S1. cbn in E3. injection E3 as <-. reflexivity. }
    split; [exact EM|]. split; [|split].
    + rewrite (D1 "head"%string 6%nat) by (cbn; auto). unfold ex_bodies. cbn. lra.
    + rewrite (D1 "root_joint"%string 0%nat) by (cbn; auto). unfold ex_bodies. cbn. lra.
    + rewrite (D2 1%nat). { unfold ex_bodies. cbn. lra. } intros name Hn. cbn in Hn. destruct Hn as [<-|[<-|[]]]; cbn; discriminate.
Qed.
