(** Rotors. *)
From Coq Require Import Reals List Arith Bool String Lia Lra.
From Verif Require Import Base Geom3 Robot_model Robot_spec Linalg Robot_proofs Rotor_spec.
Import ListNotations.
Open Scope R_scope.

(** A robot without its rotors. *)
Definition bare (r : robot) : robot :=
  let m := r_model r in
  Robot (RModel (m_nq m) (m_nv m) (m_joints m) (m_frames m) (m_root m) (m_lower m) (m_upper m) (m_velocity m) (m_effort m) (zeros 0) (zeros 0) (m_masses m))
    (r_state r) (r_seen r).
Definition bare_outcome (o : outcome robot) : outcome robot := match o with Ok r => Ok (bare r) | Throw e => Throw e | UB => UB end.

Lemma bare_call r o : call (bare r) o = bare_outcome (call r o).
Proof.
  destruct o; cbn [call]; unfold set_joint, set_joint_velocity, set_joint_acceleration, set_joint_limits, set_velocity_limit, set_torque_limit;
    change (get_joint_offset (bare r)) with (get_joint_offset r); change (get_joint_v_offset (bare r)) with (get_joint_v_offset r);
    match goal with |- context [obind ?x _] => destruct x; cbn [obind]; try reflexivity end;
    cbn [bare r_state r_model st_q st_qd st_qdd m_lower m_upper m_velocity m_effort]; unfold vec_set, guard;
    repeat match goal with |- context [Nat.ltb ?a ?b] => destruct (Nat.ltb a b); cbn [obind]; try reflexivity end.
Qed.
Lemma call_rotors r o r' : call r o = Ok r' -> m_rotor (r_model r') = m_rotor (r_model r) /\ m_gear (r_model r') = m_gear (r_model r).
Proof.
  destruct o; cbn [call]; unfold set_joint, set_joint_velocity, set_joint_acceleration, set_joint_limits, set_velocity_limit, set_torque_limit;
    match goal with |- context [obind ?x _] => destruct x; cbn [obind]; try discriminate end; unfold vec_set, guard;
    repeat match goal with |- context [Nat.ltb ?a ?b] => destruct (Nat.ltb a b); cbn [obind]; try discriminate end; intros E; injection E as <-; split; reflexivity.
Qed.

(** One call on a rotor. *)
Lemma rotor_spec r n x : well_formed_robot r -> has_joint r n -> exists r' k,
  set_rotor_inertia r n x = Ok r' /\ well_formed_robot r' /\ bare r' = bare r /\ get_joint_v_offset r n = Ok k /\
  m_gear (r_model r') = m_gear (r_model r) /\ forall i, vat (m_rotor (r_model r')) i = if Nat.eqb i k then x else vat (m_rotor (r_model r)) i.
Proof.
  intros Hr Hn. destruct (offsets r n Hr Hn) as (j & _ & _ & _ & Ov & _ & Bv). unfold set_rotor_inertia. rewrite Ov. cbn [obind].
  pose proof Hr as ((_ & _ & _ & _ & _ & _ & _ & _ & Lr & Lg) & _). rewrite vec_set_ok by congruence. cbn [obind]. eexists. exists (jt_idx_v j). split; [reflexivity|].
  split; [|repeat split; reflexivity].
  unfold well_formed_robot, well_formed, set_model in *; cbn [r_model r_state st_q st_qd st_qdd vlen m_nq m_nv m_joints m_lower m_upper m_velocity m_effort m_rotor m_gear]; tauto.
Qed.
Lemma gear_spec r n x : well_formed_robot r -> has_joint r n -> exists r' k,
  set_gear_ratio r n x = Ok r' /\ well_formed_robot r' /\ bare r' = bare r /\ get_joint_v_offset r n = Ok k /\
  m_rotor (r_model r') = m_rotor (r_model r) /\ forall i, vat (m_gear (r_model r')) i = if Nat.eqb i k then x else vat (m_gear (r_model r)) i.
Proof.
  intros Hr Hn. destruct (offsets r n Hr Hn) as (j & _ & _ & _ & Ov & _ & Bv). unfold set_gear_ratio. rewrite Ov. cbn [obind].
  pose proof Hr as ((_ & _ & _ & _ & _ & _ & _ & _ & Lr & Lg) & _). rewrite vec_set_ok by congruence. cbn [obind]. eexists. exists (jt_idx_v j). split; [reflexivity|].
  split; [|repeat split; reflexivity].
  unfold well_formed_robot, well_formed, set_model in *; cbn [r_model r_state st_q st_qd st_qdd vlen m_nq m_nv m_joints m_lower m_upper m_velocity m_effort m_rotor m_gear]; tauto.
Qed.

Lemma bare_joints r r' : bare r' = bare r -> m_joints (r_model r') = m_joints (r_model r).
Proof. intros E. exact (f_equal (fun x => m_joints (r_model x)) E). Qed.
Lemma same_offset r r' n : m_joints (r_model r') = m_joints (r_model r) -> get_joint_v_offset r' n = get_joint_v_offset r n.
Proof. intros E. unfold get_joint_v_offset, joint_of, find_joint. now rewrite E. Qed.
Lemma offset_inj r n n' k : well_formed_robot r -> has_joint r n -> has_joint r n' -> get_joint_v_offset r n = Ok k -> get_joint_v_offset r n' = Ok k -> n = n'.
Proof.
  intros Hr Hn Hn' E E'. destruct (offsets r n Hr Hn) as (j & Hj & En & _ & Ov & _). destruct (offsets r n' Hr Hn') as (j' & Hj' & En' & _ & Ov' & _).
  destruct (String.eqb_spec n n') as [|NE]; [assumption|]. exfalso.
  destruct (offsets_differ r j j' Hr Hj Hj') as (_ & D); [congruence|]. rewrite E in Ov. rewrite E' in Ov'. congruence.
Qed.

Lemma run_rotors l : forall r, well_formed_robot r -> (forall c, In c l -> has_joint r (rotor_call_name c)) ->
  exists r' r'', rotor_run r l = Ok r' /\ calls r (without_rotors l) = Ok r'' /\ well_formed_robot r' /\ bare r' = bare r'' /\
    m_joints (r_model r') = m_joints (r_model r) /\
    (forall name k, has_joint r name -> get_joint_v_offset r name = Ok k ->
       vat (m_rotor (r_model r')) k = last_inertia l name (vat (m_rotor (r_model r)) k) /\
       vat (m_gear (r_model r')) k = last_ratio l name (vat (m_gear (r_model r)) k)) /\
    (forall k, (forall name, has_joint r name -> get_joint_v_offset r name <> Ok k) ->
       vat (m_rotor (r_model r')) k = vat (m_rotor (r_model r)) k /\ vat (m_gear (r_model r')) k = vat (m_gear (r_model r)) k).
Proof.
  induction l as [|c l IH]; intros r Hr Hl.
  - exists r, r. cbn. auto 10.
  - assert (Hc : has_joint r (rotor_call_name c)) by (apply Hl; now left).
    assert (BC : forall r1 r2 o, bare r1 = bare r2 -> forall x, calls r2 o = Ok x -> exists y, calls r1 o = Ok y /\ bare y = bare x).
    { intros r1 r2 o. revert r1 r2. induction o as [|o l0 IHo]; intros r1 r2 B x E; cbn [calls] in *; [injection E as <-; eauto|].
      pose proof (bare_call r1 o) as X1. pose proof (bare_call r2 o) as X2. rewrite B, X2 in X1.
      destruct (call r2 o) as [z| |]; cbn [obind] in E; try discriminate. destruct (call r1 o) as [y| |]; try discriminate. cbn [bare_outcome] in X1. pose proof (f_equal (fun o => match o with Ok r => r | _ => z end) X1) as X3. cbv beta iota in X3.
      cbn [obind]. apply (IHo y z); [|exact E]. now symmetry. }
    destruct c as [n x|n x|o]; cbn [rotor_call_name] in Hc; cbn [rotor_run rotor_do without_rotors last_inertia last_ratio].
    + destruct (rotor_spec r n x Hr Hc) as (r1 & k0 & E1 & W1 & B1 & O1 & G1 & R1). pose proof (bare_joints _ _ B1) as J1.
      destruct (IH r1 W1) as (r' & r'' & E' & E'' & W' & B' & J' & V & V'). { intros c Hc'. unfold has_joint. rewrite J1. apply Hl. now right. }
      destruct (BC r r1 (without_rotors l) (eq_sym B1) r'' E'') as (y & Ey & By).
      exists r', y. rewrite E1. cbn [obind]. split; [exact E'|]. split; [exact Ey|]. split; [exact W'|]. split; [congruence|]. split; [congruence|]. split.
      * intros name k Hn Hk. destruct (V name k) as (V1 & V2). { unfold has_joint. now rewrite J1. } { now rewrite (same_offset r r1). }
        rewrite V1, V2, R1, G1. split; [|reflexivity]. f_equal. destruct (Nat.eqb_spec k k0) as [->|NE]; destruct (String.eqb_spec n name) as [->|NN]; auto; exfalso.
        -- apply NN. now apply (offset_inj r n name k0).
        -- congruence.
      * intros k Hk. destruct (V' k) as (V1 & V2). { intros name Hn. rewrite (same_offset r r1) by assumption. apply Hk. unfold has_joint in *. now rewrite J1 in Hn. }
        rewrite V1, V2, R1, G1. split; [|reflexivity]. destruct (Nat.eqb_spec k k0) as [->|]; [|reflexivity]. exfalso. exact (Hk n Hc O1).
    + destruct (gear_spec r n x Hr Hc) as (r1 & k0 & E1 & W1 & B1 & O1 & G1 & R1). pose proof (bare_joints _ _ B1) as J1.
      destruct (IH r1 W1) as (r' & r'' & E' & E'' & W' & B' & J' & V & V'). { intros c Hc'. unfold has_joint. rewrite J1. apply Hl. now right. }
      destruct (BC r r1 (without_rotors l) (eq_sym B1) r'' E'') as (y & Ey & By).
      exists r', y. rewrite E1. cbn [obind]. split; [exact E'|]. split; [exact Ey|]. split; [exact W'|]. split; [congruence|]. split; [congruence|]. split.
      * intros name k Hn Hk. destruct (V name k) as (V1 & V2). { unfold has_joint. now rewrite J1. } { now rewrite (same_offset r r1). }
        rewrite V1, V2, R1, G1. split; [reflexivity|]. f_equal. destruct (Nat.eqb_spec k k0) as [->|NE]; destruct (String.eqb_spec n name) as [->|NN]; auto; exfalso.
        -- apply NN. now apply (offset_inj r n name k0).
        -- congruence.
      * intros k Hk. destruct (V' k) as (V1 & V2). { intros name Hn. rewrite (same_offset r r1) by assumption. apply Hk. unfold has_joint in *. now rewrite J1 in Hn. }
        rewrite V1, V2, R1, G1. split; [reflexivity|]. destruct (Nat.eqb_spec k k0) as [->|]; [|reflexivity]. exfalso. exact (Hk n Hc O1).
    + destruct (call_spec r o Hr Hc) as (r1 & E1 & W1 & J1 & _). destruct (call_rotors r o r1 E1) as (R1 & G1).
      destruct (IH r1 W1) as (r' & r'' & E' & E'' & W' & B' & J' & V & V'). { intros c Hc'. unfold has_joint. rewrite J1. apply Hl. now right. }
      exists r', r''. rewrite E1. cbn [obind calls]. rewrite E1. cbn [obind]. split; [exact E'|]. split; [exact E''|]. split; [exact W'|]. split; [exact B'|].
      split; [congruence|]. rewrite R1, G1 in *. split.
      * intros name k Hn Hk. apply V; [unfold has_joint; now rewrite J1|now rewrite (same_offset r r1)].
      * intros k Hk. apply V'. intros name Hn. rewrite (same_offset r r1) by assumption. apply Hk. unfold has_joint in *. now rewrite J1 in Hn.
Qed.

(** The mass matrix. *)
Lemma mass_entries pn r B : well_formed_robot r -> bodies pn r B -> exists M, mass_matrix pn r = Ok M /\ mrows M = m_nv (r_model r) /\ mcols M = m_nv (r_model r) /\
  forall i j, mat_at M i j = B i j + (if Nat.eqb i j then vat (m_gear (r_model r)) i * vat (m_gear (r_model r)) i * vat (m_rotor (r_model r)) i else 0).
Proof.
  intros Hr (H1 & H2 & H3 & H4). pose proof Hr as ((_ & _ & _ & _ & _ & _ & _ & _ & Lr & Lg) & _). unfold mass_matrix, guard.
  rewrite H1, H2, Lr, Lg, Nat.eqb_refl, Nat.leb_refl. cbn [andb]. eexists. split; [reflexivity|]. split; [reflexivity|]. split; [reflexivity|].
  intros i j. cbn [mat_at]. f_equal. destruct (Nat.ltb_spec j i).
  - rewrite H4 by lia. apply H3.
  - apply H4. lia.
Qed.
Lemma energy_split n B (d : nat -> R) v : energy n (fun i j => B i j + if Nat.eqb i j then d i else 0) v = energy n B v + Rsum n (fun k => d k * (v k * v k)).
Proof.
  unfold energy. assert (S1 : forall i, (i < n)%nat -> Rsum n (fun j => v i * (B i j + (if Nat.eqb i j then d i else 0)) * v j) =
    Rsum n (fun j => v i * B i j * v j) + d i * (v i * v i)).
  { intros i Hi. rewrite (Rsum_ext n _ (fun j => v i * B i j * v j + (if Nat.eqb j i then d i * (v i * v i) else 0))).
    - rewrite Rsum_plus. f_equal. rewrite (Rsum_delta n i) by (auto; intros k _ NE; apply Nat.eqb_neq in NE; now rewrite NE). now rewrite Nat.eqb_refl.
    - intros j Hj. rewrite (Nat.eqb_sym j i). destruct (Nat.eqb_spec i j) as [->|]; lra. }
  rewrite (Rsum_ext n _ (fun i => Rsum n (fun j => v i * B i j * v j) + d i * (v i * v i))) by exact S1. apply Rsum_plus.
Qed.
