(** Theorems about the trajectories of the walk pattern generator: C54, C55, C56, C57, C104, C105, C106. *)
From Coq Require Import Reals Lra Lia List ZArith Bool.
From Verif Require Import Base Linalg Angle Geom3 Tools_model Tools_spec Expression_model Expression_spec Problem_model Problem_spec
  Polynom_model Polynom_spec Integrator_model Integrator_spec Lipm_model Lipm_spec Lipm_proofs Lipm_props
  Spline_model Swing_model Geometry_model Geometry_spec Geometry_proofs Geometry_props Footsteps_model
  Wpg_model Wpg_spec Wpg_proofs Wpg_proofs2 Wpg_proofs3 Wpg_proofs4 Wpg_proofs5.
Import ListNotations.
Open Scope R_scope.

(** ** C54 *)

(** The search ends on every trajectory that has a part, in or out of order: no query is undefined because of it. *)
Theorem C54_terminates j t : j_parts j <> [] -> exists i p, nth_error (j_parts j) i = Some p /\
  get_part_t_start j t = Ok (pt_start p) /\ get_part_t_end j t = Ok (pt_end p) /\ get_support j t = Ok (transform_support (j_T j) (pt_support p)) /\
  remaining_supports j t = Ok (Z.of_nat (length (j_parts j)) - Z.of_nat i - 1)%Z /\ traj_support_is_both j t = Ok (is_both (pt_support p)).
Proof.
  intros N. destruct (find_index_ok (j_parts j) t N) as (i & E & Hi). destruct (nth_error_in_range _ _ Hi) as (p & Hp). exists i, p.
  assert (F : find_part j t = Ok p) by (unfold find_part; rewrite E; cbn [obind]; now apply at_index_ok).
  unfold get_part_t_start, get_part_t_end, get_support, remaining_supports, traj_support_is_both. rewrite F, E. cbn [obind]. auto 10.
Qed.
Print Assumptions C54_terminates.

(** Without parts every query throws. *)
Theorem C54_empty L j t n omega : j_parts j = [] ->
  get_part_t_start j t = Throw ERuntime /\ get_part_t_end j t = Throw ERuntime /\ get_support j t = Throw ERuntime /\
  get_next_support j t n = Throw ERuntime /\ get_prev_support j t n = (j, Throw ERuntime) /\ remaining_supports j t = Throw ERuntime /\
  get_p_world_CoM L j t = Throw ERuntime /\ get_v_world_CoM L j t = Throw ERuntime /\ get_a_world_CoM L j t = Throw ERuntime /\
  get_p_world_ZMP L j t omega = Throw ERuntime /\ get_p_world_DCM L j t omega = Throw ERuntime /\
  (forall sd, get_T_world_foot j sd t = Throw ERuntime /\ get_v_world_foot j sd t = Throw ERuntime).
Proof.
  intros E. unfold get_part_t_start, get_part_t_end, get_support, get_next_support, get_prev_support, remaining_supports, get_p_world_ZMP, get_p_world_DCM,
    get_p_world_CoM, get_v_world_CoM, get_a_world_CoM, com_value, get_T_world_foot, get_v_world_foot, find_part. rewrite E. cbn. auto 20.
Qed.
Print Assumptions C54_empty.

(** When the parts follow each other, every query at [t] uses the right part: one that contains [t] if there is one,
    else the first before the start and the last after the end. *)
Theorem C54_right_part L j a b t : timeline a (j_parts j) b -> exists i p, right_part (j_parts j) t i p /\
  (a <= t <= b -> pt_start p <= t <= pt_end p) /\ (t < a -> i = 0%nat) /\ (b < t -> S i = length (j_parts j)) /\
  get_part_t_start j t = Ok (pt_start p) /\ get_part_t_end j t = Ok (pt_end p) /\ get_support j t = Ok (transform_support (j_T j) (pt_support p)) /\
  remaining_supports j t = Ok (Z.of_nat (length (j_parts j)) - Z.of_nat i - 1)%Z /\
  traj_support_is_both j t = Ok (is_both (pt_support p)) /\ traj_support_side j t = support_side (pt_support p) /\
  (forall c, pt_com p = Some c ->
    get_p_world_CoM L j t = result_map (fun v => frame_act (j_T j) (V3 (fst v) (snd v) (j_com_z j))) (lt_value (l_mexp L) c t 0) /\
    get_v_world_CoM L j t = result_map (fun v => m3_vec (fr_R (j_T j)) (V3 (fst v) (snd v) 0)) (lt_value (l_mexp L) c t 1) /\
    get_a_world_CoM L j t = result_map (fun v => m3_vec (fr_R (j_T j)) (V3 (fst v) (snd v) 0)) (lt_value (l_mexp L) c t 2)) /\
  (forall n q, (0 <= n)%Z -> nth_error (j_parts j) (Nat.min (i + Z.to_nat n) (length (j_parts j) - 1)) = Some q ->
    get_next_support j t n = Ok (transform_support (j_T j) (pt_support q))).
Proof.
  intros H. destruct (find_part_right j a b t H) as (i & p & F & E & R). exists i, p. split; [exact R|].
  destruct (right_part_times _ _ _ _ _ _ H R) as (T1 & T2 & T3). split; [exact T1|]. split; [intros X; apply (T2 X)|]. split; [intros X; apply (T3 X)|].
  unfold get_part_t_start, get_part_t_end, get_support, remaining_supports, traj_support_is_both, traj_support_side, get_p_world_CoM, get_v_world_CoM,
    get_a_world_CoM, com_value, get_next_support. rewrite F, E. cbn [obind]. do 6 (split; [reflexivity|]). split.
  - intros c ->. repeat split; destruct lt_value; reflexivity.
  - intros n q Hn Hq. assert (Hi : (i < length (j_parts j))%nat) by (apply nth_error_Some; destruct R as [-> _]; discriminate). cbv zeta.
    destruct (Z.leb_spec (Z.of_nat (length (j_parts j))) (Z.of_nat i + n)).
    + replace (Nat.min _ _) with (length (j_parts j) - 1)%nat in Hq by lia. now rewrite (at_index_ok _ _ _ Hq).
    + replace (0 <=? Z.of_nat i + n)%Z with true by (symmetry; apply Z.leb_le; lia). cbn [guard].
      replace (Z.to_nat (Z.of_nat i + n)) with (Nat.min (i + Z.to_nat n) (length (j_parts j) - 1)) by lia. now rewrite (at_index_ok _ _ _ Hq).
Qed.
Print Assumptions C54_right_part.

(** Strictly inside a part, this part is used. *)
Theorem C54_inside j a b m q t : timeline a (j_parts j) b -> nth_error (j_parts j) m = Some q -> pt_start q < t < pt_end q ->
  get_part_t_start j t = Ok (pt_start q) /\ get_part_t_end j t = Ok (pt_end q) /\ get_support j t = Ok (transform_support (j_T j) (pt_support q)).
Proof.
  intros H Hq Ht. pose proof H as (N & C & F). assert (E : find_index (j_parts j) t = Ok m).
  { assert (Lm : (m < length (j_parts j))%nat) by (apply nth_error_Some; congruence). apply find_unique; [exact Lm| | |].
    - intros k p Hk Hp. split; [exact (proj1 (Forall_forall _ _) F p (nth_error_In _ _ Hp))|].
      pose proof (contiguous_later _ _ _ C F (m - k - 1) k p q Hp) as K. replace (k + S (m - k - 1))%nat with m in K by lia. specialize (K Hq). lra.
    - intros k p Hk Hp. pose proof (contiguous_later _ _ _ C F (k - m - 1) m q p Hq) as K. replace (m + S (k - m - 1))%nat with k in K by lia. specialize (K Hp). lra.
    - intros p Hp. replace p with q by congruence. lra. }
  unfold get_part_t_start, get_part_t_end, get_support, find_part. rewrite E. cbn [obind]. rewrite (at_index_ok _ _ _ Hq). auto.
Qed.
Print Assumptions C54_inside.

Definition ex_swing : cswing := CSwing (new_spline false) (new_spline false) (new_spline false).
Definition ex_foot (sd : side) (y : R) : footstep := create_footstep (Params 36 10 1 1 (1/10) (1/20) (1/10) (1/5) 0 0 0 0) sd (Frame m3_id (V3 0 y 0)).
Definition ex_sgl : support := new_support [ex_foot Left (1 / 10)].
Definition ex_dbl : support := new_support [ex_foot Left (1 / 10); ex_foot Right (- (1 / 10))].
(** Three parts: double support from 0 to 1, single from 1 to 2, double from 2 to 3. *)
Definition ex_traj : wtraj :=
  set_parts (new_wtraj 1 0 0 0) [Part 0 1 ex_dbl None ex_swing; Part 1 2 ex_sgl None ex_swing; Part 2 3 ex_dbl None ex_swing].
Example ex_traj_timeline : timeline 0 (j_parts ex_traj) 3.
Proof. split; [discriminate|]. split; [cbn; auto 10|]. repeat constructor; cbn; lra. Qed.
Example C54_example : timeline 0 (j_parts ex_traj) 3 /\ get_part_t_start ex_traj (3 / 2) = Ok 1 /\ get_part_t_start ex_traj (-1) = Ok 0 /\
  get_part_t_end ex_traj 7 = Ok 3.
Proof.
  split; [apply ex_traj_timeline|]. split; [|split].
  - apply (C54_inside ex_traj 0 3 1%nat _ (3 / 2) ex_traj_timeline eq_refl). cbn. lra.
  - unfold get_part_t_start, find_part, find_index, ex_traj. cbn [set_parts j_parts length search Nat.sub Nat.eqb Nat.div Nat.divmod Nat.add nth_error pt_start pt_end fst snd].
    destruct (Rlt_dec (-1) 1); [|lra]. reflexivity || (cbn; destruct (Rlt_dec (-1) 0); [reflexivity|lra]).
  - unfold get_part_t_end, find_part, find_index, ex_traj. cbn [set_parts j_parts length search Nat.sub Nat.eqb Nat.div Nat.divmod Nat.add nth_error pt_start pt_end fst snd].
    destruct (Rlt_dec 7 1); [lra|]. destruct (Rlt_dec 2 7); [|lra]. reflexivity.
Qed.

(** ** C55 *)

(** One part per support, in order, without gaps from the initial time to the end of the trajectory, each lasting what
    remains of its support, with the feet of this support. *)
Theorem C55_plan L g supports c t j ss : plan L g supports c t = Ok (j, ss) ->
  j_start j = t /\ contiguous t (j_parts j) (j_end j) /\ Forall2 (carries (w_base (g_params g))) supports (j_parts j).
Proof.
  intros E. destruct (plan_inv _ _ _ _ _ _ _ E) as (_ & j1 & Ec & Ef). destruct (planned_parts _ _ _ _ _ _ _ _ _ _ _ Ec Ef) as (A & _ & _ & _ & _ & _ & C & F).
  cbn in A. rewrite A in C. auto.
Qed.
Print Assumptions C55_plan.

Theorem C55_replan L g supports old t j ss : replan L g supports old t = Ok (j, ss) -> j_success j = true ->
  j_start j = t /\ contiguous t (j_parts j) (j_end j) /\ Forall2 (carries (w_base (g_params g))) supports (j_parts j).
Proof.
  intros E S. destruct (replan_inv _ _ _ _ _ _ _ E) as (_ & p & v & a & _ & _ & _ & b & j1 & Ec & Ef). destruct b.
  - destruct (planned_parts _ _ _ _ _ _ _ _ _ _ _ Ec Ef) as (A & _ & _ & _ & _ & _ & C & F). cbn in A. rewrite A in C. auto.
  - unfold trim_old_trajectory in Ef. bind Ef parts Ep. injection Ef as <-. discriminate S.
Qed.
Print Assumptions C55_replan.

(** No support is refused. *)
Theorem C55_no_support L g c old t : plan L g [] c t = Throw ERuntime /\ replan L g [] old t = Throw ERuntime.
Proof. split; reflexivity. Qed.
Print Assumptions C55_no_support.

(** ** C56 *)

(** Looking for the previous support overwrites the current part of the trajectory with the previous one: for parts that last
    more than 0.1 ms, the support returned is the one [n] parts before (the first one if there is none), and it takes the
    place of the part that contains [t]. *)
Theorem C56_prev_support_behaviour j a b t n : timeline a (j_parts j) b -> Forall (fun p => pt_start p + / 10000 < pt_end p) (j_parts j) ->
  exists i p q, right_part (j_parts j) t i p /\ nth_error (j_parts j) (i - Z.to_nat n) = Some q /\
    get_prev_support j t n = (set_parts j (replace (j_parts j) i q), Ok (transform_support (j_T j) (pt_support q))).
Proof. intros (N & C & _) F. exact (prev_support_spec j a b t n C F N). Qed.
Print Assumptions C56_prev_support_behaviour.

(** The supports of the trajectory are then different. *)
Theorem C56_getters_refuted : exists j a b t n, timeline a (j_parts j) b /\ a <= t <= b /\
  get_supports (fst (get_prev_support j t n)) <> get_supports j.
Proof.
  exists ex_traj, 0, 3, (3 / 2), 1%Z. split; [apply ex_traj_timeline|]. split; [lra|].
  assert (F : Forall (fun p => pt_start p + / 10000 < pt_end p) (j_parts ex_traj)) by (repeat constructor; cbn; lra).
  destruct (C56_prev_support_behaviour ex_traj 0 3 (3 / 2) 1 ex_traj_timeline F) as (i & p & q & (Hp & A & B) & Hq & E). rewrite E. cbn [fst].
  assert (i = 1%nat) as ->.
  { destruct i as [|[|[|i]]]; cbn in Hp; [|reflexivity| |destruct i; discriminate]; injection Hp as <-; cbn in A, B; exfalso.
    - destruct B as [B|B]; [discriminate|lra].
    - destruct A as [A|A]; [discriminate|lra]. }
  cbn in Hq. injection Hq as <-. unfold get_supports. cbn. intros X. injection X as X1. discriminate.
Qed.
Print Assumptions C56_getters_refuted.

(** Nothing changes when [n] is not positive, or in the first part. *)
Theorem C56_prev_support_partial j a b t n : timeline a (j_parts j) b -> Forall (fun p => pt_start p + / 10000 < pt_end p) (j_parts j) ->
  ((n <= 0)%Z \/ forall p, nth_error (j_parts j) 0 = Some p -> t < pt_end p) -> fst (get_prev_support j t n) = j.
Proof.
  intros H F D. destruct (C56_prev_support_behaviour j a b t n H F) as (i & p & q & (Hp & A & B) & Hq & E). rewrite E. cbn [fst].
  assert (K : (i - Z.to_nat n = i)%nat).
  { destruct D as [D|D]; [replace (Z.to_nat n) with 0%nat by lia; lia|]. destruct i as [|i]; [lia|]. exfalso.
    destruct A as [A|A]; [discriminate|]. destruct H as (N & C & G). assert (G' : Forall (fun p => pt_start p <= pt_end p) (j_parts j)) by exact G.
    destruct (j_parts j) as [|p0 r]; [congruence|]. specialize (D p0 eq_refl). pose proof (contiguous_later _ _ _ C G' i 0%nat p0 p eq_refl Hp). lra. }
  rewrite K in Hq. rewrite (replace_id _ _ _ Hq). now destruct j.
Qed.
Print Assumptions C56_prev_support_partial.

Example C56_example : timeline 0 (j_parts ex_traj) 3 /\ Forall (fun p => pt_start p + / 10000 < pt_end p) (j_parts ex_traj).
Proof. split; [apply ex_traj_timeline|]. repeat constructor; cbn; lra. Qed.

(** ** C57 *)

(** Asking for the velocity of a foot during a double support throws. *)
Theorem C57_foot_velocity_behaviour j a b m q t sd : timeline a (j_parts j) b -> nth_error (j_parts j) m = Some q -> pt_start q < t < pt_end q ->
  (length (u_footsteps (pt_support q)) = 2%nat -> get_v_world_foot j sd t = Throw ERuntime) /\
  (forall f, u_footsteps (pt_support q) = [f] -> f_side f = sd -> get_v_world_foot j sd t = Ok (V3 0 0 0)) /\
  (forall f, u_footsteps (pt_support q) = [f] -> f_side f <> sd ->
     get_v_world_foot j sd t = result_map (fun v => m3_vec (fr_R (j_T j)) v) (cswing_vel (pt_swing q) t)).
Proof.
  intros H Hq Ht. assert (E : find_part j t = Ok q).
  { pose proof H as (N & C & F). destruct (find_part_right j a b t H) as (i & p & E & _ & (Hp & A & B)). rewrite E. f_equal.
    destruct (lt_eq_lt_dec i m) as [[Lt|Eq]|Gt].
    - destruct B as [B|B]; [assert (m < length (j_parts j))%nat by (apply nth_error_Some; congruence); lia|].
      pose proof (contiguous_later _ _ _ C F (m - i - 1) i p q Hp) as K. replace (i + S (m - i - 1))%nat with m in K by lia. specialize (K Hq). lra.
    - congruence.
    - destruct A as [A|A]; [lia|]. pose proof (contiguous_later _ _ _ C F (i - m - 1) m q p Hq) as K. replace (m + S (i - m - 1))%nat with i in K by lia. specialize (K Hp). lra. }
  unfold get_v_world_foot. rewrite E. cbn [obind]. unfold support_side. split; [|split].
  - intros ->. reflexivity.
  - intros f -> <-. cbn. destruct (f_side f); reflexivity.
  - intros f -> Ns. cbn. destruct (f_side f), sd; try congruence; cbn; destruct (cswing_vel _ _); reflexivity.
Qed.
Print Assumptions C57_foot_velocity_behaviour.

Theorem C57_foot_velocity_refuted : exists j a b t sd, timeline a (j_parts j) b /\ a <= t <= b /\ get_v_world_foot j sd t = Throw ERuntime.
Proof.
  exists ex_traj, 0, 3, (1 / 2), Left. split; [apply ex_traj_timeline|]. split; [lra|].
  refine (proj1 (C57_foot_velocity_behaviour ex_traj 0 3 0%nat _ (1 / 2) Left ex_traj_timeline eq_refl _) eq_refl). cbn. lra.
Qed.
Print Assumptions C57_foot_velocity_refuted.

(** In a single support the velocity of the support foot is zero. *)
Theorem C57_foot_velocity_partial j a b m q t f : timeline a (j_parts j) b -> nth_error (j_parts j) m = Some q -> pt_start q < t < pt_end q ->
  u_footsteps (pt_support q) = [f] -> get_v_world_foot j (f_side f) t = Ok (V3 0 0 0).
Proof. intros H Hq Ht Hf. now apply (C57_foot_velocity_behaviour j a b m q t (f_side f) H Hq Ht) with (f := f). Qed.
Print Assumptions C57_foot_velocity_partial.

Example C57_example : get_v_world_foot ex_traj Left (3 / 2) = Ok (V3 0 0 0).
Proof. apply (C57_foot_velocity_partial ex_traj 0 3 1%nat _ (3 / 2) (ex_foot Left (1 / 10)) ex_traj_timeline eq_refl); [cbn; lra|reflexivity]. Qed.

(** ** C104 *)

Lemma frame_act_mul a b p : frame_act (frame_mul a b) p = frame_act a (frame_act b p).
Proof. unfold frame_act, frame_mul. cbn [fr_R fr_t]. rewrite m3_vec_mul, !m3_vec_add. apply V3_ext; m3; ring. Qed.
Lemma frame_mul_assoc a b c : frame_mul (frame_mul a b) c = frame_mul a (frame_mul b c).
Proof. unfold frame_mul. cbn [fr_R fr_t]. rewrite m3_mul_assoc, m3_vec_mul, m3_vec_add. f_equal. apply V3_ext; m3; ring. Qed.
Lemma transform_support_mul a b s : transform_support (frame_mul a b) s = transform_support a (transform_support b s).
Proof.
  unfold transform_support. cbn [u_footsteps u_t_start u_elapsed_ratio u_time_ratio u_target_world_dcm u_start u_end u_polygon]. rewrite map_map. f_equal.
  apply map_ext. intros f. cbn [f_width f_length f_side f_frame f_polygon]. now rewrite frame_mul_assoc.
Qed.

Ltac calls := repeat (match goal with
  | |- context [if ?b then _ else _] => destruct b; cbn [obind result_map]
  | |- context [match pt_com ?q with _ => _ end] => destruct (pt_com q); cbn [obind result_map]
  | |- context [obind ?o _] => lazymatch o with context [obind _ _] => fail | _ => destruct o; cbn [obind result_map] end
  | |- context [result_map _ ?o] => lazymatch o with context [obind _ _] => fail | _ => destruct o; cbn [obind result_map] end
  end); try reflexivity.

(** Transforming a trajectory moves all it says of the world: poses, positions, velocities, supports. The timing and what is
    known of the feet relatively to each other do not change. *)
Theorem C104_world L j T t n sd : let k := apply_transform j T in
  get_T_world_foot k sd t = result_map (frame_mul T) (get_T_world_foot j sd t) /\
  get_v_world_foot k sd t = result_map (m3_vec (fr_R T)) (get_v_world_foot j sd t) /\
  get_p_world_CoM L k t = result_map (frame_act T) (get_p_world_CoM L j t) /\
  get_v_world_CoM L k t = result_map (m3_vec (fr_R T)) (get_v_world_CoM L j t) /\
  get_a_world_CoM L k t = result_map (m3_vec (fr_R T)) (get_a_world_CoM L j t) /\
  get_j_world_CoM L k t = result_map (m3_vec (fr_R T)) (get_j_world_CoM L j t) /\
  get_R_world_trunk k t = result_map (m3_mul (fr_R T)) (get_R_world_trunk j t) /\
  get_support k t = result_map (transform_support T) (get_support j t) /\
  get_next_support k t n = result_map (transform_support T) (get_next_support j t n) /\
  get_supports k = map (transform_support T) (get_supports j) /\
  get_part_t_start k t = get_part_t_start j t /\ get_part_t_end k t = get_part_t_end j t /\ is_flying k sd t = is_flying j sd t /\
  remaining_supports k t = remaining_supports j t.
Proof.
  intros k. unfold get_T_world_foot, get_v_world_foot, get_p_world_CoM, get_v_world_CoM, get_a_world_CoM, get_j_world_CoM, get_R_world_trunk, get_support,
    get_next_support, get_supports, get_part_t_start, get_part_t_end, is_flying, remaining_supports, com_value, find_part, k, apply_transform.
  assert (Fy : foot_yaw (set_T j (frame_mul T (j_T j))) sd = foot_yaw j sd) by (now destruct sd). rewrite Fy.
  cbn [set_T j_parts j_T j_com_z j_pitch j_roll j_trunk].
  split; [calls; now rewrite frame_mul_assoc|]. split; [calls; cbn [fr_R frame_mul]; rewrite ?m3_vec_mul; try reflexivity; f_equal; apply V3_ext; m3; ring|].
  split; [calls; now rewrite frame_act_mul|].
  do 3 (split; [calls; cbn [fr_R frame_mul]; now rewrite m3_vec_mul|]).
  split; [calls; cbn [fr_R frame_mul]; now rewrite m3_mul_assoc|].
  split; [calls; now rewrite transform_support_mul|]. split; [calls; cbv zeta; calls; now rewrite transform_support_mul|].
  split; [rewrite map_map; apply map_ext; intros; apply transform_support_mul|]. auto.
Qed.
Print Assumptions C104_world.

(** The position of the DCM and of the ZMP move too. *)
Theorem C104_dcm_zmp L j T t omega z : omega <> 0 ->
  (get_p_world_DCM L j t omega = Ok z -> rotation (fr_R T) -> exists p v, get_p_world_CoM L j t = Ok p /\ get_v_world_CoM L j t = Ok v /\
     let d := frame_act T (v3_add p (v3_scale (1 / omega) v)) in get_p_world_DCM L (apply_transform j T) t omega = Ok (vx d, vy d)) /\
  (get_p_world_ZMP L j t omega = Ok z -> rotation (fr_R T) -> exists p a, get_p_world_CoM L j t = Ok p /\ get_a_world_CoM L j t = Ok a /\
     let d := frame_act T (v3_sub p (v3_scale (1 / omega ^ 2) a)) in get_p_world_ZMP L (apply_transform j T) t omega = Ok (vx d, vy d)).
Proof.
  intros Ho. destruct (C104_world L j T t 0 Left) as (_ & _ & P & V & A & _). cbv zeta in P, V, A.
  split; intros E _; unfold get_p_world_DCM, get_p_world_ZMP in *; rewrite P, ?V, ?A; bind E p Ep; bind E v Ev; exists p, v; cbn [result_map obind];
    (split; [reflexivity|]); (split; [reflexivity|]); cbv zeta; f_equal; unfold frame_act; m3; f_equal; field; exact Ho.
Qed.
Print Assumptions C104_dcm_zmp.

(** The yaws move by the yaw of a displacement along the floor. *)
Theorem C104_yaw j x y a t sd v : (m00 (fr_R (j_T j)) <> 0 \/ m10 (fr_R (j_T j)) <> 0) ->
  (get_yaw_world_foot j sd t = Ok v -> exists w, get_yaw_world_foot (apply_transform j (planar x y a)) sd t = Ok w /\ same_angle w (a + v)) /\
  (get_yaw_world_trunk j t = Ok v -> exists w, get_yaw_world_trunk (apply_transform j (planar x y a)) t = Ok w /\ same_angle w (a + v)).
Proof.
  intros H. assert (Fy : foot_yaw (apply_transform j (planar x y a)) sd = foot_yaw j sd) by (now destruct sd).
  unfold get_yaw_world_foot, get_yaw_world_trunk. rewrite Fy. cbn [apply_transform set_T j_T j_trunk planar frame_mul fr_R].
  pose proof (frame_yaw_rot_z_mul a _ H) as S. split; intros E; bind E yw Ey; injection E as <-; cbn [obind]; eexists; (split; [reflexivity|]);
    destruct S as [k Hk]; exists k; rewrite Hk; ring.
Qed.
Print Assumptions C104_yaw.

(** What is seen from the support foot does not change when the displacement is along the floor. *)
Theorem C104_support L j x y a t f : get_T_support_world j t = Ok f ->
  (forall sd p, traj_support_side j t = Ok sd -> get_T_world_foot j sd t = Ok p -> m00 (fr_R p) <> 0 \/ m10 (fr_R p) <> 0) ->
  let k := apply_transform j (planar x y a) in
  get_p_support_CoM L k t = get_p_support_CoM L j t /\ get_v_support_CoM L k t = get_v_support_CoM L j t.
Proof.
  intros E H k. assert (S : traj_support_side k t = traj_support_side j t) by reflexivity.
  assert (F : exists sd p, traj_support_side j t = Ok sd /\ get_T_world_foot j sd t = Ok p /\ f = frame_inv (flatten_on_floor p)).
  { unfold get_T_support_world in E. unfold traj_support_side. bind E q Eq. bind E sd Es. bind E p Ep. injection E as <-. cbn [obind]. eauto. }
  destruct F as (sd & p & Es & Ep & Ef). pose proof (H sd p Es Ep) as Hp.
  destruct (C104_world L j (planar x y a) t 0 sd) as (W & _ & P & V & _). fold k in W, P, V. rewrite Ep in W. cbn [result_map] in W.
  assert (Ek : get_T_support_world k t = Ok (frame_inv (frame_mul (planar x y a) (flatten_on_floor p)))).
  { rewrite <- C43_equivariant by exact Hp. unfold get_T_support_world. unfold traj_support_side in Es. change (find_part k t) with (find_part j t).
    bind Es q Eq. cbn [obind]. rewrite Es. cbn [obind]. rewrite W. reflexivity. }
  assert (I : forall u, frame_act (frame_inv (frame_mul (planar x y a) (flatten_on_floor p))) (frame_act (planar x y a) u) = frame_act (frame_inv (flatten_on_floor p)) u /\
     m3_vec (fr_R (frame_inv (frame_mul (planar x y a) (flatten_on_floor p)))) (m3_vec (fr_R (planar x y a)) u) = m3_vec (fr_R (frame_inv (flatten_on_floor p))) u).
  { intros u. pose proof (sin2_cos2 a) as Q. unfold Rsqr in Q. unfold frame_act, frame_inv, frame_mul, planar, flatten_on_floor, rot_z. cbn [fr_R fr_t].
    generalize (cos (frame_yaw (fr_R p))), (sin (frame_yaw (fr_R p))). intros c s. generalize dependent (sin a). intros sa Q. generalize dependent (cos a). intros ca Q.
    assert (Q' : sa * sa = 1 - ca * ca) by lra. split; apply V3_ext; m3; ring [Q']. }
  unfold get_p_support_CoM, get_v_support_CoM. rewrite E, Ek, P, V, Ef. cbn [obind]. split.
  - destruct (get_p_world_CoM L j t); cbn [obind result_map]; try reflexivity. now rewrite (proj1 (I _)).
  - destruct (get_v_world_CoM L j t); cbn [obind result_map]; try reflexivity. now rewrite (proj2 (I _)).
Qed.
Print Assumptions C104_support.

(** But the DCM to reach at the end of a support, kept in the support, is not moved. *)
Theorem C104_target_dcm_behaviour j T t s : get_support j t = Ok s ->
  exists s', get_support (apply_transform j T) t = Ok s' /\ u_target_world_dcm s' = u_target_world_dcm s.
Proof. unfold get_support. intros E. change (find_part (apply_transform j T) t) with (find_part j t). bind E p Ep. injection E as <-. cbn [obind]. eexists. split; reflexivity. Qed.
Print Assumptions C104_target_dcm_behaviour.

Example C104_example : get_support ex_traj (3 / 2) = Ok (transform_support frame_id ex_sgl) /\
  get_support (apply_transform ex_traj (planar 1 2 0)) (3 / 2) = Ok (transform_support (planar 1 2 0) (transform_support frame_id ex_sgl)).
Proof.
  assert (E : get_support ex_traj (3 / 2) = Ok (transform_support frame_id ex_sgl)) by (apply (C54_inside ex_traj 0 3 1%nat _ (3 / 2) ex_traj_timeline eq_refl); cbn; lra).
  split; [exact E|]. destruct (C104_world (Libs (fun m => m) (fun _ => QRResult 0 (fun _ _ => 0) (fun _ _ => 0) (fun i => i)) (fun _ => QPResult true (fun _ => 0) (fun _ => false) []) (fun l => l))
    ex_traj (planar 1 2 0) (3 / 2) 0 Left) as (_ & _ & _ & _ & _ & _ & _ & G & _). cbv zeta in G. now rewrite G, E.
Qed.

(** ** C105 *)

Section WithLibraries.
Variable L : libs.

Lemma com_values j X Y a b t : timeline a (j_parts j) b -> glued L (j_parts j) X Y a b -> j_T j = frame_id ->
  get_p_world_CoM L j t = Ok (V3 (X 0%nat t) (Y 0%nat t) (j_com_z j)) /\ get_v_world_CoM L j t = Ok (V3 (X 1%nat t) (Y 1%nat t) 0) /\
  get_a_world_CoM L j t = Ok (V3 (X 2%nat t) (Y 2%nat t) 0).
Proof.
  intros H (V & _) HT. destruct (find_part_right j a b t H) as (i & p & E & _ & R).
  assert (C : forall d, (d < 3)%nat -> com_value L j t (Z.of_nat d) = Ok (X d t, Y d t)).
  { intros d Hd. unfold com_value. rewrite E. cbn [obind]. exact (V t i p d R Hd). }
  unfold get_p_world_CoM, get_v_world_CoM, get_a_world_CoM. change 0%Z with (Z.of_nat 0). change 1%Z with (Z.of_nat 1). change 2%Z with (Z.of_nat 2).
  rewrite (C 0%nat), (C 1%nat), (C 2%nat), HT by lia. cbn [obind fst snd]. unfold frame_act, frame_id. cbn [fr_R fr_t].
  rewrite !m3_vec_id. split; [|split; reflexivity]. f_equal. apply V3_ext; m3; ring.
Qed.

(** The CoM of a planned trajectory starts from the given position at rest, at the height of the parameters. Its position,
    velocity and acceleration are continuous at all times and derivatives of one another; it stays still before the start, and what
    it is at the end afterwards. *)
Theorem C105_plan g supports c t0 j ss : exp_correct (l_mexp L) -> g_omega_2 g <> 0 ->
  (forall s d, In s supports -> lasts (w_base (g_params g)) s d -> 0 < d) -> plan L g supports c t0 = Ok (j, ss) ->
  t0 < j_end j /\ exists X Y, motion 3 X t0 (j_end j) /\ motion 3 Y t0 (j_end j) /\
    (forall t, get_p_world_CoM L j t = Ok (V3 (X 0%nat t) (Y 0%nat t) (w_com_height (g_params g))) /\
               get_v_world_CoM L j t = Ok (V3 (X 1%nat t) (Y 1%nat t) 0) /\ get_a_world_CoM L j t = Ok (V3 (X 2%nat t) (Y 2%nat t) 0)) /\
    X 0%nat t0 = vx c /\ Y 0%nat t0 = vy c /\ X 1%nat t0 = 0 /\ Y 1%nat t0 = 0 /\ X 2%nat t0 = 0 /\ Y 2%nat t0 = 0.
Proof.
  intros He Ho Hd E. destruct (plan_inv _ _ _ _ _ _ _ E) as (N & j1 & Ec & Ef).
  destruct (planned_parts _ _ _ _ _ _ _ _ _ _ _ Ec Ef) as (A & B & _ & _ & _ & T & C & F). cbn in A, B, T.
  destruct (planned_motion L _ _ _ _ _ _ _ _ _ _ He Ho N ltac:(apply Forall_forall; intros s Hs d; now apply Hd) Ec Ef) as (P & Lt & X & Y & G & X0 & Y0 & X1 & Y1 & X2 & Y2 & _).
  cbn in X0, Y0, X1, Y1, X2, Y2. rewrite A in *. split; [exact Lt|]. exists X, Y. split; [apply G|]. split; [apply G|]. split; [|auto 10]. intros t. rewrite <- B.
  apply (com_values j X Y t0 (j_end j)); auto. split; [|split; [exact C|]].
  - intros Z. rewrite Z in F. inversion F. congruence.
  - eapply Forall_impl; [|exact P]. cbn. intros. lra.
Qed.

(** A replanned trajectory starts where the previous one is at that time, with the same velocity and acceleration. *)
Theorem C105_replan g supports old t0 j ss : exp_correct (l_mexp L) -> g_omega_2 g <> 0 ->
  (forall s d, In s supports -> lasts (w_base (g_params g)) s d -> 0 < d) -> replan L g supports old t0 = Ok (j, ss) -> j_success j = true ->
  t0 < j_end j /\ exists X Y, motion 3 X t0 (j_end j) /\ motion 3 Y t0 (j_end j) /\
    (forall t, get_p_world_CoM L j t = Ok (V3 (X 0%nat t) (Y 0%nat t) (w_com_height (g_params g))) /\
               get_v_world_CoM L j t = Ok (V3 (X 1%nat t) (Y 1%nat t) 0) /\ get_a_world_CoM L j t = Ok (V3 (X 2%nat t) (Y 2%nat t) 0)) /\
    exists p v a, get_p_world_CoM L old t0 = Ok p /\ get_v_world_CoM L old t0 = Ok v /\ get_a_world_CoM L old t0 = Ok a /\
      X 0%nat t0 = vx p /\ Y 0%nat t0 = vy p /\ X 1%nat t0 = vx v /\ Y 1%nat t0 = vy v /\ X 2%nat t0 = vx a /\ Y 2%nat t0 = vy a.
Proof.
  intros He Ho Hd E S. destruct (replan_inv _ _ _ _ _ _ _ E) as (N & p & v & a & Ep & Ev & Ea & b & j1 & Ec & Ef).
  destruct b; [|unfold trim_old_trajectory in Ef; bind Ef parts Et; injection Ef as <-; discriminate S].
  destruct (planned_parts _ _ _ _ _ _ _ _ _ _ _ Ec Ef) as (A & B & _ & _ & _ & T & C & F). cbn in A, B, T.
  destruct (planned_motion L _ _ _ _ _ _ _ _ _ _ He Ho N ltac:(apply Forall_forall; intros s Hs d; now apply Hd) Ec Ef) as (P & Lt & X & Y & G & X0 & Y0 & X1 & Y1 & X2 & Y2 & _).
  cbn in X0, Y0, X1, Y1, X2, Y2. rewrite A in *. split; [exact Lt|]. exists X, Y. split; [apply G|]. split; [apply G|]. split.
  - intros t. rewrite <- B. apply (com_values j X Y t0 (j_end j)); auto. split; [|split; [exact C|]].
    + intros Z. rewrite Z in F. inversion F. congruence.
    + eapply Forall_impl; [|exact P]. cbn. intros. lra.
  - exists p, v, a. auto 10.
Qed.

(** ** C106 *)

Lemma steps_remaining p s n : steps p s n <-> n = remaining_timesteps p s.
Proof.
  assert (U : forall n m, INR n <= INR m < INR n + 1 -> n = m).
  { clear. intros n m [A B]. apply INR_le in A. rewrite <- S_INR in B. apply INR_lt in B. lia. }
  assert (K : steps p s (remaining_timesteps p s)).
  { unfold steps, remaining_timesteps, default_steps, support_default_timesteps, is_both. set (N := if Nat.eqb _ 2 then _ else _). set (x := (1 - u_elapsed_ratio s) * IZR N).
    assert (TP : forall z, (0 <= z)%Z -> INR (Z.to_nat z) = IZR z) by (intros z Hz; rewrite INR_IZR_INZ, Z2Nat.id by exact Hz; reflexivity).
    rewrite TP by lia. unfold trunc. destruct (Rle_dec 0 x) as [Hx|Hx].
    - destruct (archimed x) as [A1 A2]. destruct (Rle_dec 1 x) as [H1|H1].
      + rewrite Rmax_right by exact H1. rewrite Z.max_r; [rewrite minus_IZR; lra|]. assert (1 < up x)%Z by (apply lt_IZR; lra). lia.
      + rewrite Rmax_left by lra. rewrite Z.max_l; [lra|]. assert (up x < 3)%Z by (apply lt_IZR; lra). lia.
    - rewrite Rmax_left by lra. rewrite Z.max_l; [lra|]. destruct (archimed (- x)) as [A1 A2]. assert (0 < up (- x))%Z by (apply lt_IZR; lra). lia. }
  split; [|intros ->; exact K]. intros H. unfold steps in *. set (r := Rmax _ _) in *.
  assert (INR n < INR (remaining_timesteps p s) + 1 /\ INR (remaining_timesteps p s) < INR n + 1) as [A B] by lra.
  rewrite <- S_INR in A, B. apply INR_lt in A, B. lia.
Qed.

Lemma started_polygon hull t s : snd (support_support_polygon hull (started t s)) = snd (support_support_polygon hull s).
Proof.
  unfold started. destruct (Req_EM_T _ _); [|reflexivity]. unfold support_support_polygon. cbn [Footsteps_model.set_t_start u_computed u_polygon u_footsteps].
  destruct (u_computed s); [reflexivity|]. destruct (polygons _) as [l pts]. now destruct (hull pts).
Qed.

(** In a planned trajectory with hard constraints, at every timestep of a part the ZMP is in the support polygon, at the
    distance of the margin at least; and at the end of the last support the robot stands still, its CoM above the support frame.
    The polygon is the one that the support gives (C48). *)
Theorem C106_zmp g supports c t0 j ss : exp_correct (l_mexp L) -> qr_correct (l_qr L) -> qp_correct (l_qp L) ->
  g_omega g <> 0 -> g_omega_2 g = g_omega g ^ 2 -> g_soft g = false ->
  (forall s d, In s supports -> lasts (w_base (g_params g)) s d -> 0 < d) -> plan L g supports c t0 = Ok (j, ss) ->
  forall m s q, nth_error supports m = Some s -> nth_error (j_parts j) m = Some q ->
  exists polygon, snd (support_support_polygon (l_hull L) s) = Ok polygon /\
    (forall n k, steps (w_base (g_params g)) s n -> (1 <= k <= n)%nat ->
      exists z, get_p_world_ZMP L j (pt_start q + INR k * ((pt_end q - pt_start q) / INR n)) (g_omega g) = Ok z /\
        inside polygon (w_zmp_margin (g_params g)) z) /\
    (u_end s = true -> exists f z, support_frame s = Ok f /\ get_p_world_CoM L j (pt_end q) = Ok (V3 (vx (fr_t f)) (vy (fr_t f)) z) /\
       get_v_world_CoM L j (pt_end q) = Ok v3_zero /\ get_a_world_CoM L j (pt_end q) = Ok v3_zero).
Proof.
  intros He Hqr Hqp Ho Eo Hsoft Hd E m s q Hs Hq. assert (Ho2 : g_omega_2 g <> 0) by (rewrite Eo; now apply pow_nonzero).
  destruct (plan_inv _ _ _ _ _ _ _ E) as (N & j1 & Ec & Ef).
  destruct (planned_parts _ _ _ _ _ _ _ _ _ _ _ Ec Ef) as (A & B & _ & _ & _ & T & C & F). cbn in A, B, T.
  destruct (planned_motion L _ _ _ _ _ _ _ _ _ _ He Ho2 N ltac:(apply Forall_forall; intros s0 Hs0 d; now apply Hd) Ec Ef) as (P & Lt & X & Y & G & _ & _ & _ & _ & _ & _ & SF).
  destruct (SF Hqr Hqp Hsoft m s q Hs Hq) as (s' & polygon & H1 & H2 & H3).
  assert (TL : timeline (j_start j) (j_parts j) (j_end j)).
  { split; [|split; [exact C|]]; [intros Z; rewrite Z in F; inversion F; congruence|]. eapply Forall_impl; [|exact P]. cbn. intros. lra. }
  exists polygon. split; [|split].
  - now rewrite <- (started_polygon _ (pt_start q)), H1.
  - intros n k Hn Hk. apply steps_remaining in Hn. subst n. specialize (H2 k Hk). unfold zmp_at, instant in H2. set (t := pt_start q + _) in *.
    destruct (com_values j X Y _ _ t TL G T) as (Ep & _ & Ea). unfold get_p_world_ZMP. rewrite Ep, Ea. cbn [obind vx vy]. eexists. split; [reflexivity|].
    rewrite <- Eo. replace (X 0%nat t - 1 / g_omega_2 g * X 2%nat t) with (X 0%nat t - X 2%nat t / g_omega_2 g) by (field; exact Ho2).
    replace (Y 0%nat t - 1 / g_omega_2 g * Y 2%nat t) with (Y 0%nat t - Y 2%nat t / g_omega_2 g) by (field; exact Ho2). exact H2.
  - intros U. destruct (H3 U) as (f & Hf & R0 & R1 & R2 & R3 & R4 & R5). exists f, (j_com_z j). split; [exact Hf|].
    destruct (com_values j X Y _ _ (pt_end q) TL G T) as (-> & -> & ->). rewrite R0, R1, R2, R3, R4, R5. auto.
Qed.
End WithLibraries.
Print Assumptions C105_plan.
Print Assumptions C105_replan.
Print Assumptions C106_zmp.
