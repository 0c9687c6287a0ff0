From Coq Require Import Reals List ZArith Bool String Lra Lia.
From Verif Require Import Base Linalg Geom3 Tools_model Geometry_model Expression_model Problem_model Polynom_model Robot_model Robot_spec Robot_proofs KinTasks_model
  Kin_model Kin_spec Kin_proofs Kin_proofs6 Kin_proofs7 DynTasks_model Dyn_model Dyn_spec Dyn_proofs3 Tasks_spec Tasks_proofs.
Import ListNotations.
Open Scope R_scope.

Lemma masked_residual m J rhs error derror e (x : nat -> R) k : masked_equation m J rhs error derror = Ok e -> mrows J = 3%nat -> (k < mrows (de_A e))%nat ->
  Rsum (mcols (de_A e)) (fun j => mat_at (de_A e) k j * x j) - vat (de_b e) k = v3_dot (mask_axis m (row3 (m_R_local m)) k) (v3_sub (apply3 J x) rhs) /\
  vat (de_error e) k = v3_dot (mask_axis m (row3 (m_R_local m)) k) error /\ vat (de_derror e) k = v3_dot (mask_axis m (row3 (m_R_local m)) k) derror.
Proof.
  intros H HJ Hk. unfold masked_equation in H. bind H A EA. bind H b Eb. bind H er Ee. bind H de Ed. injection H as <-. cbn [de_A de_b de_error de_derror] in *.
  destruct (mask_size _ _ _ EA) as [R C]. rewrite R in Hk. rewrite (mask_row _ _ _ _ x EA HJ Hk), (mask_v_entry _ _ _ _ Eb Hk), (mask_v_entry _ _ _ _ Ee Hk), (mask_v_entry _ _ _ _ Ed Hk).
  split; [|auto]. unfold v3_dot, v3_sub. cbn. ring.
Qed.

Lemma masked_size m J rhs error derror e : masked_equation m J rhs error derror = Ok e -> mrows (de_A e) = List.length (m_indices m).
Proof. intros H. unfold masked_equation in H. bind H A EA. bind H b Eb. bind H er Ee. bind H de Ed. injection H as <-. apply (mask_size _ _ _ EA). Qed.

(** The axes of a mask only depend on the matrix of the local axes through the indices below 3. *)
Lemma mask_axis_local m a k J A : apply_mask (with_local m (m3_t a)) J = Ok A -> mrows J = 3%nat -> (k < List.length (m_indices m))%nat ->
  mask_axis (with_local m (m3_t a)) (row3 (m_R_local (with_local m (m3_t a)))) k = mask_axis m (frame_axis a) k.
Proof.
  intros H HJ Hk. destruct (mask_entry _ _ _ k 0 H HJ Hk) as [L _]. unfold mask_axis. cbn [with_local m_frame m_indices m_R_local m_R_custom] in *. destruct (m_frame m); auto.
  apply row3_of3. exact L.
Qed.

Lemma dot_neg a u : v3_dot a (v3_scale (-1) u) = - v3_dot a u.
Proof. unfold v3_dot, v3_scale. cbn. ring. Qed.

(** error'' + kd error' + kp error, from the accelerations. *)
Lemma second_order_residual kp kd (Jx bias x dx ddx p v : vec3) :
  v3_sub Jx (v3_sub (desired kp kd (v3_sub x p) (v3_sub dx v) ddx) bias) =
  v3_scale (-1) (second_order kp (get_kd kp kd) (v3_sub x p) (v3_sub dx v) (v3_sub ddx (v3_add Jx bias))).
Proof. apply V3_ext; unfold desired, second_order, v3_sub, v3_add, v3_scale; cbn; ring. Qed.

Section WithRobot.
Variable pn : pin.

Lemma position_residual N r kp kd f x dx ddx m e q qd t (qdd : vec) target dtarget : N = m_nv (r_model r) ->
  position_dynamics pn N r kp kd f x dx ddx m = Ok e -> in_motion r q qd t qdd -> frame_contract pn (r_model r) q qd t f ->
  twice target dtarget t ddx -> target t = x -> dtarget t = dx ->
  mrows (de_A e) = List.length (m_indices m) /\
  exists error derror dderror, (forall u, error u = v3_sub (target u) (fr_t (pn_frame pn (q u) f))) /\ twice error derror t dderror /\ forall k, (k < mrows (de_A e))%nat ->
    Rsum (mcols (de_A e)) (fun j => mat_at (de_A e) k j * vat qdd j) - vat (de_b e) k =
      - v3_dot (mask_axis m (frame_axis (fr_R (pn_frame pn (q t) f))) k) (second_order kp (get_kd kp kd) (error t) (derror t) dderror) /\
    vat (de_error e) k = v3_dot (mask_axis m (frame_axis (fr_R (pn_frame pn (q t) f))) k) (error t) /\
    vat (de_derror e) k = v3_dot (mask_axis m (frame_axis (fr_R (pn_frame pn (q t) f))) k) (derror t).
Proof.
  intros HN H Mo Fc Tt Ex Edx. split; [unfold position_dynamics in H; bind H J EJ; bind H dJ EdJ; bind H T ET; bind H v Ev; bind H bias Eb; exact (masked_size _ _ _ _ _ _ H)|]. pose proof (frame_twice pn r q qd t qdd f Mo Fc) as Tp. pose proof (twice_sub _ _ _ _ _ _ _ Tt Tp) as Te.
  exists (fun u => v3_sub (target u) (fr_t (pn_frame pn (q u) f))), (fun u => v3_sub (dtarget u) (rows3 (pn_jac pn (q u) f LocalWorldAligned) 0 (qd u))). eexists.
  split; [reflexivity|]. split; [exact Te|]. intros k Hk. destruct Mo as [Se Eq Ed [S1 S2] Sd]. destruct Fc as [C1 C2]. destruct (C1 t) as (J1 & J2 & _). pose proof C2 as (D1 & D2 & _).
  assert (FJ : frame_jacobian pn r f LocalWorldAligned = pn_jac pn (q t) f LocalWorldAligned) by (unfold frame_jacobian; rewrite Se, Eq; reflexivity).
  assert (FD : frame_jacobian_time_variation pn r f LocalWorldAligned = pn_djac pn (q t) (qd t) f LocalWorldAligned) by (unfold frame_jacobian_time_variation; rewrite Se, Eq, Ed; reflexivity).
  unfold position_dynamics in H. bind H J EJ. bind H dJ EdJ. bind H T ET. bind H v Ev. bind H bias Eb.
  assert (HT : T = pn_frame pn (q t) f) by (unfold get_T_world_frame in ET; apply guard_inv in ET; destruct ET as [_ ET]; rewrite Se in ET; cbn in ET; congruence).
  destruct (block_size _ _ _ _ _ _ EJ) as [RJ CJ].
  apply times3_inv in Ev. destruct Ev as (_ & _ & Ev). apply times3_inv in Eb. destruct Eb as (_ & _ & Eb).
  rewrite FJ in *. rewrite FD in *. rewrite (block_apply3 _ _ _ _ _ EJ) in Ev by congruence. rewrite (block_apply3 _ _ _ _ _ EdJ) in Eb by congruence.
  destruct (masked_residual _ _ _ _ _ _ (vat qdd) k H RJ Hk) as (E1 & E2 & E3). pose proof (masked_size _ _ _ _ _ _ H) as Sz. cbn [with_local m_indices] in Sz.
  assert (Ax : mask_axis (with_local m (m3_t (fr_R T))) (row3 (m_R_local (with_local m (m3_t (fr_R T))))) k = mask_axis m (frame_axis (fr_R (pn_frame pn (q t) f))) k).
  { unfold masked_equation in H. bind H A EA. rewrite <- HT. apply (mask_axis_local m (fr_R T) k J A EA RJ). rewrite <- Sz. exact Hk. }
  rewrite Ax in E1, E2, E3. rewrite (block_apply3 _ _ _ _ qdd EJ) in E1 by congruence. rewrite E1, E2, E3, Ev, Eb, HT, <- Ed, Ex, Edx.
  split; [|split; reflexivity]. rewrite second_order_residual, dot_neg. reflexivity.
Qed.

Lemma com_residual r kp kd x dx ddx m e q qd t (qdd : vec) target dtarget :
  com_dynamics pn r kp kd x dx ddx m = Ok e -> in_motion r q qd t qdd -> com_contract pn (r_model r) q qd t ->
  twice target dtarget t ddx -> target t = x -> dtarget t = dx ->
  mrows (de_A e) = List.length (m_indices m) /\
  exists error derror dderror, (forall u, error u = v3_sub (target u) (pn_com pn (q u))) /\ twice error derror t dderror /\ forall k, (k < mrows (de_A e))%nat ->
    Rsum (mcols (de_A e)) (fun j => mat_at (de_A e) k j * vat qdd j) - vat (de_b e) k =
      - v3_dot (mask_axis m (row3 (m_R_local m)) k) (second_order kp (get_kd kp kd) (error t) (derror t) dderror).
Proof.
  intros H Mo Fc Tt Ex Edx. split; [unfold com_dynamics in H; bind H v Ev; bind H bias Eb; exact (masked_size _ _ _ _ _ _ H)|]. pose proof (com_twice pn r q qd t qdd Mo Fc) as Tp. pose proof (twice_sub _ _ _ _ _ _ _ Tt Tp) as Te.
  exists (fun u => v3_sub (target u) (pn_com pn (q u))), (fun u => v3_sub (dtarget u) (rows3 (pn_comjac pn (q u)) 0 (qd u))). eexists.
  split; [reflexivity|]. split; [exact Te|]. intros k Hk. destruct Mo as [Se Eq Ed [S1 S2] Sd]. destruct Fc as [C1 C2]. destruct (C1 t) as (J1 & J2 & _). pose proof C2 as (D1 & D2 & _).
  assert (FJ : com_jacobian pn r = pn_comjac pn (q t)) by (unfold com_jacobian; rewrite Eq; reflexivity).
  assert (FD : com_jacobian_time_variation pn r = pn_dcomjac pn (q t) (qd t)) by (unfold com_jacobian_time_variation; rewrite Eq, Ed; reflexivity).
  unfold com_dynamics in H. bind H v Ev. bind H bias Eb. apply times3_inv in Ev. destruct Ev as (_ & _ & Ev). apply times3_inv in Eb. destruct Eb as (_ & _ & Eb).
  rewrite FJ in *. rewrite FD in *. destruct (masked_residual _ _ _ _ _ _ (vat qdd) k H J1 Hk) as (E1 & _). rewrite E1.
  assert (HC : com_world pn r = pn_com pn (q t)) by (unfold com_world; rewrite Se, Eq; reflexivity).
  rewrite HC, <- Ex, <- Edx. change (apply3 (pn_comjac pn (q t)) (vat qdd)) with (rows3 (pn_comjac pn (q t)) 0 qdd).
  rewrite Ev, Eb. change (apply3 (pn_comjac pn (q t)) (vat (st_qd (r_state r)))) with (rows3 (pn_comjac pn (q t)) 0 (st_qd (r_state r))).
  change (apply3 (pn_dcomjac pn (q t) (qd t)) (vat (st_qd (r_state r)))) with (rows3 (pn_dcomjac pn (q t) (qd t)) 0 (st_qd (r_state r))).
  rewrite <- Ed, second_order_residual, dot_neg. reflexivity.
Qed.

Lemma orientation_residual log3 N r kp kd f Rt w dw m e q qd t (qdd : vec) : N = m_nv (r_model r) ->
  orientation_dynamics pn log3 N r kp kd f Rt w dw m = Ok e -> in_motion r q qd t qdd -> frame_contract_world pn (r_model r) q qd t f ->
  mrows (de_A e) = List.length (m_indices m) /\
  exists omega domega, (forall u, m3_deriv (fun v => fr_R (pn_frame pn (q v) f)) u (m3_mul (skew (omega u)) (fr_R (pn_frame pn (q u) f)))) /\ v3_deriv omega t domega /\ forall k, (k < mrows (de_A e))%nat ->
    Rsum (mcols (de_A e)) (fun j => mat_at (de_A e) k j * vat qdd j) - vat (de_b e) k =
      v3_dot (mask_axis m (frame_axis Rt) k)
        (v3_sub domega (desired kp kd (log3 (m3_mul Rt (m3_t (fr_R (pn_frame pn (q t) f))))) (v3_sub w (omega t)) dw)).
Proof.
  intros HN H Mo Fc. split; [unfold orientation_dynamics in H; bind H T ET; bind H J EJ; bind H dJ EdJ; bind H v Ev; bind H bias Eb; exact (masked_size _ _ _ _ _ _ H)|]. pose proof (angular_deriv pn r q qd t qdd f Mo Fc) as Td.
  exists (fun u => rows3 (pn_jac pn (q u) f World) 3 (qd u)). eexists. split; [intros u; apply (proj1 Fc u)|]. split; [exact Td|]. intros k Hk.
  destruct Mo as [Se Eq Ed [S1 S2] Sd]. destruct Fc as [C1 C2]. destruct (C1 t) as (J1 & J2 & _). pose proof C2 as (D1 & D2 & _).
  assert (FJ : frame_jacobian pn r f World = pn_jac pn (q t) f World) by (unfold frame_jacobian; rewrite Se, Eq; reflexivity).
  assert (FD : frame_jacobian_time_variation pn r f World = pn_djac pn (q t) (qd t) f World) by (unfold frame_jacobian_time_variation; rewrite Se, Eq, Ed; reflexivity).
  unfold orientation_dynamics in H. bind H T ET. bind H J EJ. bind H dJ EdJ. bind H v Ev. bind H bias Eb.
  assert (HT : T = pn_frame pn (q t) f) by (unfold get_T_world_frame in ET; apply guard_inv in ET; destruct ET as [_ ET]; rewrite Se in ET; cbn in ET; congruence).
  destruct (block_size _ _ _ _ _ _ EJ) as [RJ CJ].
  apply times3_inv in Ev. destruct Ev as (_ & _ & Ev). apply times3_inv in Eb. destruct Eb as (_ & _ & Eb).
  rewrite FJ in *. rewrite FD in *. rewrite (block_apply3 _ _ _ _ _ EJ) in Ev by congruence. rewrite (block_apply3 _ _ _ _ _ EdJ) in Eb by congruence.
  destruct (masked_residual _ _ _ _ _ _ (vat qdd) k H RJ Hk) as (E1 & _). pose proof (masked_size _ _ _ _ _ _ H) as Sz. cbn [with_local m_indices] in Sz.
  assert (Ax : mask_axis (with_local m (m3_t Rt)) (row3 (m_R_local (with_local m (m3_t Rt)))) k = mask_axis m (frame_axis Rt) k).
  { unfold masked_equation in H. bind H A EA. apply (mask_axis_local m Rt k J A EA RJ). rewrite <- Sz. exact Hk. }
  rewrite Ax in E1. rewrite (block_apply3 _ _ _ _ qdd EJ) in E1 by congruence. rewrite E1, Ev, Eb, HT, <- Ed. f_equal. apply V3_ext; unfold v3_sub, v3_add; cbn; ring.
Qed.

End WithRobot.

(** ** Joints, gears, torques *)

Lemma joints_drows_spec N r kp kd : forall l rs, joints_drows N r kp kd l = Ok rs -> List.length rs = List.length l /\
  forall i name x v a, nth_error l i = Some (name, (x, v, a)) -> exists k q, get_joint_v_offset r name = Ok k /\ get_joint r name = Ok q /\ (k < N)%nat /\
    nth_error rs i = Some (k, (kp * (x - q) + get_kd kp kd * (v - vat (st_qd (r_state r)) k) + a, x - q, v - vat (st_qd (r_state r)) k)).
Proof.
  induction l as [|[n [[x v] a]] l IH]; intros rs H; cbn [joints_drows] in H.
  - injection H as <-. split; [reflexivity|]. intros [|i] ? ? ? ? X; discriminate.
  - bind H q Eq. bind H k Ek. bind H dq Ed. apply guard_inv in H. destruct H as [G H]. bind H rest Er. injection H as <-. destruct (IH _ eq_refl) as [L S].
    apply vec_get_spec in Ed. destruct Ed as [_ Ed]. split; [cbn; now rewrite L|]. intros [|i] name x0 v0 a0 X; cbn in X |- *.
    + injection X as <- <- <- <-. exists k, q. apply Nat.ltb_lt in G. rewrite <- Ed. auto.
    + exact (S i name x0 v0 a0 X).
Qed.

Lemma nth_map_default {A B} (f : A -> B) l i d d' : (i < List.length l)%nat -> nth i (map f l) d = f (nth i l d').
Proof. intros H. rewrite (nth_indep _ d (f d')) by now rewrite map_length. apply map_nth. Qed.

Lemma one_column N (k : nat) (x : nat -> R) : (k < N)%nat -> Rsum N (fun j => (if Nat.eqb j k then 1 else 0) * x j) = x k.
Proof.
  intros H. rewrite (Rsum_delta N k); [rewrite Nat.eqb_refl; ring|exact H|]. intros i _ Hi. apply Nat.eqb_neq in Hi. rewrite Hi. ring.
Qed.

Lemma joints_residual N r kp kd l e i name x v a (qdd : nat -> R) : joints_dynamics N r kp kd l = Ok e -> nth_error l i = Some (name, (x, v, a)) ->
  mrows (de_A e) = List.length l /\ exists k q, get_joint_v_offset r name = Ok k /\ get_joint r name = Ok q /\ (k < N)%nat /\
    Rsum (mcols (de_A e)) (fun j => mat_at (de_A e) i j * qdd j) - vat (de_b e) i = qdd k - (kp * (x - q) + get_kd kp kd * (v - vat (st_qd (r_state r)) k) + a).
Proof.
  intros H Hi. unfold joints_dynamics in H. bind H rs Er. injection H as <-. destruct (joints_drows_spec _ _ _ _ _ _ Er) as [L S]. destruct (S i name x v a Hi) as (k & q & Hk & Hq & Hlt & Hn).
  cbn [rows_equation de_A de_b mrows mcols mat_at vat]. rewrite map_length. split; [exact L|]. exists k, q. do 3 (split; [assumption|]).
  assert (Hl : (i < List.length rs)%nat) by (apply nth_error_Some; congruence).
  set (F := fun y : nat * (R * R * R) => ((fun j => if Nat.eqb j (fst y) then 1 else 0), snd y) : (nat -> R) * (R * R * R)).
  match goal with |- context [nth i (map _ rs) ?d] => rewrite (nth_map_default F rs i d (0%nat, (0, 0, 0)) Hl) end.
  rewrite (nth_error_nth rs i (0%nat, (0, 0, 0)) Hn). unfold F. cbn [fst snd]. rewrite one_column by exact Hlt. reflexivity.
Qed.

Lemma gear_dsources_spec N q qd l : forall row sq sd row' sq' sd' b, gear_dsources N q qd l row sq sd = Ok (row', sq', sd') ->
  (exists b', gear_sources N q l row b = Ok (row', b')) /\ sq' = sq + driven l (fun s => vat q (s + 1)%nat) /\ sd' = sd + driven l (vat qd).
Proof.
  induction l as [|[s ratio] l IH]; cbn [gear_dsources gear_sources driven]; intros row sq sd row' sq' sd' b H.
  - injection H as <- <- <-. split; [eexists; reflexivity|]. split; ring.
  - bind H x Ex. bind H y Ey. apply guard_inv in H. destruct H as [G H]. destruct (IH _ _ _ _ _ _ (b - x * ratio) H) as (A & B & C). cbn [obind].
    unfold guard. rewrite G. split; [exact A|]. apply vec_get_spec in Ex, Ey. destruct Ex as [_ ->], Ey as [_ ->]. rewrite B, C. split; ring.
Qed.

Lemma gear_drow_spec N q qd kp kd t l row b er de (x : nat -> R) : gear_drow N q qd kp kd t l = Ok (row, (b, er, de)) -> NoDup (map fst l) ->
  er = vat q (t + 1) - driven l (fun s => vat q (s + 1)%nat) /\ de = vat qd t - driven l (vat qd) /\ b = kp * er + get_kd kp kd * de /\
  Rsum N (fun j => row j * x j) = driven l x - (if existsb (Nat.eqb t) (map fst l) then 0 else x t).
Proof.
  unfold gear_drow. intros H ND. bind H a Ea. bind H c Ec. apply guard_inv in H. destruct H as [G H]. bind H s Es. destruct s as [[row' sq] sd]. injection H as <- <- <- <-.
  destruct (gear_dsources_spec _ _ _ _ _ _ _ _ _ _ a Es) as ((b' & Hb) & -> & ->).
  assert (HR : gear_row N q t l = Ok (row', b')) by (unfold gear_row, guard; rewrite G, Ea; exact Hb).
  destruct (gear_row_spec N q t l row' b' x HR ND) as (_ & _ & _ & _ & E). apply vec_get_spec in Ea, Ec. destruct Ea as [_ ->], Ec as [_ ->].
  split; [ring|]. split; [ring|]. split; [ring|exact E].
Qed.

Lemma gear_drows_spec N q qd kp kd : forall g rs, gear_drows N q qd kp kd g = Ok rs -> List.length rs = List.length g /\
  forall k t l, nth_error g k = Some (t, l) -> exists y, gear_drow N q qd kp kd t l = Ok y /\ nth_error rs k = Some y.
Proof.
  induction g as [|[t l] g IH]; cbn [gear_drows]; intros rs H.
  - injection H as <-. split; [reflexivity|]. intros [|k]; discriminate.
  - bind H x Ex. bind H rest Er. injection H as <-. destruct (IH _ eq_refl) as [L S]. split; [cbn; lia|]. intros [|k] t' l' Hk; cbn in Hk.
    + injection Hk as <- <-. exists x. auto.
    + exact (S k t' l' Hk).
Qed.

Lemma gear_residual N r kp kd g e i t l (x : nat -> R) : gear_dynamics N r kp kd g = Ok e -> nth_error g i = Some (t, l) -> NoDup (map fst l) ->
  mrows (de_A e) = List.length g /\
  Rsum (mcols (de_A e)) (fun j => mat_at (de_A e) i j * x j) - vat (de_b e) i =
    driven l x - (if existsb (Nat.eqb t) (map fst l) then 0 else x t) -
    (kp * (vat (st_q (r_state r)) (t + 1) - driven l (fun s => vat (st_q (r_state r)) (s + 1)%nat)) + get_kd kp kd * (vat (st_qd (r_state r)) t - driven l (vat (st_qd (r_state r))))).
Proof.
  intros H Hi ND. unfold gear_dynamics in H. bind H rs Er. injection H as <-. destruct (gear_drows_spec _ _ _ _ _ _ _ Er) as [L S]. split; [exact L|].
  destruct (S i t l Hi) as ([row [[b er] de]] & Hr & Hn). cbn [rows_equation de_A de_b mrows mcols mat_at vat].
  match goal with |- context [nth i rs ?d] => rewrite (nth_error_nth rs i d Hn) end. cbn [fst snd].
  destruct (gear_drow_spec _ _ _ _ _ _ _ _ _ _ _ x Hr ND) as (-> & -> & -> & ->). ring.
Qed.

Lemma torque_rows_spec N r : forall l rs, torque_rows N r l = Ok rs -> List.length rs = List.length l /\
  forall i name t, nth_error l i = Some (name, t) -> exists k q qd, get_joint_v_offset r name = Ok k /\ get_joint r name = Ok q /\ get_joint_velocity r name = Ok qd /\ (k < N)%nat /\
    nth_error rs i = Some ((fun j => if Nat.eqb j k then 1 else 0), (tt_torque t + tt_kp t * q - tt_kd t * qd, 0, 0)).
Proof.
  induction l as [|[n t] l IH]; intros rs H; cbn [torque_rows] in H.
  - injection H as <-. split; [reflexivity|]. intros [|i] ? ? X; discriminate.
  - bind H k Ek. apply guard_inv in H. destruct H as [G H]. bind H q Eq. bind H qd Ed. bind H rest Er. injection H as <-. destruct (IH _ eq_refl) as [L S].
    split; [cbn; now rewrite L|]. intros [|i] name t0 X; cbn in X |- *.
    + injection X as <- <-. exists k, q, qd. apply Nat.ltb_lt in G. auto 6.
    + exact (S i name t0 X).
Qed.

Lemma torque_residual N r l e i name t (tau : nat -> R) : torque_dynamics N r l = Ok e -> nth_error l i = Some (name, t) ->
  mrows (de_A e) = List.length l /\ exists k q qd, get_joint_v_offset r name = Ok k /\ get_joint r name = Ok q /\ get_joint_velocity r name = Ok qd /\ (k < N)%nat /\
    Rsum (mcols (de_A e)) (fun j => mat_at (de_A e) i j * tau j) - vat (de_b e) i = tau k - (tt_torque t + tt_kp t * q - tt_kd t * qd).
Proof.
  intros H Hi. unfold torque_dynamics in H. bind H rs Er. injection H as <-. destruct (torque_rows_spec _ _ _ _ Er) as [L S]. split; [exact L|].
  destruct (S i name t Hi) as (k & q & qd & Hk & Hq & Hd & Hlt & Hn). exists k, q, qd. do 4 (split; [assumption|]). cbn [rows_equation de_A de_b mrows mcols mat_at vat].
  match goal with |- context [nth i rs ?d] => rewrite (nth_error_nth rs i d Hn) end. cbn [fst snd]. rewrite one_column by exact Hlt. reflexivity.
Qed.

(** ** Critical damping *)

(** The solutions of e'' + 2 w e' + w^2 e = 0. *)
Lemma critical_closed_form w (e de : R -> R) : (forall t, derivable_pt_lim e t (de t)) -> (forall t, derivable_pt_lim de t (- (2 * w * de t + w * w * e t))) ->
  forall t, e t = (e 0 + (de 0 + w * e 0) * t) * exp (- (w * t)).
Proof.
  intros He Hde.
  assert (X : forall t, derivable_pt_lim (fun u => exp (w * u)) t (w * exp (w * t))).
  { intros t. eapply lim_ext; [intros u; reflexivity| |apply (derivable_pt_lim_comp (fun u => w * u) exp t (w * 1) (exp (w * t)))].
    - ring.
    - apply (derivable_pt_lim_scal (fun u => u) w t 1), derivable_pt_lim_id.
    - apply derivable_pt_lim_exp. }
  assert (Z : forall g, (forall t, derivable_pt_lim g t 0) -> forall t, g t = g 0).
  { intros g Hg t. assert (pr : derivable g) by (intros u; exists 0; apply Hg).
    assert (H : forall u, derive_pt g u (pr u) = 0) by (intros u; apply derive_pt_eq_0, Hg). exact (null_derivative_1 g pr H t 0). }
  set (g := fun u => (de u + w * e u) * exp (w * u)).
  assert (G : forall t, g t = g 0).
  { apply Z. intros t. eapply lim_ext; [intros u; reflexivity| |apply deriv_prod; [apply deriv_plus; [apply Hde|apply (derivable_pt_lim_scal e w t (de t)), He]|apply X]]. unfold mult_real_fct. ring. }
  set (h := fun u => e u * exp (w * u) - g 0 * u).
  assert (H : forall t, h t = h 0).
  { apply Z. intros t. eapply lim_ext; [intros u; reflexivity| |apply deriv_sub; [apply deriv_prod; [apply He|apply X]|apply (derivable_pt_lim_scal (fun u => u) (g 0) t 1), derivable_pt_lim_id]].
    rewrite <- (G t). unfold g, mult_real_fct. ring. }
  intros t. specialize (H t). unfold h, g in H. rewrite Rmult_0_r, exp_0, !Rmult_1_r, Rmult_0_r in H. rewrite exp_Ropp.
  apply Rmult_eq_reg_r with (exp (w * t)); [|apply Rgt_not_eq, exp_pos]. rewrite Rmult_assoc, Rinv_l by (apply Rgt_not_eq, exp_pos). lra.
Qed.

Lemma exp_beats x : 0 < x -> exp (- x) <= / x /\ x * exp (- x) <= 4 / x.
Proof.
  intros Hx. pose proof (exp_ineq1 x ltac:(lra)) as E1. pose proof (exp_ineq1 (x / 2) ltac:(lra)) as E.
  assert (H : x * x / 4 < exp x). { replace x with (x / 2 + x / 2) at 3 by field. rewrite exp_plus. nra. }
  rewrite exp_Ropp. assert (0 < exp x) by apply exp_pos. split.
  - apply Rinv_le_contravar; lra.
  - apply Rmult_le_reg_r with (x * exp x); [nra|]. replace (x * / exp x * (x * exp x)) with (x * x) by (field; lra). replace (4 / x * (x * exp x)) with (4 * exp x) by (field; lra). lra.
Qed.

Lemma critical_decay w (e de : R -> R) : 0 < w -> (forall t, derivable_pt_lim e t (de t)) -> (forall t, derivable_pt_lim de t (- (2 * w * de t + w * w * e t))) ->
  forall t, 0 < t -> Rabs (e t) <= (Rabs (e 0) / w + 4 * Rabs (de 0 + w * e 0) / (w * w)) / t.
Proof.
  intros Hw He Hde t Ht. rewrite (critical_closed_form w e de He Hde t). destruct (exp_beats (w * t) ltac:(nra)) as [B1 B2]. pose proof (exp_pos (- (w * t))) as P.
  rewrite Rabs_mult, (Rabs_right (exp _)) by lra. eapply Rle_trans; [apply Rmult_le_compat_r; [lra|apply Rabs_triang]|]. rewrite Rabs_mult, (Rabs_right t) by lra.
  rewrite Rmult_plus_distr_r. replace ((Rabs (e 0) / w + 4 * Rabs (de 0 + w * e 0) / (w * w)) / t) with (Rabs (e 0) * / (w * t) + Rabs (de 0 + w * e 0) * (4 / (w * t) / w)) by (field; lra).
  apply Rplus_le_compat; [apply Rmult_le_compat_l; [apply Rabs_pos|exact B1]|].
  rewrite Rmult_assoc. apply Rmult_le_compat_l; [apply Rabs_pos|]. apply Rmult_le_reg_r with w; [exact Hw|]. replace (4 / (w * t) / w * w) with (4 / (w * t)) by (field; lra). lra.
Qed.
