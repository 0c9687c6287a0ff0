(** The settings of the dynamics solver: the gains, the safe accelerations, and the reference of the external wrenches. *)
From Coq Require Import Reals List ZArith Bool String Lra Lia.
From Verif Require Import Base Linalg Geom3 Tools_model Geometry_model Expression_model Problem_model Problem_spec Problem_props Backends_proofs Polynom_model Robot_model Robot_spec Robot_proofs Robot_props KinTasks_model
  Kin_model Kin_spec Kin_proofs Kin_proofs7 DynTasks_model Dyn_model Dyn_spec Dyn_proofs3 Dyn_proofs5 Tasks_spec Tasks_proofs Dyn_example Dyn_example2 DynTasks_proofs DynTasks_props Dyn_props Dyn_props2 KinTasks_example.
Import ListNotations.
Open Scope R_scope.

(** ** The gains (C73) *)

(** set_kp() and set_kd() change the gains of every task, and nothing else of it, nor of the solver. *)
Theorem C73_set_gains s kp kd : let s' := set_kd (set_kp s kp) kd in
  List.length (ds_tasks s') = List.length (ds_tasks s) /\
  (forall k t, nth_error (ds_tasks s) k = Some t -> exists t', nth_error (ds_tasks s') k = Some t' /\ dt_kp t' = kp /\ dt_kd t' = kd /\ dt_kind t' = dt_kind t /\ dt_priority t' = dt_priority t /\ dt_weight t' = dt_weight t) /\
  (forall k t, nth_error (ds_tasks s) k = Some t -> exists t1 t2, nth_error (ds_tasks (set_kp s kp)) k = Some t1 /\ dt_kp t1 = kp /\ dt_kd t1 = dt_kd t /\ dt_kind t1 = dt_kind t /\ dt_priority t1 = dt_priority t /\ dt_weight t1 = dt_weight t /\
     nth_error (ds_tasks (set_kd s kd)) k = Some t2 /\ dt_kp t2 = dt_kp t /\ dt_kd t2 = kd /\ dt_kind t2 = dt_kind t /\ dt_priority t2 = dt_priority t /\ dt_weight t2 = dt_weight t) /\
  dset_tasks s' [] = dset_tasks s [].
Proof.
  intros s'. unfold s', set_kp, set_kd. cbn [ds_tasks dset_tasks]. split; [rewrite !map_length; reflexivity|]. split; [|split; [|reflexivity]].
  - intros k t H. rewrite !nth_error_map, H. cbn. eexists. split; [reflexivity|]. cbn. auto.
  - intros k t H. rewrite !nth_error_map, H. cbn. eexists. eexists. split; [reflexivity|]. cbn. do 5 (split; [reflexivity|]). split; [reflexivity|]. cbn. auto.
Qed.
Print Assumptions C73_set_gains.

(** The dynamics of the error of a hard joint after these calls. *)
Theorem C73_gains_used pn log3 jlog qr qp s kp kd r i s' r' res t0 l name x v a q qd u target dtarget : let s1 := set_kd (set_kp s kp) kd in dsound pn log3 jlog s1 r -> qr_correct qr -> qp_correct qp ->
  dsolve pn log3 jlog qr qp s1 r i = (s', r', Ok res) -> dr_success res = true ->
  In t0 (ds_tasks s) -> dt_priority t0 = PHard -> dt_kind t0 = DJoints l -> In (name, (x, v, a)) l -> 0 <= kd ->
  in_motion r q qd u (dr_qdd res) -> joint_follows r q qd name -> twice_r target dtarget u a -> target u = x -> dtarget u = v ->
  exists iq error derror dderror, get_joint_offset r name = Ok iq /\ (forall y, error y = target y - vat (q y) iq) /\ twice_r error derror u dderror /\
    second_order_r kp kd (error u) (derror u) dderror = 0.
Proof.
  intros s1 Hd Hqr Hqp H Hs Ht Hp Hk Hin Hkd Mo Hf Tt Ex Edx. destruct (In_nth_error _ _ Ht) as [k Hn]. destruct (C73_set_gains s kp kd) as (_ & G & _). destruct (G k t0 Hn) as (t & Hn' & K1 & K2 & K3 & K4 & _).
  apply nth_error_In in Hn'. rewrite <- K4 in Hp. rewrite <- K3 in Hk.
  assert (Dm : damping (dt_kp t) (dt_kd t) kd) by (rewrite K2; split; intros; [lra|reflexivity]).
  destruct (C73_joints pn log3 jlog qr qp s1 r i s' r' res t l name x v a q qd u target dtarget kd Hd Hqr Hqp H Hs Hn' Hp Hk Hin Dm Mo Hf Tt Ex Edx) as (iq & er & de & dd & A & B & C & D). exists iq, er, de, dd.
  do 3 (split; [assumption|]). now rewrite <- K1.
Qed.
Print Assumptions C73_gains_used.

(** ** The safe accelerations (C68) *)

(** set_qdd_safe() replaces the safe acceleration of one joint, and nothing else. *)
Theorem C68_set_qdd_safe r s joint a s' : set_qdd_safe r s joint a = Ok s' ->
  exists d, get_joint_v_offset r joint = Ok d /\ safe_at s' d = a /\ (forall k, k <> d -> safe_at s' k = safe_at s k) /\ dset_safe s' [] = dset_safe s [].
Proof.
  unfold set_qdd_safe. intros H. bind H k E. injection H as <-. exists k. split; [reflexivity|]. unfold safe_at. cbn [ds_qdd_safe dset_safe]. split; [|split; [|reflexivity]].
  - rewrite map_find_put, Nat.eqb_refl. reflexivity.
  - intros j Hj. rewrite map_find_put. destruct (Nat.eqb_spec j k); [contradiction|reflexivity].
Qed.
Print Assumptions C68_set_qdd_safe.

(** The safe acceleration of every joint is 1 in a new solver. *)
Lemma all_safe_spec r : forall names s s', all_safe r s names = Ok s' -> dset_safe s' [] = dset_safe s [] /\
  (forall k, safe_at s k = 1 -> safe_at s' k = 1) /\ forall n, In n names -> exists d, get_joint_v_offset r n = Ok d /\ safe_at s' d = 1.
Proof.
  induction names as [|n names IH]; intros s s' H; cbn [all_safe] in H.
  - injection H as <-. split; [reflexivity|]. split; [auto|]. intros n [].
  - bind H s1 E. destruct (C68_set_qdd_safe _ _ _ _ _ E) as (d & Ed & Sd & So & Sx). destruct (IH _ _ H) as (A & B & C). split; [congruence|]. split.
    + intros k Hk. apply B. destruct (Nat.eq_dec k d) as [->|Hne]; [exact Sd|]. now rewrite So.
    + intros m [<-|Hm]; [exists d; auto|auto].
Qed.
Theorem C68_default_safe r s name : new_dsolver r = Ok s -> In name (joint_names r false) -> exists d, get_joint_v_offset r name = Ok d /\ safe_at s d = 1.
Proof. unfold new_dsolver. intros H Hin. destruct (all_safe_spec _ _ _ _ H) as (_ & _ & C). now apply C. Qed.
Print Assumptions C68_default_safe.
Example C68_safe_example : In "head"%string (joint_names dex_robot false) /\ new_dsolver dex_robot = Ok dex_base /\ exists s', set_qdd_safe dex_robot dex_base "head" 3 = Ok s' /\ safe_at s' 6 = 3.
Proof. split; [now left|]. split; [reflexivity|]. eexists. split; reflexivity. Qed.

(** Only the first degree of freedom of each joint gets it: for the others, a joint with two of them for instance, the safe acceleration is 0, and within the limits
    of such a degree of freedom the solver only accepts the accelerations that stop it within one period. *)
Lemma all_safe_other r d : forall names s s', all_safe r s names = Ok s' -> (forall n, In n names -> get_joint_v_offset r n <> Ok d) -> safe_at s' d = safe_at s d.
Proof.
  induction names as [|n names IH]; intros s s' H Hn; cbn [all_safe] in H.
  - injection H as <-. reflexivity.
  - bind H s1 E. destruct (C68_set_qdd_safe _ _ _ _ _ E) as (k & Ek & _ & So & _). rewrite (IH _ _ H) by (intros m Hm; apply Hn; now right). apply So.
    intros ->. apply (Hn n); [now left|exact Ek].
Qed.
Theorem C68_other_dofs_behaviour r s d : new_dsolver r = Ok s -> (forall name, In name (joint_names r false) -> get_joint_v_offset r name <> Ok d) ->
  safe_at s d = 0 /\
  forall s' r' qdd tau, within_limits s' r' qdd tau -> ds_joint_limits s' = true -> (6 <= d < ds_N s')%nat -> safe_at s' d = safe_at s d ->
    vat (m_lower (r_model r')) (S d) <= vat (st_q (r_state r')) (S d) <= vat (m_upper (r_model r')) (S d) -> vat (st_qd (r_state r')) d + ds_dt s' * qdd d = 0.
Proof.
  intros H Hn. assert (Z : safe_at s d = 0) by (unfold new_dsolver in H; rewrite (all_safe_other _ _ _ _ _ H Hn); reflexivity). split; [exact Z|].
  intros s' r' qdd tau W J Hd E [L U]. rewrite Z in E. pose proof (wl_upper _ _ _ _ W J d Hd) as X. pose proof (wl_lower _ _ _ _ W J d Hd) as Y. cbv zeta in X, Y.
  destruct (Rlt_dec _ _) in X; [lra|]. destruct (Rlt_dec _ _) in Y; [lra|]. rewrite E in X, Y. unfold braking_speed in X, Y. rewrite Rmult_0_r, sqrt_0 in X, Y. lra.
Qed.
Print Assumptions C68_other_dofs_behaviour.
(** A robot with a joint of two degrees of freedom, the hip. *)
Definition hip_robot : robot :=
  Robot (RModel 9 8 [Joint "root_joint" 0 7 0 6; Joint "hip" 7 2 6 2] ["universe"%string] frame_id (Vec 9 (fun _ => -1)) (Vec 9 (fun _ => 1)) (Vec 8 (fun _ => 1)) (Vec 8 (fun _ => 1))
    (zeros 8) (zeros 8) []) (State (zeros 9) (zeros 8) (zeros 8)) (zeros 9, zeros 8).
Example C68_other_dofs_example : (exists s, new_dsolver hip_robot = Ok s /\ safe_at s 6 = 1 /\ safe_at s 7 = 0) /\
  forall name, In name (joint_names hip_robot false) -> get_joint_v_offset hip_robot name <> Ok 7%nat.
Proof. split; [eexists; split; [reflexivity|split; reflexivity]|]. intros name [<-|[]]. discriminate. Qed.

(** ** The reference of the external wrenches (C126) *)

(** The force and the moment of a wrench, and the power of an effort. *)
Definition force_of (w : vec) : vec3 := V3 (vat w 0) (vat w 1) (vat w 2).
Definition moment_of (w : vec) : vec3 := V3 (vat w 3) (vat w 4) (vat w 5).
Definition power (n : nat) (effort : nat -> R) (qd : vec) : R := Rsum n (fun k => effort k * vat qd k).
(** Contract of the Jacobian of a frame in its own axes. *)
Definition local_jacobian_of (pn : pin) (m : rmodel) (q : R -> vec) (t : R) (qd : vec) (f : nat) : Prop :=
  let J := pn_jac pn (q t) f Local in let a := fr_R (pn_frame pn (q t) f) in mrows J = 6%nat /\ mcols J = m_nv m /\ vlen qd = m_nv m /\ rigid (pn_frame pn (q t) f) /\
  moves (fun u => pn_frame pn (q u) f) t (m3_vec a (rows3 J 0 qd)) (m3_vec a (rows3 J 3 qd)).

Lemma effort_power (J : mat) (w qd : vec) : mrows J = 6%nat -> power (mcols J) (effort_of J (vat w)) qd = v3_dot (force_of w) (rows3 J 0 qd) + v3_dot (moment_of w) (rows3 J 3 qd).
Proof.
  intros H6. unfold power, effort_of. rewrite H6. unfold v3_dot, force_of, moment_of, rows3, row_of. cbn [vx vy vz]. rewrite <- !Rsum_scal_l, <- !Rsum_plus. apply Rsum_ext. intros k _. cbn [Rsum]. ring.
Qed.

(** "world": the force and the moment, at the frame, have their coordinates along the axes of the world. Whatever the motion, the power of the effort on the degrees of freedom is the
    force times the velocity of the frame plus the moment times its angular velocity. *)
Theorem C126_world pn log3 jlog s r c f k w J q t qd : wrench_reference "world" = Ok k -> co_kind c = CExternal f k w -> contact_matrix pn log3 jlog s r c J ->
  up_to_date r -> q t = st_q (r_state r) -> jacobian_of pn (r_model r) q t qd f ->
  exists v omega, moves (fun u => pn_frame pn (q u) f) t v omega /\ power (m_nv (r_model r)) (effort_of J (vat w)) qd = v3_dot (force_of w) v + v3_dot (moment_of w) omega.
Proof.
  intros Hk Hc [_ HJ] Hu Hq (J1 & J2 & _ & _ & J5). injection Hk as <-. rewrite Hc in HJ. unfold frame_jacobian, up_to_date in *. rewrite Hu in HJ. cbn [fst] in HJ. rewrite <- Hq in HJ. subst J.
  eexists. eexists. split; [exact J5|]. rewrite <- J2. now apply effort_power.
Qed.
Print Assumptions C126_world.
(** "local": they have their coordinates along the axes of the frame. *)
Theorem C126_local pn log3 jlog s r c f k w J q t qd : wrench_reference "local" = Ok k -> co_kind c = CExternal f k w -> contact_matrix pn log3 jlog s r c J ->
  up_to_date r -> q t = st_q (r_state r) -> local_jacobian_of pn (r_model r) q t qd f -> let a := fr_R (pn_frame pn (q t) f) in
  exists v omega, moves (fun u => pn_frame pn (q u) f) t v omega /\ power (m_nv (r_model r)) (effort_of J (vat w)) qd = v3_dot (m3_vec a (force_of w)) v + v3_dot (m3_vec a (moment_of w)) omega.
Proof.
  intros Hk Hc [_ HJ] Hu Hq (J1 & J2 & _ & J4 & J5) a. injection Hk as <-. rewrite Hc in HJ. unfold frame_jacobian, up_to_date in *. rewrite Hu in HJ. cbn [fst] in HJ. rewrite <- Hq in HJ. subst J.
  eexists. eexists. split; [exact J5|]. rewrite <- J2. unfold a. rewrite !(orthogonal_dot _ _ _ (proj1 J4)). now apply effort_power.
Qed.
Print Assumptions C126_local.
(** Any other reference is refused. *)
Theorem C126_unknown reference : reference <> "world"%string -> reference <> "local"%string -> wrench_reference reference = Throw ERuntime.
Proof. intros H1 H2. unfold wrench_reference. destruct (String.eqb_spec reference "world"); [contradiction|]. destruct (String.eqb_spec reference "local"); [contradiction|]. reflexivity. Qed.
Print Assumptions C126_unknown.
Example C126_reference_example t : let r := Robot ex_model (State (ex_path t) ex_speed (zeros 7)) (ex_path t, ex_speed) in let J := pn_jac ex_pin3 (ex_path t) 1 Local in
  jacobian_of ex_pin3 ex_model ex_path t ex_speed 1 /\ local_jacobian_of ex_pin3 ex_model ex_path t ex_speed 1 /\ up_to_date r /\
  contact_matrix ex_pin3 dex_log dex_jlog dex_base r (Contact (CExternal 1 Local wext) true 1 0 0 0 (zeros 0)) J /\
  contact_matrix ex_pin3 dex_log dex_jlog dex_base r (Contact (CExternal 1 LocalWorldAligned wext) true 1 0 0 0 (zeros 0)) (pn_jac ex_pin3 (ex_path t) 1 LocalWorldAligned).
Proof.
  intros r J. destruct (ex_jacobians t) as [H1 _]. split; [exact H1|]. split; [|split; [reflexivity|split; (split; [reflexivity|reflexivity])]].
  destruct H1 as (A & B & C & D & E). unfold local_jacobian_of. do 4 (split; [assumption|]). rewrite ex_frame1. cbn [fr_R]. rewrite !m3_vec_id. exact E.
Qed.
