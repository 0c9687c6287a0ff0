(** The tasks of the walk: errors (C77), CoM or trunk (C78), targets (C121), DCM controller (C122), initial pose (C123). *)
From Coq Require Import Reals List Arith Bool String Lia Lra.
From Verif Require Import Base Geom3 Geometry_model Footsteps_model Ownership_model Ownership_spec Ownership_proofs WalkTasks_model WalkTasks_spec WalkTasks_proofs.
Import ListNotations.
Open Scope nat_scope.

(** ** C78 *)

(** No legal call is undefined, whatever happened before. *)
Theorem C78_defined : forall w c, walk_reachable w -> walk_legal w c -> exists w', walk_step w c = Ok w'.
Proof. intros w c R L. destruct (wgood_step w c (reachable_wgood w R) L) as (w' & E & _). eauto. Qed.

(** At every moment between initialize_tasks and remove_tasks, the solver holds exactly one task that controls the CoM or the trunk position. *)
Theorem C78_one_of_two : forall w, walk_reachable w -> wt_on w = true ->
  exists a, (in_solver w CoM a \/ in_solver w TrunkPosition a) /\
    forall a', in_solver w CoM a' \/ in_solver w TrunkPosition a' -> a' = a.
Proof.
  intros w R O. pose proof (reachable_wgood w R) as G. unfold wgood in G. rewrite O in G. destruct G as (m & G).
  destruct (wi_ptr _ _ G (if m then TrunkPosition else CoM)) as (a & X & (_ & _ & _ & _ & Y) & Z); [destruct m; reflexivity|].
  exists a. split.
  - destruct m; [right|left]; split; auto.
  - intros a' [[A B]|[A B]]; destruct (wi_back _ _ G _ _ B (or_introl A)) as (P & Q); destruct m; cbn in P; try discriminate; congruence.
Qed.

(** And after an update it is the one that the mode asks for; it is the object the pointer of WalkTasks designates, the other pointer is null. *)
Theorem C78_follows_the_mode : forall w c w', walk_reachable w -> walk_legal w c -> walk_step w c = Ok w' ->
  match c with WInitialize _ | WUpdateCom _ | WUpdate _ _ _ _ _ => True | _ => False end ->
  let wanted := if wt_mode w' then TrunkPosition else CoM in let other := if wt_mode w' then CoM else TrunkPosition in
  (exists a, wt_ptr w' wanted = Some a /\ in_solver w' wanted a /\ h_alive (w_heap (wt_owner w')) a = true) /\
  wt_ptr w' other = None /\ forall a, ~ in_solver w' other a.
Proof.
  intros w c w' R L E U. destruct (wgood_step w c (reachable_wgood w R) L) as (w1 & E1 & G & K). rewrite E in E1. injection E1 as <-.
  assert (K' : winv (roles (wt_mode w')) w') by (destruct c; try contradiction; apply K).
  cbv zeta. split; [|split].
  - destruct (wi_ptr _ _ K' (if wt_mode w' then TrunkPosition else CoM)) as (a & X & (_ & _ & _ & Y & Y') & Z); [destruct (wt_mode w'); reflexivity|].
    exists a. split; [exact X|]. split; [split; auto|exact Y].
  - apply (wi_off _ _ K'); destruct (wt_mode w'); reflexivity.
  - intros a [A B]. destruct (wi_back _ _ K' _ _ B (or_introl A)) as (P & Q). destruct (wt_mode w'); discriminate.
Qed.

(** After remove_tasks nothing of the walk is left: every task it ever created is out of the solver and was deleted exactly once. *)
Theorem C78_removed : forall w w', walk_reachable w -> remove_tasks w = Ok w' ->
  forall a r, wt_role w' a = Some r -> ~ In a (w_tasks (wt_owner w')) /\ h_alive (w_heap (wt_owner w')) a = false /\ h_deletes (w_heap (wt_owner w')) a = 1.
Proof.
  intros w w' R E a r Hr. destruct (wgood_step w WRemove (reachable_wgood w R) I) as (w1 & E1 & G & O). cbn in E1. rewrite E in E1. injection E1 as <-.
  unfold wgood in G. rewrite O in G. destruct G as [H1 H2 H3 H4 H5 H6].
  assert (N : ~ (In a (w_tasks (wt_owner w')) \/ h_alive (w_heap (wt_owner w')) a = true)).
  { intros K. destruct (H6 a r Hr K). discriminate. }
  split; [tauto|]. split; [destruct (h_alive (w_heap (wt_owner w')) a) eqn:X; [exfalso; tauto|reflexivity]|].
  pose proof (td_agrees _ _ _ H1) as (_ & A2 & _). rewrite A2 by (apply (H4 a r Hr)). cbn.
  destruct (h_alive (w_heap (wt_owner w')) a) eqn:X; [exfalso; tauto|]. rewrite (H5 a r Hr). reflexivity.
Qed.

Definition some_pose : walk_pose := WalkPose frame_id frame_id frame_id v3_zero.

(** A walk that switches to the trunk and back, with tasks of the user in the same solver. *)
Definition walk_calls : list walk_call :=
  [WInitialize some_pose; WSolver (Create CTask []); WSetMode true; WUpdateCom some_pose; WUpdate some_pose frame_id frame_id v3_zero m3_id; WSetMode false;
   WUpdate some_pose frame_id frame_id v3_zero m3_id; WSolver (RemoveTask 6)].
Definition simply_legal (w : walk_tasks) (c : walk_call) : bool :=
  match c with
  | WInitialize _ => negb (wt_on w)
  | WUpdateCom _ | WUpdate _ _ _ _ _ => wt_on w
  | WSolver (Create CTask []) => true
  | WSolver (RemoveTask a) => Nat.ltb a (h_count (w_heap (wt_owner w))) && match h_class (w_heap (wt_owner w)) a with CTask => h_alive (w_heap (wt_owner w)) a | _ => false end &&
                              match wt_role w a with None => true | _ => false end
  | WSolver _ => false
  | _ => true
  end.
Lemma simply_legal_legal w c : simply_legal w c = true -> walk_legal w c.
Proof.
  destruct c; cbn; auto; try (now intros ->%negb_true_iff).
  destruct o as [[| |] [|]| | | | | |a| | | | |]; try discriminate; cbn.
  - intros _. split; [reflexivity|intros a []].
  - intros [[H1 H2]%andb_prop H3]%andb_prop. apply Nat.ltb_lt in H1. split.
    + destruct (h_class (w_heap (wt_owner w)) a) eqn:C; try discriminate. repeat split; cbn; auto. now rewrite H2.
    + intros x ->. destruct (wt_role w a); [discriminate|reflexivity].
Qed.
Fixpoint all_legal (w : walk_tasks) (l : list walk_call) : bool :=
  match l with [] => true | c :: r => simply_legal w c && match walk_step w c with Ok w' => all_legal w' r | _ => false end end.
Lemma run_reaches l : forall w, walk_reachable w -> all_legal w l = true -> exists w', walk_run w l = Ok w' /\ walk_reachable w'.
Proof.
  induction l as [|c r IH]; intros w R L; [exists w; auto|]. cbn [all_legal] in L. apply andb_prop in L. destruct L as (L1 & L2). cbn [walk_run].
  destruct (walk_step w c) as [w1| |] eqn:E; try discriminate.
  cbn [obind]. apply IH; [eapply wr_call; eauto using simply_legal_legal|exact L2].
Qed.
Definition ok_or {A : Type} (d : A) (o : outcome A) : A := match o with Ok a => a | _ => d end.
Example walk_calls_reach : exists w, walk_run (new_walk_tasks fresh_owner) walk_calls = Ok w /\ walk_reachable w /\ wt_on w = true /\
  h_count (w_heap (wt_owner w)) = 9 /\ wt_role w 5 = Some CoM /\ wt_role w 7 = Some TrunkPosition /\ in_solver w CoM 8.
Proof.
  assert (S : walk_reachable (new_walk_tasks fresh_owner)) by (eapply wr_start; [constructor|reflexivity]).
  destruct (run_reaches walk_calls _ S) as (w & E & R).
  - vm_compute. reflexivity.
  - exists w. split; [exact E|]. split; [exact R|].
    assert (W : w = ok_or (new_walk_tasks fresh_owner) (walk_run (new_walk_tasks fresh_owner) walk_calls)) by now rewrite E.
    rewrite W. clear. unfold in_solver. vm_compute. tauto.
Qed.

(** If the user clears the solver instead, the walk keeps dangling pointers: switching mode is then undefined. *)
Theorem C78_cleared_behaviour : forall w w' po, walk_reachable w -> wt_on w = true ->
  (exists a, wt_ptr w (if wt_mode w then TrunkPosition else CoM) = Some a /\ In a (w_tasks (wt_owner w))) ->
  walk_step w (WSolver Clear) = Ok w' ->
  walk_run w' [WSetMode (negb (wt_mode w)); WUpdateCom po] = UB.
Proof.
  intros w w' po R O (a & X & Y) E. pose proof (reachable_wgood w R) as G. unfold wgood in G. rewrite O in G. destruct G as (m & G).
  assert (S := wi_sound _ _ G). destruct (step_sound (wt_owner w) Clear S I) as (s & E' & _ & _ & _ & TO & _).
  cbn [walk_step] in E. rewrite E' in E. cbn [obind] in E. injection E as <-.
  destruct (wi_ptr _ _ G (if wt_mode w then TrunkPosition else CoM)) as (a' & X' & (T1 & T2 & T3 & T4 & T5) & Z).
  { destruct (roles m (if wt_mode w then TrunkPosition else CoM)) eqn:PR; [reflexivity|]. rewrite (wi_off _ _ G _ PR) in X by (destruct (wt_mode w); reflexivity). discriminate. }
  rewrite X in X'. injection X' as <-. destruct (TO a I T1 T3 T5) as (D & _).
  cbn [walk_run walk_step obind]. unfold update_com_task. cbn [wt_on wt_mode]. rewrite O. cbn [guard].
  assert (RM : forall r, r = (if wt_mode w then TrunkPosition else CoM) ->
    remove_if_set (WalkTasks s (wt_on w) (wt_ptr w) (negb (wt_mode w)) (wt_com_x w) (wt_com_y w) (wt_role w) (wt_target w) (wt_rot w)) r = UB).
  { intros r ->. unfold remove_if_set, remove_walk_task. cbn [wt_ptr wt_owner]. rewrite X. cbn [run_op]. unfold remove_task_op, delete_if_memory. rewrite D. reflexivity. }
  rewrite O in RM. destruct (wt_mode w); cbn [negb] in *; rewrite RM by reflexivity; reflexivity.
Qed.

(** ** C77 *)

(** What get_tasks_error returns while the tasks are there and the mode was not changed since the last update: for each key, the error of which task. *)
Theorem C77_behaviour : forall w err l, walk_reachable w -> wt_on w = true -> get_tasks_error w err = Ok l ->
  (forall a, wt_ptr w LeftPosition = Some a -> map_get l "left_foot_orientation" = Some (err a)) /\
  (forall a, wt_ptr w RightPosition = Some a -> map_get l "right_foot_orientation" = Some (err a)) /\
  map_get l "left_foot_position" = None /\ map_get l "right_foot_position" = None.
Proof.
  intros w err l R O E. pose proof (reachable_wgood w R) as G. unfold wgood in G. rewrite O in G. destruct G as (m & G).
  destruct (winv_write _ _ LeftPosition G eq_refl) as (alp & A1 & A2 & _). destruct (winv_write _ _ LeftOrientation G eq_refl) as (alo & B1 & B2 & _).
  destruct (winv_write _ _ RightPosition G eq_refl) as (arp & C1 & C2 & _). destruct (winv_write _ _ RightOrientation G eq_refl) as (aro & D1 & D2 & _).
  destruct (winv_write _ _ TrunkOrientation G eq_refl) as (ato & F1 & F2 & _).
  unfold get_tasks_error, record_error in E. rewrite A1, A2, B1, B2, C1, C2, D1, D2, F1, F2 in E. cbn [guard obind] in E.
  destruct (wt_mode w).
  - destruct (wt_ptr w TrunkPosition) as [x|]; [|discriminate]. destruct (h_alive (w_heap (wt_owner w)) x); [|discriminate]. injection E as <-.
    rewrite A1, C1. repeat split; try (intros a X; injection X as <-; reflexivity).
  - destruct (wt_ptr w CoM) as [x|]; [|discriminate]. destruct (h_alive (w_heap (wt_owner w)) x); [|discriminate]. injection E as <-.
    rewrite A1, C1. repeat split; try (intros a X; injection X as <-; reflexivity).
Qed.

(** The property itself. *)
Definition errors_reported (w : walk_tasks) (err : nat -> vec3) (l : list (string * vec3)) : Prop :=
  forall k r, In (k, r) [("left_foot_orientation", LeftOrientation); ("left_foot_position", LeftPosition); ("right_foot_orientation", RightOrientation);
    ("right_foot_position", RightPosition)]%string -> forall a, wt_ptr w r = Some a -> map_get l k = Some (err a).

(** It is false in every state: the position keys are missing, and the orientation keys hold the position errors. *)
Theorem C77_refuted : forall w err l, walk_reachable w -> wt_on w = true -> get_tasks_error w err = Ok l -> ~ errors_reported w err l.
Proof.
  intros w err l R O E H. destruct (C77_behaviour w err l R O E) as (_ & _ & N & _).
  pose proof (reachable_wgood w R) as G. unfold wgood in G. rewrite O in G. destruct G as (m & G).
  destruct (winv_write _ _ LeftPosition G eq_refl) as (alp & A1 & _). specialize (H "left_foot_position"%string LeftPosition).
  rewrite (H ltac:(cbn; tauto) alp A1) in N. discriminate.
Qed.

(** The part that holds: after any update the call returns, and the trunk orientation and the CoM (or trunk position) are reported under their own keys. *)
Theorem C77_trunk_and_com_partial : forall w c w' err, walk_reachable w -> walk_legal w c -> walk_step w c = Ok w' ->
  match c with WInitialize _ | WUpdateCom _ | WUpdate _ _ _ _ _ => True | _ => False end ->
  exists l, get_tasks_error w' err = Ok l /\
    (forall a, wt_ptr w' TrunkOrientation = Some a -> map_get l "trunk_orientation" = Some (err a)) /\
    (wt_mode w' = true -> map_get l "com_position" = None /\ forall a, wt_ptr w' TrunkPosition = Some a -> map_get l "trunk_position" = Some (err a)) /\
    (wt_mode w' = false -> map_get l "trunk_position" = None /\ forall a, wt_ptr w' CoM = Some a -> map_get l "com_position" = Some (err a)).
Proof.
  intros w c w' err R L E U. destruct (wgood_step w c (reachable_wgood w R) L) as (w1 & E1 & _ & K). rewrite E in E1. injection E1 as <-.
  assert (G : winv (roles (wt_mode w')) w') by (destruct c; try contradiction; apply K).
  destruct (winv_write _ _ LeftPosition G eq_refl) as (alp & A1 & A2 & _). destruct (winv_write _ _ LeftOrientation G eq_refl) as (alo & B1 & B2 & _).
  destruct (winv_write _ _ RightPosition G eq_refl) as (arp & C1 & C2 & _). destruct (winv_write _ _ RightOrientation G eq_refl) as (aro & D1 & D2 & _).
  destruct (winv_write _ _ TrunkOrientation G eq_refl) as (ato & F1 & F2 & _).
  destruct (winv_write _ _ (if wt_mode w' then TrunkPosition else CoM) G) as (aq & Q1 & Q2 & _); [destruct (wt_mode w'); reflexivity|].
  unfold get_tasks_error, record_error. rewrite A1, A2, B1, B2, C1, C2, D1, D2, F1, F2. cbn [guard obind].
  destruct (wt_mode w'); rewrite Q1, Q2; cbn [guard]; eexists; (split; [reflexivity|]); (split; [intros a X; injection X as <-; reflexivity|]);
    split; try discriminate; intros _; (split; [reflexivity|]); intros a X; injection X as <-; reflexivity.
Qed.

(** And the call is undefined when the mode was changed since the last update: it reads a null pointer. *)
Theorem C77_after_mode_change_behaviour : forall w c w' err, walk_reachable w -> walk_legal w c -> walk_step w c = Ok w' ->
  match c with WInitialize _ | WUpdateCom _ | WUpdate _ _ _ _ _ => True | _ => False end ->
  exists w'', walk_step w' (WSetMode (negb (wt_mode w'))) = Ok w'' /\ get_tasks_error w'' err = UB.
Proof.
  intros w c w' err R L E U. destruct (wgood_step w c (reachable_wgood w R) L) as (w1 & E1 & _ & K). rewrite E in E1. injection E1 as <-.
  assert (G : winv (roles (wt_mode w')) w') by (destruct c; try contradiction; apply K).
  destruct (winv_write _ _ LeftPosition G eq_refl) as (alp & A1 & A2 & _). destruct (winv_write _ _ LeftOrientation G eq_refl) as (alo & B1 & B2 & _).
  destruct (winv_write _ _ RightPosition G eq_refl) as (arp & C1 & C2 & _). destruct (winv_write _ _ RightOrientation G eq_refl) as (aro & D1 & D2 & _).
  destruct (winv_write _ _ TrunkOrientation G eq_refl) as (ato & F1 & F2 & _).
  eexists. split; [reflexivity|]. unfold get_tasks_error, record_error. cbn [wt_ptr wt_owner wt_mode]. rewrite A1, A2, B1, B2, C1, C2, D1, D2, F1, F2. cbn [guard obind].
  pose proof (wi_off _ _ G (if wt_mode w' then CoM else TrunkPosition)) as N. destruct (wt_mode w'); cbn [negb]; rewrite N; reflexivity.
Qed.

(** Concrete numbers: the position error of the left foot is found under the key of its orientation. *)
Example C77_witness : exists w l, walk_reachable w /\ wt_on w = true /\ get_tasks_error w (fun a => V3 (INR a) 0 0) = Ok l /\
  wt_ptr w LeftOrientation = Some 1 /\ map_get l "left_foot_orientation" = Some (V3 (INR 0) 0 0).
Proof.
  assert (S : walk_reachable (new_walk_tasks fresh_owner)) by (eapply wr_start; [constructor|reflexivity]).
  destruct (run_reaches [WInitialize some_pose] _ S) as (w & E & R); [vm_compute; reflexivity|].
  assert (W : w = ok_or (new_walk_tasks fresh_owner) (walk_run (new_walk_tasks fresh_owner) [WInitialize some_pose])) by now rewrite E.
  exists w, (ok_or [] (get_tasks_error w (fun a => V3 (INR a) 0 0))). split; [exact R|]. clear E R. subst w. vm_compute. tauto.
Qed.

(** ** C121 *)

(** update_tasks, in any reachable state: the tasks in the solver have exactly the requested targets, the CoM (or trunk) target being shifted by (com_x, com_y)
    in the frame of the trunk. *)
Theorem C121_targets : forall w po left right com trunk, walk_reachable w -> wt_on w = true ->
  exists w', update_tasks w po left right com trunk = Ok w' /\
    (forall a, in_solver w' (if wt_mode w then TrunkPosition else CoM) a ->
       wt_target w' a = v3_add com (m3_vec (fr_R (po_trunk po)) (V3 (wt_com_x w) (wt_com_y w) 0))) /\
    (forall a, in_solver w' LeftPosition a -> wt_target w' a = fr_t left) /\ (forall a, in_solver w' LeftOrientation a -> wt_rot w' a = fr_R left) /\
    (forall a, in_solver w' RightPosition a -> wt_target w' a = fr_t right) /\ (forall a, in_solver w' RightOrientation a -> wt_rot w' a = fr_R right) /\
    (forall a, in_solver w' TrunkOrientation a -> wt_rot w' a = trunk) /\
    forall r, r <> (if wt_mode w then CoM else TrunkPosition) -> exists a, in_solver w' r a.
Proof.
  intros w po left right com trunk R O. pose proof (reachable_wgood w R) as G. unfold wgood in G. rewrite O in G. destruct G as (m & G).
  destruct (winv_update (roles m) w po left right com trunk G O) as (w' & E & K & O' & M & T1 & T2 & T3 & T4 & T5 & T6).
  { intros [| | | | | |]; cbn; auto; discriminate. } { destruct m; auto. }
  exists w'. split; [exact E|].
  assert (Q : forall r a, in_solver w' r a -> wt_ptr w' r = Some a).
  { intros r a [A B]. now destruct (wi_back _ _ K _ _ B (or_introl A)). }
  repeat (split; [intros a H; apply Q in H; auto|]). intros r Hr.
  destruct (wi_ptr _ _ K r) as (a & X & (_ & _ & _ & _ & Y) & Z).
  - destruct r; cbn; auto; destruct (wt_mode w); cbn; congruence.
  - exists a. split; auto.
Qed.

(** ** C122 *)

Open Scope R_scope.

(** Any number of steps of the DCM controller, and the offsets it produced. *)
Inductive pid_steps (E T : R) : pid -> pid -> Prop :=
| ps_none g : pid_steps E T g g
| ps_one g g1 err elapsed : pid_steps E T g g1 -> Rabs (fst err) <= E -> Rabs (snd err) <= E -> 0 < elapsed <= T ->
    pid_steps E T g (fst (pid_step g1 err elapsed)).

Lemma integral_bound lambda B E T i e h : 0 < lambda <= 1 -> Rabs i <= B -> Rabs e <= E -> 0 < h <= T -> E * T / lambda <= B ->
  Rabs ((1 - lambda) * i + e * h) <= B.
Proof.
  intros HL HI HE HH HB. assert (0 <= E) by (pose proof (Rabs_pos e); lra).
  eapply Rle_trans; [apply Rabs_triang|]. rewrite !Rabs_mult, (Rabs_right (1 - lambda)), (Rabs_right h) by lra.
  assert (Rabs e * h <= E * T) by (apply Rmult_le_compat; [apply Rabs_pos|lra|lra|lra]).
  assert (E * T = lambda * (E * T / lambda)) by (field; lra).
  assert (lambda * (E * T / lambda) <= lambda * B) by (apply Rmult_le_compat_l; lra).
  assert ((1 - lambda) * Rabs i <= (1 - lambda) * B) by (apply Rmult_le_compat_l; lra). lra.
Qed.

(** The integral term never winds up: for errors bounded by E and steps of at most T seconds, it stays within max(initial value, E T / lambda), for ever. *)
Theorem C122_integral_bounded : forall E T g g' B, pid_steps E T g g' -> 0 < pd_lambda g <= 1 ->
  Rabs (fst (pd_integral g)) <= B -> Rabs (snd (pd_integral g)) <= B -> E * T / pd_lambda g <= B ->
  Rabs (fst (pd_integral g')) <= B /\ Rabs (snd (pd_integral g')) <= B.
Proof.
  intros E T g g' B S HL H1 H2 HB.
  assert (K : Rabs (fst (pd_integral g')) <= B /\ Rabs (snd (pd_integral g')) <= B /\ pd_lambda g' = pd_lambda g).
  { induction S as [g|g g1 err elapsed S IH E1 E2 ET]; [auto|]. destruct (IH HL H1 H2 HB) as (I1 & I2 & I3).
    unfold pid_step. cbn. rewrite I3. repeat split; eapply integral_bound; eauto. }
  tauto.
Qed.

(** The offset depends on the gains as documented: with K_p, K_i and K_d zero the CoM target is not moved. *)
Theorem C122_zero_gains : forall w g po left right com trunk err elapsed, pd_p g = 0 -> pd_i g = 0 -> pd_d g = 0 ->
  snd (update_tasks_and_pid w g po left right com trunk err elapsed) = update_tasks w po left right com trunk.
Proof.
  intros w g po left right com trunk err elapsed H1 H2 H3. unfold update_tasks_and_pid, pid_step. cbn [snd]. rewrite H1, H2, H3. f_equal.
  apply V3_ext; unfold v3_add; cbn; ring.
Qed.

(** The CoM target is moved, on each horizontal axis, by the gains times the error on that axis, its integral and its derivative; the height is kept. *)
Theorem C122_offset : forall w g po left right com trunk err elapsed, elapsed <> 0 ->
  let pid e last integral := pd_p g * e + pd_i g * ((1 - pd_lambda g) * integral + e * elapsed) + pd_d g * ((e - last) / elapsed) in
  snd (update_tasks_and_pid w g po left right com trunk err elapsed) =
    update_tasks w po left right (V3 (vx com + pid (fst err) (fst (pd_last g)) (fst (pd_integral g)))
                                     (vy com + pid (snd err) (snd (pd_last g)) (snd (pd_integral g))) (vz com)) trunk /\
  pd_last (fst (update_tasks_and_pid w g po left right com trunk err elapsed)) = err.
Proof.
  intros w g po left right com trunk err elapsed He pid. unfold update_tasks_and_pid, pid_step. cbn [fst snd]. split; [|reflexivity].
  f_equal. apply V3_ext; unfold v3_add, pid; cbn; field; auto.
Qed.

(** The memory of the controller is not initialised: on the first call, with K_d not zero, the offset can be anything. *)
Theorem C122_uninitialised_behaviour : forall p i d lambda err elapsed off integral, d <> 0 -> elapsed <> 0 ->
  exists last, snd (pid_step (Pid p i d lambda integral last) err elapsed) = off.
Proof.
  intros p i d lambda [ex ey] elapsed [ox oy] [ix iy] Hd He.
  exists (ex - elapsed / d * (ox - p * ex - i * ((1 - lambda) * ix + ex * elapsed)), ey - elapsed / d * (oy - p * ey - i * ((1 - lambda) * iy + ey * elapsed))).
  unfold pid_step. cbn. f_equal; field; auto.
Qed.

(** So what the controller commands is not a function of its inputs. *)
Theorem C122_determined_refuted : exists g g' err elapsed, pd_p g = pd_p g' /\ pd_i g = pd_i g' /\ pd_d g = pd_d g' /\ pd_lambda g = pd_lambda g' /\
  elapsed > 0 /\ snd (pid_step g err elapsed) <> snd (pid_step g' err elapsed).
Proof.
  exists (Pid 1 0 1 1 (0, 0) (0, 0)), (Pid 1 0 1 1 (0, 0) (1, 0)), (0, 0), 1. repeat split; auto; [lra|]. unfold pid_step. cbn. intros H.
  injection H. lra.
Qed.

Example C122_example : pid_steps 1 1 (Pid 1 1 0 (1 / 100) (0, 0) (0, 0)) (fst (pid_step (Pid 1 1 0 (1 / 100) (0, 0) (0, 0)) (1, -1) 1)) /\
  1 * 1 / (1 / 100) <= 100.
Proof. split; [|lra]. apply ps_one; [apply ps_none|..]; cbn; try lra. - unfold Rabs. destruct (Rcase_abs 1); lra. - unfold Rabs. destruct (Rcase_abs (-1)); lra. Qed.

(** ** C123 *)

(** reach_initial_pose asks for feet at the requested distance, side by side with the same orientation, and for a CoM above their middle at the requested height. *)
Theorem C123_initial_pose : forall left feet_spacing com_height, rotation (fr_R left) ->
  let right := initial_right left feet_spacing in let com := initial_com left feet_spacing com_height in
  fr_R right = fr_R left /\
  frame_act (frame_inv left) (fr_t right) = V3 0 (- feet_spacing) 0 /\
  v3_norm (v3_sub (fr_t right) (fr_t left)) = Rabs feet_spacing /\
  vz com = com_height /\ vx com = (vx (fr_t left) + vx (fr_t right)) / 2 /\ vy com = (vy (fr_t left) + vy (fr_t right)) / 2.
Proof.
  intros left d h Rl right com. subst right com. unfold initial_com, initial_right. cbn [fr_R fr_t vx vy vz].
  split; [reflexivity|]. split; [|split].
  - unfold frame_act, frame_inv. cbn [fr_R fr_t]. rewrite m3_vec_add, <- m3_vec_mul, (rotation_l _ Rl), m3_vec_id.
    apply V3_ext; unfold v3_add, v3_scale; cbn; ring.
  - replace (v3_sub (v3_add (fr_t left) (m3_vec (fr_R left) (V3 0 (- d) 0))) (fr_t left)) with (m3_vec (fr_R left) (V3 0 (- d) 0))
      by (apply V3_ext; unfold v3_sub, v3_add; cbn; ring).
    unfold v3_norm. rewrite orthogonal_dot by apply Rl. unfold v3_dot. cbn. replace (0 * 0 + - d * - d + 0 * 0) with (Rsqr d) by (unfold Rsqr; ring). apply sqrt_Rsqr_abs.
  - split; [reflexivity|]. unfold interpolate_frames. cbn [fr_t]. unfold v3_add, v3_scale, v3_sub. cbn. split; field.
Qed.
(** These targets are the ones written in the tasks. *)
Theorem C123_asked : forall w yaw rpy po left feet_spacing com_height trunk_pitch, walk_reachable w -> wt_on w = true ->
  exists w', initial_targets w yaw rpy po left feet_spacing com_height trunk_pitch = Ok w' /\
    (forall a, in_solver w' LeftPosition a -> wt_target w' a = fr_t left) /\
    (forall a, in_solver w' RightPosition a -> wt_target w' a = fr_t (initial_right left feet_spacing)) /\
    (forall a, in_solver w' TrunkOrientation a -> wt_rot w' a = rpy 0 trunk_pitch (yaw (fr_R left))) /\
    (wt_mode w = false -> wt_com_x w = 0 -> wt_com_y w = 0 -> forall a, in_solver w' CoM a -> wt_target w' a = initial_com left feet_spacing com_height).
Proof.
  intros w yaw rpy po left d h tp R O. pose proof (reachable_wgood w R) as G. unfold wgood in G. rewrite O in G. destruct G as (m & G).
  destruct (winv_write _ _ TrunkOrientation G eq_refl) as (ato & F1 & F2 & _).
  unfold initial_targets, write_rot at 1. rewrite F1, F2. cbn [guard obind].
  match goal with |- exists w', update_tasks ?w1 _ _ _ _ _ = _ /\ _ => set (W1 := w1) end.
  assert (G1 : winv (roles m) W1) by (apply winv_set'; exact G).
  destruct (winv_update (roles m) W1 po left (initial_right left d) (initial_com left d h) (initial_trunk yaw rpy left tp) G1 O)
    as (w' & E & K & O' & M & T1 & T2 & T3 & T4 & T5 & T6).
  { intros [| | | | | |]; cbn; auto; discriminate. } { destruct m; auto. }
  exists w'. split; [exact E|].
  assert (Q : forall r a, in_solver w' r a -> wt_ptr w' r = Some a).
  { intros r a [A B]. now destruct (wi_back _ _ K _ _ B (or_introl A)). }
  repeat (split; [intros a H; apply Q in H; auto|]). intros M0 X0 Y0 a H. apply Q in H. subst W1. cbn [wt_mode wt_com_x wt_com_y] in T1.
  rewrite M0, X0, Y0 in T1. rewrite (T1 a H). apply V3_ext; unfold v3_add, m3_vec; cbn; ring.
Qed.

Print Assumptions C78_defined. Print Assumptions C78_one_of_two. Print Assumptions C78_follows_the_mode. Print Assumptions C78_removed. Print Assumptions C78_cleared_behaviour.
Print Assumptions C77_behaviour. Print Assumptions C77_refuted. Print Assumptions C77_trunk_and_com_partial. Print Assumptions C77_after_mode_change_behaviour.
Print Assumptions C121_targets. Print Assumptions C122_integral_bounded. Print Assumptions C122_zero_gains. Print Assumptions C122_offset. Print Assumptions C122_uninitialised_behaviour.
Print Assumptions C122_determined_refuted. Print Assumptions C123_initial_pose. Print Assumptions C123_asked.
