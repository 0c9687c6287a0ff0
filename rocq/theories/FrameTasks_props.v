(** C163: frame tasks. *)
From Coq Require Import Reals List ZArith Bool String Lra Lia.
From Verif Require Import Base Linalg Angle Geom3 Tools_model Geometry_model Geometry_proofs Expression_model Problem_model Problem_spec Problem_props Polynom_model Robot_model
  Robot_spec Robot_proofs Robot_props KinTasks_model Kin_model Kin_spec Kin_proofs Kin_proofs2 Kin_proofs5 Kin_proofs6 Kin_props Backends_proofs Tasks_spec Tasks_proofs KinTasks_spec KinTasks_proofs
  KinTasks_example KinTasks_props FrameTasks_model FrameTasks_spec FrameTasks_proofs.
Import ListNotations.
Open Scope R_scope.

(** A program that uses its frame tasks between their creation and their removal never meets undefined behaviour; any other program does. *)
Theorem C163_safe rotation_of l : (forall R, rotation R -> rotation_of R = R) -> (forall f T, In (CAdd f T) l -> rotation (fr_R T)) ->
  (careful 0 [] l <-> frun rotation_of new_program l <> UB) /\ (careful 0 [] l <-> exists s, frun rotation_of new_program l = Ok s).
Proof.
  intros Hr R. destruct (run_new rotation_of Hr l R) as [(C & m & ts & objs & E & _)|(C & E)]; rewrite E.
  - split; (split; [|intros _; exact C]); [discriminate|]. intros _. now eexists.
  - split; (split; [contradiction|]); [congruence|]. now intros [s Es].
Qed.
Print Assumptions C163_safe.

(** After any history of calls, each frame task has the last target, priorities and weights that were given to it; nothing that is done to another one
    changes it. The tasks of the solver are the positions and orientations of the frame tasks that were not removed, and the other tasks. *)
Theorem C163_independent rotation_of l m ts : (forall R, rotation R -> rotation_of R = R) -> (forall f T, In (CAdd f T) l -> rotation (fr_R T)) ->
  frun rotation_of new_program l = Ok (m, ts) ->
  exists objs, effects [] l objs /\
    (forall h, match the_object objs h with
       | Some x => get_T m (the_task (m, ts) h) = Ok (ob_target x) /\
           task_at m (ft_position (the_task (m, ts) h)) = Ok (FTask (ob_position x) (Position (ob_frames x) (fr_t (ob_target x)))) /\
           task_at m (ft_orientation (the_task (m, ts) h)) = Ok (FTask (ob_orientation x) (Orientation (ob_frames x) (fr_R (ob_target x))))
       | None => get_T m (the_task (m, ts) h) = UB
       end) /\
    (forall t, In (Some t) m <->
       (exists h x, the_object objs h = Some x /\ (t = FTask (ob_position x) (Position (ob_frames x) (fr_t (ob_target x))) \/
                                                   t = FTask (ob_orientation x) (Orientation (ob_frames x) (fr_R (ob_target x))))) \/
       (exists k, In (COther k) l /\ t = FTask new_prioritized k)).
Proof.
  intros Hr R E. destruct (run_new rotation_of Hr l R) as [(C & m' & ts' & objs & E' & Ef & H)|(C & E')]; rewrite E in E'; [|discriminate].
  injection E' as <- <-. exists objs. split; [exact Ef|]. split; [intros h; exact (holds_reads m ts objs _ h H)|]. intros t. rewrite (holds_tasks m ts objs _ t H).
  assert (X : In t (rev (flat_map other_tasks l) ++ []) <-> exists k, In (COther k) l /\ t = FTask new_prioritized k).
  { rewrite app_nil_r, <- in_rev, in_flat_map. split.
    - intros (c & Hc & Ht). destruct c; cbn in Ht; try tauto. destruct Ht as [<-|[]]. now exists k.
    - intros (k & Hk & ->). exists (COther k). split; [exact Hk|now left]. }
  rewrite X. reflexivity.
Qed.
Print Assumptions C163_independent.

(** ** The motion of the frame *)

(** The tasks of the kinematics solver. *)
Definition kinematics_task (t : ftask) : option ktask :=
  let task k := Some (KTask k (p_priority (fk_prio t)) (p_weight (fk_prio t))) in
  match fk_kind t with
  | Position [f] x => task (KPosition f x new_mask)
  | Orientation [f] r => task (KOrientation f r new_mask)
  | Position [a; b] x => task (KRelativePosition a b x new_mask)
  | Orientation [a; b] r => task (KRelativeOrientation a b r new_mask)
  | _ => None
  end.

(** When a solver that has the tasks of the program succeeds, a frame of which the task is hard is led straight to the last target that was given: its
    position goes to the target in a unit of time, and it turns at the angular velocity that gives it the orientation of the target in a unit of time. *)
Theorem C163_followed rotation_of l m ts pn log3 msqrt N s r apply qr qp s' r' delta q h objs x f :
  (forall R, rotation R -> rotation_of R = R) -> (forall f T, In (CAdd f T) l -> rotation (fr_R T)) ->
  frun rotation_of new_program l = Ok (m, ts) -> effects [] l objs -> the_object objs h = Some x -> ob_frames x = [f] -> rotation (fr_R (ob_target x)) ->
  p_priority (ob_position x) = PHard -> p_priority (ob_orientation x) = PHard ->
  (forall t k, In (Some t) m -> kinematics_task t = Some k -> In k (ks_tasks s)) ->
  kreachable pn log3 msqrt N s -> sound pn log3 msqrt s r -> qr_correct qr -> qp_correct qp -> log3_inverts log3 ->
  ksolve pn log3 msqrt qr qp s r apply = (s', r', Ok delta) -> m_nv (r_model r) = N -> starts r q ->
  jacobian_of pn (r_model r) q 0 delta f -> turns pn (r_model r) q delta f ->
  let F u := pn_frame pn (q u) f in
  get_T m (the_task (m, ts) h) = Ok (ob_target x) /\
  v3_deriv (fun u => fr_t (F u)) 0 (v3_sub (fr_t (ob_target x)) (fr_t (F 0))) /\
  exists w, spins pn q f w /\ m3_mul (exp3 w) (fr_R (F 0)) = fr_R (ob_target x).
Proof.
  intros Hr R E Ef Hx Hf Hrot Hp Ho Hin Rh So Hqr Hqp Hlog Es HN Hq Hj Hu F.
  destruct (C163_independent rotation_of l m ts Hr R E) as (objs' & Ef' & G & T). rewrite (effects_same _ _ _ _ Ef' Ef) in G, T. clear objs' Ef'.
  specialize (G h). rewrite Hx in G. destruct G as (G & _). split; [exact G|].
  pose (p := FTask (ob_position x) (Position (ob_frames x) (fr_t (ob_target x)))). pose (o := FTask (ob_orientation x) (Orientation (ob_frames x) (fr_R (ob_target x)))).
  assert (Ip : In (Some p) m) by (apply T; left; exists h, x; auto). assert (Io : In (Some o) m) by (apply T; left; exists h, x; auto).
  assert (Kp : kinematics_task p = Some (KTask (KPosition f (fr_t (ob_target x)) new_mask) PHard (p_weight (ob_position x)))) by (unfold kinematics_task, p; cbn; now rewrite Hf, Hp).
  assert (Ko : kinematics_task o = Some (KTask (KOrientation f (fr_R (ob_target x)) new_mask) PHard (p_weight (ob_orientation x)))) by (unfold kinematics_task, o; cbn; now rewrite Hf, Ho).
  split.
  - pose proof (C130_position pn log3 msqrt N s r apply qr qp s' r' delta _ 1 q f (fr_t (ob_target x)) new_mask Rh So Hqr Hqp Es (Hin _ _ Ip Kp) (or_introl (conj eq_refl eq_refl)) HN Hq Hj eq_refl eq_refl eq_refl) as D.
    replace (v3_sub (fr_t (ob_target x)) (fr_t (F 0))) with (v3_scale 1 (v3_sub (fr_t (ob_target x)) (fr_t (pn_frame pn (q 0) f)))); [exact D|]. unfold F. apply V3_ext; cbn; ring.
  - exact (C131_reached pn log3 msqrt N s r apply qr qp s' r' delta _ q f (fr_R (ob_target x)) new_mask Rh So Hqr Hqp Es (Hin _ _ Io Ko) eq_refl HN Hq Hu eq_refl eq_refl eq_refl Hrot Hlog).
Qed.
Print Assumptions C163_followed.

(** ** Example *)

(** The frame 2 of a free body: the entries 0, 1 and 2 of q are its position, 3, 4 and 7 its angles around x, y and z. *)
Definition body_at (q : vec) : frame := Frame (fr_R (ball_at q)) (V3 (vat q 0) (vat q 1) (vat q 2)).
Definition body_jac (i j : nat) : R := match i, j with 0%nat, 0%nat | 1%nat, 1%nat | 2%nat, 2%nat | 3%nat, 3%nat | 4%nat, 4%nat | 5%nat, 6%nat => 1 | _, _ => 0 end.
Definition body_pin : pin := Pin (fun q f => if Nat.eqb f 2 then body_at q else frame_id) (fun q f k => Mat 6 7 body_jac) (pn_djac ex_pin) (pn_integrate ex_pin3) (pn_difference ex_pin) (pn_neutral ex_pin)
  (pn_com ex_pin) (pn_comjac ex_pin) (pn_dcomjac ex_pin) (pn_centroidal ex_pin) (pn_crba ex_pin) (pn_gravity ex_pin) (pn_nle ex_pin) (pn_joint_jac ex_pin) (pn_joint_djac ex_pin).
Definition body_path (x : vec) (u : R) : vec :=
  Vec 8 (fun k => if Nat.ltb k 3 then vat ex_q k + u * vat x k else vat (ball_path x u) k).

Lemma body_starts x : starts ex_robot (body_path x).
Proof.
  split; [reflexivity|]. unfold body_path, ball_path, ex_robot. cbn [r_state st_q]. unfold ex_q. f_equal. apply FunctionalExtensionality.functional_extensionality. intros k.
  do 8 (destruct k as [|k]; [cbn; lra|]). reflexivity.
Qed.
Lemma body_rows x : rows3 (Mat 6 7 body_jac) 3 x = rows3 (Mat 6 7 ball_jac) 3 x /\ rows3 (Mat 6 7 body_jac) 0 x = V3 (vat x 0) (vat x 1) (vat x 2).
Proof. split; unfold rows3, row_of; cbn; f_equal; ring. Qed.
Lemma body_turns x : vlen x = 7%nat -> turns body_pin ex_model (body_path x) x 2.
Proof.
  intros L. destruct (ball_turns x L) as (_ & _ & _ & Rg & D). split; [reflexivity|]. split; [reflexivity|]. split; [exact L|]. split; [exact Rg|].
  cbn [body_pin pn_jac pn_frame Nat.eqb]. rewrite (proj1 (body_rows x)). exact D.
Qed.
Lemma body_moves x : vlen x = 7%nat -> jacobian_of body_pin ex_model (body_path x) 0 x 2.
Proof.
  intros L. destruct (ball_turns x L) as (_ & _ & _ & Rg & D). split; [reflexivity|]. split; [reflexivity|]. split; [exact L|]. split; [exact Rg|].
  cbn [body_pin pn_jac pn_frame Nat.eqb]. rewrite (proj1 (body_rows x)), (proj2 (body_rows x)). split; [|exact D].
  assert (A : forall c d, derivable_pt_lim (fun u => c + u * d) 0 d).
  { intros c d. eapply lim_ext; [intros; reflexivity| |apply (deriv_plus (fun _ => c) (fun u => u * d)); [apply lim_const|apply (deriv_prod (fun v => v) (fun _ => d) 0 1 0); [apply lim_id|apply lim_const]]]. ring. }
  split; [|split]; cbn [body_at fr_t vx vy vz body_path vat Nat.ltb Nat.leb]; apply A.
Qed.

(** Two hard tasks. *)
Lemma two_solved pn log3 msqrt dt t1 t2 e1 e2 x : 
  task_update pn log3 msqrt 7 dt ex_robot (kt_kind t1) = Ok e1 -> shaped 7 e1 -> kt_priority t1 = PHard ->
  task_update pn log3 msqrt 7 dt ex_robot (kt_kind t2) = Ok e2 -> shaped 7 e2 -> kt_priority t2 = PHard ->
  let rows e := map (fun k (j : nat) => if Nat.ltb j 7 then mat_at (fst e) k j else 0) (seq 0 (mrows (fst (e : equation)))) in
  independent_rows 8 (rows e1 ++ rows e2) -> follows e1 x 1 -> follows e2 x 1 ->
  let s := with_settings (new_ksolver ex_robot) dt [] false false false [t1; t2] [] 1 false true in
  kreachable pn log3 msqrt 7 s /\ sound pn log3 msqrt s ex_robot /\
  exists s' delta, ksolve pn log3 msqrt perfect_qr perfect_qp s ex_robot false = (s', ex_robot, Ok delta) /\ vlen delta = 7%nat.
Proof.
  intros U1 S1 P1 U2 S2 P2 rows Hi F1 F2 s.
  assert (Rh : kreachable pn log3 msqrt 7 s) by (apply kr_settings, kr_new; reflexivity).
  assert (An : answerable pn log3 msqrt s ex_robot).
  { split; cbn [s with_settings ks_tasks ks_masked ks_masked_fbase ks_joint_limits ks_velocity_limits ks_cons ks_N ks_dt new_ksolver].
    - intros t' [<-|[<-|[]]]; [exists e1; split; [split; [now left|exact U1]|exact S1]|exists e2; split; [split; [right; now left|exact U2]|exact S2]].
    - intros t' [<-|[<-|[]]] H; congruence.
    - intros j [].
    - discriminate.
    - discriminate.
    - discriminate.
    - intros c []. }
  pose proof (answerable_sound _ _ _ _ _ An) as So. split; [exact Rh|]. split; [exact So|].
  assert (Al : allowed pn log3 msqrt s ex_robot x).
  { split; unfold asks_for; cbn [s with_settings ks_tasks ks_masked ks_masked_fbase ks_joint_limits ks_velocity_limits ks_cons ks_N ks_dt new_ksolver].
    - intros t' e' [[<-|[<-|[]]] E] _; cbn in E; [rewrite U1 in E|rewrite U2 in E]; injection E as <-; assumption.
    - intros t' e' [[<-|[<-|[]]] E] H; congruence.
    - intros (t' & e' & [[<-|[<-|[]]] _] & H & _); congruence.
    - intros j [].
    - discriminate.
    - discriminate.
    - discriminate.
    - intros c cs []. }
  destruct (perfect_ksolve pn log3 msqrt 7 s ex_robot Rh An eq_refl ltac:(cbn; lra)) as [(s' & r' & delta & E) _].
  - unfold hard_rows. cbn [s with_settings ks_tasks ks_masked ks_masked_fbase ks_cons flat_map map app]. rewrite !app_nil_r.
    unfold task_rows. rewrite P1, P2. change (ks_N s) with 7%nat. change (ks_dt s) with dt. rewrite U1, U2. destruct e1 as [A1 b1], e2 as [A2 b2]. exact Hi.
  - exists x. exact Al.
  - exists s', delta. pose proof (C64_no_apply pn log3 msqrt perfect_qr perfect_qp s ex_robot s' r' _ E) as ->. split; [exact E|].
    apply (solved_updates pn log3 msqrt 7 s ex_robot false perfect_qr perfect_qp s' ex_robot delta t1 Rh So E (or_introl eq_refl)).
Qed.

(** A program that makes two frame tasks, removes the first one, configures and moves the second one, which a refused priority does not change. *)
Definition body_goal : frame := Frame (m3_mul (rot_x (1 / 10)) (rot_y (1 / 10))) (V3 1 2 3).
Definition ex_calls : list fcall :=
  [CAdd [1; 2]%nat frame_id; CAdd [2]%nat frame_id; CConfigure 1 "foot" "hard" 1 1; CRemove 0; CSet 1 body_goal; CConfigure 1 "leg" "harder" 2 2].
Definition ex_objects : objects :=
  [None; Some (Object [2%nat] body_goal (Prioritized "leg_position" PHard 1) (Prioritized "foot_orientation" PHard 1))].

Example C163_example : exists m ts s s' delta q, let l := ex_calls in
  (forall f T, In (CAdd f T) l -> rotation (fr_R T)) /\ careful 0 [] l /\ frun (fun R => R) new_program l = Ok (m, ts) /\ effects [] l ex_objects /\
  (forall t k, In (Some t) m -> kinematics_task t = Some k -> In k (ks_tasks s)) /\ rotation (fr_R body_goal) /\
  kreachable body_pin klog ex_sqrt 7 s /\ sound body_pin klog ex_sqrt s ex_robot /\ log3_inverts klog /\ qr_correct perfect_qr /\ qp_correct perfect_qp /\
  ksolve body_pin klog ex_sqrt perfect_qr perfect_qp s ex_robot false = (s', ex_robot, Ok delta) /\ starts ex_robot q /\
  jacobian_of body_pin ex_model q 0 delta 2 /\ turns body_pin ex_model q delta 2.
Proof.
  pose (t1 := KTask (KPosition 2 (V3 1 2 3) new_mask) PHard 1). pose (t2 := KTask (KOrientation 2 (fr_R body_goal) new_mask) PHard 1).
  assert (X1 : exists e, task_update body_pin klog ex_sqrt 7 1 ex_robot (kt_kind t1) = Ok e /\ shaped 7 e /\ mrows (fst e) = 3%nat /\ forall i j, mat_at (fst e) i j = body_jac (nth i [0; 1; 2]%nat 0%nat) j).
  { eexists; split; [unfold t1, task_update, position_update, get_T_world_frame; cbn -[klog nth]; reflexivity|split; [split; reflexivity|split; [reflexivity|intros; reflexivity]]]. }
  assert (X2 : exists e, task_update body_pin klog ex_sqrt 7 1 ex_robot (kt_kind t2) = Ok e /\ shaped 7 e /\ mrows (fst e) = 3%nat /\ forall i j, mat_at (fst e) i j = body_jac (3 + nth i [0; 1; 2]%nat 0%nat) j).
  { eexists; split; [unfold t2, task_update, orientation_update, get_T_world_frame; cbn -[klog nth body_goal]; reflexivity|split; [split; reflexivity|split; [reflexivity|intros; reflexivity]]]. }
  destruct X1 as (e1 & U1 & S1 & M1 & J1). destruct X2 as (e2 & U2 & S2 & M2 & J2).
  pose (x := fun j => match j with 0%nat => vat (snd e1) 0 | 1%nat => vat (snd e1) 1 | 2%nat => vat (snd e1) 2 | 3%nat => vat (snd e2) 0 | 4%nat => vat (snd e2) 1 | 6%nat => vat (snd e2) 2 | _ => 0 end).
  destruct (two_solved body_pin klog ex_sqrt 1 t1 t2 e1 e2 x U1 S1 eq_refl U2 S2 eq_refl) as (Rh & So & s' & delta & E & L).
  - rewrite M1, M2. intros mu H k Hk. cbn in Hk.
    pose proof (H 0%nat ltac:(lia)) as A0. pose proof (H 1%nat ltac:(lia)) as A1. pose proof (H 2%nat ltac:(lia)) as A2. pose proof (H 3%nat ltac:(lia)) as A3. pose proof (H 4%nat ltac:(lia)) as A4. pose proof (H 6%nat ltac:(lia)) as A6.
    cbn [seq map app List.length nth Rsum Nat.ltb Nat.leb] in A0, A1, A2, A3, A4, A6. rewrite !J1, !J2 in A0, A1, A2, A3, A4, A6. cbn in A0, A1, A2, A3, A4, A6.
    do 6 (destruct k as [|k]; [lra|]). lia.
  - intros k Hk. rewrite M1 in Hk. unfold Kin_spec.residual. rewrite (proj1 S1). rewrite (Rsum_ext 7 _ (fun j => body_jac (nth k [0; 1; 2]%nat 0%nat) j * x j)) by (intros j _; rewrite J1; reflexivity).
    destruct k as [|[|[|k]]]; [cbn; ring|cbn; ring|cbn; ring|lia].
  - intros k Hk. rewrite M2 in Hk. unfold Kin_spec.residual. rewrite (proj1 S2). rewrite (Rsum_ext 7 _ (fun j => body_jac (3 + nth k [0; 1; 2]%nat 0%nat) j * x j)) by (intros j _; rewrite J2; reflexivity).
    destruct k as [|[|[|k]]]; [cbn; ring|cbn; ring|cbn; ring|lia].
  - eexists. eexists. exists (with_settings (new_ksolver ex_robot) 1 [] false false false [t1; t2] [] 1 false true), s', delta, (body_path delta). cbv zeta.
    split; [intros f T [H|[H|[H|[H|[H|[H|[]]]]]]]; try discriminate; injection H as <- <-; apply rotation_id|].
    split; [cbn; repeat split; lia|]. split; [reflexivity|]. split.
    { unfold ex_calls, ex_objects. eapply es_cons; [apply ef_add|]. cbn [app]. eapply es_cons; [apply ef_add|]. cbn [app].
      eapply es_cons. { eapply ef_configure; [reflexivity|right; left; split; reflexivity|]. eapply (put_replaced _ 1). cbn. lia. }
      eapply es_cons. { eapply ef_remove; [reflexivity|]. eapply (put_replaced _ 0). cbn. lia. }
      eapply es_cons. { eapply ef_set; [reflexivity|]. eapply (put_replaced _ 1). cbn. lia. }
      eapply es_cons. { eapply ef_refused; [reflexivity| |eapply (put_replaced _ 1); cbn; lia]. intros p [[H _]|[[H _]|[H _]]]; discriminate. }
      apply es_nil. }
    split.
    { intros t k Hi Hk. cbn in Hi. destruct Hi as [Hi|[Hi|[Hi|[Hi|[]]]]]; try discriminate; injection Hi as <-; cbn in Hk; injection Hk as <-; cbn; auto. }
    split; [apply rotation_mul; [apply rotation_x|apply rotation_y]|]. split; [exact Rh|]. split; [exact So|]. split; [apply klog_inverts|].
    split; [apply perfect_qr_correct|]. split; [apply perfect_qp_correct|]. split; [exact E|]. split; [apply body_starts|]. split; [now apply body_moves|now apply body_turns].
Qed.
