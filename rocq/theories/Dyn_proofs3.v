(** Lemmas about the dynamics solver: limits, tasks and constraints, and the whole problem. *)
From Coq Require Import Reals List ZArith Bool String Lra Lia.
From Verif Require Import Base Linalg Geom3 Tools_model Geometry_model Expression_model Expression_spec Expression_proofs Problem_model Problem_spec
  Problem_proofs Problem_proofs2 Problem_props Polynom_model Robot_model Robot_spec KinTasks_model Kin_model Kin_spec Kin_proofs Kin_proofs6
  DynTasks_model Dyn_model Dyn_spec Dyn_proofs Dyn_proofs2.
Import ListNotations.
Open Scope R_scope.

(** ** Limits *)

Lemma override_spec l : forall v v', override v l = Ok v' -> NoDup (map fst l) ->
  vlen v' = vlen v /\ forall d, vat v' d = match map_find d l with Some x => x | None => vat v d end.
Proof.
  induction l as [|[k x] l IH]; intros v v' H N; cbn [override] in H; [injection H as <-; auto|].
  bind H v1 E1. apply guard_inv in E1. destruct E1 as [_ E1]. injection E1 as <-. cbn [map fst] in N. apply NoDup_cons_iff in N. destruct N as [N1 N2].
  destruct (IH _ _ H N2) as [L V]. split; [exact L|]. intros d. rewrite V. cbn [map_find vat].
  destruct (Nat.eqb_spec d k) as [->|Hd].
  - assert (map_find k l = None) as ->; [|reflexivity]. clear -N1. induction l as [|[k' y] l IH]; [reflexivity|]. cbn in *.
    destruct (Nat.eqb_spec k k') as [->|]; [tauto|]. apply IH. tauto.
  - reflexivity.
Qed.

Lemma slice_from e n m f i e' : denotes e n m f -> slice e (Z.of_nat i) (-1) = Ok e' -> (i <= n)%nat /\ denotes e' (n - i) m (fun x a => f x (i + a)%nat).
Proof.
  intros D H. destruct (Nat.le_gt_cases i n) as [L|L].
  - split; [exact L|]. rewrite (slice_neg e n m f i (-1) D L) in H by lia. destruct (slice_denotes e n m f i (n - i) D) as (r & Hr & Dr); [lia|].
    rewrite Hr in H. injection H as <-. exact Dr.
  - exfalso. rewrite (slice_ub e n m f (Z.of_nat i) (-1) D) in H; [discriminate|]. right. right. lia.
Qed.

Lemma torque_limit_means s r tau n f cs : denotes tau (ds_N s) n f -> well_formed (r_model r) -> ds_N s = m_nv (r_model r) -> NoDup (map fst (ds_overridden s)) ->
  torque_limit_constraints s r tau = Ok cs ->
  means n cs (fun x => ds_torque_limits s = true -> forall d, (6 <= d < ds_N s)%nat -> Rabs (f x d) <= torque_limit s r d) (fun _ => 0).
Proof.
  intros D Wf HN Nd H. unfold torque_limit_constraints in H. destruct (ds_torque_limits s).
  2: { injection H as <-. eapply means_ext; [| |apply means_nil]; [|reflexivity]. intros x. split; [intros _; discriminate|trivial]. }
  bind H v Ev. apply guard_inv in H. destruct H as [G H]. apply Nat.leb_le in G. bind H e Ee. bind H l El. bind H c1 E1. bind H c2 E2. injection H as <-.
  destruct (override_spec _ _ _ Ev Nd) as [Lv Vv]. destruct (slice_from tau _ _ _ 6 e D Ee) as [_ De].
  unfold bottom_rows in El. apply guard_inv in El. destruct El as [_ El]. injection El as <-.
  assert (Le : vlen (m_effort (r_model r)) = ds_N s) by (destruct Wf as (_ & _ & _ & _ & _ & _ & _ & W & _); congruence).
  pose proof (fun K => made_lev _ _ _ _ _ _ De K E1) as M1. specialize (M1 eq_refl). pose proof (fun K => made_gev _ _ _ _ _ _ De K E2) as M2. specialize (M2 eq_refl).
  eapply means_ext; [| |exact (means_app n [c1] _ _ [c2] _ _ (means_hard _ _ _ _ _ _ n M1 (Nat.le_refl n)) (means_hard _ _ _ _ _ _ n M2 (Nat.le_refl n)))].
  - intros x. cbv beta. cbn [vec_scale vat vlen]. rewrite Lv, Le. split.
    + intros [H1 H2] _ d Hd. specialize (H1 (d - 6)%nat). specialize (H2 (d - 6)%nat).
      replace (ds_N s - (ds_N s - 6) + (d - 6))%nat with d in * by lia. replace (6 + (d - 6))%nat with d in * by lia.
      rewrite Vv in H1, H2. unfold torque_limit. apply Rabs_le.
      assert ((d - 6 < ds_N s - 6)%nat) as Hd' by lia. specialize (H1 Hd'). specialize (H2 Hd'). lra.
    + intros H0. specialize (H0 eq_refl). split; intros i Hi; specialize (H0 (6 + i)%nat); rewrite Vv; unfold torque_limit in H0;
        replace (ds_N s - (ds_N s - 6) + i)%nat with (6 + i)%nat by lia; assert ((6 <= 6 + i < ds_N s)%nat) as Hd by lia; specialize (H0 Hd); apply Rabs_le_inv in H0; lra.
  - intros x. cbv beta. ring.
Qed.

(** A row of the limits holds. *)
Definition row_holds (n : nat) (x : nat -> R) (row : (nat -> R) * R) : Prop := Rsum n (fun j => fst row j * x j) + snd row <= 0.

Lemma at_dof_sum n d a x : (d < n)%nat -> Rsum n (fun j => at_dof d a j * x j) = a * x d.
Proof.
  intros H. unfold at_dof. rewrite (Rsum_delta n d); [now rewrite Nat.eqb_refl|exact H|]. intros i _ Hi. apply Nat.eqb_neq in Hi. rewrite Hi. ring.
Qed.

Lemma vec_get_spec v i x : vec_get v i = Ok x -> (i < vlen v)%nat /\ x = vat v i.
Proof. intros H. apply guard_inv in H. destruct H as [G H]. injection H as <-. apply Nat.ltb_lt in G. auto. Qed.

(** The limits of one degree of freedom. *)
Definition dof_ok (s : dsolver) (r : robot) (qdd tau : nat -> R) (d : nat) : Prop :=
  (ds_velocity_limits s = true -> ds_vs_torque s = false -> Rabs (vat (st_qd (r_state r)) d + ds_dt s * qdd d) <= vat (m_velocity (r_model r)) d) /\
  (ds_vs_torque s = true -> let vmax := vat (m_velocity (r_model r)) d in
    Rabs (vat (st_qd (r_state r)) d + ds_dt s * qdd d + vmax / vat (m_effort (r_model r)) d * tau d) <= vmax) /\
  (ds_joint_limits s = true ->
    let q := vat (st_q (r_state r)) (S d) in let upper := vat (m_upper (r_model r)) (S d) in
    if Rlt_dec upper q then qdd d <= - safe_at s d else vat (st_qd (r_state r)) d + ds_dt s * qdd d <= braking_speed (safe_at s d) (upper - q)) /\
  (ds_joint_limits s = true ->
    let q := vat (st_q (r_state r)) (S d) in let lower := vat (m_lower (r_model r)) (S d) in
    if Rlt_dec q lower then safe_at s d <= qdd d else - braking_speed (safe_at s d) (q - lower) <= vat (st_qd (r_state r)) d + ds_dt s * qdd d).

Lemma joint_rows_spec s r tau n f k rs x : denotes tau (ds_N s) n f -> (k + 6 < ds_N s)%nat -> (ds_N s <= n)%nat -> joint_limit_rows s r tau k = Ok rs ->
  (Forall (row_holds n x) rs <-> dof_ok s r x (f x) (k + 6)).
Proof.
  intros D Hk Hn H. unfold joint_limit_rows in H. bind H q Eq. bind H qd Ed. bind H vel Ev. bind H pos Ep. injection H as <-.
  apply vec_get_spec in Eq, Ed. destruct Eq as [_ ->], Ed as [_ ->]. rewrite Forall_app. unfold dof_ok. set (d := (k + 6)%nat) in *.
  pose proof (denotes_elim _ _ _ _ D) as (R1 & R2 & R3 & R4). assert (Hd : (d < n)%nat) by (unfold d; lia).
  replace (k + 7)%nat with (S d) in * by (unfold d; lia).
  assert (V : Forall (row_holds n x) vel <->
    (ds_velocity_limits s = true -> ds_vs_torque s = false -> Rabs (vat (st_qd (r_state r)) d + ds_dt s * x d) <= vat (m_velocity (r_model r)) d) /\
    (ds_vs_torque s = true -> let vmax := vat (m_velocity (r_model r)) d in
      Rabs (vat (st_qd (r_state r)) d + ds_dt s * x d + vmax / vat (m_effort (r_model r)) d * f x d) <= vmax)).
  { destruct (ds_vs_torque s).
    - bind Ev vm E1. bind Ev em E2. apply vec_get_spec in E1, E2. destruct E1 as [_ ->], E2 as [_ ->]. apply guard_inv in Ev. destruct Ev as [_ Ev]. injection Ev as <-.
      set (ratio := vat (m_velocity (r_model r)) d / vat (m_effort (r_model r)) d).
      assert (E : forall a b, Rsum n (fun j => (a * mat_at (eA tau) d j + b * at_dof d (ds_dt s) j) * x j) = a * (f x d - vat (eb tau) d) + b * (ds_dt s * x d)).
      { intros a b. rewrite (Rsum_ext n _ (fun j => a * (mat_at (eA tau) d j * x j) + b * (at_dof d (ds_dt s) j * x j))) by (intros; ring).
        rewrite Rsum_plus, !Rsum_scal_l, at_dof_sum by exact Hd. rewrite <- R4 by (unfold d; lia). unfold ev. rewrite R3. ring. }
      rewrite Forall_cons_iff, Forall_cons_iff. unfold row_holds. cbn [fst snd].
      rewrite (Rsum_ext n (fun j => (ratio * mat_at (eA tau) d j + at_dof d (ds_dt s) j) * x j) (fun j => (ratio * mat_at (eA tau) d j + 1 * at_dof d (ds_dt s) j) * x j)) by (intros; ring).
      rewrite (Rsum_ext n (fun j => (- ratio * mat_at (eA tau) d j - at_dof d (ds_dt s) j) * x j) (fun j => (- ratio * mat_at (eA tau) d j + - (1) * at_dof d (ds_dt s) j) * x j)) by (intros; ring).
      rewrite !E. split.
      + intros (H1 & H2 & _). split; [discriminate|]. intros _. cbv zeta. apply Rabs_le. fold ratio. lra.
      + intros [_ H2]. specialize (H2 eq_refl). cbv zeta in H2. apply Rabs_le_inv in H2. fold ratio in H2. repeat split; try lra. constructor.
    - destruct (ds_velocity_limits s).
      + bind Ev vm E1. apply vec_get_spec in E1. destruct E1 as [_ ->]. injection Ev as <-. rewrite Forall_cons_iff, Forall_cons_iff. unfold row_holds. cbn [fst snd].
        rewrite !at_dof_sum by exact Hd. split.
        * intros (H1 & H2 & _). split; [|discriminate]. intros _ _. apply Rabs_le. lra.
        * intros [H1 _]. specialize (H1 eq_refl eq_refl). apply Rabs_le_inv in H1. repeat split; try lra. constructor.
      + injection Ev as <-. split; [|intros _; constructor]. intros _. split; discriminate. }
  assert (P : Forall (row_holds n x) pos <->
    (ds_joint_limits s = true -> let q := vat (st_q (r_state r)) (S d) in let upper := vat (m_upper (r_model r)) (S d) in
      if Rlt_dec upper q then x d <= - safe_at s d else vat (st_qd (r_state r)) d + ds_dt s * x d <= braking_speed (safe_at s d) (upper - q)) /\
    (ds_joint_limits s = true -> let q := vat (st_q (r_state r)) (S d) in let lower := vat (m_lower (r_model r)) (S d) in
      if Rlt_dec q lower then safe_at s d <= x d else - braking_speed (safe_at s d) (q - lower) <= vat (st_qd (r_state r)) d + ds_dt s * x d)).
  { destruct (ds_joint_limits s).
    - bind Ep up E1. bind Ep lo E2. apply vec_get_spec in E1, E2. destruct E1 as [_ ->], E2 as [_ ->]. injection Ep as <-. rewrite Forall_cons_iff, Forall_cons_iff.
      assert (X : row_holds n x (if Rlt_dec (vat (m_upper (r_model r)) (S d)) (vat (st_q (r_state r)) (S d)) then (at_dof d 1, safe_at s d)
          else (at_dof d (ds_dt s), vat (st_qd (r_state r)) d - sqrt (2 * (vat (m_upper (r_model r)) (S d) - vat (st_q (r_state r)) (S d)) * safe_at s d))) <->
        if Rlt_dec (vat (m_upper (r_model r)) (S d)) (vat (st_q (r_state r)) (S d)) then x d <= - safe_at s d else
          vat (st_qd (r_state r)) d + ds_dt s * x d <= braking_speed (safe_at s d) (vat (m_upper (r_model r)) (S d) - vat (st_q (r_state r)) (S d))).
      { destruct (Rlt_dec (vat (m_upper (r_model r)) (S d)) (vat (st_q (r_state r)) (S d))); unfold row_holds, braking_speed; cbn [fst snd]; rewrite at_dof_sum by exact Hd; lra. }
      assert (Y : row_holds n x (if Rlt_dec (vat (st_q (r_state r)) (S d)) (vat (m_lower (r_model r)) (S d)) then (at_dof d (-1), safe_at s d)
          else (at_dof d (- ds_dt s), - vat (st_qd (r_state r)) d - sqrt (2 * Rabs (vat (m_lower (r_model r)) (S d) - vat (st_q (r_state r)) (S d)) * safe_at s d))) <->
        if Rlt_dec (vat (st_q (r_state r)) (S d)) (vat (m_lower (r_model r)) (S d)) then safe_at s d <= x d else
          - braking_speed (safe_at s d) (vat (st_q (r_state r)) (S d) - vat (m_lower (r_model r)) (S d)) <= vat (st_qd (r_state r)) d + ds_dt s * x d).
      { destruct (Rlt_dec (vat (st_q (r_state r)) (S d)) (vat (m_lower (r_model r)) (S d))) as [L|L]; unfold row_holds, braking_speed; cbn [fst snd]; rewrite at_dof_sum by exact Hd; [lra|].
        rewrite Rabs_minus_sym, (Rabs_right (vat (st_q (r_state r)) (S d) - _)) by lra. lra. }
      rewrite X, Y. cbv zeta. split.
      + intros (H1 & H2 & _). split; intros _; assumption.
      + intros [H1 H2]. split; [exact (H1 eq_refl)|]. split; [exact (H2 eq_refl)|constructor].
    - injection Ep as <-. split; [|intros _; constructor]. intros _. split; discriminate. }
  rewrite V, P. tauto.
Qed.

Lemma joints_rows_spec s r tau n f x : denotes tau (ds_N s) n f -> (ds_N s <= n)%nat -> forall l rs, (forall k, In k l -> (k + 6 < ds_N s)%nat) ->
  joints_limit_rows s r tau l = Ok rs -> (Forall (row_holds n x) rs <-> forall k, In k l -> dof_ok s r x (f x) (k + 6)).
Proof.
  intros D Hn. induction l as [|k l IH]; intros rs Hl H; cbn [joints_limit_rows] in H.
  - injection H as <-. split; [intros _ k []|intros _; constructor].
  - bind H a Ea. bind H b Eb. injection H as <-. rewrite Forall_app, (joint_rows_spec s r tau n f k a x D (Hl k (or_introl eq_refl)) Hn Ea),
      (IH b (fun j Hj => Hl j (or_intror Hj)) eq_refl). split.
    + intros [H1 H2] j [<-|Hj]; auto.
    + intros H0. split; [apply H0; now left|]. intros j Hj. apply H0. now right.
Qed.

Lemma limits_means s r tau n f cs : denotes tau (ds_N s) n f -> (ds_N s <= n)%nat -> well_formed (r_model r) -> ds_N s = m_nv (r_model r) ->
  NoDup (map fst (ds_overridden s)) -> dlimit_constraints s r n tau = Ok cs ->
  means n cs (fun x => within_limits s r x (f x)) (fun _ => 0).
Proof.
  intros D Hn Wf HN Nd H. unfold dlimit_constraints in H. set (some := ds_joint_limits s || ds_velocity_limits s || ds_vs_torque s) in *.
  destruct (some && (if Req_EM_T (ds_dt s) 0 then true else false)); [discriminate|]. bind H c1 E1.
  pose proof (torque_limit_means s r tau n f c1 D Wf HN Nd E1) as T.
  assert (Q : forall x, within_limits s r x (f x) <->
    (ds_torque_limits s = true -> forall d, (6 <= d < ds_N s)%nat -> Rabs (f x d) <= torque_limit s r d) /\ forall d, (6 <= d < ds_N s)%nat -> dof_ok s r x (f x) d).
  { intros x. split.
    - intros [A1 A2 A3 A4 A5]. split; [exact A1|]. intros d Hd. split; [intros; now apply A2|]. split; [intros H1; exact (A3 H1 d Hd)|]. split; [intros H1; exact (A4 H1 d Hd)|intros H1; exact (A5 H1 d Hd)].
    - intros [A B]. constructor; [exact A|intros H1 H2 d Hd|intros H1 d Hd|intros H1 d Hd|intros H1 d Hd]; destruct (B d Hd) as (B1 & B2 & B3 & B4);
        [exact (B1 H1 H2)|exact (B2 H1)|exact (B3 H1)|exact (B4 H1)]. }
  assert (Q0 : (some = false \/ (ds_N s <= 6)%nat) -> forall x d, (6 <= d < ds_N s)%nat -> dof_ok s r x (f x) d).
  { intros [Hs|Hs] x d Hd; [|lia]. unfold some in Hs. apply orb_false_iff in Hs. destruct Hs as [Hs H3]. apply orb_false_iff in Hs. destruct Hs as [H1 H2].
    unfold dof_ok. rewrite H1, H2, H3. repeat split; discriminate. }
  destruct some eqn:Es.
  - apply guard_inv in H. destruct H as [G H]. apply Nat.leb_le in G. destruct (Nat.eqb_spec (ds_N s) 6) as [E6|E6].
    + injection H as <-. eapply means_ext; [| |exact T]; [|reflexivity]. intros x. rewrite Q. split; [|tauto]. intros Ht. split; [exact Ht|]. apply Q0. right. lia.
    + bind H rs Er. bind H c Ec. injection H as <-.
      assert (De : denotes (Expr (Mat (List.length rs) n (fun i => fst (nth i rs ((fun _ => 0), 0)))) (Vec (List.length rs) (fun i => snd (nth i rs ((fun _ => 0), 0))))) (List.length rs) n
        (fun x i => Rsum n (fun j => fst (nth i rs ((fun _ => 0), 0)) j * x j) + snd (nth i rs ((fun _ => 0), 0)))).
      { apply denotes_intro; try reflexivity. }
      pose proof (made_led _ _ _ _ _ _ De Ec) as M.
      eapply means_ext; [| |exact (means_app n _ _ _ [c] _ _ T (means_hard _ _ _ _ _ _ n M (Nat.le_refl n)))].
      * intros x. cbv beta. rewrite Q.
        assert (F : (forall i, (i < List.length rs)%nat -> 0 <= 0 - (Rsum n (fun j => fst (nth i rs ((fun _ => 0), 0)) j * x j) + snd (nth i rs ((fun _ => 0), 0)))) <-> Forall (row_holds n x) rs).
        { rewrite Forall_nth. unfold row_holds. split.
          - intros Hi i d Hl. specialize (Hi i Hl). rewrite (nth_indep rs d ((fun _ => 0), 0) Hl). lra.
          - intros Hi i Hl. specialize (Hi i ((fun _ => 0), 0) Hl). lra. }
        assert (Hl : forall k, In k (seq 0 (ds_N s - 6)) -> (k + 6 < ds_N s)%nat) by (intros k Hk; apply in_seq in Hk; lia).
        rewrite F, (joints_rows_spec s r tau n f x D Hn _ rs Hl Er).
        split; intros [A B]; (split; [exact A|]).
        -- intros d Hd. replace d with (d - 6 + 6)%nat by lia. apply B. apply in_seq. lia.
        -- intros k Hk. apply in_seq in Hk. apply B. lia.
      * intros x. cbv beta. ring.
  - injection H as <-. eapply means_ext; [| |exact T]; [|reflexivity]. intros x. rewrite Q. split; [|tauto]. intros Ht. split; [exact Ht|]. apply Q0. now left.
Qed.

(** ** Tasks *)

Lemma dtask_means N n tau f t e cs : denotes tau N n f -> (N <= n)%nat -> dshaped N e -> dtask_constraint tau t e = Ok cs ->
  means n cs (fun x => dt_priority t = PHard -> forall k, (k < mrows (de_A e))%nat -> dresidual t e x (f x) k = 0)
    (fun x => match dt_priority t with PSoft => dt_weight t / 2 * Rsum (mrows (de_A e)) (fun k => Rsqr (dresidual t e x (f x) k)) | _ => 0 end).
Proof.
  intros D Hn [Sc Sb] H. unfold dtask_constraint in H. destruct (Nat.eqb_spec (mrows (de_A e)) 0) as [E0|E0].
  { injection H as <-. eapply means_ext; [| |apply means_nil].
    - intros x. split; [|trivial]. intros _ _ k Hk. lia.
    - intros x. rewrite E0. cbn [Rsum]. destruct (dt_priority t); ring. }
  bind H p Ep. bind H y Ey. bind H c Ec. injection H as <-.
  assert (Dy : exists m, denotes y (mrows (de_A e)) m (fun x k => dresidual t e x (f x) k) /\ (m <= n)%nat).
  { unfold dresidual. destruct (about_tau (dt_kind t)).
    - bind Ey z Ez. bind Ey b Eb. injection Ey as <-. rewrite Sc. exists n. split; [|lia].
      destruct (m_mul_e_denotes (de_A e) tau N n f D Sc) as (z' & Ez' & Dz). rewrite Ez in Ez'. injection Ez' as <-.
      pose proof (denotes_elim _ _ _ _ Dz) as (Z1 & Z2 & Z3 & Z4). unfold vec_sub in Eb. apply guard_inv in Eb. destruct Eb as [_ Eb]. injection Eb as <-.
      apply denotes_intro; [exact Z1|exact Z2|exact Z3|]. intros x i Hi. unfold ev, cols. cbn [eA eb mcols vat]. fold (cols z). rewrite <- Z4 by exact Hi. unfold ev. ring.
    - injection Ey as <-. exists N. split; [|exact Hn]. rewrite Sc. apply denotes_intro; [reflexivity|exact Sb|exact Sc|].
      intros x i Hi. unfold ev, cols. cbn [eA eb vat vec_scale]. rewrite Sc. ring. }
  destruct Dy as (m & Dy & Hm). pose proof (made_eqd _ _ _ _ _ _ Dy Ec) as M. apply (made_configure _ _ _ _ _ _ _ p (dt_weight t)) in M.
  destruct (dt_priority t); try discriminate; injection Ep as <-.
  - eapply means_ext; [| |exact (means_hard _ _ _ _ _ _ n M Hm)]; [|reflexivity]. intros x. cbv beta. split.
    + intros H0 _ k Hk. specialize (H0 k Hk). lra.
    + intros H0 k Hk. specialize (H0 eq_refl k Hk). lra.
  - eapply means_ext; [| |exact (means_soft _ _ _ _ _ n M Hm)].
    + intros x. split; [discriminate|trivial].
    + intros x. cbv beta. f_equal. apply Rsum_ext. intros i _. now rewrite Rminus_0_r.
Qed.
