From Coq Require Import Reals List ZArith Bool String Lra Lia.
From Verif Require Import Base Linalg Angle Geom3 Tools_model Geometry_model Geometry_proofs Expression_model Problem_model Problem_spec Problem_props Polynom_model Polynom_spec Robot_model
  Robot_spec Robot_proofs Robot_props KinTasks_model Kin_model Kin_spec Kin_proofs Kin_proofs2 Kin_proofs5 Kin_proofs6 Kin_props DynTasks_model DynTasks_proofs Tasks_spec Tasks_proofs
  KinTasks_spec KinTasks_proofs Backends_proofs KinTasks_example KinCons_spec KinCons_proofs.
Import ListNotations.
Open Scope R_scope.

(** ** C132 What the constraints of the kinematics solver ask for *)

(** A hard constraint: none of its gaps is negative for the displacement that the solver returns. *)
Theorem C132_hard pn log3 msqrt N s r apply qr qp s' r' delta c place q : kreachable pn log3 msqrt N s -> sound pn log3 msqrt s r ->
  qr_correct qr -> qp_correct qp -> ksolve pn log3 msqrt qr qp s r apply = (s', r', Ok delta) -> In c (ks_cons s) -> constraint_hard c ->
  m_nv (r_model r) = N -> starts r q -> cons_motion pn r place q delta (kc_kind c) ->
  exists n gap, gaps pn (ks_dt s) r place q delta (kc_kind c) n gap /\ forall i, (i < n)%nat -> 0 <= gap i.
Proof.
  intros Rh So Hqr Hqp E Hc Hh HN Hq Hm. destruct (solved_constraints pn log3 msqrt N s r apply qr qp s' r' delta c Rh So E Hc) as (L & cs & Ec).
  destruct (constraint_made pn N (ks_dt s) r c cs place q delta (eq_sym HN) Hq Hm Ec) as (n & gap & G & Hcs). exists n, gap. split; [exact G|]. intros i Hi.
  destruct Hcs as [[_ ->]|(c' & g & -> & M & Hg)]; [lia|]. rewrite <- (Hg i Hi). rewrite (prio_hard c Hh) in M.
  refine (hard_rows_hold pn log3 msqrt N s r apply qr qp s' r' delta c [c'] c' g n Rh So Hqr Hqp E Hc Ec (or_introl eq_refl) _ i Hi).
  assert (W : c_weight c' = kc_weight c) by apply M. rewrite W. exact M.
Qed.
Print Assumptions C132_hard.

(** The penalty of a soft constraint, for a displacement [x]: half its weight times the sum of the squares of its negative gaps. *)
Theorem C132_soft pn log3 msqrt N s r apply qr qp s' r' delta c (x : vec) place q : kreachable pn log3 msqrt N s -> sound pn log3 msqrt s r ->
  ksolve pn log3 msqrt qr qp s r apply = (s', r', Ok delta) -> In c (ks_cons s) -> ~ constraint_hard c ->
  m_nv (r_model r) = N -> starts r q -> cons_motion pn r place q x (kc_kind c) ->
  exists n gap, gaps pn (ks_dt s) r place q x (kc_kind c) n gap /\
    constraint_penalty pn s r c (vat x) = kc_weight c / 2 * Rsum n (fun i => Rsqr (Rmin 0 (gap i))).
Proof.
  intros Rh So E Hc Hh HN Hq Hm. destruct (solved_constraints pn log3 msqrt N s r apply qr qp s' r' delta c Rh So E Hc) as (L & cs & Ec).
  destruct (constraint_made pn N (ks_dt s) r c cs place q x (eq_sym HN) Hq Hm Ec) as (n & gap & G & Hcs). exists n, gap. split; [exact G|].
  unfold constraint_penalty. rewrite (proj1 (reachable_knows _ _ _ _ _ Rh)), Ec. destruct Hcs as [[-> ->]|(c' & g & -> & M & Hg)]; [cbn; ring|]. cbn [soft_cost]. rewrite (prio_soft c Hh) in M.
  rewrite (made_penalty_ineq _ _ _ _ _ (vat x) M), Rplus_0_r. f_equal. apply Rsum_ext. intros i Hi. now rewrite (Hg i Hi).
Qed.
Print Assumptions C132_soft.

(** A hard constraint has no penalty. *)
Theorem C132_hard_free pn log3 msqrt N s r apply qr qp s' r' delta c (x : vec) place q : kreachable pn log3 msqrt N s -> sound pn log3 msqrt s r ->
  ksolve pn log3 msqrt qr qp s r apply = (s', r', Ok delta) -> In c (ks_cons s) -> constraint_hard c ->
  m_nv (r_model r) = N -> starts r q -> cons_motion pn r place q x (kc_kind c) -> constraint_penalty pn s r c (vat x) = 0.
Proof.
  intros Rh So E Hc Hh HN Hq Hm. destruct (solved_constraints pn log3 msqrt N s r apply qr qp s' r' delta c Rh So E Hc) as (L & cs & Ec).
  destruct (constraint_made pn N (ks_dt s) r c cs place q x (eq_sym HN) Hq Hm Ec) as (n & gap & G & Hcs).
  unfold constraint_penalty. rewrite (proj1 (reachable_knows _ _ _ _ _ Rh)), Ec. destruct Hcs as [[-> ->]|(c' & g & -> & M & Hg)]; [reflexivity|]. cbn [soft_cost]. rewrite (prio_hard c Hh) in M.
  rewrite (made_penalty_hard _ _ _ _ _ _ (vat x) M). ring.
Qed.
Print Assumptions C132_hard_free.

(** Joint-space half-spaces: the joints of the robot satisfy A q <= b after a solve that applies its displacement; the entries of the base are ignored,
    as documented. *)
Corollary C132_half_spaces pn log3 msqrt N s r qr qp s' r' delta A b w place : kreachable pn log3 msqrt N s -> sound pn log3 msqrt s r ->
  qr_correct qr -> qp_correct qp -> ksolve pn log3 msqrt qr qp s r true = (s', r', Ok delta) -> In (KConstraint (KHalfSpaces A b) PHard w) (ks_cons s) ->
  m_nv (r_model r) = N -> up_to_date r -> cons_motion pn r place (fun _ => st_q (r_state r)) delta (KHalfSpaces A b) ->
  forall i, (i < mrows A)%nat -> Rsum (mcols A - 7) (fun j => mat_at A i (7 + j) * vat (st_q (r_state r')) (7 + j)) <= vat b i.
Proof.
  intros Rh So Hqr Hqp E Hc HN Hu Hm i Hi.
  destruct (C132_hard pn log3 msqrt N s r true qr qp s' r' delta (KConstraint (KHalfSpaces A b) PHard w) place (fun _ => st_q (r_state r)) Rh So Hqr Hqp E Hc eq_refl HN (conj Hu eq_refl) Hm) as (n & gap & [-> G] & H).
  specialize (H i Hi). rewrite (G i Hi) in H. destruct (C64_applied pn log3 msqrt qr qp s r s' r' delta E) as (_ & -> & _). lra.
Qed.
Print Assumptions C132_half_spaces.

(** *** Examples *)

Definition k_square : list point := [(-2, -2); (-2, 2); (2, 2); (2, -2)].
Definition k_pair (r : robot) : list distance_info := [DistanceInfo 0 1 (V3 2 0 0) (V3 (cos (1 / 2)) (sin (1 / 2)) 0) 1].
Definition k_constraints : list constraint_kind :=
  [KMaxDistance 1 2 3; KHalfSpaces (Mat 1 8 (fun _ j => if Nat.eqb j 7 then 2 else 5)) (Vec 1 (fun _ => 1)); KComPolygon k_square (1 / 10) 4 true; KCollisions k_pair (1 / 10) 2].
Definition k_place (x : vec) (j : nat) (u : R) : frame := if Nat.eqb j 0 then frame_id else Frame (rot_z (vat (arm_path x u) 7)) v3_zero.

Lemma arm_joints x j : vlen x = 7%nat -> joint_moves arm_pin ex_model (arm_path x) x (k_place x) j.
Proof.
  intros L. split; [reflexivity|]. split; [reflexivity|]. split; [exact L|]. split; [intros u; unfold k_place; destruct (Nat.eqb j 0); [apply rotation_id|apply rotation_z]|].
  cbn [arm_pin pn_joint_jac]. unfold rows3. rewrite !(fun f i => proj1 (arm_row x _ f World i L)). unfold k_place, arm_jac. destruct (Nat.eqb j 0); cbn [Nat.eqb andb].
  - split; [split; [|split]; (eapply lim_ext; [intros; reflexivity| |apply lim_const]; cbn; ring)|]. intros e He. cbn [In] in He.
    repeat (destruct He as [<-|He]); try destruct He; (eapply lim_ext; [intros; reflexivity| |apply lim_const]; unfold m3_mul, skew; cbn; ring).
  - split; [split; [|split]; (eapply lim_ext with (f := fun _ : R => 0); [intros; reflexivity| |apply lim_const]; cbn; ring)|]. apply (arm_rotation_deriv x). apply V3_ext; cbn; ring.
Qed.

Lemma k_square_edges i A B : edge k_square i A B -> A <> B.
Proof.
  intros [H1 H2] E. subst B. rewrite <- H1 in H2. pose proof (f_equal (fun o => match o with Some p => fst p + 3 * snd p | None => 0 end) H2) as F. clear H2.
  do 4 (destruct i as [|i]; [cbn in F; lra|]). destruct i; discriminate H1.
Qed.

Lemma k_rows k p : In k k_constraints -> exists c', constraint_add arm_pin 7 1 ex_robot (KConstraint k p 1) = Ok [c'] /\ c_type c' = Inequality /\ (0 < rows (c_expr c'))%nat /\
  vlen (eb (c_expr c')) = rows (c_expr c') /\ (cols (c_expr c') <= 7)%nat /\ (c_prio c' = Soft -> 0 < c_weight c') /\ (forall i, (i < rows (c_expr c'))%nat -> 0 <= vat (eb (c_expr c')) i).
Proof.
  destruct sin_cos_half as [S C]. pose proof (sin2_cos2 (1 / 2)) as SC. unfold Rsqr in SC. intros [<-|[<-|[<-|[<-|[]]]]].
  - eexists. split; [cbn; reflexivity|]. split; [reflexivity|]. split; [cbn; lia|]. split; [reflexivity|]. split; [cbn; lia|]. split; [cbn; lra|]. intros i Hi. cbn in Hi. replace i with 0%nat by lia. cbn.
    assert (X : v3_norm (V3 (cos (1 / 2) - 2) (sin (1 / 2) - 0) (0 - 0)) <= 3).
    { unfold v3_norm, v3_dot. cbn. rewrite <- (sqrt_Rsqr 3) by lra. apply sqrt_le_1_alt. unfold Rsqr. nra. }
    unfold v3_sub. cbn [vx vy vz]. lra.
  - eexists. split; [cbn; reflexivity|]. split; [reflexivity|]. split; [cbn; lia|]. split; [reflexivity|]. split; [cbn; lia|]. split; [cbn; lra|]. intros i Hi. cbn in Hi. replace i with 0%nat by lia. cbn. lra.
  - eexists. split.
    { unfold constraint_add. cbn [kc_kind kc_priority kc_weight]. unfold com_polygon_constraint. cbn. destruct (Req_EM_T 1 0); [lra|]. destruct (Req_EM_T 4 0); [lra|]. cbn. reflexivity. }
    split; [reflexivity|]. split; [cbn; lia|]. split; [reflexivity|]. split; [cbn; lia|]. split; [cbn; lra|]. intros i Hi. cbn in Hi.
    do 4 (destruct i as [|i]; [cbn; unfold normalize2; cbn; destruct (Rlt_dec _ _) as [l|l]; cbn; [|exfalso; apply l; lra]; match goal with |- context[sqrt ?z] => replace z with (4 * 4) by ring end; rewrite sqrt_square by lra; first [lra|nra]|]). lia.
  - eexists. split.
    { unfold constraint_add. cbn [kc_kind kc_priority kc_weight]. unfold collisions_constraint, k_pair. cbn [filter di_min]. destruct (Rlt_dec 1 2); [|lra]. cbn. destruct (Rlt_dec 1 0); [lra|]. cbn. reflexivity. }
    split; [reflexivity|]. split; [cbn; lia|]. split; [reflexivity|]. split; [cbn; lia|]. split; [cbn; lra|]. intros i Hi. cbn in Hi. replace i with 0%nat by lia. cbn. lra.
Qed.

Example C132_example k p : In k k_constraints -> exists s' delta q place,
  let c := KConstraint k p 1 in let s := one_constraint 1 c in
  kreachable arm_pin klog ex_sqrt 7 s /\ sound arm_pin klog ex_sqrt s ex_robot /\ ksolve arm_pin klog ex_sqrt perfect_qr perfect_qp s ex_robot false = (s', ex_robot, Ok delta) /\
  starts ex_robot q /\ cons_motion arm_pin ex_robot place q delta k /\ (constraint_hard c <-> p = PHard \/ (p = PScaled /\ k = KCollisions k_pair (1 / 10) 2)).
Proof.
  intros Hk. destruct (k_rows k p Hk) as (c' & H1 & H2 & H3 & H4 & H5 & H6 & H7). destruct sin_cos_half as [S _].
  destruct (one_constraint_solved arm_pin klog ex_sqrt 1 (KConstraint k p 1) c' H1 H2 H3 H4 H5 H6 H7) as (So & s' & delta & E & L). destruct (arm_contracts delta L) as (Cj & Ct & Cm).
  exists s', delta, (arm_path delta), (k_place delta). cbv zeta. split; [apply one_constraint_reachable|]. split; [exact So|]. split; [exact E|]. split; [apply arm_starts|]. split.
  - destruct Hk as [<-|[<-|[<-|[<-|[]]]]]; cbn [cons_motion].
    + split; [apply Cj; lia|split; [apply Cj; lia|]]. intros F. pose proof (f_equal vy F) as G. cbn in G. replace (1 / 2 + 0 * vat delta 6) with (1 / 2) in G by ring. lra.
    + intros j Hj. cbn in Hj. replace j with 0%nat by lia. reflexivity.
    + split; [exact Cm|]. split; [cbn; lia|]. apply k_square_edges.
    + intros d Hd. unfold near_pairs in Hd. apply filter_In in Hd. destruct Hd as [[<-|[]] _]. cbn [di_A di_B di_pA di_pB]. split; [apply arm_joints; exact L|]. split; [apply arm_joints; exact L|].
      intros F. pose proof (f_equal vy F) as G. cbn in G. lra.
  - unfold constraint_hard. cbn [kc_kind kc_priority]. destruct Hk as [<-|[<-|[<-|[<-|[]]]]]; split; intros H; try tauto; try (destruct H as [H|[_ H]]; [exact H|discriminate]).
    + destruct p; [now left|congruence|right; split; reflexivity].
    + destruct H as [->|[-> _]]; discriminate.
Qed.
