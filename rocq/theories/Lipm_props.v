(** C60: the linear inverted pendulum. *)
From Coq Require Import Reals Lra Lia List ZArith Bool.
From Verif Require Import Base Linalg Expression_model Expression_spec Expression_proofs Problem_model Problem_spec Problem_proofs
  Integrator_model Integrator_spec Integrator_proofs Integrator_proofs2 Integrator_proofs3 Integrator_props Swing_model Lipm_model Lipm_spec Lipm_proofs.
Import ListNotations.
Open Scope R_scope.

(** Building a LIPM from an initial state, or from another LIPM, never fails. *)
Theorem C60_construct mexp pb dt n t :
  (forall p v a, exists pb' l, new_lipm mexp pb dt n t p v a = Ok (pb', l)) /\
  (forall previous Sx Sy Ux Uy, exp_correct mexp -> lipm_history mexp pb previous Sx Sy Ux Uy ->
    exists pb' l, new_lipm_from mexp pb dt n t previous = Ok (pb', l)) /\
  (forall p v a pb' l, new_lipm mexp pb dt n t p v a = Ok (pb', l) ->
    lp_dt l = dt /\ lp_timesteps l = n /\ lp_start l = t /\ lipm_t_end l = t + INR n * dt /\ p_n pb' = (p_n pb + 2 * n)%nat /\ extends pb pb') /\
  (forall previous Sx Sy Ux Uy pb' l, exp_correct mexp -> lipm_history mexp pb previous Sx Sy Ux Uy ->
    new_lipm_from mexp pb dt n t previous = Ok (pb', l) ->
    lp_dt l = dt /\ lp_timesteps l = n /\ lp_start l = t /\ lipm_t_end l = t + INR n * dt /\ p_n pb' = (p_n pb + 2 * n)%nat /\ extends pb pb').
Proof.
  assert (X : extends pb (fst (add_variable (fst (add_variable pb n)) n))) by (eapply extends_trans; apply extends_variable).
  split; [|split; [|split]].
  - intros p v a. destruct (new_lipm_ok mexp pb dt n t p v a) as (pb' & l & E & _). eauto.
  - intros previous Sx Sy Ux Uy He H. apply history_inv in H; [|exact He].
    destruct (new_lipm_from_ok mexp pb dt n t _ _ _ _ _ He H) as (pb' & l & E & _). eauto.
  - intros p v a pb' l E. destruct (new_lipm_ok mexp pb dt n t p v a) as (pb1 & l1 & E1 & P & D & N & S & _).
    rewrite E1 in E. injection E as <- <-. unfold lipm_t_end. rewrite D, N, S, P. repeat (split; [reflexivity|]). split; [cbn; lia|exact X].
  - intros previous Sx Sy Ux Uy pb' l He H E. apply history_inv in H; [|exact He].
    destruct (new_lipm_from_ok mexp pb dt n t _ _ _ _ _ He H) as (pb1 & l1 & E1 & P & D & N & S & _).
    rewrite E1 in E. injection E as <- <-. unfold lipm_t_end. rewrite D, N, S, P. repeat (split; [reflexivity|]). split; [cbn; lia|exact X].
Qed.
Print Assumptions C60_construct.

(** The expressions are the position, velocity, acceleration and jerk of the point after k steps, and the DCM and ZMP
    computed from them; -1 is the last step, which has no jerk. *)
Theorem C60_expressions mexp pb l Sx Sy Ux Uy : exp_correct mexp -> lipm_history mexp pb l Sx Sy Ux Uy ->
  (forall k, (k <= lp_timesteps l)%nat ->
    stands_for pb (lipm_pos pb l (Z.of_nat k)) (fun x => Sx x k 0%nat) (fun x => Sy x k 0%nat) /\
    stands_for pb (lipm_vel pb l (Z.of_nat k)) (fun x => Sx x k 1%nat) (fun x => Sy x k 1%nat) /\
    stands_for pb (lipm_acc pb l (Z.of_nat k)) (fun x => Sx x k 2%nat) (fun x => Sy x k 2%nat) /\
    (forall omega, omega <> 0 ->
      stands_for pb (lipm_dcm pb l (Z.of_nat k) omega) (fun x => Sx x k 0%nat + Sx x k 1%nat / omega) (fun x => Sy x k 0%nat + Sy x k 1%nat / omega)) /\
    (forall omega_2, omega_2 <> 0 ->
      stands_for pb (lipm_zmp pb l (Z.of_nat k) omega_2) (fun x => Sx x k 0%nat - Sx x k 2%nat / omega_2) (fun x => Sy x k 0%nat - Sy x k 2%nat / omega_2))) /\
  (forall k, (k < lp_timesteps l)%nat ->
    stands_for pb (lipm_jerk pb l (Z.of_nat k)) (fun x => Ux x k) (fun x => Uy x k) /\
    (forall omega_2, omega_2 <> 0 ->
      stands_for pb (lipm_dzmp pb l (Z.of_nat k) omega_2) (fun x => Sx x k 1%nat - Ux x k / omega_2) (fun x => Sy x k 1%nat - Uy x k / omega_2))) /\
  (let n := Z.of_nat (lp_timesteps l) in
   lipm_pos pb l (-1) = lipm_pos pb l n /\ lipm_vel pb l (-1) = lipm_vel pb l n /\ lipm_acc pb l (-1) = lipm_acc pb l n /\
   (forall omega, lipm_dcm pb l (-1) omega = lipm_dcm pb l n omega) /\ (forall omega_2, lipm_zmp pb l (-1) omega_2 = lipm_zmp pb l n omega_2) /\
   lipm_jerk pb l n = UB /\ lipm_jerk pb l (-1) = UB).
Proof.
  intros He H. destruct (history_inv _ _ _ _ _ _ _ He H) as [Ix Iy].
  destruct (axis_exprs _ _ _ _ _ _ _ _ _ He Ix) as (v & Hv & _ & Cv & Jv & Lv & Bv).
  destruct (axis_exprs _ _ _ _ _ _ _ _ _ He Iy) as (w & Hw & _ & Cw & Jw & Lw & Bw).
  split; [|split].
  - intros k Hk.
    destruct (Cv k 0%nat Hk ltac:(lia)) as (a0 & ma0 & A0 & MA0 & DA0). destruct (Cw k 0%nat Hk ltac:(lia)) as (b0 & mb0 & B0 & MB0 & DB0).
    destruct (Cv k 1%nat Hk ltac:(lia)) as (a1 & ma1 & A1 & MA1 & DA1). destruct (Cw k 1%nat Hk ltac:(lia)) as (b1 & mb1 & B1 & MB1 & DB1).
    destruct (Cv k 2%nat Hk ltac:(lia)) as (a2 & ma2 & A2 & MA2 & DA2). destruct (Cw k 2%nat Hk ltac:(lia)) as (b2 & mb2 & B2 & MB2 & DB2).
    cbn [Z.of_nat Pos.of_succ_nat Pos.succ] in A0, B0, A1, B1, A2, B2.
    split; [|split; [|split; [|split]]].
    + exact (both_stands pb l v w (fun ig v => ig_expr ig v (Z.of_nat k) 0) a0 b0 ma0 mb0 _ _ Hv Hw A0 B0 MA0 MB0 DA0 DB0).
    + exact (both_stands pb l v w (fun ig v => ig_expr ig v (Z.of_nat k) 1) a1 b1 ma1 mb1 _ _ Hv Hw A1 B1 MA1 MB1 DA1 DB1).
    + exact (both_stands pb l v w (fun ig v => ig_expr ig v (Z.of_nat k) 2) a2 b2 ma2 mb2 _ _ Hv Hw A2 B2 MA2 MB2 DA2 DB2).
    + intros omega Ho.
      destruct (e_add_same _ _ _ _ _ _ _ DA0 (scale_denotes _ _ _ _ (1 / omega) DA1)) as (r1 & R1 & D1).
      destruct (e_add_same _ _ _ _ _ _ _ DB0 (scale_denotes _ _ _ _ (1 / omega) DB1)) as (r2 & R2 & D2).
      refine (both_stands pb l v w (fun ig v => a <- ig_expr ig v (Z.of_nat k) 0 ;; b <- ig_expr ig v (Z.of_nat k) 1 ;; e_add a (scale_e (1 / omega) b))
        r1 r2 (Nat.max ma0 ma1) (Nat.max mb0 mb1) _ _ Hv Hw _ _ _ _ _ _); try lia.
      * rewrite A0, A1. exact R1.
      * rewrite B0, B1. exact R2.
      * eapply denotes_ext; [|exact D1]. intros x i _. cbn beta. field. exact Ho.
      * eapply denotes_ext; [|exact D2]. intros x i _. cbn beta. field. exact Ho.
    + intros omega Ho.
      destruct (e_sub_same _ _ _ _ _ _ _ DA0 (scale_denotes _ _ _ _ (1 / omega) DA2)) as (r1 & R1 & D1).
      destruct (e_sub_same _ _ _ _ _ _ _ DB0 (scale_denotes _ _ _ _ (1 / omega) DB2)) as (r2 & R2 & D2).
      refine (both_stands pb l v w (fun ig v => a <- ig_expr ig v (Z.of_nat k) 0 ;; b <- ig_expr ig v (Z.of_nat k) 2 ;; e_sub a (scale_e (1 / omega) b))
        r1 r2 (Nat.max ma0 ma2) (Nat.max mb0 mb2) _ _ Hv Hw _ _ _ _ _ _); try lia.
      * rewrite A0, A2. exact R1.
      * rewrite B0, B2. exact R2.
      * eapply denotes_ext; [|exact D1]. intros x i _. cbn beta. field. exact Ho.
      * eapply denotes_ext; [|exact D2]. intros x i _. cbn beta. field. exact Ho.
  - intros k Hk.
    destruct (Cv k 1%nat ltac:(lia) ltac:(lia)) as (a1 & ma1 & A1 & MA1 & DA1). destruct (Cw k 1%nat ltac:(lia) ltac:(lia)) as (b1 & mb1 & B1 & MB1 & DB1).
    destruct (Jv k Hk) as (a3 & ma3 & A3 & MA3 & DA3). destruct (Jw k Hk) as (b3 & mb3 & B3 & MB3 & DB3).
    cbn [Z.of_nat Pos.of_succ_nat Pos.succ] in A1, B1. split.
    + exact (both_stands pb l v w (fun ig v => ig_expr ig v (Z.of_nat k) 3) a3 b3 ma3 mb3 _ _ Hv Hw A3 B3 MA3 MB3 DA3 DB3).
    + intros omega Ho.
      destruct (e_sub_same _ _ _ _ _ _ _ DA1 (scale_denotes _ _ _ _ (1 / omega) DA3)) as (r1 & R1 & D1).
      destruct (e_sub_same _ _ _ _ _ _ _ DB1 (scale_denotes _ _ _ _ (1 / omega) DB3)) as (r2 & R2 & D2).
      refine (both_stands pb l v w (fun ig v => a <- ig_expr ig v (Z.of_nat k) 1 ;; b <- ig_expr ig v (Z.of_nat k) 3 ;; e_sub a (scale_e (1 / omega) b))
        r1 r2 (Nat.max ma1 ma3) (Nat.max mb1 mb3) _ _ Hv Hw _ _ _ _ _ _); try lia.
      * rewrite A1, A3. exact R1.
      * rewrite B1, B3. exact R2.
      * eapply denotes_ext; [|exact D1]. intros x i _. cbn beta. field. exact Ho.
      * eapply denotes_ext; [|exact D2]. intros x i _. cbn beta. field. exact Ho.
  - cbv zeta. unfold lipm_pos, lipm_vel, lipm_acc, lipm_jerk, lipm_dcm, lipm_zmp, both, deref. rewrite Hv, Hw, !Lv, !Lw, Bv.
    repeat (split; [first [reflexivity | intros omega; rewrite ?Lv, ?Lw; reflexivity]|]). reflexivity.
Qed.
Print Assumptions C60_expressions.

(** After a successful solve, the trajectory is the motion of the point under the jerks of the solution: the values on
    the time grid are those of the expressions, the position, velocity and acceleration are continuous and each one is
    the derivative of the previous one, and nothing moves before the start and after the end. *)
Theorem C60_trajectory mexp pb l Sx Sy Ux Uy qr qp pb' : exp_correct mexp -> lipm_history mexp pb l Sx Sy Ux Uy ->
  0 < lp_dt l -> (0 < lp_timesteps l)%nat -> solve pb qr qp = (pb', Ok tt) ->
  let x := vat (p_x pb') in let t0 := lp_start l in let n := lp_timesteps l in let dt := lp_dt l in
  exists l' tr X Y, lipm_get_trajectory pb' l = Ok (l', tr) /\
    (forall t, lt_pos mexp tr t = Ok (X 0%nat t, Y 0%nat t) /\ lt_vel mexp tr t = Ok (X 1%nat t, Y 1%nat t) /\
               lt_acc mexp tr t = Ok (X 2%nat t, Y 2%nat t) /\ lt_jerk mexp tr t = Ok (X 3%nat t, Y 3%nat t) /\
               (forall omega, omega <> 0 -> lt_dcm mexp tr t omega = Ok (X 0%nat t + X 1%nat t / omega, Y 0%nat t + Y 1%nat t / omega)) /\
               (forall omega_2, omega_2 <> 0 -> lt_zmp mexp tr t omega_2 = Ok (X 0%nat t - X 2%nat t / omega_2, Y 0%nat t - Y 2%nat t / omega_2))) /\
    (forall k d, (k <= n)%nat -> (d < 3)%nat -> X d (t0 + INR k * dt) = Sx x k d /\ Y d (t0 + INR k * dt) = Sy x k d) /\
    (forall t d, t <= t0 -> (d < 3)%nat -> X d t = Sx x 0%nat d /\ Y d t = Sy x 0%nat d) /\
    (forall t d, lipm_t_end l <= t -> (d < 3)%nat -> X d t = Sx x n d /\ Y d t = Sy x n d) /\
    (forall k t, (k < n)%nat -> t0 + INR k * dt <= t < t0 + INR (S k) * dt -> X 3%nat t = Ux x k /\ Y 3%nat t = Uy x k) /\
    (forall d, (d < 3)%nat -> continuity (X d) /\ continuity (Y d)) /\
    (forall d, (d < 2)%nat -> derivative_on (X d) (X (S d)) t0 (lipm_t_end l) /\ derivative_on (Y d) (Y (S d)) t0 (lipm_t_end l)) /\
    (forall k, (k < n)%nat -> derivative_on (X 2%nat) (X 3%nat) (t0 + INR k * dt) (t0 + INR (S k) * dt) /\
                              derivative_on (Y 2%nat) (Y 3%nat) (t0 + INR k * dt) (t0 + INR (S k) * dt)).
Proof.
  intros He H Hdt Hn Hs x t0 n dt. destruct (history_inv _ _ _ _ _ _ _ He H) as [Ix Iy].
  destruct (axis_trajectory _ _ _ _ _ _ _ _ _ _ _ _ He Ix Hs) as (v & gx & ix & tx & Hv & Ex & Tx & Gx).
  destruct (axis_trajectory _ _ _ _ _ _ _ _ _ _ _ _ He Iy Hs) as (w & gy & iy & ty & Hw & Ey & Ty & Gy).
  assert (Six : ig_start (lp_x l) = lp_start l) by (destruct Ix as (? & ? & ? & ? & ? & ? & ? & ? & ? & ? & ? & E & _); exact E).
  assert (Siy : ig_start (lp_y l) = lp_start l) by (destruct Iy as (? & ? & ? & ? & ? & ? & ? & ? & ? & ? & ? & E & _); exact E).
  destruct (axis_functions _ _ _ _ _ _ _ (fun k d => Sx (vat (p_x pb')) k d) He Hdt Hn Tx Gx) as (X & VX & GX & BX & AX & JX & CX & DX).
  destruct (axis_functions _ _ _ _ _ _ _ (fun k d => Sy (vat (p_x pb')) k d) He Hdt Hn Ty Gy) as (Y & VY & GY & BY & AY & JY & CY & DY).
  exists (Lipm (lp_dt l) (lp_timesteps l) (lp_start l) (lp_xv l) (lp_yv l) ix iy), (LTraj tx ty), X, Y.
  split.
  { unfold lipm_get_trajectory, deref. rewrite Hv, Hw, Ex, Ey. cbn [obind fst snd]. rewrite Six, Siy.
    rewrite (with_start_of _ _ _ _ _ _ _ _ Tx), (with_start_of _ _ _ _ _ _ _ _ Ty). reflexivity. }
  assert (V : forall t d, (d <= 3)%nat -> lt_value mexp (LTraj tx ty) t (Z.of_nat d) = Ok (X d t, Y d t)).
  { intros t d Hd. unfold lt_value. cbn [lt_x lt_y]. rewrite VX, VY by exact Hd. reflexivity. }
  split.
  { intros t. pose proof (V t 0%nat ltac:(lia)) as V0. pose proof (V t 1%nat ltac:(lia)) as V1.
    pose proof (V t 2%nat ltac:(lia)) as V2. pose proof (V t 3%nat ltac:(lia)) as V3.
    cbn [Z.of_nat Pos.of_succ_nat Pos.succ] in V0, V1, V2, V3.
    unfold lt_dcm, lt_zmp, lt_pos, lt_vel, lt_acc, lt_jerk. rewrite V0, V1, V2, V3. cbn [obind fst snd].
    repeat (split; [reflexivity|]). split; intros o Ho; f_equal; f_equal; field; exact Ho. }
  split; [intros k d Hk Hd; split; [now apply GX|now apply GY]|].
  split; [intros t d Ht Hd; split; [now apply BX|now apply BY]|].
  split; [intros t d Ht Hd; split; [now apply AX|now apply AY]|].
  split; [intros k t Hk Ht; split; [now apply JX|now apply JY]|].
  split; [intros d Hd; split; [now apply CX|now apply CY]|].
  split.
  - intros d Hd. split; (apply derivative_horizon; [exact Hdt| | |]).
    + apply CX. lia.
    + apply CX. lia.
    + intros k t Hk Ht. apply (DX d k t); [lia|exact Hk|exact Ht].
    + apply CY. lia.
    + apply CY. lia.
    + intros k t Hk Ht. apply (DY d k t); [lia|exact Hk|exact Ht].
  - intros k Hk. split; intros t Ht; [apply (DX 2%nat k t)|apply (DY 2%nat k t)]; auto.
Qed.
Print Assumptions C60_trajectory.

(** The pendulum equations, at every time strictly inside the horizon and for both axes (first and second component of
    the getters): the DCM moves away from the ZMP at the rate omega, and the acceleration is omega^2 (com - zmp). *)
Theorem C60_pendulum mexp pb l Sx Sy Ux Uy qr qp pb' omega : exp_correct mexp -> lipm_history mexp pb l Sx Sy Ux Uy ->
  0 < lp_dt l -> (0 < lp_timesteps l)%nat -> solve pb qr qp = (pb', Ok tt) -> omega <> 0 ->
  exists l' tr (com vel acc dcm zmp : R -> R * R), lipm_get_trajectory pb' l = Ok (l', tr) /\
    (forall t, lt_pos mexp tr t = Ok (com t) /\ lt_vel mexp tr t = Ok (vel t) /\ lt_acc mexp tr t = Ok (acc t) /\
               lt_dcm mexp tr t omega = Ok (dcm t) /\ lt_zmp mexp tr t (omega * omega) = Ok (zmp t)) /\
    (forall t, fst (acc t) = omega * omega * (fst (com t) - fst (zmp t)) /\ snd (acc t) = omega * omega * (snd (com t) - snd (zmp t))) /\
    derivative_on (fun t => fst (dcm t)) (fun t => omega * (fst (dcm t) - fst (zmp t))) (lp_start l) (lipm_t_end l) /\
    derivative_on (fun t => snd (dcm t)) (fun t => omega * (snd (dcm t) - snd (zmp t))) (lp_start l) (lipm_t_end l) /\
    derivative_on (fun t => fst (com t)) (fun t => omega * (fst (dcm t) - fst (com t))) (lp_start l) (lipm_t_end l) /\
    derivative_on (fun t => snd (com t)) (fun t => omega * (snd (dcm t) - snd (com t))) (lp_start l) (lipm_t_end l).
Proof.
  intros He H Hdt Hn Hs Ho.
  destruct (C60_trajectory mexp pb l Sx Sy Ux Uy qr qp pb' He H Hdt Hn Hs) as (l' & tr & X & Y & E & V & _ & _ & _ & _ & _ & D & _).
  exists l', tr, (fun t => (X 0%nat t, Y 0%nat t)), (fun t => (X 1%nat t, Y 1%nat t)), (fun t => (X 2%nat t, Y 2%nat t)),
    (fun t => (X 0%nat t + X 1%nat t / omega, Y 0%nat t + Y 1%nat t / omega)),
    (fun t => (X 0%nat t - X 2%nat t / (omega * omega), Y 0%nat t - Y 2%nat t / (omega * omega))).
  assert (Ho2 : omega * omega <> 0) by (apply Rmult_integral_contrapositive_currified; exact Ho).
  split; [exact E|]. cbn [fst snd].
  split. { intros t. destruct (V t) as (V0 & V1 & V2 & _ & V4 & V5). repeat (split; [auto|]). auto. }
  split; [intros t; split; field; exact Ho|].
  assert (Q : forall f f1 f2 : R -> R, derivative_on f f1 (lp_start l) (lipm_t_end l) -> derivative_on f1 f2 (lp_start l) (lipm_t_end l) ->
    derivative_on (fun t => f t + f1 t / omega) (fun t => omega * (f t + f1 t / omega - (f t - f2 t / (omega * omega)))) (lp_start l) (lipm_t_end l)).
  { intros f f1 f2 D1 D2 t Ht. replace (omega * (f t + f1 t / omega - (f t - f2 t / (omega * omega)))) with (f1 t + f2 t * / omega) by (field; exact Ho).
    apply (derivable_pt_lim_plus f (fun t => f1 t / omega) t); [now apply D1|].
    unfold Rdiv. replace (f2 t * / omega) with (f2 t * / omega + f1 t * 0) by ring.
    apply (derivable_pt_lim_mult f1 (fun _ => / omega) t); [now apply D2|apply derivable_pt_lim_const]. }
  destruct (D 0%nat ltac:(lia)) as [D0 D0']. destruct (D 1%nat ltac:(lia)) as [D1 D1'].
  split; [now apply Q|]. split; [now apply Q|].
  split; intros t Ht.
  - replace (omega * (X 0%nat t + X 1%nat t / omega - X 0%nat t)) with (X 1%nat t) by (field; exact Ho). now apply D0.
  - replace (omega * (Y 0%nat t + Y 1%nat t / omega - Y 0%nat t)) with (Y 1%nat t) by (field; exact Ho). now apply D0'.
Qed.
Print Assumptions C60_pendulum.

(** What a two-row expression evaluates to at the solution. *)
Lemma stands_evaluates pb' o f g r : stands_for pb' o f g -> (p_n pb' <= vlen (p_x pb'))%nat ->
  r = Ok (f (vat (p_x pb')), g (vat (p_x pb'))) -> evaluates_to pb' o r.
Proof.
  intros (e & m & E & Hm & D) L ->. destruct D as (_ & _ & _ & D'). destruct (D' (p_x pb') ltac:(lia)) as (y & Ey & Ly & Vy).
  exists e, y. split; [exact E|]. split; [exact Ey|]. split; [exact Ly|]. now rewrite (Vy 0%nat), (Vy 1%nat) by lia.
Qed.

(** The expressions used in the optimisation evaluate, at the solution, to what the trajectory reports at the same
    time: position, velocity, acceleration, jerk, DCM and ZMP. Missing for the full C60: dzmp, see below. *)
Theorem C60_agreement_partial mexp pb l Sx Sy Ux Uy qr qp pb' : exp_correct mexp -> lipm_history mexp pb l Sx Sy Ux Uy ->
  0 < lp_dt l -> (0 < lp_timesteps l)%nat -> solve pb qr qp = (pb', Ok tt) ->
  exists l' tr, lipm_get_trajectory pb' l = Ok (l', tr) /\
  forall k, (k <= lp_timesteps l)%nat -> let t := lp_start l + INR k * lp_dt l in let K := Z.of_nat k in
    evaluates_to pb' (lipm_pos pb' l K) (lt_pos mexp tr t) /\
    evaluates_to pb' (lipm_vel pb' l K) (lt_vel mexp tr t) /\
    evaluates_to pb' (lipm_acc pb' l K) (lt_acc mexp tr t) /\
    (forall omega, omega <> 0 -> evaluates_to pb' (lipm_dcm pb' l K omega) (lt_dcm mexp tr t omega)) /\
    (forall omega_2, omega_2 <> 0 -> evaluates_to pb' (lipm_zmp pb' l K omega_2) (lt_zmp mexp tr t omega_2)) /\
    ((k < lp_timesteps l)%nat -> evaluates_to pb' (lipm_jerk pb' l K) (lt_jerk mexp tr t)).
Proof.
  intros He H Hdt Hn Hs.
  destruct (C60_trajectory mexp pb l Sx Sy Ux Uy qr qp pb' He H Hdt Hn Hs) as (l' & tr & X & Y & E & V & G & _ & _ & J & _).
  destruct (solve_x pb qr qp pb' (Ok tt) Hs ltac:(discriminate)) as (N & [(_ & F & L)|(F & _)]); [|congruence].
  assert (L' : (p_n pb' <= vlen (p_x pb'))%nat) by lia.
  destruct (C60_expressions mexp pb' l Sx Sy Ux Uy He (history_later mexp pb l Sx Sy Ux Uy pb' H (extends_solve _ _ _ _ _ Hs ltac:(discriminate)))) as (P & Q & _).
  exists l', tr. split; [exact E|]. intros k Hk t K. destruct (P k Hk) as (P0 & P1 & P2 & P3 & P4). destruct (V t) as (V0 & V1 & V2 & V3 & V4 & V5).
  destruct (G k 0%nat Hk ltac:(lia)) as [G0 G0']. destruct (G k 1%nat Hk ltac:(lia)) as [G1 G1']. destruct (G k 2%nat Hk ltac:(lia)) as [G2 G2'].
  fold t in G0, G0', G1, G1', G2, G2'. rewrite G0, G0' in *. rewrite G1, G1' in *. rewrite G2, G2' in *.
  split; [exact (stands_evaluates _ _ _ _ _ P0 L' V0)|]. split; [exact (stands_evaluates _ _ _ _ _ P1 L' V1)|].
  split; [exact (stands_evaluates _ _ _ _ _ P2 L' V2)|].
  split; [intros o Ho; exact (stands_evaluates _ _ _ _ _ (P3 o Ho) L' (V4 o Ho))|].
  split; [intros o Ho; exact (stands_evaluates _ _ _ _ _ (P4 o Ho) L' (V5 o Ho))|].
  intros Hk'. destruct (Q k Hk') as (Q0 & _). destruct (J k t Hk') as [J0 J0'].
  { unfold t. rewrite S_INR. nra. }
  rewrite J0, J0' in V3. exact (stands_evaluates _ _ _ _ _ Q0 L' V3).
Qed.
Print Assumptions C60_agreement_partial.

(** A LIPM built from a previous one starts where the previous one ends: position, velocity and acceleration (hence DCM
    and ZMP) are the same on both sides of the junction. *)
Theorem C60_junction mexp pb previous Sx Sy Ux Uy dt n t pb1 l pb2 qr qp pb' : exp_correct mexp ->
  lipm_history mexp pb previous Sx Sy Ux Uy -> new_lipm_from mexp pb dt n t previous = Ok (pb1, l) -> extends pb1 pb2 ->
  solve pb2 qr qp = (pb', Ok tt) -> 0 < lp_dt previous -> (0 < lp_timesteps previous)%nat -> 0 < dt -> (0 < n)%nat ->
  exists lp tp l' tr, lipm_get_trajectory pb' previous = Ok (lp, tp) /\ lipm_get_trajectory pb' l = Ok (l', tr) /\
    let s := lipm_t_end previous in
    lt_pos mexp tr t = lt_pos mexp tp s /\ lt_vel mexp tr t = lt_vel mexp tp s /\ lt_acc mexp tr t = lt_acc mexp tp s /\
    (forall omega, lt_dcm mexp tr t omega = lt_dcm mexp tp s omega) /\ (forall omega_2, lt_zmp mexp tr t omega_2 = lt_zmp mexp tp s omega_2).
Proof.
  intros He H Hl X12 Hs Hdp Hnp Hdt Hn.
  destruct (C60_construct mexp pb dt n t) as (_ & _ & _ & C). destruct (C _ _ _ _ _ _ _ He H Hl) as (Ed & En & Et & _ & _ & X01).
  pose proof (history_later _ _ _ _ _ _ _ _ (history_next _ _ _ _ _ _ _ _ _ _ _ _ H Hl) X12) as H2.
  pose proof (history_later _ _ _ _ _ _ _ _ H (extends_trans _ _ _ X01 X12)) as Hp.
  destruct (C60_trajectory _ _ _ _ _ _ _ _ _ _ He Hp Hdp Hnp Hs) as (lp & tp & Xp & Yp & Ep & Vp & _ & _ & Ap & _).
  destruct (C60_trajectory _ _ _ _ _ _ _ _ _ _ He H2 ltac:(rewrite Ed; exact Hdt) ltac:(rewrite En; exact Hn) Hs) as (l' & tr & X & Y & E & V & _ & B & _).
  exists lp, tp, l', tr. split; [exact Ep|]. split; [exact E|]. cbv zeta.
  assert (Q : forall d, (d < 3)%nat -> X d t = Xp d (lipm_t_end previous) /\ Y d t = Yp d (lipm_t_end previous)).
  { intros d Hd. destruct (B t d ltac:(rewrite Et; lra) Hd) as [B1 B2]. destruct (Ap (lipm_t_end previous) d ltac:(lra) Hd) as [A1 A2].
    rewrite B1, B2, A1, A2. split; reflexivity. }
  destruct (V t) as (V0 & V1 & V2 & _). destruct (Vp (lipm_t_end previous)) as (W0 & W1 & W2 & _).
  destruct (Q 0%nat ltac:(lia)) as [Q0 Q0']. destruct (Q 1%nat ltac:(lia)) as [Q1 Q1']. destruct (Q 2%nat ltac:(lia)) as [Q2 Q2'].
  rewrite Q0, Q0' in V0. rewrite Q1, Q1' in V1. rewrite Q2, Q2' in V2.
  unfold lt_dcm, lt_zmp. rewrite V0, V1, V2, W0, W1, W2. repeat (split; [reflexivity|]). split; reflexivity.
Qed.
Print Assumptions C60_junction.

(** omega is the natural frequency of the pendulum. *)
Theorem C60_omega h : 0 < h -> 0 < compute_omega h /\ compute_omega h * compute_omega h = 9.80665 / h /\
  (forall h', h < h' -> compute_omega h' < compute_omega h).
Proof.
  intros Hh. assert (P : 0 < 9.80665 / h) by (apply Rdiv_lt_0_compat; lra). unfold compute_omega.
  split; [now apply sqrt_lt_R0|]. split; [apply sqrt_def; lra|]. intros h' H. apply sqrt_lt_1; [left; apply Rdiv_lt_0_compat; lra|lra|].
  unfold Rdiv. apply Rmult_lt_compat_l; [lra|]. apply Rinv_lt_contravar; [nra|exact H].
Qed.
Print Assumptions C60_omega.

(** dzmp of the trajectory is vel + jerk/omega^2, whereas the derivative of its zmp, and the expression dzmp, are
    vel - jerk/omega^2. *)
Theorem C60_dzmp_behaviour mexp pb l Sx Sy Ux Uy qr qp pb' omega_2 : exp_correct mexp -> lipm_history mexp pb l Sx Sy Ux Uy ->
  0 < lp_dt l -> (0 < lp_timesteps l)%nat -> solve pb qr qp = (pb', Ok tt) -> omega_2 <> 0 ->
  exists l' tr (vel zmp : R -> R * R), lipm_get_trajectory pb' l = Ok (l', tr) /\
    (forall t, lt_vel mexp tr t = Ok (vel t) /\ lt_zmp mexp tr t omega_2 = Ok (zmp t)) /\
    forall k, (k < lp_timesteps l)%nat ->
      let a := lp_start l + INR k * lp_dt l in let b := lp_start l + INR (S k) * lp_dt l in
      let jx := Ux (vat (p_x pb')) k in let jy := Uy (vat (p_x pb')) k in
      (forall t, a <= t < b -> lt_dzmp mexp tr t omega_2 = Ok (fst (vel t) + jx / omega_2, snd (vel t) + jy / omega_2)) /\
      derivative_on (fun t => fst (zmp t)) (fun t => fst (vel t) - jx / omega_2) a b /\
      derivative_on (fun t => snd (zmp t)) (fun t => snd (vel t) - jy / omega_2) a b /\
      evaluates_to pb' (lipm_dzmp pb' l (Z.of_nat k) omega_2) (Ok (fst (vel a) - jx / omega_2, snd (vel a) - jy / omega_2)).
Proof.
  intros He H Hdt Hn Hs Ho.
  destruct (C60_trajectory mexp pb l Sx Sy Ux Uy qr qp pb' He H Hdt Hn Hs) as (l' & tr & X & Y & E & V & G & _ & _ & J & _ & D & D3).
  destruct (solve_x pb qr qp pb' (Ok tt) Hs ltac:(discriminate)) as (N & [(_ & F & L)|(F & _)]); [|congruence].
  assert (L' : (p_n pb' <= vlen (p_x pb'))%nat) by lia.
  destruct (C60_expressions mexp pb' l Sx Sy Ux Uy He (history_later mexp pb l Sx Sy Ux Uy pb' H (extends_solve _ _ _ _ _ Hs ltac:(discriminate)))) as (_ & Q & _).
  exists l', tr, (fun t => (X 1%nat t, Y 1%nat t)), (fun t => (X 0%nat t - X 2%nat t / omega_2, Y 0%nat t - Y 2%nat t / omega_2)).
  split; [exact E|]. split; [intros t; destruct (V t) as (_ & V1 & _ & _ & _ & V5); auto|].
  intros k Hk a b jx jy. cbn [fst snd]. split.
  { intros t Ht. destruct (V t) as (_ & V1 & _ & V3 & _). destruct (J k t Hk Ht) as [J0 J0']. unfold lt_dzmp. rewrite V1, V3. cbn [obind fst snd].
    rewrite J0, J0'. fold jx jy. f_equal. f_equal; field; exact Ho. }
  assert (Hb : b <= lipm_t_end l). { unfold b, lipm_t_end. apply Rplus_le_compat_l, Rmult_le_compat_r; [lra|]. apply le_INR. lia. }
  assert (Ha : lp_start l <= a). { unfold a. pose proof (pos_INR k). nra. }
  assert (R : forall f f1 f2 f3 : R -> R, derivative_on f f1 (lp_start l) (lipm_t_end l) -> derivative_on f2 f3 a b ->
    forall j, (forall t, a <= t < b -> f3 t = j) -> derivative_on (fun t => f t - f2 t / omega_2) (fun t => f1 t - j / omega_2) a b).
  { intros f f1 f2 f3 F1 F2 j Hj t Ht. apply (derivable_pt_lim_minus f (fun t => f2 t / omega_2) t); [apply F1; lra|].
    replace (j / omega_2) with (f3 t * / omega_2 + f2 t * 0) by (rewrite Hj by lra; field; exact Ho). unfold Rdiv.
    apply (derivable_pt_lim_mult f2 (fun _ => / omega_2) t); [now apply F2|apply derivable_pt_lim_const]. }
  destruct (D 0%nat ltac:(lia)) as [D0 D0']. destruct (D3 k Hk) as [D2 D2'].
  split; [apply (R _ _ _ _ D0 D2); intros t Ht; now apply J|]. split; [apply (R _ _ _ _ D0' D2'); intros t Ht; now apply J|].
  destruct (Q k Hk) as (_ & Q1). destruct (G k 1%nat ltac:(lia) ltac:(lia)) as [G1 G1']. fold a in G1, G1'. rewrite G1, G1'.
  exact (stands_evaluates _ _ _ _ _ (Q1 omega_2 Ho) L' eq_refl).
Qed.
Print Assumptions C60_dzmp_behaviour.

(** A LIPM of one step of one second, at rest, with the hard constraint jerk(0) == (1, 1); a second one follows it. *)
Definition ex60_first : problem * lipm :=
  match new_lipm ex_mexp new_problem 1 1 0 (0, 0) (0, 0) (0, 0) with Ok r => r | _ => (new_problem, Lipm 0 0 0 0 0 ex29_ig ex29_ig) end.
Definition ex60_l : lipm := snd ex60_first.
Definition ex60_jerk : expr := Expr (Mat 2 2 (fun i j => if Nat.eqb i j then 1 else 0)) (Vec 2 (fun _ => -1)).
Definition ex60_pb : problem := add_constraint (fst ex60_first) (mk_constraint ex60_jerk Equality).
Definition ex60_qr (M : mat) : qr_result :=
  QRResult 2 (fun i j => if Nat.eqb i j then 1 else 0) (fun i j => if Nat.eqb i j then 1 else 0) (fun i => i).
Definition ex60_qp (Q : qp_problem) : qp_result := QPResult false (fun _ => 0) (fun _ => false) [].
Definition ex60_solved : problem := fst (solve ex60_pb ex60_qr ex60_qp).

Example C60_witness :
  exp_correct ex_mexp /\
  lipm_history ex_mexp ex60_pb ex60_l (fun x => jerk_run 1 (fun k => x k) (fun d => nth d [0; 0; 0] 0))
    (fun x => jerk_run 1 (fun k => x (S k)) (fun d => nth d [0; 0; 0] 0)) (fun x k => x k) (fun x k => x (S k)) /\
  lp_dt ex60_l = 1 /\ lp_timesteps ex60_l = 1%nat /\ lp_start ex60_l = 0 /\
  stands_for ex60_pb (lipm_jerk ex60_pb ex60_l 0) (fun x => x 0%nat) (fun x => x 1%nat) /\
  solve ex60_pb ex60_qr ex60_qp = (ex60_solved, Ok tt) /\ vat (p_x ex60_solved) 0 = 1 /\ vat (p_x ex60_solved) 1 = 1 /\
  exists pb1 l1, new_lipm_from ex_mexp (fst ex60_first) 1 1 1 ex60_l = Ok (pb1, l1).
Proof.
  assert (He : exp_correct ex_mexp) by exact exp_correct_witness. split; [exact He|].
  destruct (new_lipm_ok ex_mexp new_problem 1 1 0 (0, 0) (0, 0) (0, 0)) as (pb & l & E & _ & Ed & En & Et & _).
  assert (F : ex60_first = (pb, l)) by (unfold ex60_first; rewrite E; reflexivity).
  pose proof (history_initial _ _ _ _ _ _ _ _ _ _ E) as H. cbn in H.
  assert (Hl : ex60_l = l) by (unfold ex60_l; rewrite F; reflexivity).
  assert (Hp : fst ex60_first = pb) by (rewrite F; reflexivity).
  assert (HH : lipm_history ex_mexp ex60_pb ex60_l (fun x => jerk_run 1 (fun k => x k) (fun d => nth d [0; 0; 0] 0))
    (fun x => jerk_run 1 (fun k => x (S k)) (fun d => nth d [0; 0; 0] 0)) (fun x k => x k) (fun x k => x (S k))).
  { rewrite Hl. unfold ex60_pb. rewrite Hp. exact (history_later _ _ _ _ _ _ _ _ H (extends_cons _ _)). }
  split; [exact HH|]. rewrite <- Hl in *. split; [exact Ed|]. split; [exact En|]. split; [exact Et|].
  split.
  { destruct (C60_expressions _ _ _ _ _ _ _ He HH) as (_ & Q & _). destruct (Q 0%nat ltac:(lia)) as (Q0 & _). exact Q0. }
  split. { unfold ex60_solved. destruct (solve ex60_pb ex60_qr ex60_qp) as [s r] eqn:S. cbn [fst]. f_equal.
    assert (snd (solve ex60_pb ex60_qr ex60_qp) = Ok tt) by (lazy; reflexivity). rewrite S in H0. exact H0. }
  split; [lazy; lra|]. split; [lazy; lra|].
  rewrite Hp. destruct (C60_construct ex_mexp pb 1 1 1) as (_ & C & _). exact (C _ _ _ _ _ He H).
Qed.

(** So the expression dzmp and the trajectory disagree, and the trajectory is not the derivative of its own zmp. *)
Theorem C60_dzmp_refuted : exists mexp pb l Sx Sy Ux Uy qr qp pb' l' tr dzmp (zmp : R -> R * R),
  exp_correct mexp /\ lipm_history mexp pb l Sx Sy Ux Uy /\ 0 < lp_dt l /\ (0 < lp_timesteps l)%nat /\ solve pb qr qp = (pb', Ok tt) /\
  lipm_get_trajectory pb' l = Ok (l', tr) /\ (forall t, lt_zmp mexp tr t 1 = Ok (zmp t)) /\
  lt_dzmp mexp tr (lp_start l + INR 0 * lp_dt l) 1 = Ok dzmp /\ ~ evaluates_to pb' (lipm_dzmp pb' l 0 1) (Ok dzmp) /\
  exists t d, lp_start l < t < lipm_t_end l /\ lt_dzmp mexp tr t 1 = Ok d /\ ~ derivable_pt_lim (fun t => fst (zmp t)) t (fst d).
Proof.
  destruct C60_witness as (He & H & Ed & En & Et & _ & Hs & X0 & X1 & _).
  destruct (C60_dzmp_behaviour _ _ _ _ _ _ _ _ _ _ 1 He H ltac:(rewrite Ed; lra) ltac:(rewrite En; lia) Hs ltac:(lra))
    as (l' & tr & vel & zmp & E & V & B). destruct (B 0%nat ltac:(rewrite En; lia)) as (B1 & B2 & _ & B4). cbv zeta in B1, B2, B4.
  rewrite X0, X1 in *.
  assert (I0 : INR 0 = 0) by reflexivity. assert (I1 : INR 1 = 1) by reflexivity.
  exists ex_mexp, ex60_pb, ex60_l. eexists. eexists. eexists. eexists. exists ex60_qr, ex60_qp, ex60_solved, l', tr. eexists. exists zmp.
  split; [exact He|]. split; [exact H|]. split; [rewrite Ed; lra|]. split; [rewrite En; lia|]. split; [exact Hs|]. split; [exact E|].
  split; [intros t; apply V|].
  split; [apply B1; rewrite Ed, I0, I1; lra|]. split.
  - intros (e & y & E1 & E2 & _ & E3). destruct B4 as (e' & y' & F1 & F2 & _ & F3). cbn [Z.of_nat] in F1. rewrite E1 in F1. injection F1 as <-.
    rewrite E2 in F2. injection F2 as <-. rewrite <- E3 in F3. injection F3 as F3 _. lra.
  - exists (1 / 2). eexists. split; [unfold lipm_t_end; rewrite Ed, En, Et, I1; lra|].
    split; [apply B1; rewrite Ed, Et, I0, I1; lra|]. intros D. cbn [fst] in D.
    pose proof (uniqueness_limite _ _ _ _ D (B2 (1 / 2) ltac:(rewrite Ed, Et, I0, I1; lra))) as Q. lra.
Qed.
Print Assumptions C60_dzmp_refuted.
