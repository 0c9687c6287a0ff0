From Coq Require Import Reals List ZArith Bool String Lra Lia.
From Verif Require Import Base Linalg Geom3 Tools_model Geometry_model Expression_model Problem_model Problem_spec Problem_proofs Robot_model Robot_spec Robot_proofs KinTasks_model
  Kin_model Kin_spec Kin_proofs Kin_proofs6 DynTasks_model Dyn_model Dyn_spec Tasks_spec Tasks_proofs KinTasks_proofs KinCons_spec KinCons_proofs DynCol_spec.
Import ListNotations.
Open Scope R_scope.

Section Collisions.
Variable pn : pin.

(** The velocity given by the matrix of the derivatives of the Jacobian, for the same point. *)
Definition point_bias (q qd : vec) (j : nat) (p : vec3) : vec3 :=
  let J := pn_joint_djac pn q qd j World in v3_add (rows3 J 0 qd) (v3_cross (rows3 J 3 qd) p).
Definition opening_bias (d : distance_info) (q qd : vec) : R :=
  v3_dot (apart d) (v3_sub (point_bias q qd (di_B d) (di_pB d)) (point_bias q qd (di_A d) (di_pA d))).

Lemma cross_const_deriv (f : R -> vec3) t df (p : vec3) : v3_deriv f t df -> v3_deriv (fun u => v3_cross (f u) p) t (v3_cross df p).
Proof.
  intros (X & Y & Z). split; [|split]; cbn [v3_cross vx vy vz].
  - eapply (lim_ext (fun u => vy (f u) * vz p - vz (f u) * vy p)); [reflexivity| |apply deriv_sub; [apply deriv_prod; [exact Y|apply (deriv_const (vz p))]|apply deriv_prod; [exact Z|apply (deriv_const (vy p))]]]. cbv beta. ring.
  - eapply (lim_ext (fun u => vz (f u) * vx p - vx (f u) * vz p)); [reflexivity| |apply deriv_sub; [apply deriv_prod; [exact Z|apply (deriv_const (vx p))]|apply deriv_prod; [exact X|apply (deriv_const (vz p))]]]. cbv beta. ring.
  - eapply (lim_ext (fun u => vx (f u) * vy p - vy (f u) * vx p)); [reflexivity| |apply deriv_sub; [apply deriv_prod; [exact X|apply (deriv_const (vy p))]|apply deriv_prod; [exact Y|apply (deriv_const (vx p))]]]. cbv beta. ring.
Qed.
Lemma add_deriv (f g : R -> vec3) t df dg : v3_deriv f t df -> v3_deriv g t dg -> v3_deriv (fun u => v3_add (f u) (g u)) t (v3_add df dg).
Proof. intros (X & Y & Z) (X' & Y' & Z'). split; [|split]; cbn [v3_add vx vy vz]; apply deriv_plus; assumption. Qed.
Lemma dot_const_deriv (f : R -> vec3) t df (n : vec3) : v3_deriv f t df -> derivable_pt_lim (fun u => v3_dot n (f u)) t (v3_dot n df).
Proof.
  intros (X & Y & Z). unfold v3_dot. eapply (lim_ext (fun u => vx n * vx (f u) + vy n * vy (f u) + vz n * vz (f u))); [reflexivity| |
    apply deriv_plus; [apply deriv_plus|]; (apply deriv_prod; [apply (deriv_const)|eassumption])]. cbv beta. ring.
Qed.

Lemma point_deriv m q qd t (qdd : vec) j p : (forall u, vlen (qd u) = m_nv m) -> (forall k, (k < m_nv m)%nat -> derivable_pt_lim (fun u => vat (qd u) k) t (vat qdd k)) ->
  joint_contract pn m q qd t j -> v3_deriv (fun u => point_velocity pn (q u) (qd u) j p) t (v3_add (point_velocity pn (q t) qdd j p) (point_bias (q t) (qd t) j p)).
Proof.
  intros Hl Hq [Hs Hd]. pose proof Hd as (D1 & D2 & _). destruct (Hs t) as [R0 C0]. rewrite R0 in D1. rewrite C0 in D2.
  assert (X0 : v3_deriv (fun u => rows3 (pn_joint_jac pn (q u) j World) 0 (qd u)) t (v3_add (rows3 (pn_joint_jac pn (q t) j World) 0 qdd) (rows3 (pn_joint_djac pn (q t) (qd t) j World) 0 (qd t)))).
  { apply (deriv_rows3 (fun u => pn_joint_jac pn (q u) j World)); [exact Hd|intros u; rewrite D2; apply Hs|rewrite D1; lia|intros k Hk; rewrite D2 in Hk; now apply Hq]. }
  assert (X3 : v3_deriv (fun u => rows3 (pn_joint_jac pn (q u) j World) 3 (qd u)) t (v3_add (rows3 (pn_joint_jac pn (q t) j World) 3 qdd) (rows3 (pn_joint_djac pn (q t) (qd t) j World) 3 (qd t)))).
  { apply (deriv_rows3 (fun u => pn_joint_jac pn (q u) j World)); [exact Hd|intros u; rewrite D2; apply Hs|rewrite D1; lia|intros k Hk; rewrite D2 in Hk; now apply Hq]. }
  pose proof (add_deriv _ _ _ _ _ X0 (cross_const_deriv _ _ _ p X3)) as Y. cbv beta in Y. unfold point_velocity. cbv zeta.
  eapply v3_deriv_ext; [intros u; reflexivity| |exact Y]. unfold point_bias. apply V3_ext; unfold v3_add, v3_cross; cbn [vx vy vz]; ring.
Qed.

Lemma opening_deriv m q qd t (qdd : vec) d : (forall u, vlen (qd u) = m_nv m) -> (forall k, (k < m_nv m)%nat -> derivable_pt_lim (fun u => vat (qd u) k) t (vat qdd k)) ->
  joint_contract pn m q qd t (di_A d) -> joint_contract pn m q qd t (di_B d) ->
  derivable_pt_lim (fun u => opening pn d (q u) (qd u)) t (opening pn d (q t) qdd + opening_bias d (q t) (qd t)).
Proof.
  intros Hl Hq CA CB. pose proof (point_deriv m q qd t qdd (di_A d) (di_pA d) Hl Hq CA) as DA. pose proof (point_deriv m q qd t qdd (di_B d) (di_pB d) Hl Hq CB) as DB.
  pose proof (dot_const_deriv _ _ _ (apart d) (v3_deriv_sub _ _ _ _ _ DB DA)) as D. cbv beta in D.
  eapply (lim_ext (fun u => opening pn d (q u) (qd u))); [reflexivity| |exact D]. unfold opening, opening_bias, v3_dot, v3_sub, v3_add. cbn [vx vy vz]. ring.
Qed.

Lemma only_sum N k (f : nat -> R) : (k < N)%nat -> Rsum N (fun j => f j * vat (only N k) j) = f k.
Proof.
  intros H. rewrite (Rsum_delta N k _ H).
  - cbn. rewrite Nat.eqb_refl. ring.
  - intros j _ Hj. cbn. destruct (Nat.eqb_spec j k); [contradiction|ring].
Qed.

Lemma dcollision_row_spec s r margin d J y m q qd t qdd : ds_N s = m_nv m -> r_model r = m -> in_motion r q qd t qdd -> joint_contract pn m q qd t (di_A d) -> joint_contract pn m q qd t (di_B d) ->
  dcollision_row pn s r margin d = Ok (J, y) ->
  forall x : vec, Rsum (ds_N s) (fun j => J j * vat x j) + y =
    if Rle_dec margin (di_min d) then opening pn d (q t) (qd t) + ds_dt s * (opening pn d (q t) x + opening_bias d (q t) (qd t)) + braking_speed (safe_opening pn s d (q t)) (di_min d - margin)
    else opening pn d (q t) x - safe_opening pn s d (q t).
Proof.
  intros HN Hm [Se Iq Iqd [_ Sz] Dq] [CA CA'] [CB CB'] H x. unfold dcollision_row, joint_jacobian_time_variation in H. cbv zeta in H. unfold up_to_date in Se. rewrite Se in H. cbn [fst snd] in H. rewrite <- Iq, <- Iqd in H.
  destruct (CA t) as [RA0 CA0]. destruct (CB t) as [RB0 CB0]. destruct CA' as (RA1 & CA1 & _). destruct CB' as (RB1 & CB1 & _). rewrite RA0 in RA1. rewrite CA0 in CA1. rewrite RB0 in RB1. rewrite CB0 in CB1.
  bind H JA EA. bind H dJA EdA. bind H JB EB. bind H dJB EdB. bind H D ED. bind H D' ED'. bind H J' EJ. bind H dD EdD. bind H dD' EdD'. bind H dJ EdJ. bind H bias Eb.
  set (n := if Rlt_dec (di_min d) 0 then v3_scale (-1) (v3_normalize (v3_sub (di_pB d) (di_pA d))) else v3_normalize (v3_sub (di_pB d) (di_pA d))) in *.
  assert (En : n = apart d) by (unfold n, apart; destruct (Rlt_dec (di_min d) 0); [reflexivity|]; destruct (v3_normalize (v3_sub (di_pB d) (di_pA d))); unfold v3_scale; cbn; f_equal; ring).
  rewrite En in EJ, EdJ. clear En n.
  destruct (block_size _ _ _ _ _ _ ED') as [R3 C3]. destruct (block_size _ _ _ _ _ _ EdD') as [R3' C3'].
  assert (V : forall z : vec, Rsum (ds_N s) (fun j => mat_at J' 0 j * vat z j) = opening pn d (q t) z).
  { intros z. destruct (action_rows _ _ _ z EA RA0) as (_ & KA & HA). destruct (action_rows _ _ _ z EB RB0) as (_ & KB & HB).
    destruct (row_times_apply _ _ _ (vat z) EJ R3) as (_ & CJ & S). rewrite CJ, C3 in S. rewrite S, (sub_apply3 _ _ _ _ _ _ z ED ED') by congruence. rewrite HA, HB. reflexivity. }
  assert (B : vat bias 0 = opening_bias d (q t) (qd t)).
  { destruct (action_rows _ _ _ (qd t) EdA RA1) as (_ & KA & HA). destruct (action_rows _ _ _ (qd t) EdB RB1) as (_ & KB & HB).
    destruct (row_times_apply _ _ _ (vat (qd t)) EdJ R3') as (_ & CJ & S). rewrite (sub_apply3 _ _ _ _ _ _ (qd t) EdD EdD') in S by congruence. rewrite HA, HB in S.
    unfold mat_vec in Eb. apply guard_inv in Eb. destruct Eb as [_ Eb]. injection Eb as <-. cbn [vat]. rewrite S. reflexivity. }
  assert (Sf : / 2 * Rsum (ds_N s - 6) (fun k => Rabs (mat_at J' 0 (6 + k)) * safe_at s (6 + k)) = safe_opening pn s d (q t)).
  { unfold safe_opening. f_equal. apply Rsum_ext. intros k Hk. rewrite <- (V (only (ds_N s) (6 + k))), only_sum by lia. reflexivity. }
  rewrite Sf in H. destruct (Rle_dec margin (di_min d)) as [L|L].
  - bind H xd Ex. injection H as <- <-. assert (Exd : vat xd 0 = opening pn d (q t) (qd t)).
    { rewrite <- V. destruct (row_times_apply _ _ _ (vat (qd t)) EJ R3) as (_ & CJ & _). unfold mat_vec in Ex. apply guard_inv in Ex. destruct Ex as [_ Ex]. injection Ex as <-. cbn [vat]. rewrite CJ, C3. reflexivity. }
    rewrite B, Exd. rewrite (Rsum_ext _ _ (fun j => ds_dt s * (mat_at J' 0 j * vat x j))) by (intros j _; ring). rewrite Rsum_scal_l, V. unfold braking_speed. ring.
  - injection H as <- <-. rewrite V. ring.
Qed.

Lemma dcollision_rows_spec s r margin l rs : dcollision_rows pn s r margin l = Ok rs -> List.length rs = List.length l /\
  forall i d, nth_error l i = Some d -> exists J y, nth_error rs i = Some (J, y) /\ dcollision_row pn s r margin d = Ok (J, y).
Proof.
  revert rs. induction l as [|d l IH]; intros rs H; cbn [dcollision_rows] in H.
  - injection H as <-. split; [reflexivity|]. intros [|i] d; discriminate.
  - bind H y Ey. bind H rest Er. injection H as <-. destruct (IH rest eq_refl) as [L IHr]. split; [cbn; now rewrite L|]. intros [|i] d' Hd; cbn in Hd.
    + injection Hd as <-. destruct y as [J y]. exists J, y. split; [reflexivity|exact Ey].
    + exact (IHr i d' Hd).
Qed.

(** What the row of each near pair asks. *)
Definition pair_gap (s : dsolver) (margin : R) (d : distance_info) (q qd qdd : vec) : R :=
  if Rle_dec margin (di_min d) then opening pn d q qd + ds_dt s * (opening pn d q qdd + opening_bias d q qd) + braking_speed (safe_opening pn s d q) (di_min d - margin)
  else opening pn d q qdd - safe_opening pn s d q.

Lemma dcollisions_made s r c distances margin trigger cs q qd t (qdd : vec) : ds_N s = m_nv (r_model r) -> in_motion r q qd t qdd ->
  (forall d, In d (near_pairs trigger distances) -> joint_contract pn (r_model r) q qd t (di_A d) /\ joint_contract pn (r_model r) q qd t (di_B d)) ->
  dcollisions pn s r c distances margin trigger = Ok cs ->
  (near_pairs trigger distances = [] /\ cs = []) \/
  exists c' g, cs = [c'] /\ made c' Inequality (match dc_priority c with PSoft => Soft | _ => Hard end) (dc_weight c) (List.length (near_pairs trigger distances)) (ds_N s) g /\
    forall (x : vec) i d, nth_error (near_pairs trigger distances) i = Some d -> g (vat x) i = pair_gap s margin d (q t) (qd t) x.
Proof.
  intros HN Mo Hc H. unfold dcollisions in H. destruct (Req_EM_T (ds_dt s) 0); [discriminate|]. fold (near_pairs trigger distances) in H. set (near := near_pairs trigger distances) in *.
  assert (H' : near = [] /\ cs = [] \/ exists rs x, dcollision_rows pn s r margin near = Ok rs /\
     e_ge_d (Expr (Mat (List.length rs) (ds_N s) (fun i => fst (nth i rs ((fun _ => 0), 0)))) (Vec (List.length rs) (fun i => snd (nth i rs ((fun _ => 0), 0))))) 0 = Ok x /\
     cs = [configure_prio x (match dc_priority c with PSoft => Soft | _ => Hard end) (dc_weight c)]).
  { destruct near as [|d0 near'] eqn:En; [left; injection H as <-; auto|]. right. bind H rs Er. cbv zeta in H. bind H x Ex. injection H as <-. exists rs, x. split; [reflexivity|]. split; [exact Ex|reflexivity]. }
  clear H. destruct H' as [H'|(rs & x & Er & Ex & ->)]; [now left|right].
  destruct (dcollision_rows_spec _ _ _ _ _ Er) as [L Hr]. pose proof (fun H => ge_d_made _ _ _ _ H Ex) as M. specialize (M eq_refl). cbn [mrows mcols mat_at vat] in M.
  eexists. eexists. split; [reflexivity|]. split; [rewrite <- L; exact (made_configure _ _ _ _ _ _ _ _ _ M)|].
  intros z i d Hd. destruct (Hr i d Hd) as (J & y & Hn & Ey). rewrite (nth_error_nth _ _ _ Hn). cbn [fst snd]. destruct (Hc d (nth_error_In _ _ Hd)) as [CA CB].
  pose proof (dcollision_row_spec _ _ _ _ _ _ _ _ _ _ _ HN eq_refl Mo CA CB Ey z) as E. unfold pair_gap. lra.
Qed.
End Collisions.
