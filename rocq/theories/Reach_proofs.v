From Coq Require Import Reals List ZArith Bool Lia Lra String.
From Verif Require Import Base Linalg Geom3 Tools_model Geometry_model Expression_model Expression_spec Expression_proofs Problem_model Problem_spec Problem_proofs Problem_proofs2
  Problem_proofs3 Polynom_model Backends_proofs Robot_model Robot_spec Robot_proofs Robot_props KinTasks_model Kin_model Kin_spec Kin_proofs Kin_proofs2 Kin_proofs3
  Kin_proofs4 Kin_proofs5 Kin_proofs6 Kin_proofs7 Kin_props Kin_props2 Reach_model Reach_spec.
Import ListNotations.
Open Scope R_scope.

Lemma solve_keeps pb qr qp pb' o : solve pb qr qp = (pb', o) ->
  p_reg pb' = p_reg pb /\ p_sparse pb' = p_sparse pb /\ p_rewrite pb' = p_rewrite pb.
Proof.
  unfold solve, finish. intros E.
  repeat match type of E with
  | match ?x with _ => _ end = _ => destruct x
  | (if ?x then _ else _) = _ => destruct x
  end; injection E as <- _; repeat split.
Qed.

Section WithRobot.
Variable pn : pin.
Variable log3 : mat3 -> vec3.
Variable msqrt : mat -> mat.

Lemma ksolve_settings N s r qr qp apply s' r' o : knows N s -> ksolve pn log3 msqrt qr qp s r apply = (s', r', o) -> o <> UB -> same_settings s s'.
Proof.
  intros K. destruct (started_spec N s K) as (A & _). unfold Kin_model.ksolve. fold (started s). set (s0 := started s) in *.
  destruct (add_tasks_to_problem pn log3 msqrt r s0 (ks_tasks s0)) as [s1 o1] eqn:E1.
  pose proof (add_tasks_kept pn log3 msqrt N r _ s0 s1 o1 (proj1 A) (proj2 (proj2 A)) E1) as B.
  pose proof (same_settings_trans _ _ _ (proj1 (proj2 A)) (proj1 (proj2 B))) as S1.
  destruct o1; [|intros E _; injection E as <- _ _; exact S1|intros E _; injection E as <- _ _; exact S1].
  destruct (after_tasks pn r s1) as [cs| |]; [|intros E _; injection E as <- _ _; exact S1|intros E _; injection E as <- _ _; exact S1].
  pose proof (kept_add N s1 cs (proj1 B) (proj2 (proj2 B))) as C. set (s2 := kset_problem s1 (add_constraints (ks_problem s1) cs)) in *. cbv zeta.
  pose proof (same_settings_trans _ _ _ S1 (proj1 (proj2 C))) as S2.
  destruct (solve (ks_problem s2) qr qp) as [pb' o2] eqn:E2.
  assert (D : same_settings s (kset_problem s2 pb')).
  { apply (same_settings_trans _ _ _ S2). destruct (solve_keeps _ _ _ _ _ E2) as (K1 & K2 & K3). repeat split; assumption. }
  destruct o2; [|intros E _; injection E as <- _ _; exact D|intros E _; injection E as <- _ _; exact D].
  destruct (var_at pb' (ks_qd (kset_problem s2 pb'))); [|intros E _; injection E as <- _ _; exact D|intros E _; injection E as <- _ _; exact D].
  destruct (if ks_has_scaling (kset_problem s2 pb') then _ else _) as [s3| |] eqn:E3;
    [|intros E _; injection E as <- _ _; exact D|intros E _; injection E as <- _ _; exact D].
  assert (F : same_settings s s3).
  { destruct (ks_has_scaling (kset_problem s2 pb')); [|injection E3 as <-; exact D].
    destruct (var_at pb' (ks_scale_var (kset_problem s2 pb'))) as [w| |]; cbn [obind] in E3; try discriminate.
    destruct (vec_get (v_value w) 0) as [y| |]; cbn [obind] in E3; try discriminate. injection E3 as <-. exact D. }
  destruct apply; [|intros E _; injection E as <- _ _; exact F].
  destruct (apply_delta pn (ks_dt s3) r (v_value a1)); intros E _; injection E as <- _ _; exact F.
Qed.

Lemma answerable_settings s s' r : same_settings s s' -> answerable pn log3 msqrt s r -> answerable pn log3 msqrt s' r.
Proof.
  intros (EN & Ed & Em & Ef & El & Ev & Et & Ec & _) An. split; unfold asks_for; rewrite ?EN, ?Ed, ?Em, ?Ef, ?El, ?Ev, ?Et, ?Ec; apply An.
Qed.

Lemma hard_rows_none s r : only_wishes s -> hard_rows pn log3 msqrt s r = [].
Proof.
  intros (Ht & Hc & Hm & Hf). unfold hard_rows. rewrite Hc, Hm, Hf. cbn [map flat_map app]. rewrite app_nil_r.
  induction (ks_tasks s) as [|t l IH]; [reflexivity|]. cbn [flat_map]. rewrite IH; [|intros u Hu; apply Ht; right; exact Hu].
  unfold task_rows. rewrite (Ht t) by (left; reflexivity). reflexivity.
Qed.

Lemma only_wishes_settings s s' : same_settings s s' -> only_wishes s -> only_wishes s'.
Proof. intros (EN & Ed & Em & Ef & El & Ev & Et & Ec & _). unfold only_wishes. rewrite Em, Ef, Et, Ec. auto. Qed.

(** Staying still is allowed. *)
Lemma stay_allowed N s r : m_nv (r_model r) = N -> ks_N s = N -> only_wishes s -> can_stay s (r_model r) -> well_formed_robot r -> simple_joints (r_model r) -> covered (r_model r) ->
  (ks_joint_limits s = true -> in_limits r) -> allowed pn log3 msqrt s r (fun _ => 0).
Proof.
  intros EN EN' (Ht & Hc & Hm & Hf) Hs W [Snq Sj] Cv Hl.
  pose proof W as ((Wn & Wu & Wi & _ & Wl & Wup & Wv & _) & Wq & _). split.
  - intros t e [Hi _] Hp. rewrite (Ht t Hi) in Hp. discriminate.
  - intros t e [Hi _] Hp. rewrite (Ht t Hi) in Hp. discriminate.
  - intros (t & e & [Hi _] & Hp & _). rewrite (Ht t Hi) in Hp. discriminate.
  - reflexivity.
  - reflexivity.
  - intros Hj k Hk. cbv zeta beta. rewrite Wq, Wl, Wup, EN'.
    destruct (Cv (m_nq (r_model r) - (N - 6) + k)%nat ltac:(lia)) as (j & Jin & Jn & Jk).
    destruct (offsets r (jt_name j) W ltac:(apply in_map; exact Jin)) as (j' & Hj' & En & Eq & _ & Hq & _).
    assert (j' = j). { destruct (Sj j' Hj' ltac:(congruence)) as (_ & _ & _ & _). assert (NoDup (map jt_name (m_joints (r_model r)))) as ND by exact Wn.
      clear - ND Hj' Jin En. induction (m_joints (r_model r)) as [|a l IH]; [destruct Jin|]. cbn in ND. inversion ND as [|? ? Hn ND']; subst.
      destruct Hj' as [->|Hj'], Jin as [->|Jin]; auto.
      - exfalso. apply Hn. rewrite En. apply in_map. exact Jin.
      - exfalso. apply Hn. rewrite <- En. apply in_map. exact Hj'. }
    subst j'. rewrite <- Jk, Rplus_0_r.
    apply (Hl Hj (jt_name j)); [exact Jn| |].
    + unfold get_joint. rewrite Eq. cbn [obind]. apply vec_get_ok. lia.
    + unfold get_joint_limits. rewrite Eq. cbn [obind]. rewrite !vec_get_ok by lia. reflexivity.
  - intros Hv k Hk. cbv zeta beta. destruct (Hs Hv) as [Hd Hp]. specialize (Hp (vlen (m_velocity (r_model r)) - (ks_N s - 6) + k)%nat ltac:(lia)). nra.
  - intros c cs H. rewrite Hc in H. destruct H.
Qed.

Lemma noise_model huge q r noise : r_model (add_q_noise huge q r noise) = r_model r.
Proof. reflexivity. Qed.

Lemma noise_well_formed huge q r noise : well_formed_robot r -> well_formed_robot (add_q_noise huge q r noise).
Proof. intros H. exact H. Qed.

Lemma noise_in_limits huge q r : well_formed_robot r -> random_in (r_model r) q -> in_limits r -> in_limits (add_q_noise huge q r (1 / 100)).
Proof.
  intros W Hq Hl name x lower upper Hn E1 E2. pose proof W as ((Wn & Wu & Wi & _ & Wlo & Wup & _) & Wq & _).
  assert (G : exists k, get_joint_offset r name = Ok k /\ (k < m_nq (r_model r))%nat).
  { unfold get_joint in E1. change (get_joint_offset (add_q_noise huge q r (1 / 100)) name) with (get_joint_offset r name) in E1.
    destruct (get_joint_offset r name) as [k|e|]; [|discriminate|discriminate]. exists k. split; [reflexivity|]. cbn [obind] in E1. unfold vec_get, guard in E1.
    cbn [add_q_noise set_q set_state r_state st_q vlen] in E1. destruct (Nat.ltb_spec k (vlen (st_q (r_state r)))); [lia|discriminate]. }
  destruct G as (k & Ek & Hk).
  destruct (C111_add_q_noise huge q r (1 / 100) Wq ltac:(lra) Hq) as (Lq' & _ & _ & Hin & _). cbv zeta in *.
  unfold get_joint in E1. change (get_joint_offset (add_q_noise huge q r (1 / 100)) name) with (get_joint_offset r name) in E1. rewrite Ek in E1. cbn [obind] in E1.
  rewrite vec_get_ok in E1 by lia. injection E1 as <-.
  unfold get_joint_limits in E2. change (get_joint_offset (add_q_noise huge q r (1 / 100)) name) with (get_joint_offset r name) in E2. rewrite Ek in E2. cbn [obind] in E2.
  rewrite noise_model in E2. rewrite !vec_get_ok in E2 by lia. cbn [obind] in E2. injection E2 as <- <-.
  apply Hin; [lia|]. apply (Hl name); [exact Hn| |].
  - unfold get_joint. rewrite Ek. cbn [obind]. apply vec_get_ok. lia.
  - unfold get_joint_limits. rewrite Ek. cbn [obind]. rewrite !vec_get_ok by lia. reflexivity.
Qed.

(** A successful solve: the model is the same, the sizes too, the joints are within their limits. *)
Lemma solved_in_limits N s r qr qp s' r' delta : kreachable pn log3 msqrt N s -> sound pn log3 msqrt s r -> qr_correct qr -> qp_correct qp ->
  well_formed_robot r -> m_nv (r_model r) = N -> simple_joints (r_model r) -> integrates pn (r_model r) ->
  ksolve pn log3 msqrt qr qp s r true = (s', r', Ok delta) ->
  r_model r' = r_model r /\ well_formed_robot r' /\ r_seen r' = r_seen r /\ (ks_joint_limits s = true -> in_limits r').
Proof.
  intros R So Hqr Hqp W EN Sj Hi E.
  destruct (C64_applied _ _ _ _ _ _ _ _ _ _ E) as (_ & Eq & Em & Es & H1 & H2).
  assert (Ld : vlen delta = N). { apply (ksolve_allowed pn log3 msqrt N s r true qr qp s' r' delta (reachable_knows _ _ _ _ _ R) So Hqr Hqp E). }
  pose proof W as (Wm & Wq & Wqd & Wqdd).
  assert (W' : well_formed_robot r').
  { unfold well_formed_robot. rewrite Em. split; [exact Wm|]. split; [rewrite Eq; apply Hi; [exact Wq|lia]|].
    destruct (Rlt_dec 0 (ks_dt s)) as [Hd|Hd].
    - destruct (H1 Hd) as (A & B & _). lia.
    - destruct (H2 Hd) as [A B]. rewrite A, B. auto. }
  split; [exact Em|]. split; [exact W'|]. split; [exact Es|].
  intros Hl name q lower upper Hn E1 E2.
  assert (Hj : has_joint r name).
  { unfold get_joint, get_joint_offset in E1. rewrite Em in E1. unfold exist_joint_name, joint_of, find_joint in E1.
    destruct (String.eqb name "universe"); cbn [orb negb] in E1; [discriminate|].
    destruct (find (fun j => String.eqb (jt_name j) name) (m_joints (r_model r))) as [j|] eqn:Ef; cbn [negb] in E1; [|discriminate].
    apply find_some in Ef. destruct Ef as [Ef Eb]. apply String.eqb_eq in Eb. unfold has_joint. rewrite <- Eb. apply in_map. exact Ef. }
  destruct (C62_joint_limits_partial pn log3 msqrt N s r true qr qp s' r' delta name R So Hqr Hqp E W EN Sj Hl Hj Hn) as (q0 & l0 & u0 & k & _ & _ & _ & _ & Ha).
  destruct (Ha eq_refl Hi) as (q' & F1 & F2 & F3). rewrite F1 in E1. injection E1 as <-. rewrite F2 in E2. injection E2 as <- <-. exact F3.
Qed.

End WithRobot.
