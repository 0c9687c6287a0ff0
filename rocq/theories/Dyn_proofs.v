(** Lemmas about the dynamics solver: the constraints of the contacts, and the expression of the torques. *)
From Coq Require Import Reals List ZArith Bool String Lra Lia.
From Verif Require Import Base Linalg Geom3 Tools_model Geometry_model Expression_model Expression_spec Expression_proofs Problem_model Problem_spec
  Problem_proofs Problem_proofs2 Problem_props Polynom_model Robot_model Robot_spec KinTasks_model Kin_model Kin_spec Kin_proofs Kin_proofs6
  DynTasks_model Dyn_model Dyn_spec.
Import ListNotations.
Open Scope R_scope.

Lemma Rabs_le_inv x a : Rabs x <= a -> - a <= x <= a.
Proof. intros H. unfold Rabs in H. destruct (Rcase_abs x); lra. Qed.

(** ** Lists of constraints *)

Definition tame (c : pconstraint) : Prop := c_prio c = Soft -> c_type c = Inequality -> 0 <= c_weight c.

(** The constraints [cs], over at most [n] unknowns, hold, when hard, iff [P], and cost [C], when soft. *)
Definition means (n : nat) (cs : list pconstraint) (P : (nat -> R) -> Prop) (C : (nat -> R) -> R) : Prop :=
  (forall x, hard_holds cs x <-> P x) /\ (forall x, soft_cost cs x = C x) /\ Forall (sized n) cs /\ Forall tame cs.

Lemma means_ext n cs P C Q D : (forall x, P x <-> Q x) -> (forall x, C x = D x) -> means n cs P C -> means n cs Q D.
Proof.
  intros E F (H1 & H2 & H3 & H4). split; [|split; [|split; assumption]].
  - intros x. rewrite H1. apply E.
  - intros x. now rewrite H2.
Qed.
Lemma means_le n m cs P C : (n <= m)%nat -> means n cs P C -> means m cs P C.
Proof.
  intros L (H1 & H2 & H3 & H4). repeat (split; try assumption). eapply Forall_impl; [|exact H3]. intros c [A B]. split; [exact A|lia].
Qed.
Lemma means_nil n : means n [] (fun _ => True) (fun _ => 0).
Proof. split; [apply hard_holds_nil|]. split; [reflexivity|]. split; constructor. Qed.
Lemma means_app n cs P C ds Q D : means n cs P C -> means n ds Q D -> means n (cs ++ ds) (fun x => P x /\ Q x) (fun x => C x + D x).
Proof.
  intros (H1 & H2 & H3 & H4) (K1 & K2 & K3 & K4). split; [|split; [|split]].
  - intros x. rewrite hard_holds_app, H1, K1. reflexivity.
  - intros x. now rewrite soft_cost_app, H2, K2.
  - now apply Forall_app.
  - now apply Forall_app.
Qed.
Lemma means_hard c t w k m f n : made c t Hard w k m f -> (m <= n)%nat ->
  means n [c] (fun x => forall i, (i < k)%nat -> match t with Equality => f x i = 0 | Inequality => 0 <= f x i end) (fun _ => 0).
Proof.
  intros M L. split; [|split; [|split]].
  - intros x. apply (hard_one c t w k m f x M).
  - intros x. cbn [soft_cost]. rewrite (made_penalty_hard c t w k m f x M). ring.
  - constructor; [|constructor]. eapply made_sized; eassumption.
  - constructor; [|constructor]. intros E. destruct M as (_ & M & _). congruence.
Qed.
Lemma means_soft c w k m f n : made c Equality Soft w k m f -> (m <= n)%nat ->
  means n [c] (fun _ => True) (fun x => w / 2 * Rsum k (fun i => Rsqr (f x i))).
Proof.
  intros M L. split; [|split; [|split]].
  - intros x. rewrite hard_holds_cons, hard_holds_nil. destruct M as (_ & M & _). rewrite M. split; [trivial|]. intros _. split; [discriminate|trivial].
  - intros x. cbn [soft_cost]. rewrite (made_penalty_eq c w k m f x M). ring.
  - constructor; [|constructor]. eapply made_sized; eassumption.
  - constructor; [|constructor]. intros _ E. destruct M as (M & _). congruence.
Qed.

(** ** Parts of expressions *)

Lemma part_spec e n m f i k e' : denotes e n m f -> part e i k = Ok e' -> (i + k <= n)%nat /\ denotes e' k m (fun x a => f x (i + a)%nat).
Proof.
  intros D H. unfold part in H. destruct (Nat.le_gt_cases (i + k) n) as [L|L].
  - split; [exact L|]. destruct (slice_denotes e n m f i k D L) as (r & Hr & Dr). rewrite Hr in H. injection H as <-. exact Dr.
  - exfalso. rewrite (slice_ub e n m f (Z.of_nat i) (Z.of_nat k) D) in H; [discriminate|]. right. left. lia.
Qed.

Lemma made_le a b n m1 m2 f g c : denotes a n m1 f -> denotes b n m2 g -> e_le a b = Ok c ->
  made c Inequality Hard 1 n (Nat.max m1 m2) (fun x i => g x i - f x i).
Proof.
  intros D1 D2 H. destruct (sub_means_e a b n m1 m2 f g D1 D2) as (r & Hr & Dr). unfold e_le in H. rewrite Hr in H. cbn [obind] in H. injection H as <-.
  eapply made_ext; [|apply made_intro, e_opp_denotes; exact Dr]. intros x i _. cbv beta. ring.
Qed.
Lemma made_eqv e v n m f c : denotes e n m f -> vlen v = n -> e_eq_v e v = Ok c -> made c Equality Hard 1 n m (fun x i => f x i - vat v i).
Proof.
  intros D1 D2 H. destruct (sub_means_ev e v n m f D1 D2) as (r & Hr & Dr). unfold e_eq_v, e_eq in H. rewrite Hr in H. cbn [obind] in H. injection H as <-.
  now apply made_intro.
Qed.
Lemma made_gev e v n m f c : denotes e n m f -> vlen v = n -> e_ge_v e v = Ok c -> made c Inequality Hard 1 n m (fun x i => f x i - vat v i).
Proof.
  intros D1 D2 H. destruct (sub_means_ev e v n m f D1 D2) as (r & Hr & Dr). unfold e_ge_v, e_ge in H. rewrite Hr in H. cbn [obind] in H. injection H as <-.
  now apply made_intro.
Qed.
Lemma made_lev e v n m f c : denotes e n m f -> vlen v = n -> e_le_v e v = Ok c -> made c Inequality Hard 1 n m (fun x i => vat v i - f x i).
Proof. intros D1 D2 H. destruct (made_le_v e n m f v D1 D2) as (c' & E & M). rewrite E in H. injection H as <-. exact M. Qed.
Lemma made_eqd e n m f a c : denotes e n m f -> e_eq_d e a = Ok c -> made c Equality Hard 1 n m (fun x i => f x i - a).
Proof. intros D H. destruct (made_eq_d e n m f a D) as (c' & E & M). rewrite E in H. injection H as <-. exact M. Qed.
Lemma made_ged e n m f a c : denotes e n m f -> e_ge_d e a = Ok c -> made c Inequality Hard 1 n m (fun x i => f x i - a).
Proof. intros D H. destruct (made_ge_d e n m f a D) as (c' & E & M). rewrite E in H. injection H as <-. exact M. Qed.
Lemma made_led e n m f a c : denotes e n m f -> e_le_d e a = Ok c -> made c Inequality Hard 1 n m (fun x i => a - f x i).
Proof. intros D H. destruct (made_le_d e n m f a D) as (c' & E & M). rewrite E in H. injection H as <-. exact M. Qed.

Lemma between_means e n m f i z k cs : denotes e n m f -> between e i z k = Ok cs ->
  (i < n)%nat /\ (z < n)%nat /\ means m cs (fun x => - (k * f x z) <= f x i <= k * f x z) (fun _ => 0).
Proof.
  intros D H. unfold between in H. bind H a Ea. bind H b Eb. bind H c1 E1. cbn [obind] in H. bind H c2 E2. injection H as <-.
  destruct (part_spec _ _ _ _ _ _ _ D Ea) as [La Da]. destruct (part_spec _ _ _ _ _ _ _ D Eb) as [Lb Db].
  split; [lia|]. split; [lia|].
  pose proof (made_le _ _ _ _ _ _ _ _ Da (scale_denotes _ _ _ _ k Db) E1) as M1.
  pose proof (made_le _ _ _ _ _ _ _ _ (scale_denotes _ _ _ _ (- k) Db) Da E2) as M2. rewrite Nat.max_id in M1, M2.
  eapply means_ext; [| |exact (means_app m [c1] _ _ [c2] _ _ (means_hard _ _ _ _ _ _ m M1 (Nat.le_refl m)) (means_hard _ _ _ _ _ _ m M2 (Nat.le_refl m)))].
  - intros x. cbv beta. split.
    + intros [H1 H2]. specialize (H1 0%nat Nat.lt_0_1). specialize (H2 0%nat Nat.lt_0_1). rewrite !Nat.add_0_r in *. lra.
    + intros [H1 H2]. split; intros j Hj; replace j with 0%nat by lia; rewrite !Nat.add_0_r; lra.
  - intros x. cbv beta. ring.
Qed.

Lemma sum_of_squares (g : nat -> R) k : forall s, Rsum k (fun j => Rsqr (g (s + j)%nat)) = fold_right (fun y t => Rsqr y + t) 0 (map g (seq s k)).
Proof.
  induction k as [|k IH]; intros s; [reflexivity|]. cbn [seq map fold_right]. rewrite <- IH.
  change (S k) with (1 + k)%nat. rewrite Rsum_split. cbn [Rsum]. rewrite Nat.add_0_r, Rplus_0_l. f_equal.
  apply Rsum_ext. intros j _. now replace (s + (1 + j))%nat with (S s + j)%nat by lia.
Qed.

Lemma penalise_means w o i k cs e n m f : o = Ok e -> denotes e n m f -> penalise w o i k = Ok cs ->
  means m cs (fun _ => True) (fun x => weighted w (map (fun a => f x (i + a)%nat) (seq 0 k))).
Proof.
  intros -> D H. unfold penalise, weighted in *. destruct (Rlt_dec 0 w).
  - cbn [obind] in H. bind H a Ea. bind H c Ec. injection H as <-. destruct (part_spec _ _ _ _ _ _ _ D Ea) as [La Da].
    pose proof (made_eqd _ _ _ _ _ _ Da Ec) as M. apply (made_configure _ _ _ _ _ _ _ Soft w) in M.
    eapply means_ext; [| |exact (means_soft _ _ _ _ _ m M (Nat.le_refl m))]; [tauto|]. intros x. cbv beta. f_equal.
    rewrite <- (sum_of_squares (fun a => f x (i + a)%nat) k 0). apply Rsum_ext. intros j _. cbn [Nat.add]. now rewrite Rminus_0_r.
  - injection H as <-. apply means_nil.
Qed.

Lemma vec_of3 (Rs : mat3) (w : nat -> R) a : (a < 3)%nat ->
  Rsum 3 (fun k => mat_at (mat_of3 (m3_t Rs)) a k * w k) = coord (in_surface Rs w) a.
Proof.
  intros H. unfold in_surface, m3_vec, m3_t, mat_of3, coord. destruct Rs. cbn.
  destruct a as [|[|[|a]]]; cbn; try ring; lia.
Qed.

(** ** The contacts *)

Lemma plain_means c f n m g cs : denotes f n m g -> plain_constraints c f = Ok cs ->
  means m cs (fun _ => True) (fun x => weighted (co_wforces c) (map (g x) (seq 0 n))).
Proof.
  intros D H. unfold plain_constraints in H. unfold weighted. destruct (Rlt_dec 0 (co_wforces c)).
  - bind H x E. injection H as <-. pose proof (made_eqd _ _ _ _ _ _ D E) as M. apply (made_configure _ _ _ _ _ _ _ Soft (co_wforces c)) in M.
    eapply means_ext; [| |exact (means_soft _ _ _ _ _ m M (Nat.le_refl m))]; [tauto|]. intros y. cbv beta. f_equal.
    rewrite <- (sum_of_squares (g y) n 0). apply Rsum_ext. intros j _. cbn [Nat.add]. now rewrite Rminus_0_r.
  - injection H as <-. eapply means_ext; [| |apply means_nil]; [tauto|reflexivity].
Qed.

Lemma contact_means c f n m g cs : denotes f n m g -> (forall w, (exists f' k, co_kind c = CExternal f' k w) -> vlen w = n) ->
  ((exists fp t u len Rs, co_kind c = CLine fp t u len Rs) -> n = 5%nat) ->
  contact_constraints c f = Ok cs -> means m cs (fun x => contact_valid c (g x)) (fun x => contact_penalty c n (g x)).
Proof.
  intros D Hext Hline H. unfold contact_constraints in H. unfold contact_valid, contact_penalty. destruct (co_kind c) as [t u Rs|fp fo u len wid|fp t u len Rs|f' k w| |t].
  - (* point *)
    unfold point_constraints in H. bind H cu Eu. bind H p1 E1. bind H p2 E2. injection H as <-.
    pose proof (penalise_means _ _ _ _ _ _ _ _ _ eq_refl D E1) as P1.
    assert (S2 : means m p2 (fun _ => True) (fun x => weighted (co_wtangentials c) [vx (in_surface Rs (g x)); vy (in_surface Rs (g x))])).
    { unfold penalise in E2. destruct (Rlt_dec 0 (co_wtangentials c)) as [L|L] eqn:EL.
      - bind E2 s Es. assert (n = 3%nat) as -> by (unfold m_mul_e in Es; apply guard_inv in Es; destruct Es as [Es _]; apply andb_true_iff in Es; destruct Es as [Es _];
          apply Nat.eqb_eq in Es; pose proof (denotes_elim _ _ _ _ D) as (Dn & _); cbn in Es; congruence).
        destruct (m_mul_e_denotes (mat_of3 (m3_t Rs)) f 3 m g D eq_refl) as (s' & Es' & Ds). rewrite Es in Es'. injection Es' as <-.
        assert (E2' : penalise (co_wtangentials c) (Ok s) 0 2 = Ok p2) by (unfold penalise; rewrite EL; exact E2).
        eapply means_ext; [| |exact (penalise_means _ _ _ _ _ _ _ _ _ eq_refl Ds E2')]; [tauto|]. intros x. cbn [seq map Nat.add]. f_equal.
        rewrite !vec_of3 by lia. reflexivity.
      - injection E2 as <-. eapply means_ext; [| |apply means_nil]; [tauto|]. intros x. unfold weighted. now rewrite EL. }
    assert (S1 : means m cu (fun x => if u then friction_ok (co_mu c) (vx (in_surface Rs (g x))) (vy (in_surface Rs (g x))) (vz (in_surface Rs (g x))) else True) (fun _ => 0)).
    { destruct u; [|injection Eu as <-; apply means_nil]. bind Eu s Es. bind Eu z Ez. bind Eu c0 E0. bind Eu c1 Ec1. bind Eu c2 Ec2. injection Eu as <-.
      assert (n = 3%nat) as -> by (unfold m_mul_e in Es; apply guard_inv in Es; destruct Es as [Es _]; apply andb_true_iff in Es; destruct Es as [Es _];
          apply Nat.eqb_eq in Es; pose proof (denotes_elim _ _ _ _ D) as (Dn & _); cbn in Es; congruence).
      destruct (m_mul_e_denotes (mat_of3 (m3_t Rs)) f 3 m g D eq_refl) as (s' & Es' & Ds). rewrite Es in Es'. injection Es' as <-.
      destruct (part_spec _ _ _ _ _ _ _ Ds Ez) as [_ Dz]. pose proof (made_ged _ _ _ _ _ _ Dz E0) as M0.
      destruct (between_means _ _ _ _ _ _ _ _ Ds Ec1) as (_ & _ & B1). destruct (between_means _ _ _ _ _ _ _ _ Ds Ec2) as (_ & _ & B2).
      eapply means_ext; [| |exact (means_app m [c0] _ _ _ _ _ (means_hard _ _ _ _ _ _ m M0 (Nat.le_refl m)) (means_app m _ _ _ _ _ _ B1 B2))].
      - intros x. cbv beta. rewrite !vec_of3 by lia. unfold friction_ok. cbn [coord].
        assert (Z : (forall i, (i < 1)%nat -> 0 <= Rsum 3 (fun k => mat_at (mat_of3 (m3_t Rs)) (2 + i) k * g x k) - 0) <-> 0 <= vz (in_surface Rs (g x))).
        { split; [intros Hz; specialize (Hz 0%nat Nat.lt_0_1); cbn [Nat.add] in Hz; rewrite vec_of3 in Hz by lia; cbn [coord] in Hz; lra|].
          intros Hz i Hi. replace i with 0%nat by lia. cbn [Nat.add]. rewrite vec_of3 by lia. cbn [coord]. lra. }
        rewrite Z. split.
        + intros (H1 & H2 & H3). split; [exact H1|]. split; apply Rabs_le; lra.
        + intros (H1 & H2 & H3). split; [exact H1|]. apply Rabs_le_inv in H2, H3. split; lra.
      - intros x. cbv beta. ring. }
    eapply means_ext; [| |exact (means_app m _ _ _ _ _ _ S1 (means_app m _ _ _ _ _ _ P1 S2))].
    + intros x. cbv beta. destruct u; tauto.
    + intros x. cbv beta. cbn [seq map Nat.add]. ring.
  - (* planar *)
    unfold planar_constraints in H. bind H cu Eu. bind H p1 E1. bind H p2 E2. bind H p3 E3. injection H as <-.
    pose proof (penalise_means _ _ _ _ _ _ _ _ _ eq_refl D E1) as P1. pose proof (penalise_means _ _ _ _ _ _ _ _ _ eq_refl D E2) as P2.
    pose proof (penalise_means _ _ _ _ _ _ _ _ _ eq_refl D E3) as P3.
    assert (S1 : means m cu (fun x => if u then friction_ok (co_mu c) (g x 0%nat) (g x 1%nat) (g x 2%nat) /\
      - (len / 2 * g x 2%nat) <= g x 4%nat <= len / 2 * g x 2%nat /\ - (wid / 2 * g x 2%nat) <= g x 3%nat <= wid / 2 * g x 2%nat else True) (fun _ => 0)).
    { destruct u; [|injection Eu as <-; apply means_nil]. destruct (Req_EM_T len 0); [discriminate|]. destruct (Req_EM_T wid 0); [discriminate|].
      bind Eu z Ez. bind Eu c0 E0. bind Eu c1 Ec1. bind Eu c2 Ec2. bind Eu c3 Ec3. bind Eu c4 Ec4. injection Eu as <-.
      destruct (part_spec _ _ _ _ _ _ _ D Ez) as [_ Dz]. pose proof (made_ged _ _ _ _ _ _ Dz E0) as M0.
      destruct (between_means _ _ _ _ _ _ _ _ D Ec1) as (_ & _ & B1). destruct (between_means _ _ _ _ _ _ _ _ D Ec2) as (_ & _ & B2).
      destruct (between_means _ _ _ _ _ _ _ _ D Ec3) as (_ & _ & B3). destruct (between_means _ _ _ _ _ _ _ _ D Ec4) as (_ & _ & B4).
      eapply means_ext; [| |exact (means_app m [c0] _ _ _ _ _ (means_hard _ _ _ _ _ _ m M0 (Nat.le_refl m)) (means_app m _ _ _ _ _ _ B1 (means_app m _ _ _ _ _ _ B2 (means_app m _ _ _ _ _ _ B3 B4))))].
      - intros x. cbv beta. unfold friction_ok. split.
        + intros (H1 & H2 & H3 & H4 & H5). specialize (H1 0%nat Nat.lt_0_1). cbn [Nat.add] in H1. split; [|split; assumption].
          split; [lra|]. split; apply Rabs_le; lra.
        + intros ((H1 & H2 & H3) & H4 & H5). apply Rabs_le_inv in H2, H3. split; [|repeat split; lra]. intros i Hi. replace i with 0%nat by lia. cbn [Nat.add]. lra.
      - intros x. cbv beta. ring. }
    eapply means_ext; [| |exact (means_app m _ _ _ _ _ _ S1 (means_app m _ _ _ _ _ _ P1 (means_app m _ _ _ _ _ _ P2 P3)))].
    + intros x. cbv beta. destruct u; tauto.
    + intros x. cbv beta. cbn [seq map Nat.add]. ring.
  - (* line *)
    unfold line_constraints in H. bind H cu Eu. bind H p1 E1. bind H p2 E2. bind H p3 E3. injection H as <-.
    pose proof (penalise_means _ _ _ _ _ _ _ _ _ eq_refl D E3) as P3.
    assert (n = 5%nat) as -> by (apply Hline; now exists fp, t, u, len, Rs).
    assert (Z : forall s, m_mul_e (mat_of3 (m3_t Rs)) f = Ok s -> False).
    { intros s Es. unfold m_mul_e in Es. apply guard_inv in Es. destruct Es as [Es _]. apply andb_true_iff in Es. destruct Es as [Es _].
      apply Nat.eqb_eq in Es. pose proof (denotes_elim _ _ _ _ D) as (Dn & _). cbn in Es. congruence. }
    assert (X : forall w i k p, penalise w (m_mul_e (mat_of3 (m3_t Rs)) f) i k = Ok p -> p = []).
    { intros w i k p Hp. unfold penalise in Hp. destruct (Rlt_dec 0 w); [|injection Hp as <-; reflexivity]. bind Hp s Es. exfalso. now apply (Z s). }
    apply X in E1, E2. subst p1 p2.
    assert (cu = []) as -> by (destruct u; [destruct (Req_EM_T len 0); [discriminate|]; bind Eu s Es; exfalso; now apply (Z s)|now injection Eu as <-]).
    cbn [app]. eapply means_ext; [| |exact P3]; [intros x; destruct u; tauto|]. intros x. cbn [seq map Nat.add]. reflexivity.
  - unfold external_constraints in H. bind H x E. injection H as <-. specialize (Hext w (ex_intro _ f' (ex_intro _ k eq_refl))).
    pose proof (made_eqv _ _ _ _ _ _ D Hext E) as M. eapply means_ext; [| |exact (means_hard _ _ _ _ _ _ m M (Nat.le_refl m))].
    + intros x0. cbv beta. rewrite Hext. split; intros Hi i L; specialize (Hi i L); lra.
    + reflexivity.
  - exact (plain_means c f n m g cs D H).
  - exact (plain_means c f n m g cs D H).
Qed.
