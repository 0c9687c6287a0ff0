(** Lemmas about the kinematics solver: the result is a function of the request. *)
From Coq Require Import Reals List ZArith Bool String Permutation Lra Lia.
From Verif Require Import Base Linalg Geom3 Tools_model Geometry_model Expression_model Expression_spec Expression_proofs Problem_model Problem_spec
  Problem_proofs Problem_proofs2 Problem_proofs3 Problem_props Unique_proofs Polynom_model Robot_model KinTasks_model Kin_model Kin_spec Kin_proofs Kin_proofs2 Kin_proofs3.
Import ListNotations.
Open Scope R_scope.

Section WithRobot.
Variable pn : pin.
Variable log3 : mat3 -> vec3.
Variable msqrt : mat -> mat.
Notation ksolve := (ksolve pn log3 msqrt).
Notation allowed := (allowed pn log3 msqrt).
Notation penalties := (penalties pn log3 msqrt).
Notation scaling := (scaling pn log3 msqrt).
Notation answerable := (answerable pn log3 msqrt).
Notation asks_for := (asks_for pn log3 msqrt).

(** ** The order of the tasks and constraints does not matter *)

Lemma same_request_sym s s' : same_request s s' -> same_request s' s.
Proof.
  intros (A & B & C & D & E & F & G & H & I). repeat split; auto; try (now symmetry); try (intros X; now apply C); now apply Permutation_sym.
Qed.

Lemma asks_for_same s s' r t e : same_request s s' -> asks_for s r t e -> asks_for s' r t e.
Proof. intros (A & B & _ & _ & _ & _ & G & _) [Ht E]. split; [now apply (Permutation_in _ G)|]. rewrite <- A, <- B. exact E. Qed.

Lemma scaling_same s s' r : same_request s s' -> scaling s r -> scaling s' r.
Proof. intros H (t & e & A & P). exists t, e. split; [now apply (asks_for_same s)|exact P]. Qed.

Lemma allowed_same s s' r x : same_request s s' -> allowed s r x -> allowed s' r x.
Proof.
  intros H [A1 A2 A3 A4 A5 A6 A7 A8]. pose proof (same_request_sym _ _ H) as H'. pose proof H as (A & B & C & D & E & F & G & P & I).
  constructor; try rewrite <- A; try rewrite <- B; try rewrite <- D; try rewrite <- E; try rewrite <- F; auto.
  - intros t e Ht. apply (A1 t e). now apply (asks_for_same s').
  - intros t e Ht. apply (A2 t e). now apply (asks_for_same s').
  - intros Hs. apply A3. now apply (scaling_same s').
  - intros j Hj. apply A4. now apply C.
  - intros c cs Hc. apply A8. now apply (Permutation_in _ (Permutation_sym P)).
Qed.

Lemma total_perm {A} (f : A -> R) l l' : Permutation l l' -> total f l = total f l'.
Proof. induction 1; cbn [total]; lra. Qed.

Lemma penalties_same s s' r b x : same_request s s' -> penalties s r b x = penalties s' r b x.
Proof.
  intros (A & B & C & D & E & F & G & P & I). unfold Kin_spec.penalties. rewrite A. f_equal. f_equal.
  - rewrite (total_perm _ _ _ G). apply total_ext. intros t. unfold task_penalty. now rewrite A, B.
  - rewrite (total_perm _ _ _ P). apply total_ext. intros t. unfold constraint_penalty. now rewrite A, B.
Qed.

Lemma answerable_same s s' r : same_request s s' -> answerable s r -> answerable s' r.
Proof.
  intros H [A1 A2 A3 A4 A5 A6 A7]. pose proof H as (A & B & C & D & E & F & G & P & I).
  constructor; try rewrite <- A; try rewrite <- B; try rewrite <- D; try rewrite <- E; try rewrite <- F; auto.
  - intros t Ht. destruct (A1 t) as (e & Ae & Hs); [now apply (Permutation_in _ (Permutation_sym G))|]. exists e. split; [now apply (asks_for_same s)|exact Hs].
  - intros t Ht. apply A2. now apply (Permutation_in _ (Permutation_sym G)).
  - intros j Hj. apply A3. now apply C.
  - intros c Hc. apply A7. now apply (Permutation_in _ (Permutation_sym P)).
Qed.

(** ** Which unknowns matter *)

Lemma row_ext e x y i n : (cols e <= n)%nat -> (forall j, (j < n)%nat -> x j = y j) -> row e x i = row e y i.
Proof. intros Hc H. unfold row. f_equal. apply Rsum_ext. intros j Hj. rewrite H by lia. reflexivity. Qed.

Lemma hard_holds_ext n cs x y : (forall c, In c cs -> (cols (c_expr c) <= n)%nat) -> (forall j, (j < n)%nat -> x j = y j) -> hard_holds cs x -> hard_holds cs y.
Proof.
  intros Hc H Hx c Hin Hp i Hi. specialize (Hx c Hin Hp i Hi). rewrite (row_ext _ x y i n (Hc c Hin) H) in Hx. exact Hx.
Qed.

Lemma soft_cost_ext n cs x y : (forall c, In c cs -> (cols (c_expr c) <= n)%nat) -> (forall j, (j < n)%nat -> x j = y j) -> soft_cost cs x = soft_cost cs y.
Proof.
  intros Hc H. induction cs as [|c cs IH]; cbn [soft_cost]; [reflexivity|]. rewrite IH by (intros; apply Hc; now right). f_equal.
  unfold soft_penalty. destruct (c_prio c), (c_type c); try reflexivity; f_equal; apply Rsum_ext; intros i _; rewrite (row_ext _ x y i n (Hc c (or_introl eq_refl)) H); reflexivity.
Qed.

Lemma residual_ext N e x y s k : mcols (fst e) = N -> (forall j, (j < N)%nat -> x j = y j) -> residual e x s k = residual e y s k.
Proof. intros Hm H. unfold residual. f_equal. apply Rsum_ext. intros j Hj. rewrite H by lia. reflexivity. Qed.

Lemma allowed_ext s r x y : answerable s r -> (forall j, (j < ks_N s)%nat -> x j = y j) -> (scaling s r -> x (ks_N s) = y (ks_N s)) -> allowed s r x -> allowed s r y.
Proof.
  intros An H Hs [A1 A2 A3 A4 A5 A6 A7 A8].
  assert (Sh : forall t e, asks_for s r t e -> mcols (fst e) = ks_N s) by (intros t e Ht; now apply (answerable_shaped pn log3 msqrt _ s r eq_refl An t e)).
  constructor.
  - intros t e Ht Hp k Hk. rewrite <- (residual_ext _ e x y 1 k (Sh t e Ht) H). now apply (A1 t e).
  - intros t e Ht Hp k Hk. assert (Sc : scaling s r) by (exists t, e; repeat split; try apply Ht; auto; lia).
    rewrite <- (Hs Sc), <- (residual_ext _ e x y _ k (Sh t e Ht) H). now apply (A2 t e).
  - intros Sc. rewrite <- (Hs Sc). auto.
  - intros j Hj. rewrite <- H by now apply An. auto.
  - intros Hf j Hj. pose proof (an_fbase _ _ _ _ _ An Hf). rewrite <- H by lia. auto.
  - intros Hf k Hk. cbv zeta. rewrite <- H by lia. now apply A6.
  - intros Hf k Hk. cbv zeta. rewrite <- H by lia. now apply A7.
  - intros c cs Hc E. apply (hard_holds_ext (ks_N s) cs x y); [|exact H|now apply (A8 c)].
    intros c' Hc'. destruct (an_constraints _ _ _ _ _ An c Hc) as (cs' & E' & G). rewrite E in E'. injection E' as <-. now apply G.
Qed.

Lemma total_ext_in {A} (f g : A -> R) l : (forall a, In a l -> f a = g a) -> total f l = total g l.
Proof. induction l as [|a l IH]; intros H; cbn [total]; [reflexivity|]. rewrite H by now left. rewrite IH; [reflexivity|]. intros b Hb. apply H. now right. Qed.

Lemma penalties_ext s r b x y : answerable s r -> (forall j, (j < ks_N s)%nat -> x j = y j) -> (b = true -> x (ks_N s) = y (ks_N s)) -> penalties s r b x = penalties s r b y.
Proof.
  intros An H Hs. unfold Kin_spec.penalties. f_equal; [f_equal|].
  - apply total_ext_in. intros t Ht. unfold task_penalty. destruct (an_tasks _ _ _ _ _ An t Ht) as (e & [_ E] & [Sh _]). rewrite E. destruct (kt_priority t); try reflexivity.
    f_equal. apply Rsum_ext. intros k _. now rewrite (residual_ext _ e x y 1 k Sh H).
  - apply total_ext_in. intros c Hc. unfold constraint_penalty. destruct (an_constraints _ _ _ _ _ An c Hc) as (cs & E & G). rewrite E.
    apply (soft_cost_ext (ks_N s)); [|exact H]. intros c' Hc'. now apply G.
  - destruct b; [|reflexivity]. now rewrite Hs.
Qed.

(** ** Uniqueness *)

Definition keep (n : nat) (x : nat -> R) (j : nat) : R := if Nat.ltb j n then x j else 0.

Lemma keep_sum n m x : (n <= m)%nat -> Rsum m (fun j => Rsqr (keep n x j)) = Rsum n (fun j => Rsqr (x j)).
Proof.
  intros H. rewrite (Rsum_extend n m _ H).
  - apply Rsum_ext. intros j Hj. unfold keep. destruct (Nat.ltb_spec j n); [reflexivity|lia].
  - intros j Hj. unfold keep. destruct (Nat.ltb_spec j n); [lia|]. apply Rsqr_0.
Qed.

Lemma Rsum_sqr_le n m x : (n <= m)%nat -> Rsum n (fun j => Rsqr (x j)) <= Rsum m (fun j => Rsqr (x j)).
Proof. induction 1 as [|m _ IH]; [lra|]. cbn [Rsum]. pose proof (Rle_0_sqr (x m)). lra. Qed.

(** The optimum of a solve, restricted to the unknowns that matter. *)
Lemma solved_optimum N s r apply qr qp s' r' delta s2 pb' : knows N s -> answerable s r ->
  solved pn log3 msqrt N s r apply qr qp s' r' delta s2 pb' ->
  qr_correct qr -> qp_correct qp -> 0 <= p_reg (ks_problem s) -> p_sparse (ks_problem s) = false ->
  let n := if ks_has_scaling s2 then S N else N in let x := keep n (vat (p_x pb')) in
  allowed s r x /\ forall y, allowed s r y ->
    penalties s r (ks_has_scaling s2) x + p_reg (ks_problem s) / 2 * Rsum n (fun j => Rsqr (x j)) <=
    penalties s r (ks_has_scaling s2) y + p_reg (ks_problem s) / 2 * Rsum n (fun j => Rsqr (y j)).
Proof.
  intros K An So Hqr Hqp Hreg Hsp. cbv zeta. set (n := if ks_has_scaling s2 then S N else N). pose proof (proj1 K) as HN.
  destruct (answerable_built pn log3 msqrt N s r K An) as (s2' & EB & G). rewrite (so_built _ _ _ _ _ _ _ _ _ _ _ _ _ _ So) in EB. injection EB as <-.
  pose proof (so_prepared _ _ _ _ _ _ _ _ _ _ _ _ _ _ So) as P. pose proof (so_solve _ _ _ _ _ _ _ _ _ _ _ _ _ _ So) as E.
  pose proof (pr_settings _ _ _ _ _ _ _ P) as (_ & Ed & _ & _ & _ & _ & _ & _ & Er & Es & Ew).
  pose proof (knows_n N s2 (pr_knows _ _ _ _ _ _ _ P) (pr_qd _ _ _ _ _ _ _ P)) as En.
  assert (Hn : (N <= n <= p_n (ks_problem s2))%nat).
  { unfold n. rewrite En. pose proof (pr_var _ _ _ _ _ _ _ P) as V. destruct (ks_has_scaling s2), (ks_scale_var s2); try lia. exfalso. now apply V. }
  destruct (C20_optimum (ks_problem s2) qr qp pb' Hqr Hqp ltac:(congruence) (fun c Hc Hp _ => proj1 (proj2 (proj2 (proj2 (proj1 G c Hc))) Hp)) E) as [F O].
  set (z := vat (p_x pb')) in *. unfold cost in O. rewrite Er in O.
  assert (Kz : forall y, (forall j, (j < N)%nat -> y j = keep n y j) /\ (ks_has_scaling s2 = true -> y N = keep n y N)).
  { intros y. unfold keep. split.
    - intros j Hj. destruct (Nat.ltb_spec j n); [reflexivity|lia].
    - intros Hh. unfold n. rewrite Hh. destruct (Nat.ltb_spec N (S N)); [reflexivity|lia]. }
  assert (AK : forall y, allowed s r y -> allowed s r (keep n y)).
  { intros y Hy. apply (allowed_ext s r y); [exact An|rewrite HN; apply Kz|rewrite HN; intros Sc; apply Kz; now apply (pr_scaling _ _ _ _ _ _ _ P)|exact Hy]. }
  assert (PK : forall y, penalties s r (ks_has_scaling s2) (keep n y) = penalties s r (ks_has_scaling s2) y).
  { intros y. symmetry. apply penalties_ext; [exact An|rewrite HN; apply Kz|rewrite HN; apply Kz]. }
  split; [apply AK; now apply (pr_hard _ _ _ _ _ _ _ P)|].
  intros y Hy. specialize (O (keep n y)). rewrite !(pr_soft _ _ _ _ _ _ _ P) in O. specialize (O (proj2 (pr_hard _ _ _ _ _ _ _ P _) (AK y Hy))).
  rewrite PK in O. rewrite (keep_sum n (p_n (ks_problem s2)) y) in O by lia. rewrite PK, (keep_sum n n z) by lia.
  pose proof (Rsum_sqr_le n (p_n (ks_problem s2)) z ltac:(lia)). nra.
Qed.

Lemma solved_unique N s1 s2 r a1 a2 qr1 qr2 qp1 qp2 s1' s2' r1 r2 d1 d2 : knows N s1 -> knows N s2 -> same_request s1 s2 -> answerable s1 r ->
  qr_correct qr1 -> qp_correct qp1 -> qr_correct qr2 -> qp_correct qp2 ->
  0 < p_reg (ks_problem s1) -> p_sparse (ks_problem s1) = false -> p_sparse (ks_problem s2) = false ->
  ksolve qr1 qp1 s1 r a1 = (s1', r1, Ok d1) -> ksolve qr2 qp2 s2 r a2 = (s2', r2, Ok d2) ->
  vlen d1 = vlen d2 /\ (forall j, (j < vlen d1)%nat -> vat d1 j = vat d2 j) /\ (scaling s1 r -> ks_scale s1' = ks_scale s2').
Proof.
  intros K1 K2 H A1 Q1 P1 Q2 P2 Hreg Sp1 Sp2 E1 E2. pose proof (answerable_same _ _ r H A1) as A2. pose proof H as (HN & _ & _ & _ & _ & _ & _ & _ & Hr).
  destruct (ksolve_solved pn log3 msqrt N s1 r a1 qr1 qp1 s1' r1 d1 K1 (answerable_shaped pn log3 msqrt N s1 r (proj1 K1) A1) E1) as (t1 & pb1 & S1).
  destruct (ksolve_solved pn log3 msqrt N s2 r a2 qr2 qp2 s2' r2 d2 K2 (answerable_shaped pn log3 msqrt N s2 r (proj1 K2) A2) E2) as (t2 & pb2 & S2).
  destruct (solved_optimum N s1 r a1 qr1 qp1 s1' r1 d1 t1 pb1 K1 A1 S1 Q1 P1 ltac:(lra) Sp1) as [F1 O1].
  destruct (solved_optimum N s2 r a2 qr2 qp2 s2' r2 d2 t2 pb2 K2 A2 S2 Q2 P2 ltac:(rewrite <- Hr; lra) Sp2) as [F2 O2].
  pose proof (so_prepared _ _ _ _ _ _ _ _ _ _ _ _ _ _ S1) as R1. pose proof (so_prepared _ _ _ _ _ _ _ _ _ _ _ _ _ _ S2) as R2.
  assert (Eh : ks_has_scaling t2 = ks_has_scaling t1).
  { pose proof (pr_scaling _ _ _ _ _ _ _ R1) as X1. pose proof (pr_scaling _ _ _ _ _ _ _ R2) as X2. pose proof (scaling_same s1 s2 r H). pose proof (scaling_same s2 s1 r (same_request_sym _ _ H)).
    destruct (ks_has_scaling t1), (ks_has_scaling t2); try reflexivity; exfalso; [assert (false = true) by tauto|assert (false = true) by tauto]; discriminate. }
  rewrite Eh, <- Hr in *. set (n := if ks_has_scaling t1 then S N else N) in *.
  destruct (answerable_built pn log3 msqrt N s1 r K1 A1) as (t1' & EB & G). rewrite (so_built _ _ _ _ _ _ _ _ _ _ _ _ _ _ S1) in EB. injection EB as <-.
  assert (U : forall j, (j < n)%nat -> keep n (vat (p_x pb1)) j = keep n (vat (p_x pb2)) j).
  { apply (unique_optimum n (p_reg (ks_problem s1)) (p_cons (ks_problem t1))); auto.
    - intros c Hc Hp. exact (proj1 (proj2 (proj2 (proj2 (proj1 G c Hc))) Hp)).
    - now apply (pr_hard _ _ _ _ _ _ _ R1).
    - apply (pr_hard _ _ _ _ _ _ _ R1). now apply (allowed_same s2 s1 r _ (same_request_sym _ _ H)).
    - intros z Hz. rewrite !(pr_soft _ _ _ _ _ _ _ R1). apply O1. now apply (pr_hard _ _ _ _ _ _ _ R1).
    - intros z Hz. rewrite !(pr_soft _ _ _ _ _ _ _ R1), !(penalties_same s1 s2 r _ _ H). apply O2. apply (allowed_same s1 s2 r _ H). now apply (pr_hard _ _ _ _ _ _ _ R1). }
  assert (U' : forall j, (j < n)%nat -> vat (p_x pb1) j = vat (p_x pb2) j).
  { intros j Hj. specialize (U j Hj). unfold keep in U. destruct (Nat.ltb_spec j n); [exact U|lia]. }
  destruct (so_delta _ _ _ _ _ _ _ _ _ _ _ _ _ _ S1) as [L1 D1]. destruct (so_delta _ _ _ _ _ _ _ _ _ _ _ _ _ _ S2) as [L2 D2].
  split; [congruence|]. split.
  - intros j Hj. rewrite L1 in Hj. rewrite D1, D2 by exact Hj. apply U'. unfold n. destruct (ks_has_scaling t1); lia.
  - intros Sc. apply (pr_scaling _ _ _ _ _ _ _ R1) in Sc. rewrite (so_scale _ _ _ _ _ _ _ _ _ _ _ _ _ _ S1), (so_scale _ _ _ _ _ _ _ _ _ _ _ _ _ _ S2).
    rewrite (so_scaling _ _ _ _ _ _ _ _ _ _ _ _ _ _ S1), (so_scaling _ _ _ _ _ _ _ _ _ _ _ _ _ _ S2), Eh, Sc. apply U'. unfold n. rewrite Sc. lia.
Qed.

End WithRobot.
