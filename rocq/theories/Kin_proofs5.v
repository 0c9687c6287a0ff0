(** Proofs about the kinematics solver: what a solution satisfies, sizes, masks, gears, redundant equalities. *)
From Coq Require Import Reals List ZArith Bool Lia Lra String Permutation.
From Verif Require Import Base Linalg Geom3 Tools_model Geometry_model Expression_model Expression_spec Expression_proofs Problem_model Problem_spec
  Problem_proofs Problem_proofs2 Problem_proofs3 Problem_props Polynom_model Robot_model Robot_spec KinTasks_model Kin_model Kin_spec Kin_proofs Kin_proofs2
  Kin_proofs3 Kin_proofs4.
Import ListNotations.
Open Scope R_scope.

Section WithRobot.
Variable pn : pin.
Variable log3 : mat3 -> vec3.
Variable msqrt : mat -> mat.
Local Notation asks_for := (asks_for pn log3 msqrt).
Local Notation scaling := (scaling pn log3 msqrt).
Local Notation allowed := (allowed pn log3 msqrt).
Local Notation answerable := (answerable pn log3 msqrt).
Local Notation penalties := (penalties pn log3 msqrt).
Local Notation sound := (sound pn log3 msqrt).
Local Notation ksolve := (ksolve pn log3 msqrt).

(** ** A solution *)

Lemma allowed_ext' s r x y : sound s r -> (forall j, (j < ks_N s)%nat -> x j = y j) -> (scaling s r -> x (ks_N s) = y (ks_N s)) ->
  (forall j, In j (ks_masked s) -> (j < ks_N s)%nat) -> (ks_masked_fbase s = true -> (6 <= ks_N s)%nat) -> allowed s r x -> allowed s r y.
Proof.
  intros [Sh Co] Hxy Hs Hm Hf [A1 A2 A3 A4 A5 A6 A7 A8].
  assert (Re : forall t e c k, asks_for s r t e -> residual e x c k = residual e y c k).
  { intros t e c k H. apply (residual_ext (ks_N s)); [apply (Sh t e H)|exact Hxy]. }
  constructor.
  - intros t e H Hp k Hk. rewrite <- (Re t e) by exact H. now apply (A1 t e H Hp).
  - intros t e H Hp k Hk. rewrite <- (Re t e) by exact H. rewrite <- Hs by (exists t, e; repeat split; try apply H; [exact Hp|lia]). now apply (A2 t e H Hp).
  - intros Sc. rewrite <- Hs by exact Sc. now apply A3.
  - intros j Hj. rewrite <- Hxy by now apply Hm. now apply A4.
  - intros F j Hj. rewrite <- Hxy by (specialize (Hf F); lia). now apply A5.
  - intros F k Hk. rewrite <- Hxy by lia. now apply A6.
  - intros F k Hk. rewrite <- Hxy by lia. now apply A7.
  - intros c cs Hc E. apply (hard_holds_ext (ks_N s) cs x y); [intros c' Hc'; now apply (Co c cs c')|exact Hxy|now apply (A8 c cs Hc E)].
Qed.

Lemma ksolve_allowed N s r apply qr qp s' r' delta : knows N s -> sound s r -> qr_correct qr -> qp_correct qp ->
  ksolve qr qp s r apply = (s', r', Ok delta) -> vlen delta = N /\ allowed s r (extended delta (ks_scale s')).
Proof.
  intros K So Hqr Hqp E. pose proof (proj1 K) as HN.
  destruct (ksolve_solved pn log3 msqrt N s r apply qr qp s' r' delta K) as (s2 & pb' & S); [rewrite <- HN; apply So|exact E|].
  pose proof (so_prepared _ _ _ _ _ _ _ _ _ _ _ _ _ _ S) as P. destruct (so_delta _ _ _ _ _ _ _ _ _ _ _ _ _ _ S) as [L D]. split; [exact L|].
  assert (F : hard_holds (p_cons (ks_problem s2)) (vat (p_x pb'))).
  { exact (C20_feasible (ks_problem s2) qr qp pb' Hqr Hqp (so_solve _ _ _ _ _ _ _ _ _ _ _ _ _ _ S)). }
  apply (pr_hard _ _ _ _ _ _ _ P) in F. apply (allowed_ext' s r (vat (p_x pb'))); try exact F; try exact So.
  - intros j Hj. unfold extended. rewrite L. destruct (Nat.ltb_spec j N); [symmetry; now apply D|lia].
  - intros Sc. unfold extended. rewrite L, HN, Nat.ltb_irrefl. rewrite (so_scale _ _ _ _ _ _ _ _ _ _ _ _ _ _ S), (so_scaling _ _ _ _ _ _ _ _ _ _ _ _ _ _ S).
    apply (pr_scaling _ _ _ _ _ _ _ P) in Sc. now rewrite Sc.
  - rewrite HN. apply (pr_masked _ _ _ _ _ _ _ P).
  - rewrite HN. apply (pr_fbase _ _ _ _ _ _ _ P).
Qed.

Lemma ksolve_scale N s r apply qr qp s' r' delta : knows N s -> sound s r ->
  ksolve qr qp s r apply = (s', r', Ok delta) -> ~ scaling s r -> ks_scale s' = ks_scale s.
Proof.
  intros K So E Hs. pose proof (proj1 K) as HN.
  destruct (ksolve_solved pn log3 msqrt N s r apply qr qp s' r' delta K) as (s2 & pb' & S); [rewrite <- HN; apply So|exact E|].
  rewrite (so_scale _ _ _ _ _ _ _ _ _ _ _ _ _ _ S), (so_scaling _ _ _ _ _ _ _ _ _ _ _ _ _ _ S). destruct (ks_has_scaling s2) eqn:Eh; [|reflexivity].
  exfalso. apply Hs. now apply (pr_scaling _ _ _ _ _ _ _ (so_prepared _ _ _ _ _ _ _ _ _ _ _ _ _ _ S)).
Qed.

Lemma answerable_sound s r : answerable s r -> sound s r.
Proof.
  intros An. split; [exact (answerable_shaped pn log3 msqrt (ks_N s) s r eq_refl An)|].
  intros c cs c' Hc E Hc'. destruct (an_constraints _ _ _ _ _ An c Hc) as (cs' & E' & H). rewrite E in E'. injection E' as <-. now apply H.
Qed.

Lemma ksolve_optimum N s r apply qr qp s' r' delta : knows N s -> answerable s r -> qr_correct qr -> qp_correct qp ->
  0 <= p_reg (ks_problem s) -> p_sparse (ks_problem s) = false -> ksolve qr qp s r apply = (s', r', Ok delta) ->
  exists scaled, (scaled = true <-> scaling s r) /\
    let size x := p_reg (ks_problem s) / 2 * Rsum (if scaled then S N else N) (fun j => Rsqr (x j)) in
    forall y, allowed s r y ->
      penalties s r scaled (extended delta (ks_scale s')) + size (extended delta (ks_scale s')) <= penalties s r scaled y + size y.
Proof.
  intros K An Hqr Hqp Hreg Hsp E. pose proof (proj1 K) as HN.
  destruct (ksolve_solved pn log3 msqrt N s r apply qr qp s' r' delta K (answerable_shaped pn log3 msqrt N s r HN An) E) as (s2 & pb' & S).
  pose proof (so_prepared _ _ _ _ _ _ _ _ _ _ _ _ _ _ S) as P. destruct (so_delta _ _ _ _ _ _ _ _ _ _ _ _ _ _ S) as [L D].
  destruct (solved_optimum pn log3 msqrt N s r apply qr qp s' r' delta s2 pb' K An S Hqr Hqp Hreg Hsp) as [_ O]. cbv zeta in O.
  exists (ks_has_scaling s2). split; [apply (pr_scaling _ _ _ _ _ _ _ P)|]. cbv zeta. intros y Hy. specialize (O y Hy).
  set (n := if ks_has_scaling s2 then _ else N) in *. set (z := keep n (vat (p_x pb'))) in *. set (x := extended delta (ks_scale s')).
  assert (X : forall j, (j < n)%nat -> x j = z j).
  { intros j Hj. unfold x, z, extended, keep. rewrite L. destruct (Nat.ltb_spec j n); [|lia]. destruct (Nat.ltb_spec j N); [now apply D|].
    unfold n in Hj. destruct (ks_has_scaling s2) eqn:Eh; [|lia]. replace j with N by lia.
    rewrite (so_scale _ _ _ _ _ _ _ _ _ _ _ _ _ _ S), (so_scaling _ _ _ _ _ _ _ _ _ _ _ _ _ _ S), Eh. reflexivity. }
  rewrite (penalties_ext pn log3 msqrt s r (ks_has_scaling s2) x z An).
  - rewrite (Rsum_ext n (fun j => Rsqr (x j)) (fun j => Rsqr (z j))) by (intros j Hj; rewrite X by exact Hj; reflexivity). exact O.
  - intros j Hj. apply X. unfold n. destruct (ks_has_scaling s2); lia.
  - intros Eh. apply X. unfold n. rewrite Eh. lia.
Qed.

(** ** Redundant equalities *)

Lemma rows_of_independent pb l : same_rows (flat_map equality_rows (p_cons pb)) l -> independent_equalities pb -> independent_rows (p_n pb) l.
Proof.
  intros S I mu Hmu k Hk. apply I.
  - intros j Hj. rewrite combination_rows. rewrite (same_rows_length _ _ S). etransitivity; [|exact (Hmu j Hj)]. apply Rsum_ext. intros i Hi.
    f_equal. apply same_rows_nth, S.
  - rewrite Kin_proofs3.equality_count, (same_rows_length _ _ S). exact Hk.
Qed.

Lemma independent_more n m l : (n <= m)%nat -> independent_rows n l -> independent_rows m l.
Proof. intros H I mu Hmu. apply I. intros j Hj. apply Hmu. lia. Qed.

Lemma ksolve_independent N s r apply qr qp s' r' delta : knows N s -> answerable s r -> qr_correct qr -> p_rewrite (ks_problem s) = true ->
  ksolve qr qp s r apply = (s', r', Ok delta) -> independent_rows (S N) (hard_rows pn log3 msqrt s r).
Proof.
  intros K An Hqr Hrw E. pose proof (proj1 K) as HN.
  destruct (ksolve_solved pn log3 msqrt N s r apply qr qp s' r' delta K (answerable_shaped pn log3 msqrt N s r HN An) E) as (s2 & pb' & S).
  pose proof (so_prepared _ _ _ _ _ _ _ _ _ _ _ _ _ _ S) as P. destruct (answerable_built pn log3 msqrt N s r K An) as (s2' & EB & G).
  rewrite (so_built _ _ _ _ _ _ _ _ _ _ _ _ _ _ S) in EB. injection EB as <-.
  pose proof (pr_settings _ _ _ _ _ _ _ P) as (_ & _ & _ & _ & _ & _ & _ & _ & _ & _ & Ew).
  pose proof (solve_independent (ks_problem s2) qr qp pb' Hqr ltac:(congruence) (so_solve _ _ _ _ _ _ _ _ _ _ _ _ _ _ S)) as I.
  pose proof (rows_of_independent _ _ (proj2 G) I) as I'. apply (independent_more (p_n (ks_problem s2))); [|exact I'].
  pose proof (knows_n N s2 (pr_knows _ _ _ _ _ _ _ P) (pr_qd _ _ _ _ _ _ _ P)) as En. destruct (ks_scale_var s2); lia.
Qed.

(** The same row twice. *)
Lemma twice_dependent n l j k : (j < k)%nat -> (k < List.length l)%nat -> (forall i, nth j l (fun _ => 0) i = nth k l (fun _ => 0) i) -> ~ independent_rows n l.
Proof.
  intros Hjk Hk He I. specialize (I (fun i => if Nat.eqb i j then 1 else if Nat.eqb i k then -1 else 0)).
  assert (X : 1 = 0); [|lra]. rewrite <- (I) with (k := j); [now rewrite Nat.eqb_refl| |lia].
  intros i Hi.
  rewrite (Rsum_ext _ _ (fun m => (if Nat.eqb m j then nth j l (fun _ => 0) i else 0) - (if Nat.eqb m k then nth k l (fun _ => 0) i else 0))).
  - rewrite Rsum_minus, (Rsum_delta _ j), (Rsum_delta _ k); try lia.
    + rewrite !Nat.eqb_refl, He. ring.
    + intros m Hm Hne. now replace (Nat.eqb m k) with false by (symmetry; now apply Nat.eqb_neq).
    + intros m Hm Hne. now replace (Nat.eqb m j) with false by (symmetry; now apply Nat.eqb_neq).
  - intros m Hm. destruct (Nat.eqb_spec m j) as [->|]; [destruct (Nat.eqb_spec j k); [lia|ring]|]. destruct (Nat.eqb_spec m k) as [->|]; ring.
Qed.

Lemma app_twice_dependent n a b (x y : nat -> R) : In x a -> In y b -> (forall j, x j = y j) -> ~ independent_rows n (a ++ b).
Proof.
  intros Ha Hb Hxy. destruct (In_nth a x (fun _ => 0) Ha) as (i & Hi & Ei). destruct (In_nth b y (fun _ => 0) Hb) as (k & Hk & Ek).
  apply (twice_dependent n _ i (List.length a + k)); [lia|rewrite app_length; lia|].
  intros j. rewrite app_nth1, app_nth2 by lia. replace (List.length a + k - List.length a)%nat with k by lia. rewrite Ei, Ek. apply Hxy.
Qed.

Lemma independent_app_r n a b : independent_rows n (a ++ b) -> independent_rows n b.
Proof.
  intros I mu Hmu k Hk. specialize (I (fun i => if Nat.ltb i (List.length a) then 0 else mu (i - List.length a)%nat)).
  assert (X : (fun i => if Nat.ltb i (List.length a) then 0 else mu (i - List.length a)%nat) (List.length a + k)%nat = 0).
  { apply I; [|rewrite app_length; lia]. intros j Hj. rewrite app_length, Rsum_split. rewrite Rsum_zero_ext.
    - rewrite Rplus_0_l. etransitivity; [|exact (Hmu j Hj)]. apply Rsum_ext. intros i Hi. destruct (Nat.ltb_spec (List.length a + i) (List.length a)); [lia|].
      rewrite app_nth2 by lia. replace (List.length a + i - List.length a)%nat with i by lia. reflexivity.
    - intros i Hi. destruct (Nat.ltb_spec i (List.length a)); [ring|lia]. }
  cbv beta in X. destruct (Nat.ltb_spec (List.length a + k) (List.length a)); [lia|]. now replace (List.length a + k - List.length a)%nat with k in X by lia.
Qed.

End WithRobot.
