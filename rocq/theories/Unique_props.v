(** Properties C114: the answer of solve() is a function of the question; the contracts of the external algorithms can be met. *)
From Coq Require Import Reals List ZArith Bool Lra Lia Permutation.
From Verif Require Import Base Linalg Expression_model Problem_model Problem_spec Problem_proofs Problem_proofs2 Problem_proofs3 Problem_props
  Unique_spec Unique_proofs Backends_proofs.
Import ListNotations.
Open Scope R_scope.

Lemma asks_soft_cost cs x : forall cs', map asks cs = map asks cs' -> soft_cost cs x = soft_cost cs' x.
Proof.
  induction cs as [|c r IH]; intros [|c' r']; try discriminate; cbn [map soft_cost]; [reflexivity|]. intros E. injection E as E1 E2 E3 E4 E.
  rewrite (IH _ E). f_equal. unfold soft_penalty, row. rewrite E1, E2, E3, E4. reflexivity.
Qed.

Lemma asks_hard cs cs' x : incl (map asks cs') (map asks cs) -> hard_holds cs x -> hard_holds cs' x.
Proof.
  intros P H c Hc. apply (in_map asks) in Hc. apply P in Hc. apply in_map_iff in Hc. destruct Hc as (c' & E & Hc').
  specialize (H c' Hc'). injection E as E1 E2 E3 E4. unfold holds, row in *. rewrite <- E1, <- E2, <- E3. exact H.
Qed.

Lemma asks_perm cs cs' : Permutation (map asks cs) (map asks cs') -> forall x, soft_cost cs x = soft_cost cs' x.
Proof.
  intros P x. apply Permutation_map_inv in P. destruct P as (l & E & P). rewrite (soft_cost_perm _ _ x P). now apply asks_soft_cost.
Qed.

(** Two problems that ask the same thing, solved with any correct external algorithms, with or without elimination of
    the equalities, give the same values. *)
Theorem C114_answer_is_unique pb1 pb2 qr1 qr2 qp1 qp2 r1 r2 :
  same_question pb1 pb2 -> 0 < p_reg pb1 -> p_sparse pb1 = false -> p_sparse pb2 = false ->
  (forall c, In c (p_cons pb1) -> c_prio c = Soft -> 0 <= c_weight c) ->
  qr_correct qr1 -> qr_correct qr2 -> qp_correct qp1 -> qp_correct qp2 ->
  solve pb1 qr1 qp1 = (r1, Ok tt) -> solve pb2 qr2 qp2 = (r2, Ok tt) ->
  forall j, (j < p_n pb1)%nat -> vat (p_x r1) j = vat (p_x r2) j.
Proof.
  intros (En & Er & P) Hreg S1 S2 Hw Q1 Q2 B1 B2 E1 E2.
  assert (Hw2 : forall c, In c (p_cons pb2) -> c_prio c = Soft -> 0 <= c_weight c).
  { intros c Hc Hp. apply (in_map asks) in Hc. apply (Permutation_in _ (Permutation_sym P)) in Hc. apply in_map_iff in Hc.
    destruct Hc as (c' & E & Hc). injection E as _ _ E3 E4. rewrite <- E4. apply Hw; [exact Hc|congruence]. }
  destruct (C20_optimum _ _ _ _ Q1 B1 S1 (fun c Hc Hp _ => Hw c Hc Hp) E1) as [F1 O1].
  destruct (C20_optimum _ _ _ _ Q2 B2 S2 (fun c Hc Hp _ => Hw2 c Hc Hp) E2) as [F2 O2].
  assert (I12 : incl (map asks (p_cons pb2)) (map asks (p_cons pb1))) by (intros a Ha; now apply (Permutation_in _ (Permutation_sym P))).
  assert (I21 : incl (map asks (p_cons pb1)) (map asks (p_cons pb2))) by (intros a Ha; now apply (Permutation_in _ P)).
  apply (unique_optimum (p_n pb1) (p_reg pb1) (p_cons pb1)); auto.
  - now apply (asks_hard (p_cons pb2)).
  - intros z Hz. specialize (O2 z (asks_hard _ _ _ I12 Hz)). unfold cost in O2.
    rewrite <- En, <- Er, <- !(asks_perm _ _ P) in O2. exact O2.
Qed.

(** The contracts assumed of the two external algorithms throughout can be met, by algorithms that never fail. *)
Theorem C83_external_contracts_can_be_met : exists qr qp, qr_correct qr /\ qp_correct qp /\ ~ qr_fails qr /\ ~ qp_fails qp.
Proof.
  exists perfect_qr, perfect_qp. split; [exact perfect_qr_correct|]. split; [exact perfect_qp_correct|].
  split; [exact perfect_qr_never_fails|exact perfect_qp_never_fails].
Qed.

(** The hypotheses of the uniqueness theorem are met by a problem and the same one with its constraints swapped and
    the elimination switched off. *)
Definition ex_swapped : problem :=
  Problem 2 (p_vars ex_pb) (rev (p_cons ex_pb)) 1 false false (Vec 0 (fun _ => 0)) (Vec 0 (fun _ => 0)).

Example C114_example : same_question ex_pb ex_swapped /\
  exists r1 r2, solve ex_pb perfect_qr perfect_qp = (r1, Ok tt) /\ solve ex_swapped perfect_qr perfect_qp = (r2, Ok tt).
Proof.
  destruct C81_example as [W I].
  assert (Hx : hard_holds (p_cons ex_pb) (fun _ => 3)).
  { intros c [<-|[<-|[]]] Hp i Hi; [|discriminate]. unfold row. cbn. ring. }
  assert (Hs : forall c, In c (p_cons ex_pb) -> c_prio c = Soft -> 0 < c_weight c /\ c_type c <> Inequality).
  { intros c [<-|[<-|[]]]; cbn; intros; [discriminate|split; [lra|discriminate]]. }
  assert (Hin : forall c, In c (p_cons ex_swapped) -> In c (p_cons ex_pb)) by (intros c; apply in_rev).
  split; [split; [reflexivity|split; [reflexivity|apply perm_swap]]|].
  destruct (solve_complete ex_pb perfect_qr perfect_qp perfect_qr_correct perfect_qp_correct) as [(r1 & E1)|[F|F]];
    [now cbn; auto|exact W|now left|exact I|cbn; lra|intros c Hc Hp; destruct (Hs c Hc Hp); lra|intros c Hc Hp; destruct (Hs c Hc Hp); lra|
     exists (fun _ => 3); exact Hx| |now apply perfect_qr_never_fails in F|now apply perfect_qp_never_fails in F].
  exists r1.
  destruct (solve_complete ex_swapped perfect_qr perfect_qp perfect_qr_correct perfect_qp_correct) as [(r2 & E2)|[F|F]];
    [now cbn; auto|intros c Hc; apply (W c (Hin c Hc))|right; intros c Hc Hp; exact (proj2 (Hs c (Hin c Hc) Hp))|exact I|cbn; lra|
     intros c Hc Hp; destruct (Hs c (Hin c Hc) Hp); lra|intros c Hc Hp; destruct (Hs c (Hin c Hc) Hp); lra|
     exists (fun _ => 3); intros c Hc; apply Hx; auto| |now apply perfect_qr_never_fails in F|now apply perfect_qp_never_fails in F].
  exists r2. now split.
Qed.

Print Assumptions C114_answer_is_unique.
Print Assumptions C83_external_contracts_can_be_met.
