(** Properties C01-C03: sparsity patterns. *)
From Coq Require Import List ZArith Reals Lia Lra.
From Verif Require Import Base Sparsity_model Sparsity_spec Sparsity_proofs.
Import ListNotations.
Open Scope Z_scope.

(** C01, over every history of add_interval calls: the pattern is canonical and covers exactly what was added. *)
Theorem C01_add_interval_history :
  forall s P, built s P -> canonical s /\ forall i, covers s i <-> P i.
Proof. exact built_spec. Qed.
Print Assumptions C01_add_interval_history.

(** C01, one call on any canonical pattern. *)
Theorem C01_add_interval_union :
  forall s start end_, canonical s -> start <= end_ ->
  canonical (add_interval s start end_) /\
  forall i, covers (add_interval s start end_) i <-> covers s i \/ start <= i <= end_.
Proof. exact add_interval_spec. Qed.
Print Assumptions C01_add_interval_union.

(** Non-vacuity: an interval bridging two old ones, touching the first from the inside. *)
Example C01_witness :
  canonical [Interval 0 3; Interval 5 6; Interval 10 12] /\ 2 <= 10 /\
  add_interval [Interval 0 3; Interval 5 6; Interval 10 12] 2 10 = [Interval 0 12].
Proof. repeat split; try (cbn; lia). Qed.

(** C02: + is the union of the columns, hence commutative, associative and idempotent. *)
Theorem C02_sum_is_union :
  forall s1 s2, canonical s1 -> canonical s2 ->
  canonical (sparsity_plus s1 s2) /\
  forall i, covers (sparsity_plus s1 s2) i <-> covers s1 i \/ covers s2 i.
Proof. exact plus_spec. Qed.
Print Assumptions C02_sum_is_union.

Theorem C02_sum_algebra :
  forall s1 s2 s3, canonical s1 -> canonical s2 -> canonical s3 ->
  forall i,
  (covers (sparsity_plus s1 s2) i <-> covers (sparsity_plus s2 s1) i) /\
  (covers (sparsity_plus s1 (sparsity_plus s2 s3)) i <-> covers (sparsity_plus (sparsity_plus s1 s2) s3) i) /\
  (covers (sparsity_plus s1 s1) i <-> covers s1 i).
Proof.
  intros s1 s2 s3 H1 H2 H3 i.
  destruct (plus_spec s1 s2 H1 H2) as [A B]. destruct (plus_spec s2 s1 H2 H1) as [_ B'].
  destruct (plus_spec s2 s3 H2 H3) as [C D]. destruct (plus_spec s1 _ H1 C) as [_ E].
  destruct (plus_spec _ s3 A H3) as [_ F]. destruct (plus_spec s1 s1 H1 H1) as [_ G].
  rewrite B, B', E, D, F, B, G. tauto.
Qed.
Print Assumptions C02_sum_algebra.

Example C02_witness :
  canonical [Interval 0 3; Interval 8 9] /\ canonical [Interval 2 5] /\
  sparsity_plus [Interval 0 3; Interval 8 9] [Interval 2 5] = [Interval 0 5; Interval 8 9].
Proof. repeat split; try (cbn; lia). Qed.

(** C03: the detected pattern covers exactly the columns with an entry above 1e-12. *)
Theorem C03_detect_columns :
  forall M, let r := detect_columns_sparsity M in
  canonical r /\ separated r /\
  forall i, covers r i <-> exists j, i = Z.of_nat j /\ (j < mcols M)%nat /\ nonzero_column M j.
Proof. exact detect_spec. Qed.
Print Assumptions C03_detect_columns.

(** Non-vacuity: a 1 x 4 matrix (1 1 0 1) gives [0,1] and [3,3]. *)
Example C03_witness :
  let M := Mat 1 4 (fun _ j => if Nat.eqb j 2 then 0%R else 1%R) in
  nonzero_column M 0 /\ ~ nonzero_column M 2 /\ covers (detect_columns_sparsity M) 3 /\
  ~ covers (detect_columns_sparsity M) 2.
Proof.
  cbv zeta. set (M := Mat 1 4 _).
  assert (Hnz : forall j, j <> 2%nat -> nonzero_column M j).
  { intros j Hj. exists 0%nat. split; [cbn; lia|]. cbn. apply Nat.eqb_neq in Hj. rewrite Hj, Rabs_R1. lra. }
  assert (Hz : ~ nonzero_column M 2).
  { intros (i & _ & H). cbn in H. rewrite Rabs_R0 in H. lra. }
  destruct (detect_spec M) as (_ & _ & H).
  repeat split; [apply Hnz; lia|exact Hz| |].
  - apply H. exists 3%nat. repeat split; [cbn; lia|apply Hnz; lia].
  - intros Hc. apply H in Hc. destruct Hc as (j & E & _ & Hj). replace j with 2%nat in Hj by lia. contradiction.
Qed.
