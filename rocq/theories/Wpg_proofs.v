(** Lemmas about the parts of a trajectory. *)
From Coq Require Import Reals Lra Lia List ZArith Bool.
From Verif Require Import Base Geom3 Tools_model Problem_model Integrator_model Lipm_model Lipm_spec Spline_model Swing_model Geometry_model
  Footsteps_model Wpg_model Wpg_spec.
Import ListNotations.
Open Scope R_scope.

Lemma nth_error_in_range {A} (l : list A) i : (i < length l)%nat -> exists a, nth_error l i = Some a.
Proof. intros H. destruct (nth_error l i) eqn:E; [eauto|]. apply nth_error_None in E. lia. Qed.

Lemma at_index_ok {A} (l : list A) i a : nth_error l i = Some a -> at_index l i = Ok a.
Proof. unfold at_index. now intros ->. Qed.
Lemma at_index_inv {A} (l : list A) i a : at_index l i = Ok a -> nth_error l i = Some a.
Proof. unfold at_index. destruct (nth_error l i); congruence. Qed.

Lemma mid_range low high : (low < high)%nat -> (low <= (low + high) / 2 < high)%nat.
Proof. intros H. split; [apply Nat.div_le_lower_bound; lia|apply Nat.div_lt_upper_bound; lia]. Qed.

Lemma search_ok parts t : forall fuel low high, (low <= high < length parts)%nat -> (high - low <= fuel)%nat ->
  exists i, search fuel parts t low high = Ok i /\ (low <= i <= high)%nat.
Proof.
  induction fuel as [|fuel IH]; intros low high H Hf; cbn [search].
  - replace (Nat.eqb low high) with true by (symmetry; apply Nat.eqb_eq; lia). exists low. split; [reflexivity|lia].
  - destruct (Nat.eqb_spec low high) as [E|E]; [exists low; split; [reflexivity|lia]|].
    pose proof (mid_range low high ltac:(lia)) as M. set (mid := ((low + high) / 2)%nat) in *.
    destruct (nth_error_in_range parts mid ltac:(lia)) as (p & Hp). rewrite Hp.
    destruct (Rlt_dec t (pt_start p)).
    + destruct (IH low mid ltac:(lia) ltac:(lia)) as (i & Ei & Hi). exists i. split; [exact Ei|lia].
    + destruct (Rlt_dec (pt_end p) t).
      * destruct (IH (mid + 1)%nat high ltac:(lia) ltac:(lia)) as (i & Ei & Hi). exists i. split; [exact Ei|lia].
      * exists mid. split; [reflexivity|lia].
Qed.

Lemma find_index_ok parts t : parts <> [] -> exists i, find_index parts t = Ok i /\ (i < length parts)%nat.
Proof.
  intros H. destruct parts as [|p r]; [congruence|]. unfold find_index.
  destruct (search_ok (p :: r) t (length (p :: r)) 0 (length (p :: r) - 1)) as (i & E & Hi); [cbn; lia|cbn; lia|].
  exists i. split; [exact E|cbn in *; lia].
Qed.

(** ** Contiguous parts *)

Lemma contiguous_first a l b p : contiguous a l b -> nth_error l 0 = Some p -> pt_start p = a.
Proof. destruct l as [|q r]; [discriminate|]. cbn. intros [E _] H. congruence. Qed.

Lemma contiguous_next a l b : contiguous a l b -> forall i p q, nth_error l i = Some p -> nth_error l (S i) = Some q -> pt_start q = pt_end p.
Proof.
  revert a. induction l as [|x r IH]; intros a H i p q Hp Hq; [destruct i; discriminate|].
  destruct H as [_ H]. destruct i as [|i]; cbn [nth_error] in *.
  - injection Hp as ->. now apply (contiguous_first _ _ _ _ H).
  - now apply (IH _ H i p q).
Qed.

Lemma contiguous_last a l b : contiguous a l b -> forall p, nth_error l (length l - 1) = Some p -> pt_end p = b.
Proof.
  revert a. induction l as [|x r IH]; intros a H p Hp; [discriminate|].
  destruct H as [_ H]. destruct r as [|y r]; [cbn in *; congruence|].
  cbn [length nth_error Nat.sub] in Hp. apply (IH _ H). cbn [length]. now replace (S (length r) - 1)%nat with (length r) by lia.
Qed.

Lemma contiguous_later a l b : contiguous a l b -> Forall (fun p => pt_start p <= pt_end p) l ->
  forall k i p q, nth_error l i = Some p -> nth_error l (i + S k) = Some q -> pt_end p <= pt_start q.
Proof.
  intros H F. induction k as [|k IH]; intros i p q Hp Hq.
  - rewrite <- (contiguous_next _ _ _ H i p q Hp); [lra|]. now replace (S i) with (i + 1)%nat by lia.
  - destruct (nth_error_in_range l (i + S k)) as (m & Hm). { apply Nat.lt_trans with (i + S (S k))%nat; [lia|]. apply nth_error_Some. congruence. }
    pose proof (IH i p m Hp Hm) as A. pose proof (proj1 (Forall_forall _ _) F m (nth_error_In _ _ Hm)) as B. cbn in B.
    rewrite (contiguous_next _ _ _ H (i + S k) m q Hm); [lra|]. now replace (S (i + S k)) with (i + S (S k))%nat by lia.
Qed.

Lemma start_before a l b : contiguous a l b -> Forall (fun p => pt_start p <= pt_end p) l ->
  forall i p, nth_error l i = Some p -> a <= pt_start p.
Proof.
  intros H F i p Hp. destruct (nth_error_in_range l 0) as (q & Hq). { apply Nat.le_lt_trans with i; [lia|]. apply nth_error_Some. congruence. }
  pose proof (contiguous_first _ _ _ _ H Hq) as A. destruct i as [|i]; [rewrite Hq in Hp; injection Hp as ->; lra|].
  pose proof (contiguous_later _ _ _ H F i 0 q p Hq Hp). pose proof (proj1 (Forall_forall _ _) F q (nth_error_In _ _ Hq)) as B. cbn in B. lra.
Qed.

Lemma end_after a l b : contiguous a l b -> Forall (fun p => pt_start p <= pt_end p) l ->
  forall i p, nth_error l i = Some p -> pt_end p <= b.
Proof.
  intros H F i p Hp. assert (L : (i < length l)%nat) by (apply nth_error_Some; congruence).
  destruct (nth_error_in_range l (length l - 1) ltac:(lia)) as (q & Hq). pose proof (contiguous_last _ _ _ H _ Hq) as A.
  destruct (Nat.eq_dec i (length l - 1)) as [E|E]; [rewrite E, Hq in Hp; injection Hp as ->; lra|].
  replace (length l - 1)%nat with (i + S (length l - 2 - i))%nat in Hq by lia.
  pose proof (contiguous_later _ _ _ H F _ i p q Hp Hq). pose proof (proj1 (Forall_forall _ _) F q (nth_error_In _ _ Hq)) as B. cbn in B. lra.
Qed.

Lemma search_right parts a b t : contiguous a parts b -> Forall (fun p => pt_start p <= pt_end p) parts ->
  forall fuel low high, (low <= high < length parts)%nat -> (high - low <= fuel)%nat ->
  (forall p, nth_error parts (low - 1) = Some p -> low = 0%nat \/ pt_end p < t) ->
  (forall p, nth_error parts high = Some p -> S high = length parts \/ t < pt_start p) ->
  exists i p, search fuel parts t low high = Ok i /\ right_part parts t i p.
Proof.
  intros H F.
  assert (Base : forall i, (i < length parts)%nat -> (forall p, nth_error parts (i - 1) = Some p -> i = 0%nat \/ pt_end p < t) ->
    (forall p, nth_error parts i = Some p -> S i = length parts \/ t < pt_start p) -> exists p, right_part parts t i p).
  { intros i Hi Lo Hh. destruct (nth_error_in_range parts i Hi) as (p & Hp). exists p. split; [exact Hp|].
    pose proof (proj1 (Forall_forall _ _) F p (nth_error_In _ _ Hp)) as B. cbn in B.
    assert (A : i = 0%nat \/ pt_start p < t).
    { destruct i as [|i]; [now left|]. right. destruct (nth_error_in_range parts i ltac:(lia)) as (q & Hq).
      destruct (Lo q) as [?|Lq]; [now replace (S i - 1)%nat with i by lia|lia|].
      rewrite (contiguous_next _ _ _ H i q p Hq Hp). exact Lq. }
    split; [destruct A; [now left|right; lra]|]. destruct (Hh p Hp) as [?|C]; [now left|]. right. lra. }
  induction fuel as [|fuel IH]; intros low high HL Hf Lo Hh; cbn [search].
  - assert (low = high) by lia. subst high. rewrite Nat.eqb_refl. destruct (Base low ltac:(lia) Lo Hh) as (p & Hp). eauto.
  - destruct (Nat.eqb_spec low high) as [E|E]; [subst high; destruct (Base low ltac:(lia) Lo Hh) as (p & Hp); eauto|].
    pose proof (mid_range low high ltac:(lia)) as M. set (mid := ((low + high) / 2)%nat) in *.
    destruct (nth_error_in_range parts mid ltac:(lia)) as (p & Hp). rewrite Hp.
    destruct (Rlt_dec t (pt_start p)) as [C|C].
    + apply IH; [lia|lia|exact Lo|]. intros q Hq. right. rewrite Hp in Hq. injection Hq as <-. exact C.
    + destruct (Rlt_dec (pt_end p) t) as [D|D].
      * apply IH; [lia|lia| |exact Hh]. intros q Hq. right. replace (mid + 1 - 1)%nat with mid in Hq by lia. rewrite Hp in Hq. injection Hq as <-. exact D.
      * exists mid, p. split; [reflexivity|]. split; [exact Hp|]. split; right; lra.
Qed.

Lemma find_right parts a b t : timeline a parts b -> exists i p, find_index parts t = Ok i /\ right_part parts t i p.
Proof.
  intros (N & H & F). destruct parts as [|p r]; [congruence|]. unfold find_index.
  apply (search_right (p :: r) a b t H F); [cbn; lia|cbn; lia|now left|].
  intros q _. left. cbn. lia.
Qed.

Lemma right_part_times parts a b t i p : timeline a parts b -> right_part parts t i p ->
  (a <= t <= b -> pt_start p <= t <= pt_end p) /\
  (t < a -> i = 0%nat /\ pt_start p = a) /\ (b < t -> S i = length parts /\ pt_end p = b).
Proof.
  intros (N & H & F) (Hp & A & B).
  assert (L : (i < length parts)%nat) by (apply nth_error_Some; congruence).
  assert (S0 : i = 0%nat -> pt_start p = a) by (intros ->; now apply (contiguous_first _ _ _ _ H)).
  assert (E0 : S i = length parts -> pt_end p = b).
  { intros E. apply (contiguous_last _ _ _ H). now replace (length parts - 1)%nat with i by lia. }
  split; [|split].
  - intros T. split; [destruct A as [A|A]; [rewrite (S0 A); lra|exact A]|destruct B as [B|B]; [rewrite (E0 B); lra|exact B]].
  - intros T. pose proof (start_before _ _ _ H F i p Hp). destruct A as [A|A]; [auto|lra].
  - intros T. pose proof (end_after _ _ _ H F i p Hp). destruct B as [B|B]; [auto|lra].
Qed.

Lemma find_part_right j a b t : timeline a (j_parts j) b -> exists i p, find_part j t = Ok p /\ find_index (j_parts j) t = Ok i /\ right_part (j_parts j) t i p.
Proof.
  intros H. destruct (find_right _ _ _ t H) as (i & p & E & R). exists i, p. unfold find_part. rewrite E. cbn [obind].
  split; [apply at_index_ok, R|]. split; [reflexivity|exact R].
Qed.

(** ** get_prev_support *)

Lemma search_unique parts t m : 
  (forall k p, (k < m)%nat -> nth_error parts k = Some p -> pt_start p <= pt_end p /\ pt_end p < t) ->
  (forall k p, (m < k)%nat -> nth_error parts k = Some p -> t < pt_start p) ->
  (forall p, nth_error parts m = Some p -> t <= pt_end p) ->
  forall fuel low high, (low <= m <= high)%nat -> (high < length parts)%nat -> (high - low <= fuel)%nat -> search fuel parts t low high = Ok m.
Proof.
  intros Lo Hi Hm. induction fuel as [|fuel IH]; intros low high HL Hh Hf; cbn [search].
  - assert (low = high) by lia. replace low with m by lia. replace high with m by lia. now rewrite Nat.eqb_refl.
  - destruct (Nat.eqb_spec low high) as [E|E]; [f_equal; lia|].
    pose proof (mid_range low high ltac:(lia)) as M. set (mid := ((low + high) / 2)%nat) in *.
    destruct (nth_error_in_range parts mid ltac:(lia)) as (p & Hp). rewrite Hp.
    destruct (lt_eq_lt_dec mid m) as [[C|C]|C].
    + destruct (Lo mid p C Hp). destruct (Rlt_dec t (pt_start p)); [lra|]. destruct (Rlt_dec (pt_end p) t); [|lra]. apply IH; lia.
    + destruct (Rlt_dec t (pt_start p)); [apply IH; lia|]. rewrite C in Hp. pose proof (Hm p Hp).
      destruct (Rlt_dec (pt_end p) t); [lra|]. now rewrite C.
    + pose proof (Hi mid p C Hp). destruct (Rlt_dec t (pt_start p)); [|lra]. apply IH; lia.
Qed.

Lemma find_unique parts t m : (m < length parts)%nat ->
  (forall k p, (k < m)%nat -> nth_error parts k = Some p -> pt_start p <= pt_end p /\ pt_end p < t) ->
  (forall k p, (m < k)%nat -> nth_error parts k = Some p -> t < pt_start p) ->
  (forall p, nth_error parts m = Some p -> t <= pt_end p) -> find_index parts t = Ok m.
Proof.
  intros L Lo Hi Hm. destruct parts as [|q r]; [cbn in L; lia|]. unfold find_index.
  apply (search_unique _ _ m Lo Hi Hm); [cbn [length] in *; lia|cbn; lia|cbn; lia].
Qed.

Lemma replace_length {A} (l : list A) i a : length (replace l i a) = length l.
Proof. revert i. induction l as [|b l IH]; intros [|i]; cbn; auto. Qed.
Lemma replace_same {A} (l : list A) i a : (i < length l)%nat -> nth_error (replace l i a) i = Some a.
Proof. revert i. induction l as [|b l IH]; intros [|i] H; cbn in *; try lia; [reflexivity|]. apply IH. lia. Qed.
Lemma replace_other {A} (l : list A) i k a : k <> i -> nth_error (replace l i a) k = nth_error l k.
Proof. revert i k. induction l as [|b l IH]; intros [|i] [|k] H; cbn; auto; congruence. Qed.
Lemma replace_twice {A} (l : list A) i a b : replace (replace l i a) i b = replace l i b.
Proof. revert i. induction l as [|c l IH]; intros [|i]; cbn; auto. now rewrite IH. Qed.
Lemma replace_id {A} (l : list A) i a : nth_error l i = Some a -> replace l i a = l.
Proof. revert i. induction l as [|c l IH]; intros [|i] H; cbn in *; try discriminate; [congruence|]. now rewrite IH. Qed.

Lemma prev_loop_spec parts a b : contiguous a parts b -> Forall (fun p => pt_start p + / 10000 < pt_end p) parts ->
  forall n i m q, (m <= i < length parts)%nat -> nth_error parts m = Some q ->
  exists q', nth_error parts (m - n) = Some q' /\ prev_loop n (replace parts i q) i = Ok (replace parts i q').
Proof.
  intros H F0. assert (F : Forall (fun p => pt_start p <= pt_end p) parts) by (eapply Forall_impl; [|exact F0]; cbn; intros; lra).
  induction n as [|n IH]; intros i m q HL Hq; cbn [prev_loop].
  - rewrite Nat.sub_0_r. eauto.
  - rewrite (at_index_ok _ i q) by (apply replace_same; lia). cbn [obind].
    destruct (nth_error_in_range parts (m - 1) ltac:(lia)) as (q1 & Hq1).
    assert (E : find_index (replace parts i q) (pt_start q - / 10000) = Ok (m - 1)%nat).
    { apply find_unique; [rewrite replace_length; lia| | |].
      - intros k p Hk Hp. rewrite replace_other in Hp by lia. pose proof (proj1 (Forall_forall _ _) F p (nth_error_In _ _ Hp)) as B. cbn in B.
        split; [exact B|]. destruct m as [|m]; [lia|]. replace (S m - 1)%nat with m in * by lia.
        pose proof (proj1 (Forall_forall _ _) F0 q1 (nth_error_In _ _ Hq1)) as C. cbn in C.
        replace m with (k + S (m - k - 1))%nat in Hq1 by lia. pose proof (contiguous_later _ _ _ H F _ k p q1 Hp Hq1) as D.
        replace (k + S (m - k - 1))%nat with m in Hq1 by lia. pose proof (contiguous_next _ _ _ H m q1 q Hq1 Hq). lra.
      - intros k p Hk Hp. assert (Q : forall k p, (m <= k)%nat -> nth_error parts k = Some p -> pt_start q <= pt_start p).
        { intros k' p' Hk' Hp'. destruct (Nat.eq_dec k' m) as [->|Ne]; [rewrite Hq in Hp'; injection Hp' as ->; lra|].
          replace k' with (m + S (k' - m - 1))%nat in Hp' by lia. pose proof (contiguous_later _ _ _ H F _ m q p' Hq Hp').
          pose proof (proj1 (Forall_forall _ _) F q (nth_error_In _ _ Hq)) as B. cbn in B. lra. }
        destruct (Nat.eq_dec k i) as [->|Ne].
        + rewrite replace_same in Hp by lia. injection Hp as <-. lra.
        + rewrite replace_other in Hp by exact Ne. destruct (le_lt_dec m k) as [Hm|Hm]; [pose proof (Q k p Hm Hp); lra|lia].
      - intros p Hp. destruct (Nat.eq_dec (m - 1) i) as [Ei|Ne].
        + rewrite Ei, replace_same in Hp by lia. injection Hp as <-. pose proof (proj1 (Forall_forall _ _) F q (nth_error_In _ _ Hq)) as B. cbn in B. lra.
        + rewrite replace_other in Hp by exact Ne. rewrite Hq1 in Hp. injection Hp as <-. destruct m as [|m].
          * change (0 - 1)%nat with 0%nat in Hq1. rewrite Hq in Hq1. injection Hq1 as <-. pose proof (proj1 (Forall_forall _ _) F q (nth_error_In _ _ Hq)) as B. cbn in B. lra.
          * replace (S m - 1)%nat with m in * by lia. pose proof (contiguous_next _ _ _ H m q1 q Hq1 Hq). lra. }
    rewrite E. cbn [obind]. assert (A : at_index (replace parts i q) (m - 1) = Ok q1).
    { apply at_index_ok. destruct (Nat.eq_dec (m - 1) i) as [Ei|Ne].
      - rewrite Ei, replace_same by lia. assert (m = 0%nat /\ i = 0%nat) as [-> ->] by lia. change (0 - 1)%nat with 0%nat in Hq1. congruence.
      - now rewrite replace_other. }
    rewrite A. cbn [obind]. rewrite replace_twice.
    destruct (IH i (m - 1)%nat q1 ltac:(lia) Hq1) as (q' & Hq' & E'). exists q'. split; [|exact E'].
    now replace (m - S n)%nat with (m - 1 - n)%nat by lia.
Qed.

Lemma prev_support_spec j a b t n : contiguous a (j_parts j) b -> Forall (fun p => pt_start p + / 10000 < pt_end p) (j_parts j) -> j_parts j <> [] ->
  exists i p q, right_part (j_parts j) t i p /\ nth_error (j_parts j) (i - Z.to_nat n) = Some q /\
  get_prev_support j t n = (set_parts j (replace (j_parts j) i q), Ok (transform_support (j_T j) (pt_support q))).
Proof.
  intros H F0 N. assert (F : Forall (fun p => pt_start p <= pt_end p) (j_parts j)) by (eapply Forall_impl; [|exact F0]; cbn; intros; lra).
  destruct (find_right (j_parts j) a b t (conj N (conj H F))) as (i & p & E & R).
  assert (L : (i < length (j_parts j))%nat) by (apply nth_error_Some; destruct R as (-> & _); discriminate).
  destruct (prev_loop_spec _ a b H F0 (Z.to_nat n) i i p ltac:(lia) (proj1 R)) as (q & Hq & Eq).
  rewrite (replace_id _ _ _ (proj1 R)) in Eq. exists i, p, q. split; [exact R|]. split; [exact Hq|].
  unfold get_prev_support. rewrite E. cbn [obind]. rewrite Eq. cbn [obind]. rewrite (at_index_ok _ i q) by (now apply replace_same). reflexivity.
Qed.
