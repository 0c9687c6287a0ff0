(** Proofs about the kinematics solver: the masks by joint, joints and gear tasks. *)
From Coq Require Import Reals List ZArith Bool Lia Lra String Sorted.
From Verif Require Import Base Linalg Geom3 Tools_model Geometry_model Expression_model Problem_model Problem_spec
  Problem_proofs Problem_proofs2 Problem_proofs3 Polynom_model Robot_model Robot_spec Robot_proofs KinTasks_model Kin_model Kin_spec Kin_proofs Kin_proofs2
  Kin_proofs3 Kin_proofs6.
Import ListNotations.
Open Scope R_scope.

(** ** Joints *)

Lemma name_unique m j k : well_formed m -> In j (m_joints m) -> In k (m_joints m) -> jt_name j = jt_name k -> j = k.
Proof.
  intros (ND & _) Hj Hk E. induction (m_joints m) as [|a l IH]; [contradiction|]. cbn in ND. inversion ND as [|? ? Hn ND']; subst.
  destruct Hj as [<-|Hj], Hk as [<-|Hk]; try reflexivity.
  - exfalso. apply Hn. rewrite E. now apply in_map.
  - exfalso. apply Hn. rewrite <- E. now apply in_map.
  - now apply IH.
Qed.

Lemma v_offset_ok r name k : well_formed (r_model r) -> get_joint_v_offset r name = Ok k ->
  exists j, In j (m_joints (r_model r)) /\ jt_name j = name /\ jt_idx_v j = k /\ joint_of (r_model r) name = Ok j.
Proof.
  unfold get_joint_v_offset. intros W H. bindall H. injection H as <-. exists x. pose proof E as E'. unfold joint_of, find_joint in E.
  destruct (String.eqb name "universe"); [discriminate|]. destruct (find _ _) as [j|] eqn:F; [|discriminate]. injection E as ->.
  apply find_some in F. destruct F as [F1 F2]. apply String.eqb_eq in F2. auto.
Qed.

(** ** Masks *)

Lemma set_insert_in k l j : In j (set_insert k l) <-> j = k \/ In j l.
Proof.
  induction l as [|a l IH]; cbn [set_insert]; [cbn; intuition auto|]. destruct (Nat.eqb_spec k a) as [->|]; [cbn; intuition auto|].
  destruct (Nat.ltb k a); cbn [In]; [intuition auto|rewrite IH; intuition auto].
Qed.
Lemma set_erase_in k l j : In j (set_erase k l) <-> In j l /\ j <> k.
Proof. unfold set_erase. rewrite filter_In, negb_true_iff, Nat.eqb_neq. intuition auto. Qed.

Lemma insert_all_in k n l j : In j (fold_left (fun l i => set_insert (k + i) l) (seq 0 n) l) <-> In j l \/ (k <= j < k + n)%nat.
Proof.
  assert (G : forall is l, In j (fold_left (fun l i => set_insert (k + i) l) is l) <-> In j l \/ exists i, In i is /\ j = (k + i)%nat).
  { induction is as [|i is IH]; intros l'; cbn; [split; [auto|intros [H|(i & [] & _)]; exact H]|]. rewrite IH, set_insert_in. split.
    - intros [[H|H]|(i' & H & H')]; [right; exists i; auto|auto|right; exists i'; auto].
    - intros [H|(i' & [->|H] & H')]; [auto|auto|right; exists i'; auto]. }
  rewrite G. split; intros [H|H]; auto.
  - destruct H as (i & Hi & ->). apply in_seq in Hi. right. lia.
  - right. exists (j - k)%nat. split; [apply in_seq; lia|lia].
Qed.
Lemma erase_all_in k n l j : In j (fold_left (fun l i => set_erase (k + i) l) (seq 0 n) l) <-> In j l /\ ~ (k <= j < k + n)%nat.
Proof.
  assert (G : forall is l, In j (fold_left (fun l i => set_erase (k + i) l) is l) <-> In j l /\ forall i, In i is -> j <> (k + i)%nat).
  { induction is as [|i is IH]; intros l'; cbn; [split; [intros H; split; [exact H|intros i []]|tauto]|]. rewrite IH, set_erase_in. split.
    - intros ((H & H') & H''). split; [exact H|]. intros i' [<-|Hi]; [exact H'|now apply H''].
    - intros (H & H'). repeat split; [exact H|apply H'; auto|intros i' Hi; apply H'; auto]. }
  rewrite G. split; intros [H H']; (split; [exact H|]).
  - intros Hj. apply (H' (j - k)%nat); [apply in_seq; lia|lia].
  - intros i Hi E. apply in_seq in Hi. apply H'. lia.
Qed.

Lemma dof_of_joint r name j k : well_formed (r_model r) -> In j (m_joints (r_model r)) -> jt_name j = name ->
  (dof_of r name k <-> (jt_idx_v j <= k < jt_idx_v j + jt_nv j)%nat).
Proof.
  intros W Hj Hn. split.
  - intros (j' & Hj' & Hn' & Hk). now rewrite (name_unique _ j j' W Hj Hj' ltac:(congruence)).
  - intros Hk. exists j. auto.
Qed.

Lemma mask_dof_ok r s name : well_formed (r_model r) -> has_joint r name ->
  exists s', mask_dof r s name = Ok s' /\ (forall k, In k (ks_masked s') <-> In k (ks_masked s) \/ dof_of r name k) /\
    exists l, s' = kset_masked s l.
Proof.
  intros W H. destruct (joint_of_in _ name W H) as (j & E & Hj & Hn & _). unfold mask_dof, get_joint_v_size, get_joint_v_offset. rewrite E. cbn [obind].
  eexists. split; [reflexivity|]. split; [|eexists; reflexivity]. intros k. cbn [kset_masked ks_masked]. rewrite insert_all_in, (dof_of_joint r name j k W Hj Hn). reflexivity.
Qed.
Lemma unmask_dof_ok r s name : well_formed (r_model r) -> has_joint r name ->
  exists s', unmask_dof r s name = Ok s' /\ (forall k, In k (ks_masked s') <-> In k (ks_masked s) /\ ~ dof_of r name k) /\
    exists l, s' = kset_masked s l.
Proof.
  intros W H. destruct (joint_of_in _ name W H) as (j & E & Hj & Hn & _). unfold unmask_dof, get_joint_v_size, get_joint_v_offset. rewrite E. cbn [obind].
  eexists. split; [reflexivity|]. split; [|eexists; reflexivity]. intros k. cbn [kset_masked ks_masked]. rewrite erase_all_in, (dof_of_joint r name j k W Hj Hn). reflexivity.
Qed.

(** ** Joints tasks *)

Lemma joints_rows_spec N r l : forall rs, joints_rows N r l = Ok rs -> List.length rs = List.length l /\
  forall k name target, nth_error l k = Some (name, target) -> exists off q, get_joint_v_offset r name = Ok off /\ (off < N)%nat /\ get_joint r name = Ok q /\
    nth k rs (0%nat, 0) = (off, target - q).
Proof.
  induction l as [|[n t] l IH]; cbn [joints_rows]; intros rs H; bindall H.
  - injection H as <-. split; [reflexivity|]. intros [|k]; discriminate.
  - injection H as <-. destruct (IH _ eq_refl) as [L S]. split; [cbn; lia|]. intros [|k] name target Hk; cbn in Hk.
    + injection Hk as -> ->. exists x, x0. apply Nat.ltb_lt in G. auto.
    + now apply S.
Qed.

Lemma joints_follows N r l e x : joints_update N r l = Ok e ->
  (follows e x 1 <-> forall name target, In (name, target) l -> forall off q, get_joint_v_offset r name = Ok off -> get_joint r name = Ok q -> q + x off = target).
Proof.
  unfold joints_update. intros H. bindall H. injection H as <-. destruct (joints_rows_spec _ _ _ _ E) as [L S]. unfold follows, residual. cbn [fst snd mrows mcols mat_at vat].
  assert (G : forall k name target off q, nth_error l k = Some (name, target) -> get_joint_v_offset r name = Ok off -> get_joint r name = Ok q ->
    Rsum N (fun j => (if Nat.eqb j (fst (nth k x0 (0%nat, 0))) then 1 else 0) * x j) - 1 * snd (nth k x0 (0%nat, 0)) = x off - (target - q)).
  { intros k name target off q Hk Ho Hq. destruct (S k name target Hk) as (off' & q' & Ho' & Hlt & Hq' & ->). rewrite Ho in Ho'. rewrite Hq in Hq'. injection Ho' as <-. injection Hq' as <-.
    cbn [fst snd]. rewrite (Rsum_delta N off); [rewrite Nat.eqb_refl; ring|exact Hlt|]. intros i Hi Hne. destruct (Nat.eqb_spec i off); [contradiction|ring]. }
  split.
  - intros H name target Hin off q Ho Hq. apply In_nth_error in Hin. destruct Hin as (k & Hk). assert (Hl : (k < List.length l)%nat) by (apply nth_error_Some; congruence).
    specialize (H k Hl). rewrite (G k name target off q Hk Ho Hq) in H. lra.
  - intros H k Hl. destruct (nth_error l k) as [[name target]|] eqn:Hk; [|apply nth_error_None in Hk; lia].
    destruct (S k name target Hk) as (off & q & Ho & Hlt & Hq & _). rewrite (G k name target off q Hk Ho Hq). rewrite <- (H name target (nth_error_In _ _ Hk) off q Ho Hq). ring.
Qed.

(** ** Gears *)

Lemma map_find_put {V} k (v : V) l k' : map_find k' (map_put k v l) = if Nat.eqb k' k then Some v else map_find k' l.
Proof.
  induction l as [|[a u] l IH]; cbn [map_put map_find]; [reflexivity|]. destruct (Nat.eqb_spec k a) as [->|Hka].
  - cbn. destruct (Nat.eqb k' a); reflexivity.
  - destruct (Nat.ltb k a); cbn.
    + reflexivity.
    + rewrite IH. destruct (Nat.eqb_spec k' a) as [->|]; [destruct (Nat.eqb_spec a k); [congruence|reflexivity]|reflexivity].
Qed.

Definition sorted {V} (l : list (nat * V)) : Prop := StronglySorted lt (map fst l).

Lemma map_put_keys {V} k (v : V) l j : In j (map fst (map_put k v l)) <-> j = k \/ In j (map fst l).
Proof.
  induction l as [|[a u] l IH]; cbn [map_put]; [cbn; intuition auto|]. destruct (Nat.eqb_spec k a) as [->|]; [cbn; intuition auto|].
  destruct (Nat.ltb k a); cbn [map fst In]; [cbn [In]; intuition auto|rewrite IH; intuition auto].
Qed.
Lemma map_put_sorted {V} k (v : V) l : sorted l -> sorted (map_put k v l).
Proof.
  unfold sorted. induction l as [|[a u] l IH]; intros H; cbn [map_put]; [repeat constructor|]. inversion H as [|? ? H1 H2]; subst.
  destruct (Nat.eqb_spec k a) as [->|]; [exact H|]. destruct (Nat.ltb_spec k a); cbn.
  - constructor; [exact H|]. constructor; [lia|]. eapply Forall_impl; [|exact H2]. cbn. intros. lia.
  - constructor; [now apply IH|]. apply Forall_forall. intros j Hj. apply map_put_keys in Hj. destruct Hj as [->|Hj]; [lia|]. rewrite Forall_forall in H2. now apply H2.
Qed.
Lemma sorted_nodup {V} (l : list (nat * V)) : sorted l -> NoDup (map fst l).
Proof.
  unfold sorted. induction (map fst l) as [|a m IH]; intros H; [constructor|]. inversion H as [|? ? H1 H2]; subst. constructor; [|now apply IH].
  intros Hin. rewrite Forall_forall in H2. specialize (H2 a Hin). lia.
Qed.
Lemma map_find_in {V} k (l : list (nat * V)) v : map_find k l = Some v -> In (k, v) l.
Proof. induction l as [|[a u] l IH]; cbn; [discriminate|]. destruct (Nat.eqb_spec k a) as [->|]; [intros [= ->]; auto|auto]. Qed.
Lemma map_put_in {V} k (v : V) l x : In x (map_put k v l) -> x = (k, v) \/ In x l.
Proof.
  induction l as [|[a u] l IH]; cbn [map_put]; [intros [<-|[]]; auto|]. cbn [In]. destruct (Nat.eqb k a); [intros [<-|H]; auto|].
  destruct (Nat.ltb k a); [intros [<-|H]; auto|]. intros [<-|H]; [auto|]. destruct (IH H); auto.
Qed.

Definition gears_sorted (g : gears) : Prop := sorted g /\ forall t l, In (t, l) g -> sorted l.

Lemma sources_sorted g t : gears_sorted g -> sorted (sources_of g t).
Proof. intros [_ H]. unfold sources_of. destruct (map_find t g) as [l|] eqn:E; [|constructor]. apply (H t). now apply map_find_in. Qed.
Lemma put_sorted g t l : gears_sorted g -> sorted l -> gears_sorted (map_put t l g).
Proof.
  intros [A B] S. split; [now apply map_put_sorted|]. intros t' l' H. apply map_put_in in H. destruct H as [H|H]; [injection H as -> ->; exact S|now apply (B t')].
Qed.
Lemma add_gear_sorted r g a b x g' : gears_sorted g -> add_gear r g a b x = Ok g' -> gears_sorted g'.
Proof. intros S H. unfold add_gear in H. bindall H. injection H as <-. apply put_sorted; [exact S|]. apply map_put_sorted, sources_sorted, S. Qed.
Lemma gears_made_sorted r g : gears_made r g -> gears_sorted g.
Proof.
  induction 1 as [|g a b x g' _ IH H|g a b x g' _ IH H].
  - split; [constructor|intros t l []].
  - exact (add_gear_sorted _ _ _ _ _ _ IH H).
  - unfold set_gear in H. bindall H. refine (add_gear_sorted _ _ _ _ _ _ _ H). apply put_sorted; [exact IH|constructor].
Qed.

Lemma ratio_put g t l t' s : ratio_of (map_put t l g) t' s = if Nat.eqb t' t then map_find s l else ratio_of g t' s.
Proof. unfold ratio_of. rewrite map_find_put. destruct (Nat.eqb t' t); reflexivity. Qed.
Lemma ratio_sources g t s : map_find s (sources_of g t) = ratio_of g t s.
Proof. unfold ratio_of, sources_of. destruct (map_find t g); reflexivity. Qed.

Lemma add_gear_ratio r g a b x g' : add_gear r g a b x = Ok g' -> exists t s, get_joint_v_offset r a = Ok t /\ get_joint_v_offset r b = Ok s /\
  forall t' s', ratio_of g' t' s' = if Nat.eqb t' t && Nat.eqb s' s then Some x else ratio_of g t' s'.
Proof.
  unfold add_gear. intros H. bindall H. injection H as <-. exists x0, x1. repeat split; auto. intros t' s'. rewrite ratio_put. destruct (Nat.eqb_spec t' x0) as [->|]; cbn [andb]; [|reflexivity].
  rewrite map_find_put, ratio_sources. reflexivity.
Qed.
Lemma set_gear_ratio r g a b x g' : set_gear r g a b x = Ok g' -> exists t s, get_joint_v_offset r a = Ok t /\ get_joint_v_offset r b = Ok s /\
  forall t' s', ratio_of g' t' s' = if Nat.eqb t' t then (if Nat.eqb s' s then Some x else None) else ratio_of g t' s'.
Proof.
  unfold set_gear. intros H. bindall H. destruct (add_gear_ratio _ _ _ _ _ _ H) as (t & s & Ht & Hs & R). assert (t = x0) by congruence. subst t. exists x0, s. repeat split; auto.
  intros t' s'. rewrite R, ratio_put. destruct (Nat.eqb t' x0); cbn [andb]; [|reflexivity]. destruct (Nat.eqb s' s); reflexivity.
Qed.

(** One row of the gear task. *)
Lemma gear_sources_spec N q l x : forall row b row' b', gear_sources N q l row b = Ok (row', b') -> NoDup (map fst l) -> (forall s, In s (map fst l) -> row s = 0) ->
  Rsum N (fun j => row' j * x j) = Rsum N (fun j => row j * x j) + driven l x /\ b' = b - driven l (fun s => vat q (s + 1)%nat) /\
  (forall s, In s (map fst l) -> (s < N)%nat /\ (s + 1 < vlen q)%nat).
Proof.
  induction l as [|[s ratio] l IH]; cbn [gear_sources driven map fst]; intros row b row' b' H ND Z.
  - injection H as <- <-. split; [ring|]. split; [ring|intros s []].
  - bindall H. unfold vec_get in E. apply guard_inv in E. destruct E as [E E']. injection E' as <-. apply Nat.ltb_lt in G, E. inversion ND as [|? ? Hn ND']; subst.
    destruct (IH _ _ _ _ H ND') as (A & B & C).
    + intros s' Hs'. destruct (Nat.eqb_spec s' s) as [->|]; [contradiction|]. apply Z. now right.
    + split; [|split].
      * rewrite A. rewrite (Rsum_ext N _ (fun j => row j * x j + (if Nat.eqb j s then ratio * x j else 0))).
        -- rewrite Rsum_plus, (Rsum_delta N s (fun j => if Nat.eqb j s then ratio * x j else 0)); [rewrite Nat.eqb_refl; ring|exact G|]. intros j Hj Hne. destruct (Nat.eqb_spec j s); [contradiction|reflexivity].
        -- intros j Hj. destruct (Nat.eqb_spec j s) as [->|]; [rewrite (Z s) by now left|]; ring.
      * rewrite B. ring.
      * intros s' [<-|Hs']; [lia|now apply C].
Qed.

(** The same when the target is one of its sources: its coefficient is overwritten. *)
Lemma driven_plus l f g : driven l (fun s => f s + g s) = driven l f + driven l g.
Proof. induction l as [|[s r] l IH]; cbn; [ring|]. rewrite IH. ring. Qed.
Lemma driven_ext l f g : (forall s, In s (map fst l) -> f s = g s) -> driven l f = driven l g.
Proof. induction l as [|[s r] l IH]; cbn; intros H; [reflexivity|]. rewrite H by now left. rewrite IH; [reflexivity|]. intros; apply H. now right. Qed.

Lemma gear_sources_row N q l : forall row b row' b', gear_sources N q l row b = Ok (row', b') ->
  (forall j, row' j = row j \/ In j (map fst l)) /\ forall row2, (forall j, ~ In j (map fst l) -> row j = row2 j) -> exists row2',
    gear_sources N q l row2 b = Ok (row2', b') /\ forall j, row' j = row2' j.
Proof.
  induction l as [|[s ratio] l IH]; cbn [gear_sources map fst]; intros row b row' b' H.
  - injection H as <- <-. split; [auto|]. intros row2 E. exists row2. split; [reflexivity|]. intros j. apply E. tauto.
  - bindall H. destruct (IH _ _ _ _ H) as [A B]. split.
    + intros j. destruct (A j) as [->|]; [|right; now right]. destruct (Nat.eqb_spec j s) as [->|]; [right; now left|now left].
    + intros row2 E2. cbn [obind]. unfold guard. apply B. intros j Hj. destruct (Nat.eqb_spec j s); [reflexivity|]. apply E2. intros [|]; [congruence|contradiction].
Qed.

Lemma gear_row_spec N q t l row b x : gear_row N q t l = Ok (row, b) -> NoDup (map fst l) ->
  (t < N)%nat /\ (t + 1 < vlen q)%nat /\ (forall s, In s (map fst l) -> (s < N)%nat /\ (s + 1 < vlen q)%nat) /\ b = vat q (t + 1) - driven l (fun s => vat q (s + 1)%nat) /\
  Rsum N (fun j => row j * x j) = driven l x - (if existsb (Nat.eqb t) (map fst l) then 0 else x t).
Proof.
  unfold gear_row. intros H ND. bindall H. unfold vec_get in E. apply guard_inv in E. destruct E as [E E']. injection E' as <-. apply Nat.ltb_lt in G, E.
  destruct (existsb (Nat.eqb t) (map fst l)) eqn:Ex.
  - apply existsb_exists in Ex. destruct Ex as (t' & Ht & Et). apply Nat.eqb_eq in Et. subst t'.
    destruct (proj2 (gear_sources_row _ _ _ _ _ _ _ H) (fun _ => 0)) as (row2 & H2 & E2).
    { intros j Hj. destruct (Nat.eqb_spec j t) as [->|]; [contradiction|reflexivity]. }
    destruct (gear_sources_spec N q l x _ _ _ _ H2 ND ltac:(reflexivity)) as (A & B & C). repeat split; try assumption; try apply C; try assumption.
    rewrite (Rsum_ext N (fun j => row j * x j) (fun j => row2 j * x j)) by (intros; rewrite E2; reflexivity). rewrite A, Rsum_zero_ext by (intros; ring). ring.
  - assert (Nt : ~ In t (map fst l)).
    { intros Ht. assert (existsb (Nat.eqb t) (map fst l) = true) by (apply existsb_exists; exists t; split; [exact Ht|apply Nat.eqb_refl]). congruence. }
    destruct (gear_sources_spec N q l x _ _ _ _ H ND) as (A & B & C).
    { intros s Hs. destruct (Nat.eqb_spec s t) as [->|]; [contradiction|reflexivity]. }
    repeat split; try assumption; try apply C; try assumption.
    rewrite A, (Rsum_delta N t); [rewrite Nat.eqb_refl; ring|exact G|]. intros j Hj Hne. destruct (Nat.eqb_spec j t); [contradiction|ring].
Qed.

Lemma gear_rows_spec N q g : forall rs, gear_rows N q g = Ok rs -> List.length rs = List.length g /\
  forall k t l, nth_error g k = Some (t, l) -> exists row b, gear_row N q t l = Ok (row, b) /\ nth k rs (fun _ => 0, 0) = (row, b).
Proof.
  induction g as [|[t l] g IH]; cbn [gear_rows]; intros rs H; bindall H.
  - injection H as <-. split; [reflexivity|]. intros [|k]; discriminate.
  - injection H as <-. destruct (IH _ eq_refl) as [L S]. split; [cbn; lia|]. intros [|k] t' l' Hk; cbn in Hk.
    + injection Hk as -> ->. destruct x as [row b]. exists row, b. auto.
    + now apply S.
Qed.

Lemma gear_follows N r g e x : gears_sorted g -> gear_update N r g = Ok e ->
  (follows e x 1 <-> forall t l, map_find t g = Some l ->
     let q s := vat (st_q (r_state r)) (s + 1) in
     q t + (if existsb (Nat.eqb t) (map fst l) then 0 else x t) = driven l (fun s => q s + x s)).
Proof.
  intros [S1 S2]. unfold gear_update. intros H. bindall H. injection H as <-. destruct (gear_rows_spec _ _ _ _ E) as [L S]. unfold follows, residual. cbn [fst snd mrows mcols mat_at vat].
  set (q := fun s => vat (st_q (r_state r)) (s + 1)).
  assert (G : forall k t l, nth_error g k = Some (t, l) -> Rsum N (fun j => fst (nth k x0 (fun _ => 0, 0)) j * x j) - 1 * snd (nth k x0 (fun _ => 0, 0)) =
    driven l (fun s => q s + x s) - (q t + (if existsb (Nat.eqb t) (map fst l) then 0 else x t))).
  { intros k t l Hk. destruct (S k t l Hk) as (row & b & Hr & ->). cbn [fst snd]. pose proof (sorted_nodup l (S2 t l (nth_error_In _ _ Hk))) as ND.
    destruct (gear_row_spec N _ t l row b x Hr ND) as (_ & _ & _ & -> & ->). rewrite driven_plus. unfold q. ring. }
  split.
  - intros H t l Hf. apply map_find_in, In_nth_error in Hf. destruct Hf as (k & Hk). assert (Hl : (k < List.length g)%nat) by (apply nth_error_Some; congruence).
    specialize (H k Hl). rewrite (G k t l Hk) in H. symmetry. exact (Rminus_diag_uniq _ _ H).
  - intros H k Hl. destruct (nth_error g k) as [[t l]|] eqn:Hk; [|apply nth_error_None in Hk; lia]. rewrite (G k t l Hk).
    assert (F : map_find t g = Some l).
    { pose proof (sorted_nodup g S1) as ND. apply nth_error_In in Hk. clear - Hk ND. induction g as [|[a u] g IH]; [contradiction|]. cbn in *. inversion ND as [|? ? Hn ND']; subst.
      destruct Hk as [Hk|Hk]; [injection Hk as -> ->; now rewrite Nat.eqb_refl|]. destruct (Nat.eqb_spec t a) as [->|]; [|now apply IH]. exfalso. apply Hn. now apply (in_map fst) in Hk. }
    specialize (H t l F). change ((fun s => vat (st_q (r_state r)) (s + 1)) t) with (q t) in H. apply Rminus_diag_eq. symmetry. exact H.
Qed.

(** ** How a solve ends *)

(** Applying the result changes nothing to its computation. *)
Lemma ksolve_true pn log3 msqrt qr qp s r : ksolve pn log3 msqrt qr qp s r true =
  match ksolve pn log3 msqrt qr qp s r false with
  | (s', r', Ok d) => match apply_delta pn (ks_dt s') r d with Ok r2 => (s', r2, Ok d) | Throw e => (s', r, Throw e) | UB => (s', r, UB) end
  | x => x
  end.
Proof.
  unfold ksolve. destruct (add_tasks_to_problem _ _ _ _ _ _) as [s1 [[]|e|]]; try reflexivity. destruct (after_tasks pn r s1) as [cs|e|]; try reflexivity.
  cbv zeta. destruct (solve _ qr qp) as [pb' [[]|e|]]; try reflexivity. destruct (var_at pb' _) as [v|e|]; try reflexivity.
  match goal with |- context [match ?x with Ok _ => _ | Throw _ => _ | UB => _ end] => destruct x as [s3|e|]; reflexivity end.
Qed.

Lemma ksolve_ends pn log3 msqrt N s r qr qp apply s' r' o : knows N s -> answerable pn log3 msqrt s r -> p_rewrite (ks_problem s) = true ->
  ksolve pn log3 msqrt qr qp s r apply = (s', r', o) ->
  (o = Throw EQP /\ r' = r) \/ exists delta, ksolve pn log3 msqrt qr qp s r false = (s', r, Ok delta) /\ vlen delta = N /\
    o = (if apply then x <- apply_delta pn (ks_dt s) r delta ;; Ok delta else Ok delta).
Proof.
  intros K An Hrw E. destruct (answerable_built pn log3 msqrt N s r K An) as (s2 & EB & G).
  pose proof (built_prepared pn log3 msqrt N s r s2 K (answerable_shaped pn log3 msqrt N s r (proj1 K) An) EB) as P.
  pose proof (pr_settings _ _ _ _ _ _ _ P) as (_ & Ed & _ & _ & _ & _ & _ & _ & Er & Es & Ew).
  pose proof (built_ends pn log3 msqrt N s r s2 qr qp false (pr_knows _ _ _ _ _ _ _ P) (pr_qd _ _ _ _ _ _ _ P) (pr_var _ _ _ _ _ _ _ P) EB) as H.
  assert (Nu : snd (solve (ks_problem s2) qr qp) <> UB).
  { apply solve_not_UB.
    - apply (knows_tiles N), P.
    - apply Forall_forall. intros c Hc _ _. destruct (proj1 G c Hc) as (A & B & C & _). auto.
    - left. congruence. }
  destruct (solve (ks_problem s2) qr qp) as [pb' [[]|e|]] eqn:Eo; [| |contradiction].
  - right. destruct H as (d & Ld & _ & H). cbv zeta in H. exists d. set (s4 := if ks_has_scaling s2 then _ else _) in H.
    assert (D4 : ks_dt s4 = ks_dt s) by (unfold s4; destruct (ks_has_scaling s2); exact Ed).
    destruct apply; [|rewrite E in H; injection H as -> -> ->; auto]. rewrite ksolve_true, H, D4 in E.
    destruct (apply_delta pn (ks_dt s) r d); injection E as <- <- <-; auto.
  - left. assert (E' : (s', r', o) = (kset_problem s2 pb', r, Throw e)).
    { rewrite <- E, <- H. destruct apply; [|reflexivity]. rewrite ksolve_true, H. reflexivity. }
    injection E' as -> -> ->. split; [|reflexivity]. now rewrite (solve_throws _ _ _ _ _ Eo).
Qed.

(** A solve does not change the timestep. *)
Lemma start_scaling_dt s : ks_dt (fst (start_scaling s)) = ks_dt s.
Proof.
  unfold start_scaling. destruct (ks_has_scaling s); [reflexivity|]. set (s1 := ensure_scale _).
  assert (D : ks_dt s1 = ks_dt s) by (unfold s1, ensure_scale; cbn; destruct (ks_scale_var s); reflexivity).
  match goal with |- context [match ?x with Ok _ => _ | Throw _ => _ | UB => _ end] => destruct x end; exact D.
Qed.
Lemma add_task_dt pn log3 msqrt r s t : ks_dt (fst (add_task_to_problem pn log3 msqrt r s t)) = ks_dt s.
Proof.
  unfold add_task_to_problem. destruct (task_update _ _ _ _ _ _ _) as [e|e|]; [|reflexivity|reflexivity]. destruct (Nat.eqb _ 0); [reflexivity|].
  assert (D : ks_dt (fst (match kt_priority t with PScaled => start_scaling s | _ => (s, Ok tt) end)) = ks_dt s) by (destruct (kt_priority t); try reflexivity; apply start_scaling_dt).
  destruct (match kt_priority t with PScaled => _ | _ => _ end) as [s1 [[]|e1|]]; cbn in D; [|exact D|exact D]. destruct (task_constraint s1 t e); exact D.
Qed.
Lemma add_tasks_dt pn log3 msqrt r l : forall s, ks_dt (fst (add_tasks_to_problem pn log3 msqrt r s l)) = ks_dt s.
Proof.
  induction l as [|t l IH]; intros s; cbn [add_tasks_to_problem]; [reflexivity|]. pose proof (add_task_dt pn log3 msqrt r s t) as D.
  destruct (add_task_to_problem pn log3 msqrt r s t) as [s1 [[]|e|]]; cbn in D; [rewrite IH|..]; exact D.
Qed.
Lemma ksolve_dt pn log3 msqrt qr qp s r apply s' r' o : ksolve pn log3 msqrt qr qp s r apply = (s', r', o) -> ks_dt s' = ks_dt s.
Proof.
  unfold ksolve. set (s0 := kset_scale _ _ _). assert (D0 : ks_dt s0 = ks_dt s) by (unfold s0, ensure_qd; destruct (ks_qd s); reflexivity).
  pose proof (add_tasks_dt pn log3 msqrt r (ks_tasks s0) s0) as D. cbv zeta. destruct (add_tasks_to_problem pn log3 msqrt r s0 (ks_tasks s0)) as [s1 [[]|e|]]; cbn [fst] in D; try (intros [= <- <- <-]; congruence).
  destruct (after_tasks pn r s1) as [cs|e|]; try (intros [= <- <- <-]; congruence).
  destruct (solve _ qr qp) as [pb' [[]|e|]]; try (intros [= <- <- <-]; cbn; congruence). destruct (var_at pb' _) as [v|e|]; try (intros [= <- <- <-]; cbn; congruence).
  set (s2 := kset_problem _ pb'). assert (D2 : ks_dt s2 = ks_dt s) by (cbn; congruence). clearbody s2.
  destruct (if ks_has_scaling s2 then _ else _) as [s3|e|] eqn:E; try (intros [= <- <- <-]; congruence).
  assert (D3 : ks_dt s3 = ks_dt s).
  { destruct (ks_has_scaling s2); [|congruence]. destruct (var_at pb' (ks_scale_var s2)); try discriminate. cbn [obind] in E. destruct (vec_get _ _); try discriminate. cbn [obind] in E. injection E as <-. exact D2. }
  destruct apply; [destruct (apply_delta _ _ _ _)|]; intros [= <- <- <-]; exact D3.
Qed.
