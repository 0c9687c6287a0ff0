(** The frame tasks of a program do not share anything. *)
From Coq Require Import Reals List Arith Bool String Lia.
From Verif Require Import Base Geom3 Geometry_model Tools_model FrameTasks_model FrameTasks_spec.
Import ListNotations.
Open Scope R_scope.

Lemma put_length {A} (l : list A) k v : List.length (put l k v) = List.length l.
Proof. revert k; induction l as [|a l IH]; intros [|k]; cbn; auto. Qed.
Lemma put_same {A} (l : list A) k v : (k < List.length l)%nat -> nth_error (put l k v) k = Some v.
Proof. revert k; induction l as [|a l IH]; intros [|k] H; cbn in *; try lia; auto. apply IH. lia. Qed.
Lemma put_other {A} (l : list A) k v i : i <> k -> nth_error (put l k v) i = nth_error l i.
Proof. revert k i; induction l as [|a l IH]; intros [|k] [|i] H; cbn; auto; try congruence. Qed.
Lemma put_replaced l h x : (h < List.length l)%nat -> replaced l h x (put l h x).
Proof. intros H. split; [apply put_length|]. split; [now apply put_same|]. intros k Hk. now apply put_other. Qed.

Definition position_part (x : object) : ftask := FTask (ob_position x) (Position (ob_frames x) (fr_t (ob_target x))).
Definition orientation_part (x : object) : ftask := FTask (ob_orientation x) (Orientation (ob_frames x) (fr_R (ob_target x))).

Definition owns (ts : list frame_task) (h a : nat) : Prop :=
  exists t, nth_error ts h = Some t /\ (ft_position t = Some a \/ ft_orientation t = Some a).

(** The memory holds the objects, at addresses of their own, and the other tasks. *)
Record holds (m : memory) (ts : list frame_task) (objs : objects) (oth : list ftask) : Prop := {
  ho_length : List.length ts = List.length objs;
  ho_parts : forall h t, nth_error ts h = Some t -> exists p o x, t = FrameTask (Some p) (Some o) /\ p <> o /\ nth_error objs h = Some x /\
    nth_error m p = Some (option_map position_part x) /\ nth_error m o = Some (option_map orientation_part x);
  ho_apart : forall h k a, owns ts h a -> owns ts k a -> h = k;
  ho_only : forall a t, nth_error m a = Some (Some t) -> (exists h, owns ts h a) \/ In t oth;
  ho_others : forall t, In t oth -> exists a, nth_error m a = Some (Some t) /\ forall h, ~ owns ts h a }.

Lemma some_lt {A} (l : list A) k x : nth_error l k = Some x -> (k < List.length l)%nat.
Proof. intros H. apply nth_error_Some. congruence. Qed.

Lemma object_parts m ts objs oth h x : holds m ts objs oth -> the_object objs h = Some x ->
  exists p o, nth_error ts h = Some (FrameTask (Some p) (Some o)) /\ p <> o /\
    nth_error m p = Some (Some (position_part x)) /\ nth_error m o = Some (Some (orientation_part x)).
Proof.
  intros H Hx. unfold the_object in Hx. destruct (nth_error objs h) as [[y|]|] eqn:E; try discriminate. injection Hx as <-.
  assert (L : (h < List.length ts)%nat) by (rewrite (ho_length _ _ _ _ H); eapply some_lt; eauto).
  destruct (nth_error ts h) as [t|] eqn:Et; [|apply nth_error_None in Et; lia].
  destruct (ho_parts _ _ _ _ H h t Et) as (p & o & z & -> & N & Ez & Ep & Eo). rewrite E in Ez. injection Ez as <-. now exists p, o.
Qed.
Lemma no_object_parts m ts objs oth h : holds m ts objs oth -> the_object objs h = None ->
  nth_error ts h = None \/ exists p o, nth_error ts h = Some (FrameTask (Some p) (Some o)) /\ nth_error m p = Some None /\ nth_error m o = Some None.
Proof.
  intros H Hx. unfold the_object in Hx. destruct (nth_error ts h) as [t|] eqn:Et; [right|now left].
  destruct (ho_parts _ _ _ _ H h t Et) as (p & o & z & -> & N & Ez & Ep & Eo). rewrite Ez in Hx. destruct z as [z|]; [discriminate|]. now exists p, o.
Qed.

Lemma holds_update m ts objs oth h p o x : holds m ts objs oth -> nth_error ts h = Some (FrameTask (Some p) (Some o)) ->
  holds (put (put m p (option_map position_part x)) o (option_map orientation_part x)) ts (put objs h x) oth.
Proof.
  intros H Et. destruct (ho_parts _ _ _ _ H h _ Et) as (p' & o' & z & E & N & Ez & Ep & Eo). injection E as <- <-.
  assert (Op : owns ts h p) by (exists (FrameTask (Some p) (Some o)); cbn; auto).
  assert (Oo : owns ts h o) by (exists (FrameTask (Some p) (Some o)); cbn; auto).
  split.
  - rewrite put_length. apply H.
  - intros k t Hk. destruct (ho_parts _ _ _ _ H k t Hk) as (pk & ok & y & -> & Nk & Ey & Epk & Eok).
    destruct (Nat.eq_dec k h) as [->|Nh].
    + rewrite Et in Hk. injection Hk as <- <-. exists p, o, x. split; [reflexivity|]. split; [exact N|].
      split; [apply put_same; eapply some_lt; eauto|]. split; [rewrite put_other by exact N|]; apply put_same; [|rewrite put_length]; eapply some_lt; eauto.
    + assert (A : forall a, owns ts k a -> a <> p /\ a <> o).
      { intros a Ha. split; intros ->; apply Nh; eapply (ho_apart _ _ _ _ H); eauto. }
      assert (A1 : owns ts k pk) by (exists (FrameTask (Some pk) (Some ok)); cbn; auto).
      assert (A2 : owns ts k ok) by (exists (FrameTask (Some pk) (Some ok)); cbn; auto).
      destruct (A _ A1), (A _ A2). exists pk, ok, y. rewrite !put_other by assumption. auto.
  - apply H.
  - intros a t Ha. destruct (Nat.eq_dec a o) as [->|No]; [left; now exists h|]. rewrite put_other in Ha by exact No.
    destruct (Nat.eq_dec a p) as [->|Np]; [left; now exists h|]. rewrite put_other in Ha by exact Np. now apply (ho_only _ _ _ _ H).
  - intros t Ht. destruct (ho_others _ _ _ _ H t Ht) as (a & Ha & Hn). exists a. split; [|exact Hn].
    rewrite !put_other; [exact Ha| |]; intros ->; now apply (Hn h).
Qed.

Lemma nth_error_snoc {A} (l : list A) x k y : nth_error (l ++ [x]) k = Some y -> nth_error l k = Some y \/ (k = List.length l /\ y = x).
Proof.
  intros H. destruct (Nat.lt_ge_cases k (List.length l)) as [L|L].
  - rewrite nth_error_app1 in H by exact L. now left.
  - rewrite nth_error_app2 in H by exact L. destruct (k - List.length l)%nat as [|i] eqn:E; cbn in H; [|destruct i; discriminate].
    right. split; [lia|congruence].
Qed.
Lemma nth_error_keep {A} (l l' : list A) k y : nth_error l k = Some y -> nth_error (l ++ l') k = Some y.
Proof. intros H. rewrite nth_error_app1; [exact H|eapply some_lt; eauto]. Qed.
Lemma nth_error_last {A} (l : list A) x : nth_error (l ++ [x]) (List.length l) = Some x.
Proof. rewrite nth_error_app2, Nat.sub_diag by lia. reflexivity. Qed.

Lemma owns_lt m ts objs oth h a : holds m ts objs oth -> owns ts h a -> (a < List.length m)%nat.
Proof.
  intros H (t & Et & Ha). destruct (ho_parts _ _ _ _ H h t Et) as (p & o & z & -> & N & Ez & Ep & Eo).
  cbn in Ha. destruct Ha as [Ha|Ha]; injection Ha as <-; eapply some_lt; eauto.
Qed.

Lemma holds_other m ts objs oth k : holds m ts objs oth -> holds (m ++ [Some (FTask new_prioritized k)]) ts objs (FTask new_prioritized k :: oth).
Proof.
  intros H. split; try apply H.
  - intros h t Ht. destruct (ho_parts _ _ _ _ H h t Ht) as (p & o & x & -> & N & Ex & Ep & Eo). exists p, o, x.
    rewrite (nth_error_keep _ _ _ _ Ep), (nth_error_keep _ _ _ _ Eo). auto.
  - intros a t Ha. apply nth_error_snoc in Ha. destruct Ha as [Ha|[_ E]]; [|injection E as ->; right; now left].
    destruct (ho_only _ _ _ _ H a t Ha); [now left|right; now right].
  - intros t [<-|Ht].
    + exists (List.length m). split; [apply nth_error_last|]. intros h Ho. pose proof (owns_lt _ _ _ _ _ _ H Ho). lia.
    + destruct (ho_others _ _ _ _ H t Ht) as (a & Ha & Hn). exists a. split; [now apply nth_error_keep|exact Hn].
Qed.

Lemma holds_add m ts objs oth x : holds m ts objs oth ->
  holds ((m ++ [Some (position_part x)]) ++ [Some (orientation_part x)]) (ts ++ [FrameTask (Some (List.length m)) (Some (S (List.length m)))]) (objs ++ [Some x]) oth.
Proof.
  intros H. set (n := List.length m). set (t := FrameTask (Some n) (Some (S n))).
  assert (Ow : forall h a, owns (ts ++ [t]) h a -> owns ts h a \/ (h = List.length ts /\ (a = n \/ a = S n))).
  { intros h a (t' & Et & Ha). apply nth_error_snoc in Et. destruct Et as [Et|[-> ->]]; [left; now exists t'|right]. split; [reflexivity|].
    cbn in Ha. destruct Ha as [Ha|Ha]; injection Ha as <-; auto. }
  assert (Lt : forall h a, owns ts h a -> (a < n)%nat) by (intros; eapply owns_lt; eauto).
  assert (Up : forall h a, owns ts h a -> owns (ts ++ [t]) h a) by (intros h a (t' & Et & Ha); exists t'; split; [now apply nth_error_keep|exact Ha]).
  split.
  - rewrite !app_length, (ho_length _ _ _ _ H). reflexivity.
  - intros h t' Ht. apply nth_error_snoc in Ht. destruct Ht as [Ht|[-> ->]].
    + destruct (ho_parts _ _ _ _ H h t' Ht) as (p & o & y & -> & N & Ey & Ep & Eo). exists p, o, y. split; [reflexivity|]. split; [exact N|].
      split; [now apply nth_error_keep|]. rewrite <- app_assoc. split; now apply nth_error_keep.
    + exists n, (S n), (Some x). split; [reflexivity|]. split; [lia|]. split; [rewrite (ho_length _ _ _ _ H); apply nth_error_last|].
      split; [rewrite <- app_assoc; unfold n; rewrite nth_error_app2, Nat.sub_diag by lia; reflexivity|].
      replace (S n) with (List.length (m ++ [Some (position_part x)])) by (rewrite app_length; cbn; unfold n; lia). apply nth_error_last.
  - intros h k a Hh Hk. apply Ow in Hh. apply Ow in Hk. destruct Hh as [Hh|[-> Hh]], Hk as [Hk|[-> Hk]]; auto.
    + eapply (ho_apart _ _ _ _ H); eauto.
    + apply Lt in Hh. lia.
    + apply Lt in Hk. lia.
  - intros a t' Ha. apply nth_error_snoc in Ha. destruct Ha as [Ha|[-> E]].
    + apply nth_error_snoc in Ha. destruct Ha as [Ha|[-> E]].
      * destruct (ho_only _ _ _ _ H a t' Ha) as [[h Hh]|Hi]; [left; exists h; auto|now right].
      * left. exists (List.length ts), t. split; [apply nth_error_last|cbn; auto].
    + left. exists (List.length ts), t. split; [apply nth_error_last|]. right. cbn. f_equal. rewrite app_length. cbn. unfold n. lia.
  - intros t' Ht. destruct (ho_others _ _ _ _ H t' Ht) as (a & Ha & Hn). exists a. split; [rewrite <- app_assoc; now apply nth_error_keep|].
    intros h Ho. apply Ow in Ho. destruct Ho as [Ho|[_ Ho]]; [now apply (Hn h)|]. apply some_lt in Ha. unfold n in Ho. lia.
Qed.

(** One call. *)
Lemma priority_known s : match priority_from_string s with
  | Ok p => known_priority s p | Throw e => e = ERuntime /\ (forall p, ~ known_priority s p) | UB => False end.
Proof.
  unfold priority_from_string, known_priority. destruct (String.eqb_spec s "soft") as [->|N1]; [auto|].
  destruct (String.eqb_spec s "hard") as [->|N2]; [auto|]. destruct (String.eqb_spec s "scaled") as [->|N3]; [auto|].
  split; [reflexivity|]. intros p. intuition.
Qed.

Lemma the_object_lt l h x : the_object l h = Some x -> (h < List.length l)%nat.
Proof. unfold the_object. destruct (nth_error l h) eqn:E; [|discriminate]. intros _. eapply some_lt; eauto. Qed.

Lemma task_found s h t : nth_error (snd s) h = Some t -> the_task s h = t.
Proof. intros H. unfold the_task. now apply nth_error_nth. Qed.

Section Step.
Variable rotation_of : mat3 -> mat3.
Hypothesis Hrot : forall R, rotation R -> rotation_of R = R.

Definition other_tasks (c : fcall) : list ftask := match c with COther k => [FTask new_prioritized k] | _ => [] end.

Lemma put_put {A} (l : list A) k (u v : A) : put (put l k u) k v = put l k v.
Proof. revert k; induction l as [|a l IH]; intros [|k]; cbn; auto. now rewrite IH. Qed.
Lemma put_id {A} (l : list A) k (v : A) : nth_error l k = Some v -> put l k v = l.
Proof. revert k; induction l as [|a l IH]; intros [|k] H; cbn in *; try congruence. now rewrite IH. Qed.

Lemma step_effect m ts objs oth c : holds m ts objs oth -> (forall f T, c = CAdd f T -> rotation (fr_R T)) ->
  (exists m' ts' o objs', fstep rotation_of (m, ts) c = ((m', ts'), o) /\ o <> UB /\ effect objs c o objs' /\ holds m' ts' objs' (other_tasks c ++ oth)) \/
  ((exists h, the_object objs h = None /\ ((exists T, c = CSet h T) \/ (exists n p wp wo, c = CConfigure h n p wp wo) \/ c = CRemove h)) /\
   snd (fstep rotation_of (m, ts) c) = UB).
Proof.
  intros H Hc. destruct c as [f T|h T|h n p wp wo|h|k].
  - left. do 4 eexists. split; [reflexivity|]. split; [discriminate|]. split; [apply ef_add|]. cbn [other_tasks app].
    rewrite (Hrot _ (Hc _ _ eq_refl)). replace (List.length (m ++ [Some (FTask new_prioritized (Position f (fr_t T)))])) with (S (List.length m)) by (rewrite app_length; cbn; lia).
    apply (holds_add m ts objs oth (Object f T new_prioritized new_prioritized) H).
  - destruct (the_object objs h) as [x|] eqn:Ex.
    + left. destruct (object_parts _ _ _ _ _ _ H Ex) as (p & o & Et & N & Ep & Eo).
      set (x' := Object (ob_frames x) T (ob_position x) (ob_orientation x)).
      exists (put (put m p (Some (position_part x'))) o (Some (orientation_part x'))), ts, (Ok tt), (put objs h (Some x')).
      cbn [fstep]. rewrite (task_found (m, ts) h _ Et). unfold set_T, set_position, set_orientation, task_at, write_task. cbn [ft_position ft_orientation].
      rewrite Ep. cbn [obind fk_kind position_part fk_prio]. rewrite put_other, Eo by (now apply not_eq_sym). cbn.
      split; [reflexivity|]. split; [discriminate|]. split; [eapply ef_set; [exact Ex|]; apply put_replaced; eapply the_object_lt; eauto|].
      apply (holds_update m ts objs oth h p o (Some x') H Et).
    + right. split; [exists h; split; [exact Ex|left; now exists T]|]. cbn [fstep]. destruct (no_object_parts _ _ _ _ _ H Ex) as [E|(p & o & Et & Ep & Eo)].
      * unfold the_task. cbn [snd]. rewrite nth_overflow by (now apply nth_error_None). reflexivity.
      * rewrite (task_found (m, ts) h _ Et). unfold set_T, set_position, task_at. cbn [ft_position]. rewrite Ep. reflexivity.
  - destruct (the_object objs h) as [x|] eqn:Ex.
    + left. destruct (object_parts _ _ _ _ _ _ H Ex) as (pa & o & Et & N & Ep & Eo).
      cbn [fstep]. rewrite (task_found (m, ts) h _ Et). unfold configure_frame, configure_at, task_at, write_task, configure_by_name. cbn [ft_position ft_orientation].
      rewrite Ep. cbn [fk_prio fk_kind position_part]. pose proof (priority_known p) as K. destruct (priority_from_string p) as [pr|e|]; [| |contradiction].
      * rewrite put_other, Eo by (now apply not_eq_sym).
        set (x' := Object (ob_frames x) (ob_target x) (Prioritized (n ++ "_position") pr wp) (Prioritized (n ++ "_orientation") pr wo)).
        exists (put (put m pa (Some (position_part x'))) o (Some (orientation_part x'))), ts, (Ok tt), (put objs h (Some x')).
        split; [reflexivity|]. split; [discriminate|]. split; [eapply ef_configure; [exact Ex|exact K|]; apply put_replaced; eapply the_object_lt; eauto|].
        apply (holds_update m ts objs oth h pa o (Some x') H Et).
      * destruct K as [-> K].
        set (x' := Object (ob_frames x) (ob_target x) (Prioritized (n ++ "_position") (p_priority (ob_position x)) (p_weight (ob_position x))) (ob_orientation x)).
        exists (put m pa (Some (position_part x'))), ts, (Throw ERuntime), (put objs h (Some x')).
        split; [reflexivity|]. split; [discriminate|]. split; [eapply ef_refused; [exact Ex|exact K|]; apply put_replaced; eapply the_object_lt; eauto|].
        pose proof (holds_update m ts objs oth h pa o (Some x') H Et) as G. cbn [option_map] in G.
        rewrite (put_id (put m pa (Some (position_part x'))) o) in G; [exact G|]. rewrite put_other by (now apply not_eq_sym). exact Eo.
    + right. split; [exists h; split; [exact Ex|right; left; now exists n, p, wp, wo]|]. cbn [fstep]. destruct (no_object_parts _ _ _ _ _ H Ex) as [E|(pa & o & Et & Ep & Eo)].
      * unfold the_task. cbn [snd]. rewrite nth_overflow by (now apply nth_error_None). reflexivity.
      * rewrite (task_found (m, ts) h _ Et). unfold configure_frame, configure_at, task_at. cbn [ft_position]. rewrite Ep. reflexivity.
  - destruct (the_object objs h) as [x|] eqn:Ex.
    + left. destruct (object_parts _ _ _ _ _ _ H Ex) as (p & o & Et & N & Ep & Eo).
      exists (put (put m p None) o None), ts, (Ok tt), (put objs h None).
      cbn [fstep]. rewrite (task_found (m, ts) h _ Et). unfold remove_frame_task, delete_task. cbn [ft_position ft_orientation].
      rewrite Ep. cbn [obind]. rewrite put_other, Eo by (now apply not_eq_sym).
      split; [reflexivity|]. split; [discriminate|]. split; [eapply ef_remove; [exact Ex|]; apply put_replaced; eapply the_object_lt; eauto|].
      apply (holds_update m ts objs oth h p o None H Et).
    + right. split; [exists h; split; [exact Ex|right; now right]|]. cbn [fstep]. destruct (no_object_parts _ _ _ _ _ H Ex) as [E|(p & o & Et & Ep & Eo)].
      * unfold the_task. cbn [snd]. rewrite nth_overflow by (now apply nth_error_None). reflexivity.
      * rewrite (task_found (m, ts) h _ Et). unfold remove_frame_task, delete_task. cbn [ft_position]. rewrite Ep. reflexivity.
  - left. exists (m ++ [Some (FTask new_prioritized k)]), ts, (Ok tt), objs. split; [reflexivity|]. split; [discriminate|]. split; [apply ef_other|].
    apply (holds_other m ts objs oth k H).
Qed.

(** The objects known to be usable. *)
Definition tracks (n : nat) (gone : list nat) (objs : objects) : Prop :=
  List.length objs = n /\ (forall h, In h gone -> (h < n)%nat) /\ forall h, (the_object objs h <> None <-> (h < n)%nat /\ ~ In h gone).

Lemma replaced_object l h x l' k : replaced l h x l' -> the_object l' k = if Nat.eq_dec k h then x else the_object l k.
Proof. intros (_ & Hh & Ho). unfold the_object. destruct (Nat.eq_dec k h) as [->|N]; [rewrite Hh|rewrite Ho by exact N]; destruct x; reflexivity. Qed.

Lemma tracks_kept n gone l h x y l' : tracks n gone l -> the_object l h = Some y -> replaced l h (Some x) l' -> tracks n gone l'.
Proof.
  intros (L & G & T) Hy Hr. split; [destruct Hr as (E & _); now rewrite E|]. split; [exact G|]. intros k. rewrite (replaced_object _ _ _ _ k Hr), <- T.
  destruct (Nat.eq_dec k h) as [->|]; [|reflexivity]. rewrite Hy. split; discriminate.
Qed.

Definition rigid_calls (l : list fcall) : Prop := forall f T, In (CAdd f T) l -> rotation (fr_R T).

Lemma tracks_step n gone objs c o objs' l : tracks n gone objs -> effect objs c o objs' ->
  exists n' gone', tracks n' gone' objs' /\ (careful n gone (c :: l) <-> careful n' gone' l).
Proof.
  intros T Ef. destruct T as (L & G & T).
  assert (U : forall h x (P : Prop), the_object objs h = Some x -> (((h < n)%nat /\ ~ In h gone) /\ P <-> P)).
  { intros h x P E. rewrite <- T. split; [intros [_ X]; exact X|intros X; split; [congruence|exact X]]. }
  destruct Ef as [f F|h F x l' Hx Hr|h name pr wp wo p x l' Hx Hp Hr|h name pr wp wo x l' Hx Hp Hr|h x l' Hx Hr|k].
  - exists (S n), gone. split; [|reflexivity]. split; [rewrite app_length; cbn; lia|]. split; [intros h Hh; apply G in Hh; lia|]. intros h.
    unfold the_object. destruct (Nat.lt_ge_cases h (List.length objs)) as [Lh|Lh].
    + rewrite nth_error_app1 by exact Lh. change (the_object objs h <> None <-> (h < S n)%nat /\ ~ In h gone). rewrite T. intuition lia.
    + destruct (Nat.eq_dec h (List.length objs)) as [->|Nh].
      * rewrite nth_error_last. split; [|discriminate]. intros _. split; [lia|]. intros Hi. apply G in Hi. lia.
      * replace (nth_error (objs ++ [Some (Object f F new_prioritized new_prioritized)]) h) with (@None (option object))
          by (symmetry; apply nth_error_None; rewrite app_length; cbn; lia). split; [congruence|lia].
  - exists n, gone. split; [eapply tracks_kept; [split; [exact L|split; [exact G|exact T]]|exact Hx|exact Hr]|]. cbn. apply (U h x _ Hx).
  - exists n, gone. split; [eapply tracks_kept; [split; [exact L|split; [exact G|exact T]]|exact Hx|exact Hr]|]. cbn. apply (U h x _ Hx).
  - exists n, gone. split; [eapply tracks_kept; [split; [exact L|split; [exact G|exact T]]|exact Hx|exact Hr]|]. cbn. apply (U h x _ Hx).
  - exists n, (h :: gone). split; [|cbn; apply (U h x _ Hx)]. split; [destruct Hr as (Hl & _); congruence|].
    split; [intros k [<-|Hk]; [apply T; congruence|now apply G]|]. intros k. rewrite (replaced_object _ _ _ _ k Hr). cbn [In].
    destruct (Nat.eq_dec k h) as [->|Nk]; [split; [congruence|intros [_ X]; exfalso; apply X; now left]|]. rewrite T. intuition congruence.
  - exists n, gone. split; [split; [exact L|split; [exact G|exact T]]|reflexivity].
Qed.

Lemma run_effects l : forall m ts objs oth n gone, holds m ts objs oth -> tracks n gone objs -> rigid_calls l ->
  (careful n gone l /\ exists m' ts' objs', frun rotation_of (m, ts) l = Ok (m', ts') /\ effects objs l objs' /\ holds m' ts' objs' (rev (flat_map other_tasks l) ++ oth)) \/
  (~ careful n gone l /\ frun rotation_of (m, ts) l = UB).
Proof.
  induction l as [|c l IH]; intros m ts objs oth n gone H T R.
  - left. split; [exact I|]. exists m, ts, objs. split; [reflexivity|]. split; [constructor|exact H].
  - assert (R1 : forall f T, c = CAdd f T -> rotation (fr_R T)) by (intros f T0 ->; apply (R f); now left).
    assert (R2 : rigid_calls l) by (intros f T0 Hi; apply (R f); now right).
    destruct (step_effect m ts objs oth c H R1) as [(m' & ts' & o & objs' & E & No & Ef & H')|((h & Hn & Hc) & E)].
    + destruct (tracks_step n gone objs c o objs' l T Ef) as (n' & gone' & T' & Hc).
      assert (Er : frun rotation_of (m, ts) (c :: l) = frun rotation_of (m', ts') l) by (cbn [frun]; rewrite E; destruct o; [reflexivity|reflexivity|congruence]).
      destruct (IH m' ts' objs' (other_tasks c ++ oth) n' gone' H' T' R2) as [(Hcl & m2 & ts2 & objs2 & E2 & Ef2 & H2)|(Hcl & E2)].
      * left. split; [now apply Hc|]. exists m2, ts2, objs2. split; [now rewrite Er|]. split; [econstructor; eauto|].
        cbn [flat_map]. rewrite rev_app_distr, <- app_assoc. replace (rev (other_tasks c)) with (other_tasks c) by (destruct c; reflexivity). exact H2.
      * right. split; [now rewrite Hc|now rewrite Er].
    + right. split.
      * destruct T as (_ & _ & T). assert (Hu : ~ ((h < n)%nat /\ ~ In h gone)) by (rewrite <- T; congruence).
        destruct Hc as [(F & ->)|[(nm & p & wp & wo & ->)| ->]]; cbn; intros [X _]; now apply Hu.
      * cbn [frun]. destruct (fstep rotation_of (m, ts) c) as [s o]. cbn in E. now rewrite E.
Qed.

Lemma holds_empty : holds [] [] [] [].
Proof.
  split; try reflexivity.
  - intros h t Ht. destruct h; discriminate.
  - intros h k a (t & Et & _). destruct h; discriminate.
  - intros a t Ha. destruct a; discriminate.
  - intros t [].
Qed.
Lemma tracks_empty : tracks 0 [] [].
Proof. split; [reflexivity|]. split; [intros h []|]. intros h. unfold the_object. destruct h; cbn; split; try congruence; lia. Qed.
Lemma run_new l : rigid_calls l ->
  (careful 0 [] l /\ exists m' ts' objs', frun rotation_of new_program l = Ok (m', ts') /\ effects [] l objs' /\ holds m' ts' objs' (rev (flat_map other_tasks l) ++ [])) \/
  (~ careful 0 [] l /\ frun rotation_of new_program l = UB).
Proof. exact (run_effects l [] [] [] [] 0 [] holds_empty tracks_empty). Qed.
End Step.

Lemma holds_reads m ts objs oth h : holds m ts objs oth ->
  match the_object objs h with
  | Some x => get_T m (the_task (m, ts) h) = Ok (ob_target x) /\ task_at m (ft_position (the_task (m, ts) h)) = Ok (position_part x) /\
              task_at m (ft_orientation (the_task (m, ts) h)) = Ok (orientation_part x)
  | None => get_T m (the_task (m, ts) h) = UB
  end.
Proof.
  intros H. destruct (the_object objs h) as [x|] eqn:Ex.
  - destruct (object_parts _ _ _ _ _ _ H Ex) as (p & o & Et & N & Ep & Eo). rewrite (task_found (m, ts) h _ Et).
    unfold get_T, position_target, orientation_target, task_at. cbn [ft_position ft_orientation]. rewrite Ep, Eo. cbn.
    split; [destruct (ob_target x); reflexivity|auto].
  - destruct (no_object_parts _ _ _ _ _ H Ex) as [E|(p & o & Et & Ep & Eo)].
    + unfold the_task. cbn [snd]. rewrite nth_overflow by (now apply nth_error_None). reflexivity.
    + rewrite (task_found (m, ts) h _ Et). unfold get_T, position_target, task_at. cbn [ft_position]. rewrite Ep. reflexivity.
Qed.

Lemma holds_tasks m ts objs oth t : holds m ts objs oth ->
  (In (Some t) m <-> (exists h x, the_object objs h = Some x /\ (t = position_part x \/ t = orientation_part x)) \/ In t oth).
Proof.
  intros H. split.
  - intros Hi. apply In_nth_error in Hi. destruct Hi as [a Ha]. destruct (ho_only _ _ _ _ H a t Ha) as [(h & t' & Et & Hw)|Hi]; [left|now right].
    destruct (ho_parts _ _ _ _ H h t' Et) as (p & o & x & -> & N & Ex & Ep & Eo). cbn in Hw.
    destruct x as [x|]; cbn in Ep, Eo; [exists h, x; unfold the_object; rewrite Ex; split; [reflexivity|]|];
      destruct Hw as [Hw|Hw]; injection Hw as <-; rewrite Ha in *; try discriminate; [left|right]; congruence.
  - intros [(h & x & Ex & Ht)|Hi].
    + destruct (object_parts _ _ _ _ _ _ H Ex) as (p & o & Et & N & Ep & Eo). destruct Ht as [->| ->]; eapply nth_error_In; eauto.
    + destruct (ho_others _ _ _ _ H t Hi) as (a & Ha & _). eapply nth_error_In; eauto.
Qed.

(** The history determines the objects. *)
Lemma replaced_same l h x l1 l2 : replaced l h x l1 -> replaced l h x l2 -> l1 = l2.
Proof.
  intros (L1 & H1 & O1) (L2 & H2 & O2).
  assert (G : forall (a b : objects), List.length a = List.length b -> (forall k, nth_error a k = nth_error b k) -> a = b).
  { induction a as [|u a IH]; intros [|v b] L N; try discriminate; [reflexivity|]. pose proof (N 0%nat) as N0. injection N0 as <-. f_equal. apply IH; [now injection L|]. intros k. exact (N (S k)). }
  apply G; [congruence|]. intros k. destruct (Nat.eq_dec k h) as [->|N]; [congruence|]. now rewrite O1, O2.
Qed.
Lemma known_same s p q : known_priority s p -> known_priority s q -> p = q.
Proof. intros [[-> ->]|[[-> ->]|[-> ->]]] [[E ->]|[[E ->]|[E ->]]]; try discriminate; reflexivity. Qed.
Lemma effect_same l c o1 o2 l1 l2 : effect l c o1 l1 -> effect l c o2 l2 -> l1 = l2.
Proof.
  intros H1 H2. inversion H1; subst; inversion H2; subst; try reflexivity;
    repeat match goal with A : the_object ?a ?b = Some _, B : the_object ?a ?b = Some _ |- _ => rewrite A in B; injection B as <- end;
    try match goal with A : known_priority ?s ?p, B : known_priority ?s ?q |- _ => pose proof (known_same _ _ _ A B); subst end;
    try (exfalso; match goal with A : known_priority ?s ?p, B : forall p, ~ known_priority ?s p |- _ => exact (B _ A) end);
    eapply replaced_same; eauto.
Qed.
Lemma effects_same l c l1 l2 : effects l c l1 -> effects l c l2 -> l1 = l2.
Proof.
  intros H. revert l2. induction H as [|l c o la r lb He Hs IH]; intros l2 H2; inversion H2; subst; [reflexivity|].
  match goal with A : effect l c _ ?x |- _ => pose proof (effect_same _ _ _ _ _ _ He A); subst end. now apply IH.
Qed.
