From Coq Require Import Reals List Arith ZArith Bool Lia.
From Verif Require Import Base Geom3 Robot_model Dyn_model DynContacts_model DynContacts_spec.
Import ListNotations.
Open Scope R_scope.

Lemma makers_app l l' : makers (l ++ l') = makers l ++ makers l'.
Proof. induction l as [|[m|i a|i] l IH]; cbn; [reflexivity|rewrite IH; reflexivity|exact IH|exact IH]. Qed.

Lemma removed_app l l' i : removed (l ++ l') i = removed l i || removed l' i.
Proof. unfold removed. apply existsb_app. Qed.

Lemma last_given_app {A} (sel : attribute -> option A) i l l' d : last_given sel i (l ++ l') d = last_given sel i l' (last_given sel i l d).
Proof. revert d. induction l as [|[m|j a|j] l IH]; intros d; cbn; auto. Qed.

Lemma in_order_app n l l' : in_order n (l ++ l') <-> in_order n l /\ in_order (n + length (makers l)) l'.
Proof.
  revert n. induction l as [|[m|j a|j] l IH]; intros n; cbn [app in_order makers length].
  - rewrite Nat.add_0_r. tauto.
  - rewrite IH. replace (S n + length (makers l))%nat with (n + S (length (makers l)))%nat by lia. tauto.
  - rewrite IH. tauto.
  - rewrite IH. tauto.
Qed.

Lemma not_yet n l i : in_order n l -> (n + length (makers l) <= i)%nat ->
  removed l i = false /\ forall A (sel : attribute -> option A) d, last_given sel i l d = d.
Proof.
  revert n. induction l as [|[m|j a|j] l IH]; intros n H Hi; cbn [in_order makers length] in *.
  - split; reflexivity.
  - destruct (IH (S n) H) as [I1 I2]; [lia|]. split; [exact I1|intros; apply I2].
  - destruct H as [Hj H]. destruct (IH n H Hi) as [I1 I2]. split; [exact I1|]. intros A sel d. cbn.
    destruct (Nat.eqb_spec j i); [lia|apply I2].
  - destruct H as [Hj H]. destruct (IH n H Hi) as [I1 I2]. split; [|intros; apply I2]. cbn. destruct (Nat.eqb_spec j i); [lia|exact I1].
Qed.

Lemma expected_kind_set m i l a : expected_kind m i (l ++ [SetContact i a]) = co_kind (write_attribute (new_contact (expected_kind m i l)) a).
Proof. destruct m, a; cbn; rewrite ?last_given_app; cbn; rewrite ?Nat.eqb_refl; reflexivity. Qed.

Lemma write_kind c c' a : co_kind c = co_kind c' -> co_kind (write_attribute c a) = co_kind (write_attribute c' a).
Proof. intros E. destruct a; cbn; rewrite ?E; reflexivity. Qed.

Lemma expected_other m i l c x : (forall a, c <> SetContact i a) -> expected m i l x -> expected m i (l ++ [c]) x.
Proof.
  intros Hc (K & A1 & A2 & A3 & A4 & A5). unfold expected. rewrite !last_given_app.
  assert (G : forall A (sel : attribute -> option A) d, last_given sel i [c] d = d).
  { intros A sel d. destruct c as [m'|j a|j]; cbn; try reflexivity. destruct (Nat.eqb_spec j i) as [->|]; [|reflexivity]. destruct (Hc a). reflexivity. }
  rewrite !G. repeat split; try assumption. rewrite K. destruct m; cbn; rewrite ?last_given_app, ?G; reflexivity.
Qed.

Lemma expected_set m i l a x : expected m i l x -> expected m i (l ++ [SetContact i a]) (write_attribute x a).
Proof.
  intros (K & A1 & A2 & A3 & A4 & A5). unfold expected. rewrite !last_given_app. split.
  - rewrite expected_kind_set. apply write_kind. cbn. exact K.
  - cbn. rewrite Nat.eqb_refl. destruct a; cbn; repeat split; auto.
Qed.

Lemma contacts_inv l : in_order 0 l ->
  cs_made (contacts_after l) = length (makers l) /\
  map fst (cs_list (contacts_after l)) = filter (fun i => negb (removed l i)) (seq 0 (length (makers l))) /\
  forall i c, In (i, c) (cs_list (contacts_after l)) -> exists m, nth_error (makers l) i = Some m /\ expected m i l c.
Proof.
  induction l as [|c l IH] using rev_ind; intros H.
  - split; [reflexivity|]. split; [reflexivity|]. intros i c [].
  - apply in_order_app in H. destruct H as [H Hc]. cbn [Nat.add] in Hc. destruct (IH H) as (I1 & I2 & I3). clear IH.
    unfold contacts_after in *. rewrite fold_left_app. cbn [fold_left]. set (s := fold_left contact_step l no_contacts) in *.
    assert (Lt : forall i x, In (i, x) (cs_list s) -> (i < length (makers l))%nat).
    { intros i x Hx. destruct (I3 i x Hx) as (m & Em & _). apply nth_error_Some. congruence. }
    rewrite makers_app. destruct c as [m|j a|j]; cbn [contact_step makers cs_made cs_list] in *; rewrite ?app_nil_r.
    + split; [rewrite app_length; cbn; lia|]. split.
      * rewrite map_app, I2. cbn [map fst]. rewrite app_length. cbn [length]. rewrite seq_app, filter_app. cbn [Nat.add seq filter].
        rewrite I1. destruct (not_yet 0 l (length (makers l)) H (Nat.le_refl _)) as [N1 _]. rewrite removed_app, N1. cbn. f_equal.
        apply filter_ext_in. intros i _. rewrite removed_app. cbn. rewrite orb_false_r. reflexivity.
      * intros i x Hx. apply in_app_or in Hx. destruct Hx as [Hx|[Hx|[]]].
        -- destruct (I3 i x Hx) as (m' & Em & Ex). exists m'. split; [rewrite nth_error_app1; [exact Em|apply (Lt i x Hx)]|].
           apply expected_other; [discriminate|exact Ex].
        -- injection Hx as <- <-. rewrite I1. exists m. split; [rewrite nth_error_app2, Nat.sub_diag by lia; reflexivity|].
           apply expected_other; [discriminate|]. destruct (not_yet 0 l (length (makers l)) H (Nat.le_refl _)) as [_ N2].
           unfold expected. rewrite !N2. destruct m; cbn; rewrite ?N2; repeat split.
    + split; [exact I1|]. split.
      * rewrite map_map. rewrite (map_ext _ fst) by (intros [i x]; cbn; now destruct (Nat.eqb i j)). rewrite I2.
        apply filter_ext_in. intros i _. rewrite removed_app. cbn. rewrite orb_false_r. reflexivity.
      * intros i x Hx. apply in_map_iff in Hx. destruct Hx as ([i0 x0] & Ex & Hx). cbn [fst snd] in Ex.
        destruct (I3 i0 x0 Hx) as (m & Em & Exp). destruct (Nat.eqb_spec i0 j) as [->|Nj].
        -- injection Ex as <- <-. exists m. split; [exact Em|]. apply expected_set. exact Exp.
        -- injection Ex as <- <-. exists m. split; [exact Em|]. apply expected_other; [|exact Exp]. intros b Hb. injection Hb as Hb _. congruence.
    + split; [exact I1|]. split.
      * assert (F : forall L : list (nat * contact), map fst (filter (fun x => negb (Nat.eqb (fst x) j)) L) = filter (fun i => negb (Nat.eqb i j)) (map fst L)).
        { induction L as [|[i0 x0] L IHL]; cbn; [reflexivity|]. destruct (negb (Nat.eqb i0 j)); cbn; rewrite IHL; reflexivity. }
        rewrite F, I2. clear F.
        assert (F2 : forall L : list nat, filter (fun i => negb (Nat.eqb i j)) (filter (fun i => negb (removed l i)) L) = filter (fun i => negb (removed (l ++ [RemoveContact j]) i)) L).
        { induction L as [|i0 L IHL]; cbn; [reflexivity|]. rewrite removed_app. cbn. rewrite orb_false_r, (Nat.eqb_sym j i0).
          destruct (removed l i0); cbn; [exact IHL|]. destruct (Nat.eqb i0 j); cbn; rewrite IHL; reflexivity. }
        apply F2.
      * intros i x Hx. apply filter_In in Hx. destruct Hx as [Hx _]. destruct (I3 i x Hx) as (m & Em & Exp). exists m. split; [exact Em|].
        apply expected_other; [discriminate|exact Exp].
Qed.
