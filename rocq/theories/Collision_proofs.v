(** Proofs about the collision pairs. *)
From Coq Require Import Reals List ZArith Bool String Lia Classical.
From Verif Require Import Base Geom3 Tools_model Geometry_model Robot_model Collision_model Collision_spec.
Import ListNotations.

Lemma same_pair_iff p p' : same_pair p p' = true <-> p' = p \/ p' = (snd p, fst p).
Proof.
  destruct p as [a b], p' as [c d]. unfold same_pair. cbn [fst snd]. rewrite orb_true_iff, !andb_true_iff, !Nat.eqb_eq.
  split; intros [H|H]; [left|right|left|right]; (destruct H; now subst) || (injection H; intros; now subst).
Qed.

Lemma NoDup_snoc {A} (l : list A) x : NoDup l -> ~ In x l -> NoDup (l ++ [x]).
Proof.
  intros H Hx. induction H as [|y l Hy H IH]; cbn; [constructor; [intros []|constructor]|]. constructor.
  - rewrite in_app_iff. intros [Hi|[->|[]]]; [exact (Hy Hi)|]. apply Hx. now left.
  - apply IH. intros Hi. apply Hx. now right.
Qed.

(** A body that adds to the pairs the ones [adds] tells, if [good], and otherwise throws. *)
Definition adder {A} (n : nat) (body : list pair -> A -> list pair * outcome unit) (x : A) (good : Prop) (adds : nat -> nat -> Prop) : Prop :=
  forall l, proper n l ->
    (good -> exists l', body l x = (l', Ok tt)) /\ (~ good -> exists l' e, body l x = (l', Throw e)) /\
    forall l' o, body l x = (l', o) -> proper n l' /\ (exists k, l' = l ++ k) /\ (forall a b, tested l' a b -> tested l a b \/ adds a b \/ adds b a) /\
      (o = Ok tt -> forall a b, adds a b -> tested l' a b).

Lemma tested_app l k a b : tested l a b -> tested (l ++ k) a b.
Proof. intros [H|H]; [left|right]; apply in_app_iff; now left. Qed.

Lemma each_adder {A} n (body : list pair -> A -> list pair * outcome unit) good adds L : (forall x, In x L -> adder n body x (good x) (adds x)) ->
  adder n (fun l L => each body L l) L (forall x, In x L -> good x) (fun a b => exists x, In x L /\ adds x a b).
Proof.
  induction L as [|x L IH]; intros H l Hl.
  - split; [eexists; reflexivity|]. split; [intros N; exfalso; apply N; intros x []|]. intros l' o [= <- <-]. split; [exact Hl|]. split; [exists []; now rewrite app_nil_r|].
    split; [auto|]. intros _ a b (x & [] & _).
  - specialize (IH (fun y Hy => H y (or_intror Hy))). destruct (H x (or_introl eq_refl) l Hl) as (G & B & P). cbn [each].
    destruct (body l x) as [l1 o1] eqn:E1. destruct (P l1 o1 eq_refl) as (P1 & (k1 & K1) & T1 & A1).
    assert (Hx : (o1 = Ok tt /\ good x) \/ (exists e, o1 = Throw e) /\ ~ good x).
    { destruct (classic (good x)) as [g|g]; [destruct (G g) as [l2 E2]; left; split; [congruence|exact g]|destruct (B g) as (l2 & e & E2); right; split; [exists e; congruence|exact g]]. }
    destruct (IH l1 P1) as (G2 & B2 & P2). split; [|split].
    + intros g. destruct Hx as [[-> _]|[_ N]]; [|exfalso; apply N, g; now left]. apply G2. intros y Hy. apply g. now right.
    + intros g. destruct Hx as [[-> gx]|[[e ->] _]]; [|eauto]. apply B2. intros g'. apply g. intros y [<-|Hy]; [exact gx|exact (g' y Hy)].
    + intros l' o E. destruct Hx as [[-> gx]|[[e ->] _]].
      * destruct (P2 l' o E) as (P3 & (k & K) & T2 & A2). split; [exact P3|]. split; [exists (k1 ++ k); rewrite K, K1, app_assoc; reflexivity|]. split.
        -- intros a b Ht. destruct (T2 a b Ht) as [Ht'|[(y & Hy & Ha)|(y & Hy & Ha)]].
           ++ destruct (T1 a b Ht') as [|[|]]; [now left|right; left; exists x; split; [now left|assumption]|right; right; exists x; split; [now left|assumption]].
           ++ right; left. exists y. split; [now right|exact Ha].
           ++ right; right. exists y. split; [now right|exact Ha].
        -- intros Eo a b (y & [<-|Hy] & Ha).
           ++ rewrite K. apply tested_app. exact (A1 eq_refl a b Ha).
           ++ apply (A2 Eo). eauto.
      * injection E as <- <-. split; [exact P1|]. split; [eauto|]. split; [|discriminate].
        intros a b Ht. destruct (T1 a b Ht) as [|[|]]; [now left|right; left; exists x; split; [now left|assumption]|right; right; exists x; split; [now left|assumption]].
Qed.

Lemma add_adder n za zb x : adder (A := unit) n (fun l _ => try_add n l za zb) x ((0 <= za < Z.of_nat n)%Z /\ (0 <= zb < Z.of_nat n)%Z /\ za <> zb)
  (fun a b => za = Z.of_nat a /\ zb = Z.of_nat b).
Proof.
  intros l Hl. unfold try_add, add_pair. destruct (Z.eqb_spec za zb) as [->|Hne].
  - split; [lia|]. split; [eauto|]. intros l' o [= <- <-]. split; [exact Hl|]. split; [exists []; now rewrite app_nil_r|]. split; [auto|discriminate].
  - destruct (_ || _) eqn:Eb.
    + split; [intros (H1 & H2 & _); exfalso; rewrite !orb_true_iff, !Z.ltb_lt, !Z.leb_le in Eb; lia|]. split; [eauto|].
      intros l' o [= <- <-]. split; [exact Hl|]. split; [exists []; now rewrite app_nil_r|]. split; [auto|discriminate].
    + rewrite !orb_false_iff, !Z.ltb_ge, !Z.leb_gt in Eb. destruct Eb as (((A0 & A1) & B0) & B1).
      set (p := (Z.to_nat za, Z.to_nat zb)). split; [eauto|]. split; [intros N; exfalso; apply N; lia|].
      intros l' o [= <- <-]. destruct (existsb (same_pair p) l) eqn:Ex.
      * split; [exact Hl|]. split; [exists []; now rewrite app_nil_r|]. split; [auto|]. intros _ a b [Ha Hb].
        apply existsb_exists in Ex. destruct Ex as (p' & Hp & Hs). apply same_pair_iff in Hs. subst za zb. unfold p in Hs. rewrite !Nat2Z.id in Hs. cbn in Hs.
        destruct Hs as [-> | ->]; [now left|now right].
      * assert (No : ~ In p l /\ ~ In (snd p, fst p) l).
        { split; intros Hi; assert (T : existsb (same_pair p) l = true) by (apply existsb_exists; eexists; split; [exact Hi|]; apply same_pair_iff; auto); congruence. }
        destruct No as [N1 N2]. split; [|split; [eauto|split]].
        -- destruct Hl as [Hl Hd]. split.
           ++ intros a b Hi. apply in_app_iff in Hi. destruct Hi as [Hi|[Hi|[]]].
              ** destruct (Hl a b Hi) as (L1 & L2 & L3 & L4). split; [exact L1|]. split; [exact L2|]. split; [exact L3|].
                 intros Hi'. apply in_app_iff in Hi'. destruct Hi' as [Hi'|[Hi'|[]]]; [exact (L4 Hi')|]. rewrite Hi' in N2. cbn in N2. contradiction.
              ** injection Hi as <- <-. split; [lia|]. split; [lia|]. split; [lia|].
                 intros Hi'. apply in_app_iff in Hi'. destruct Hi' as [Hi'|[Hi'|[]]]; [exact (N2 Hi')|]. injection Hi'. lia.
           ++ apply NoDup_snoc; assumption.
        -- intros a b [Hi|Hi]; apply in_app_iff in Hi; destruct Hi as [Hi|[Hi|[]]]; try (left; (left; assumption) || (right; assumption)); injection Hi as <- <-.
           ++ right; left. lia.
           ++ right; right. lia.
        -- intros _ a b [-> ->]. left. apply in_app_iff. right. left. unfold p. now rewrite !Nat2Z.id.
Qed.

Lemma objects_of_spec frames objects s k : In k (objects_of frames objects s) <-> on_body frames objects s k.
Proof.
  unfold objects_of, on_body. rewrite filter_In, in_seq. split.
  - intros [Hk H]. destruct (nth_error objects k) as [[nm [f|] j]|]; try discriminate. destruct (nth_error frames f) as [s'|] eqn:Ef; [|discriminate].
    apply String.eqb_eq in H. subst s'. eexists _, f. split; [reflexivity|]. split; [reflexivity|exact Ef].
  - intros (o & f & Ho & Hf & Hs). split.
    + assert (k < List.length objects)%nat by (apply nth_error_Some; congruence). lia.
    + rewrite Ho. destruct o as [nm fr j]. cbn in Hf. subst fr. rewrite Hs. apply String.eqb_refl.
Qed.
Lemma on_body_bound frames objects s k : on_body frames objects s k -> (k < List.length objects)%nat.
Proof. intros (o & f & Ho & _). apply nth_error_Some. congruence. Qed.

Lemma adder_ext {A} n body (x : A) good good' adds adds' : (good <-> good') -> (forall a b, adds a b <-> adds' a b) -> adder n body x good adds -> adder n body x good' adds'.
Proof.
  intros Hg Ha H l Hl. destruct (H l Hl) as (G & B & P). split; [tauto|]. split; [tauto|]. intros l' o E. destruct (P l' o E) as (P1 & P2 & P3 & P4).
  split; [exact P1|]. split; [exact P2|]. split; [intros a b Ht; rewrite <- !Ha; exact (P3 a b Ht)|]. intros Eo a b Hab. apply (P4 Eo). now apply Ha.
Qed.
Lemma adder_body {A B} n (body : list pair -> A -> list pair * outcome unit) (body' : list pair -> B -> list pair * outcome unit) x y good adds :
  (forall l, body l x = body' l y) -> adder n body x good adds -> adder n body' y good adds.
Proof. intros E H l Hl. rewrite <- (E l). exact (H l Hl). Qed.

Lemma entry_adder frames objects entry : adder (List.length objects) (load_entry frames objects) entry (loadable frames objects entry) (listed frames objects entry).
Proof.
  assert (Skip : (forall x y, entry <> [x; y]) -> adder (List.length objects) (load_entry frames objects) entry True (listed frames objects entry)).
  { intros Hn l Hl. assert (E : load_entry frames objects l entry = (l, Ok tt)).
    { destruct entry as [|x [|y [|z t]]]; try reflexivity. exfalso. exact (Hn x y eq_refl). }
    rewrite E. split; [eauto|]. split; [tauto|]. intros l' o [= <- <-]. split; [exact Hl|]. split; [exists []; now rewrite app_nil_r|]. split; [auto|].
    intros _ a b [->|(s & s' & -> & _)]; exfalso; eapply Hn; reflexivity. }
  assert (Bad : forall (e : exn) (X : (forall l, load_entry frames objects l entry = (l, Throw e))) good, ~ good -> adder (List.length objects) (load_entry frames objects) entry good (listed frames objects entry)).
  { intros e X good Hn l Hl. rewrite X. split; [tauto|]. split; [eauto|]. intros l' o [= <- <-]. split; [exact Hl|]. split; [exists []; now rewrite app_nil_r|]. split; [auto|discriminate]. }
  assert (T : (forall x y, entry <> [x; y]) -> (True <-> loadable frames objects entry)).
  { intros Hn. destruct entry as [|x [|y [|z t]]]; try (exfalso; exact (Hn x y eq_refl)); try destruct x; try destruct y; cbn; tauto. }
  destruct (classic (exists x y, entry = [x; y])) as [(x & y & ->)|Hn].
  2: { eapply adder_ext; [apply T|reflexivity|apply Skip]; intros x y E; apply Hn; eauto. }
  clear Skip T.
  destruct x as [za|s|], y as [zb|s'|]; try (apply (Bad ERuntime); [reflexivity|exact (fun F => F)]).
  - apply (adder_body (List.length objects) (fun l (_ : unit) => try_add (List.length objects) l za zb) _ tt); [reflexivity|].
    eapply adder_ext; [| |apply add_adder]; [reflexivity|]. intros a b. unfold listed. split.
    + intros [-> ->]. now left.
    + intros [[= -> ->]|(s & s' & [=] & _)]. split; reflexivity.
  - destruct (objects_of frames objects s) as [|k0 os0] eqn:Eo.
    { apply (Bad ERuntime); [intros l; cbn [load_entry]; rewrite Eo; reflexivity|]. intros ((k & Hk) & _). apply objects_of_spec in Hk. rewrite Eo in Hk. destruct Hk. }
    destruct (objects_of frames objects s') as [|k1 os1] eqn:Eo'.
    { apply (Bad ERuntime); [intros l; cbn [load_entry]; rewrite Eo, Eo'; reflexivity|]. intros (_ & (k & Hk) & _). apply objects_of_spec in Hk. rewrite Eo' in Hk. destruct Hk. }
    set (os := objects_of frames objects s) in *. set (os' := objects_of frames objects s') in *. set (n := List.length objects).
    apply (adder_body n (fun l L => each (fun l k1 => each (fun l k2 => try_add n l (Z.of_nat k1) (Z.of_nat k2)) os' l) L l) _ os).
    { intros l. cbn [load_entry]. fold os os' n. rewrite Eo, Eo'. reflexivity. }
    eapply adder_ext; [| |apply (each_adder n _ (fun k1 => forall k2, In k2 os' -> k1 <> k2) (fun k1 a b => exists k2, In k2 os' /\ k1 = a /\ k2 = b))].
    + split.
      * intros H. split; [exists k0; apply objects_of_spec; fold os; rewrite Eo; now left|]. split; [exists k1; apply objects_of_spec; fold os'; rewrite Eo'; now left|].
        intros k [Ha Hb]. apply objects_of_spec in Ha, Hb. exact (H k Ha k Hb eq_refl).
      * intros (_ & _ & H) k1' H1 k2 H2 ->. apply (H k2). split; apply objects_of_spec; assumption.
    + intros a b. split.
      * intros (k & Hk & k2 & Hk2 & -> & ->). right. exists s, s'. split; [reflexivity|]. split; apply objects_of_spec; assumption.
      * intros [[=]|(t & t' & [= <- <-] & Ha & Hb)]. apply objects_of_spec in Ha, Hb. exists a. split; [exact Ha|]. exists b. auto.
    + intros k Hk. assert (Bk : (k < n)%nat) by (apply (on_body_bound frames objects s), objects_of_spec; exact Hk).
      apply (adder_body n (fun l L => each (fun l k2 => try_add n l (Z.of_nat k) (Z.of_nat k2)) L l) _ os'); [reflexivity|].
      apply (each_adder n _ (fun k2 => k <> k2) (fun k2 a b => k = a /\ k2 = b)). intros k2 Hk2.
      assert (Bk2 : (k2 < n)%nat) by (apply (on_body_bound frames objects s'), objects_of_spec; exact Hk2).
      apply (adder_body n (fun l (_ : unit) => try_add n l (Z.of_nat k) (Z.of_nat k2)) _ tt); [reflexivity|].
      eapply adder_ext; [| |apply add_adder]; [lia|]. intros a b. lia.
Qed.

Lemma load_adder frames objects : forall L, adder (List.length objects) (fun l L => each (load_entry frames objects) L l) L (forall x, In x L -> loadable frames objects x)
  (fun a b => exists x, In x L /\ listed frames objects x a b).
Proof. intros L. apply each_adder. intros x _. apply entry_adder. Qed.

Lemma proper_nil n : proper n [].
Proof. split; [intros a b []|constructor]. Qed.
