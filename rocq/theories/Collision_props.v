From Coq Require Import Reals List ZArith Bool String Lra Lia Classical.
From Verif Require Import Base Linalg Geom3 Tools_model Geometry_model Robot_model Robot_spec Robot_proofs Robot_props Collision_model Collision_spec Collision_proofs.
Import ListNotations.

(** ** C148 The collision pairs *)

(** A file is loaded when all its entries can be. *)
Theorem C148_loads frames objects L pairs :
  (exists l, load_collision_pairs frames objects (Entries L) pairs = (l, Ok tt)) <-> forall x, In x L -> loadable frames objects x.
Proof.
  unfold load_collision_pairs. destruct (load_adder frames objects L [] (proper_nil _)) as (G & B & _). split; [|exact G].
  intros [l E]. apply NNPP. intros N. destruct (B N) as (l' & e & E'). congruence.
Qed.
Print Assumptions C148_loads.

(** Then the pairs that are tested are exactly the ones it lists: each of them once, of two different objects. *)
Theorem C148_pairs frames objects L pairs l : load_collision_pairs frames objects (Entries L) pairs = (l, Ok tt) ->
  proper (List.length objects) l /\ forall a b, tested l a b <-> exists x, In x L /\ (listed frames objects x a b \/ listed frames objects x b a).
Proof.
  unfold load_collision_pairs. intros E. destruct (load_adder frames objects L [] (proper_nil _)) as (_ & _ & P). destruct (P l (Ok tt) E) as (P1 & _ & P2 & P3).
  split; [exact P1|]. intros a b. split.
  - intros Ht. destruct (P2 a b Ht) as [[[]|[]]|[(x & Hx & Hl)|(x & Hx & Hl)]]; eauto.
  - intros (x & Hx & [Hl|Hl]).
    + apply (P3 eq_refl). eauto.
    + assert (T : tested l b a) by (apply (P3 eq_refl); eauto). destruct T; [now right|now left].
Qed.
Print Assumptions C148_pairs.

(** When the file cannot be loaded, the robot should keep the pairs it had: it does not. *)
Theorem C148_kept_refuted : ~ forall frames objects f pairs l e, load_collision_pairs frames objects f pairs = (l, Throw e) -> l = pairs.
Proof. intros H. specialize (H [] [] Missing [(0, 1)]%nat [] ERuntime eq_refl). discriminate. Qed.
Print Assumptions C148_kept_refuted.

(** What is left is a part of what the file lists: nothing if it cannot be read. *)
Theorem C148_failure_behaviour frames objects f pairs l e : load_collision_pairs frames objects f pairs = (l, Throw e) ->
  proper (List.length objects) l /\
  match f with
  | Entries L => (exists x, In x L /\ ~ loadable frames objects x) /\ forall a b, tested l a b -> exists x, In x L /\ (listed frames objects x a b \/ listed frames objects x b a)
  | _ => l = [] /\ e = ERuntime
  end.
Proof.
  unfold load_collision_pairs. destruct f as [| |L].
  - intros [= <- <-]. split; [apply proper_nil|auto].
  - intros [= <- <-]. split; [apply proper_nil|auto].
  - intros E. destruct (load_adder frames objects L [] (proper_nil _)) as (G & _ & P). destruct (P l (Throw e) E) as (P1 & _ & P2 & _). split; [exact P1|]. split.
    + apply NNPP. intros N. destruct G as [l' E']; [|congruence]. intros x Hx. apply NNPP. intros Hn. apply N. eauto.
    + intros a b Ht. destruct (P2 a b Ht) as [[[]|[]]|[(x & Hx & Hl)|(x & Hx & Hl)]]; eauto.
Qed.
Print Assumptions C148_failure_behaviour.

(** Without a file, all the pairs of objects of different joints. *)
Theorem C148_all_pairs objects : proper (List.length objects) (all_pairs objects) /\
  forall a b, tested (all_pairs objects) a b <-> exists oa ob, nth_error objects a = Some oa /\ nth_error objects b = Some ob /\ go_joint oa <> go_joint ob.
Proof.
  assert (I : forall a b, In (a, b) (all_pairs objects) <-> (a < b)%nat /\ exists oa ob, nth_error objects a = Some oa /\ nth_error objects b = Some ob /\ go_joint oa <> go_joint ob).
  { intros a b. unfold all_pairs. rewrite in_flat_map. split.
    - intros (i & Hi & H). apply in_seq in Hi. apply in_flat_map in H. destruct H as (j & Hj & H). apply in_seq in Hj.
      destruct (nth_error objects i) as [oi|] eqn:Ei; [|apply nth_error_None in Ei; lia]. destruct (nth_error objects j) as [oj|] eqn:Ej; [|apply nth_error_None in Ej; lia].
      destruct (Nat.eqb_spec (go_joint oi) (go_joint oj)); [destruct H|]. destruct H as [[= <- <-]|[]]. split; [lia|]. eauto.
    - intros (Hab & oa & ob & Ha & Hb & Hn). assert (Lb : (b < List.length objects)%nat) by (apply nth_error_Some; congruence).
      exists a. split; [apply in_seq; lia|]. apply in_flat_map. exists b. split; [apply in_seq; lia|]. rewrite Ha, Hb. destruct (Nat.eqb_spec (go_joint oa) (go_joint ob)); [contradiction|now left]. }
  split.
  - split.
    + intros a b H. apply I in H. destruct H as (Hab & oa & ob & Ha & Hb & _). assert (b < List.length objects)%nat by (apply nth_error_Some; congruence). split; [lia|]. split; [lia|]. split; [lia|].
      intros H'. apply I in H'. lia.
    + unfold all_pairs. set (joint := fun k => match nth_error objects k with Some o => go_joint o | None => 0%nat end). set (n := List.length objects).
      assert (X : forall L (g : nat -> list pair), NoDup L -> (forall i, In i L -> NoDup (g i)) -> (forall i p, In p (g i) -> fst p = i) -> NoDup (flat_map g L)).
      { clear. intros L g HL. induction HL as [|i L Hi HL IH]; intros Hg Hf; cbn; [constructor|].
        assert (D : forall p, In p (g i) -> In p (flat_map g L) -> False). { intros p Hp Hq. apply in_flat_map in Hq. destruct Hq as (j & Hj & Hq). apply Hf in Hp, Hq. subst. congruence. }
        assert (A := Hg i (or_introl eq_refl)). assert (B := IH (fun j Hj => Hg j (or_intror Hj)) Hf). clear - A B D. induction A as [|p k Hp A IHA]; cbn; [exact B|]. constructor.
        - rewrite in_app_iff. intros [H|H]; [exact (Hp H)|exact (D p (or_introl eq_refl) H)].
        - apply IHA. intros q Hq. apply D. now right. }
      apply X; [apply seq_NoDup| |].
      * intros i _. assert (Y : forall L (h : nat -> bool), NoDup L -> NoDup (flat_map (fun j => if h j then [] else [(i, j)]) L)).
        { clear. intros L h HL. induction HL as [|j L Hj HL IH]; cbn; [constructor|]. destruct (h j); [exact IH|]. cbn. constructor; [|exact IH].
          intros H. apply in_flat_map in H. destruct H as (k & Hk & H). destruct (h k); [destruct H|]. destruct H as [[= ->]|[]]. contradiction. }
        apply (Y _ (fun j => Nat.eqb (joint i) (joint j))), seq_NoDup.
      * intros i p H. apply in_flat_map in H. destruct H as (j & _ & H). destruct (Nat.eqb _ _); [destruct H|]. destruct H as [<-|[]]. reflexivity.
  - intros a b. unfold tested. rewrite !I. split.
    + intros [(_ & oa & ob & Ha & Hb & Hn)|(_ & ob & oa & Hb & Ha & Hn)]; exists oa, ob; auto.
    + intros (oa & ob & Ha & Hb & Hn). destruct (Nat.lt_trichotomy a b) as [H|[E|H]]; [left; split; [exact H|exists oa, ob; auto]| |right; split; [exact H|exists ob, oa; auto]]. exfalso. subst b. apply Hn. rewrite Ha in Hb. injection Hb as ->. reflexivity.
Qed.
Print Assumptions C148_all_pairs.

(** *** Example: a trunk with two objects, and two arms *)
Definition cx_frames : list string := ["universe"; "trunk"; "left"; "right"]%string.
Definition cx_objects : list gobject := [GObject "trunk_0" (Some 1%nat) 1; GObject "trunk_1" (Some 1%nat) 1; GObject "left_0" (Some 2%nat) 2; GObject "right_0" (Some 3%nat) 3].
Example C148_example :
  load_collision_pairs cx_frames cx_objects (Entries [[JString "left"; JString "trunk"]; [JInt 0]; [JInt 2; JInt 3]; [JInt 1; JInt 2]]) [(0, 3)]%nat = ([(2, 0); (2, 1); (2, 3)]%nat, Ok tt) /\
  load_collision_pairs cx_frames cx_objects (Entries [[JInt 2; JInt 3]; [JString "left"; JString "leg"]]) [(0, 3)]%nat = ([(2, 3)]%nat, Throw ERuntime) /\
  load_collision_pairs cx_frames cx_objects (Entries [[JString "trunk"; JString "trunk"]]) [(0, 3)]%nat = ([], Throw ELogic) /\
  all_pairs cx_objects = [(0, 2); (0, 3); (1, 2); (1, 3); (2, 3)]%nat.
Proof. repeat split. Qed.

(** ** C149 Collisions and distances *)

Section Queries.
Variable collide : vec -> pair -> option (list vec3).
Variable measure : vec -> pair -> R * vec3 * vec3.
Variable objects : list gobject.

Lemma object_ok k : (k < List.length objects)%nat -> exists o, nth_error objects k = Some o /\ object objects k = Ok o.
Proof. intros H. unfold object. destruct (nth_error objects k) as [o|] eqn:E; [eauto|]. apply nth_error_None in E. lia. Qed.

Lemma collisions_spec q stop l : (forall a b, In (a, b) l -> (a < List.length objects)%nat /\ (b < List.length objects)%nat) ->
  exists cs, collisions_loop collide objects q stop l = Ok cs /\
    Forall2 (reports collide objects q) ((if stop then firstn 1 else fun x => x) (filter (colliding collide q) l)) cs.
Proof.
  induction l as [|p l IH]; intros H; cbn [collisions_loop filter].
  - exists []. split; [reflexivity|]. destruct stop; constructor.
  - destruct (IH (fun a b Hi => H a b (or_intror Hi))) as (cs & E & F). destruct p as [a b]. destruct (H a b (or_introl eq_refl)) as [Ha Hb].
    unfold colliding at 1. destruct (collide q (a, b)) as [contacts|] eqn:Ec; [|eauto].
    destruct (object_ok a Ha) as (oa & Na & Oa). destruct (object_ok b Hb) as (ob & Nb & Ob). cbn [fst snd]. rewrite Oa, Ob. cbn [obind].
    assert (Rp : reports collide objects q (a, b) (Collision a b (go_name oa) (go_name ob) (go_joint oa) (go_joint ob) contacts)).
    { split; [reflexivity|]. split; [exact Ec|]. exists oa, ob. cbn. auto 10. }
    destruct stop.
    + eexists. split; [reflexivity|]. cbn. constructor; [exact Rp|constructor].
    + rewrite E. cbn [obind]. eexists. split; [reflexivity|]. constructor; assumption.
Qed.

(** self_collisions() gives the pairs that are in collision in the current configuration, in their order, with the names and the joints of their objects;
    with stop_at_first, the first of them. *)
Theorem C149_collisions r pairs (stop : bool) : proper (List.length objects) pairs -> exists cs, self_collisions collide objects r pairs stop = Ok cs /\
  Forall2 (reports collide objects (st_q (r_state r))) ((if stop then firstn 1 else fun x => x) (filter (colliding collide (st_q (r_state r))) pairs)) cs.
Proof. intros [H _]. apply collisions_spec. intros a b Hi. destruct (H a b Hi) as (A & B & _). auto. Qed.

(** To know whether there is a collision, stop_at_first is enough. *)
Theorem C149_stop r pairs cs cs' : proper (List.length objects) pairs -> self_collisions collide objects r pairs false = Ok cs -> self_collisions collide objects r pairs true = Ok cs' ->
  cs' = firstn 1 cs /\ (cs' = [] <-> forall p, In p pairs -> collide (st_q (r_state r)) p = None).
Proof.
  intros Hp E E'. set (q := st_q (r_state r)) in *.
  assert (X : cs' = firstn 1 cs).
  { unfold self_collisions in E, E'. fold q in E, E'. clear Hp. revert cs E E'. induction pairs as [|p l IH]; intros cs E E'; cbn [collisions_loop] in E, E'; [injection E as <-; injection E' as <-; reflexivity|].
    destruct (collide q p) as [contacts|]; [|exact (IH cs E E')]. destruct (object objects (fst p)) as [oa| |]; cbn [obind] in E, E'; try discriminate. destruct (object objects (snd p)) as [ob| |]; cbn [obind] in E, E'; try discriminate.
    destruct (collisions_loop collide objects q false l) as [cs0| |]; cbn [obind] in E; try discriminate. injection E as <-. injection E' as <-. reflexivity. }
  split; [exact X|]. destruct (C149_collisions r pairs true Hp) as (c2 & E2 & F). fold q in F. assert (c2 = cs') by congruence. subst c2. split.
  - intros ->. inversion F as [F0|]. intros p Hi. destruct (collide q p) eqn:Ec; [|reflexivity]. exfalso. assert (Hf : In p (filter (colliding collide q) pairs)) by (apply filter_In; split; [exact Hi|unfold colliding; now rewrite Ec]).
    destruct (filter (colliding collide q) pairs); [destruct Hf|discriminate].
  - intros H. replace (filter (colliding collide q) pairs) with (@nil pair) in F; [now inversion F|].
    clear - H. induction pairs as [|p l IH]; cbn; [reflexivity|]. unfold colliding at 1. rewrite (H p (or_introl eq_refl)). apply IH. intros p' Hp'. apply H. now right.
Qed.

(** distances() gives the distance of every pair, in their order. *)
Theorem C149_distances r pairs : proper (List.length objects) pairs -> exists ds, distances measure objects r pairs = Ok ds /\
  Forall2 (measures measure objects (st_q (r_state r))) pairs ds.
Proof.
  intros [H _]. unfold distances. set (q := st_q (r_state r)). assert (H' : forall a b, In (a, b) pairs -> (a < List.length objects)%nat /\ (b < List.length objects)%nat) by (intros a b Hi; destruct (H a b Hi) as (A & B & _); auto).
  clear H. induction pairs as [|p l IH]; cbn [distances_loop]; [eexists; split; [reflexivity|constructor]|].
  destruct (IH (fun a b Hi => H' a b (or_intror Hi))) as (ds & E & F). destruct p as [a b]. destruct (H' a b (or_introl eq_refl)) as [Ha Hb].
  destruct (object_ok a Ha) as (oa & Na & Oa). destruct (object_ok b Hb) as (ob & Nb & Ob). cbn [fst snd]. rewrite Oa, Ob. cbn [obind].
  destruct (measure q (a, b)) as [[d pa] pb] eqn:Em. rewrite E. cbn [obind]. eexists. split; [reflexivity|]. constructor; [|exact F].
  split; [reflexivity|]. split; [exact Em|]. exists oa, ob. cbn. auto.
Qed.
End Queries.
Print Assumptions C149_collisions.
Print Assumptions C149_stop.
Print Assumptions C149_distances.

Definition cx_collide (_ : vec) (p : pair) : option (list vec3) := if Nat.eqb (fst p) 2 then Some [V3 1 2 3] else None.
Example C149_example : proper (List.length cx_objects) [(2, 0); (1, 3); (2, 3)]%nat /\
  self_collisions cx_collide cx_objects ex_robot [(2, 0); (1, 3); (2, 3)]%nat false =
    Ok [Collision 2 0 "left_0" "trunk_0" 2 1 [V3 1 2 3]; Collision 2 3 "left_0" "right_0" 2 3 [V3 1 2 3]] /\
  self_collisions cx_collide cx_objects ex_robot [(2, 0); (1, 3); (2, 3)]%nat true = Ok [Collision 2 0 "left_0" "trunk_0" 2 1 [V3 1 2 3]].
Proof.
  split; [|split; reflexivity]. split.
  - intros a b H. cbn in H. repeat (destruct H as [[= <- <-]|H]); try destruct H; (split; [cbn; lia|]; split; [cbn; lia|]; split; [lia|]); intros H; cbn in H; repeat (destruct H as [H|H]; [discriminate|]); destruct H.
  - repeat constructor; cbn; intros H; repeat (destruct H as [H|H]; [discriminate|]); destruct H.
Qed.

(** ** C150 A new robot *)

(** It is in the neutral configuration, at rest, its kinematics are those of this configuration, its limits are those of the file except the ones that are not
    defined there (both are 0), that are those of the doubles; its pairs are those of the file, or all of them, or none. *)
Theorem C150_new pn huge m objects ignore exists_file f r pairs : new_robot pn huge m objects ignore exists_file f = Ok (r, pairs) ->
  st_q (r_state r) = pn_neutral pn /\ vec_eq (st_qd (r_state r)) (zeros (m_nv m)) /\ vec_eq (st_qdd (r_state r)) (zeros (m_nv m)) /\ up_to_date r /\
  (forall k, (k < vlen (m_lower m))%nat ->
     (vat (m_lower m) k = 0 /\ vat (m_upper m) k = 0 -> vat (m_lower (r_model r)) k = - huge /\ vat (m_upper (r_model r)) k = huge) /\
     (vat (m_lower m) k <> 0 \/ vat (m_upper m) k <> 0 -> vat (m_lower (r_model r)) k = vat (m_lower m) k /\ vat (m_upper (r_model r)) k = vat (m_upper m) k))%R /\
  m_joints (r_model r) = m_joints m /\ m_frames (r_model r) = m_frames m /\ m_velocity (r_model r) = m_velocity m /\ m_effort (r_model r) = m_effort m /\
  proper (List.length objects) pairs /\
  forall a b, tested pairs a b <-> ignore = false /\
    (if exists_file then exists L x, f = Entries L /\ In x L /\ (listed (m_frames m) objects x a b \/ listed (m_frames m) objects x b a)
     else exists oa ob, nth_error objects a = Some oa /\ nth_error objects b = Some ob /\ go_joint oa <> go_joint ob).
Proof.
  unfold new_robot. destruct (if ignore then _ else _) as [l| |] eqn:El; cbn [obind]; try discriminate. cbv zeta. intros [= <- <-].
  split; [reflexivity|]. split; [split; [reflexivity|intros; reflexivity]|]. split; [split; [reflexivity|intros; reflexivity]|]. split; [reflexivity|]. split.
  { intros k Hk. cbn [update_kinematics reset set_state r_model patch_limits with_limits m_lower m_upper vat]. destruct (Req_EM_T (vat (m_lower m) k) 0), (Req_EM_T (vat (m_upper m) k) 0); split; intros H; try tauto; split; reflexivity || tauto. }
  split; [reflexivity|]. split; [reflexivity|]. split; [reflexivity|]. split; [reflexivity|].
  destruct ignore.
  - injection El as <-. split; [apply proper_nil|]. intros a b. split; [intros [[]|[]]|intros [[=] _]].
  - destruct exists_file.
    + destruct (load_collision_pairs (m_frames m) objects f []) as [l' [u| |]] eqn:Ef; try discriminate. injection El as <-. destruct u.
      destruct f as [| |L]; try discriminate Ef. destruct (C148_pairs _ _ _ _ _ Ef) as [P T]. split; [exact P|]. intros a b. rewrite T. split.
      * intros (x & Hx & H). split; [reflexivity|]. eauto.
      * intros (_ & L' & x & [= <-] & H). eauto.
    + injection El as <-. destruct (C148_all_pairs objects) as [P T]. split; [exact P|]. intros a b. rewrite T. tauto.
Qed.
Print Assumptions C150_new.
(** There is no robot exactly when its file of pairs cannot be loaded. *)
Theorem C150_fails pn huge m objects (ignore exists_file : bool) f : (exists e, new_robot pn huge m objects ignore exists_file f = Throw e) <->
  ignore = false /\ exists_file = true /\ forall L, f = Entries L -> exists x, In x L /\ ~ loadable (m_frames m) objects x.
Proof.
  unfold new_robot. destruct ignore; [cbn [obind]; split; [intros [e [=]]|intros [[=] _]]|]. destruct exists_file; [|cbn [obind]; split; [intros [e [=]]|intros (_ & [=] & _)]].
  destruct (load_collision_pairs (m_frames m) objects f []) as [l [u|e|]] eqn:Ef; cbn [obind].
  - split; [intros [e [=]]|]. intros (_ & _ & H). destruct f as [| |L]; try discriminate Ef. destruct (H L eq_refl) as (x & Hx & Hn). exfalso. apply Hn.
    destruct u. exact (proj1 (C148_loads _ _ L []) (ex_intro _ l Ef) x Hx).
  - split; [|eauto]. intros _. split; [reflexivity|]. split; [reflexivity|]. intros L ->. exact (proj1 (proj2 (C148_failure_behaviour _ _ _ _ _ _ Ef))).
  - exfalso. destruct f as [| |L]; try discriminate Ef. unfold load_collision_pairs in Ef. destruct (load_adder (m_frames m) objects L [] (proper_nil _)) as (G & B & _).
    destruct (classic (forall x, In x L -> loadable (m_frames m) objects x)) as [g|g]; [destruct (G g); congruence|destruct (B g) as (? & ? & ?); congruence].
Qed.
Print Assumptions C150_fails.

Example C150_example huge : exists r, new_robot ex_pin huge ex_model cx_objects false false Missing = Ok (r, all_pairs cx_objects) /\ List.length (all_pairs cx_objects) = 5%nat /\
  new_robot ex_pin huge ex_model cx_objects false true Missing = Throw ERuntime.
Proof. eexists. split; [reflexivity|]. split; reflexivity. Qed.
