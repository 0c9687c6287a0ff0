(** C170, continued: what each call of the API needs to stay alive. *)
From Coq Require Import List Arith Bool Lia.
From Verif Require Import PyLife_model PyLife_spec PyLife_spec2 PyLife_proofs PyLife_props.
Import ListNotations.

(** Addresses and names designate something. *)
Record sane (s : pystate) : Prop := Sane {
  sa_addr : forall p, p < length (ps_py s) -> addr s p < length (ps_cpp s);
  sa_names : forall p, In p (ps_names s) -> p < length (ps_py s);
  sa_points : forall a b, a < length (ps_cpp s) -> In b (co_points (cpp_at s a)) -> b < length (ps_cpp s) }.

Lemma sane_bind s cs p : sane s -> po_addr p < length (ps_cpp s) + length cs ->
  (forall c b, In c cs -> In b (co_points c) -> b < length (ps_cpp s) + length cs) -> sane (bind s cs p).
Proof.
  intros W H1 H3.
  assert (LP : length (ps_py (bind s cs p)) = S (length (ps_py s))) by (unfold bind; cbn; rewrite app_length; cbn; lia).
  assert (LC : length (ps_cpp (bind s cs p)) = length (ps_cpp s) + length cs) by (unfold bind; cbn; now rewrite app_length).
  constructor; rewrite ?LP, ?LC.
  - intros q Hq. unfold addr. destruct (Nat.eq_dec q (length (ps_py s))) as [->|Nq]; [now rewrite py_at_new|].
    rewrite py_at_bind by lia. pose proof (sa_addr s W q ltac:(lia)) as G. unfold addr in G. lia.
  - intros q [<-|Hq]; [lia|]. apply (sa_names s W) in Hq. lia.
  - intros a b Ha Ib. destruct (le_lt_dec (length (ps_cpp s)) a) as [G|Lt].
    + eapply H3; [|exact Ib]. replace a with (length (ps_cpp s) + (a - length (ps_cpp s))) by lia. rewrite cpp_at_new. apply nth_In. lia.
    + rewrite cpp_at_bind in Ib by exact Lt. pose proof (sa_points s W a b Lt Ib). lia.
Qed.

Definition fits (s : pystate) (o : pystep) : Prop :=
  (forall h, In h (mentions o) -> In h (ps_names s)) /\
  match o with Inner h k | Outer h k => k < length (co_points (cpp_at s (addr s h))) | _ => True end.

Lemma sane_step s o : sane s -> fits s o -> sane (py_do s o).
Proof.
  intros W (M & B). assert (Ad : forall h, In h (mentions o) -> addr s h < length (ps_cpp s)) by (intros h Hh; apply (sa_addr s W), (sa_names s W), M, Hh).
  assert (St : forall args through b, (forall h, In h (args ++ through) -> In h (mentions o)) -> In b (stored s args through) -> b < length (ps_cpp s)).
  { intros args through b Hs Ib. destruct (stored_points _ _ _ _ Ib) as [(g & Hg & ->)|(g & Hg & Hb)].
    - apply Ad, Hs, in_or_app. now left.
    - apply (sa_points s W (addr s g)); [|exact Hb]. apply Ad, Hs, in_or_app. now right. }
  destruct o as [args through|h args through|h k|h k|h k|h g|h|h]; cbn [py_do].
  - apply sane_bind; [exact W|cbn; lia|]. intros c b [<-|[]] Ib. cbn in *. pose proof (St args through b ltac:(auto) Ib). lia.
  - apply sane_bind; [exact W|cbn; lia|]. intros c b [<-|[]] [<-|Ib]; cbn in *; [pose proof (Ad h ltac:(auto)); lia|].
    pose proof (St args through b ltac:(intros; right; auto) Ib). lia.
  - apply sane_bind; [exact W|cbn; rewrite app_length, repeat_length; cbn; lia|]. intros c b Hc Ib. rewrite app_length, repeat_length. apply in_app_or in Hc. destruct Hc as [Hc|[<-|[]]].
    + apply repeat_spec in Hc. subst c. destruct Ib as [<-|[]]. pose proof (Ad h ltac:(cbn; auto)). lia.
    + cbn in Ib. apply in_seq in Ib. cbn. lia.
  - apply sane_bind; [exact W| |intros c b []]. cbn. rewrite Nat.add_0_r. apply (sa_points s W (addr s h)); [apply Ad; cbn; auto|]. now apply nth_In.
  - apply sane_bind; [exact W| |intros c b []]. cbn. rewrite Nat.add_0_r. apply (sa_points s W (addr s h)); [apply Ad; cbn; auto|]. now apply nth_In.
  - pose proof (Ad h ltac:(cbn; auto)) as Lh. pose proof (Ad g ltac:(cbn; auto)) as Lg. constructor; cbn [ps_cpp ps_py ps_names]; rewrite ?set_points_length.
    + intros p Hp. exact (sa_addr s W p Hp).
    + exact (sa_names s W).
    + intros a b La. unfold cpp_at. cbn [ps_cpp]. rewrite set_points_nth by exact Lh. destruct (Nat.eqb_spec a (addr s h)) as [->|Na].
      * cbn. intros Ib. apply in_app_or in Ib. destruct Ib as [Ib|[<-|[]]]; [|exact Lg]. exact (sa_points s W _ _ Lh Ib).
      * intros Ib. exact (sa_points s W _ _ La Ib).
  - exact W.
  - constructor; cbn [ps_cpp ps_py ps_names]; [exact (sa_addr s W)| |exact (sa_points s W)]. intros p Hp. apply (sa_names s W). now apply in_remove in Hp.
Qed.

Lemma sane_start : sane py_start.
Proof. constructor; cbn; intros; try lia; contradiction. Qed.

(** [grew s s']: the objects of [s] are in [s'], where they designate and point to what they did, and belong to the same. *)
Definition grew (s s' : pystate) : Prop :=
  length (ps_py s) <= length (ps_py s') /\ length (ps_cpp s) <= length (ps_cpp s') /\
  (forall p, p < length (ps_py s) -> addr s' p = addr s p) /\
  forall a, a < length (ps_cpp s) -> co_root (cpp_at s' a) = co_root (cpp_at s a) /\ incl (co_points (cpp_at s a)) (co_points (cpp_at s' a)).

Lemma grew_refl s : grew s s.
Proof. repeat split; auto. apply incl_refl. Qed.
Lemma grew_trans a b c : grew a b -> grew b c -> grew a c.
Proof.
  intros (A1 & A2 & A3 & A4) (B1 & B2 & B3 & B4). split; [lia|]. split; [lia|]. split.
  - intros p Hp. rewrite B3 by lia. now apply A3.
  - intros x Hx. destruct (A4 x Hx) as [E1 I1]. destruct (B4 x ltac:(lia)) as [E2 I2]. split; [congruence|]. eapply incl_tran; eauto.
Qed.
Lemma grew_bind s cs p : grew s (bind s cs p).
Proof.
  split; [|split; [|split]].
  - unfold bind. cbn. rewrite app_length. lia.
  - unfold bind. cbn. rewrite app_length. lia.
  - intros q Hq. unfold addr. now rewrite py_at_bind.
  - intros a Ha. rewrite cpp_at_bind by exact Ha. split; [reflexivity|apply incl_refl].
Qed.
Lemma grew_step s o : sane s -> fits s o -> grew s (py_do s o).
Proof.
  intros W (M & _). destruct o as [args through|h args through|h k|h k|h k|h g|h|h]; cbn [py_do]; try apply grew_bind; try apply grew_refl; [|repeat split; auto; apply incl_refl].
  assert (Lh : addr s h < length (ps_cpp s)) by (apply (sa_addr s W), (sa_names s W), M; cbn; auto).
  split; [cbn; lia|]. split; [cbn [ps_cpp]; rewrite set_points_length; lia|]. split; [reflexivity|].
  intros a Ha. unfold cpp_at. cbn [ps_cpp]. rewrite set_points_nth by exact Lh. destruct (Nat.eqb_spec a (addr s h)) as [->|Na]; cbn; (split; [reflexivity|]); [apply incl_appl|]; apply incl_refl.
Qed.
Lemma grew_run : forall l s, sane s -> well_named s l -> sane (fold_left py_do l s) /\ grew s (fold_left py_do l s).
Proof.
  induction l as [|o l IH]; intros s W Hn; cbn [fold_left]; [split; [exact W|apply grew_refl]|]. destruct Hn as (M & B & Hn).
  destruct (IH (py_do s o) (sane_step s o W (conj M B)) Hn) as (W' & G). split; [exact W'|]. exact (grew_trans _ _ _ (grew_step s o W (conj M B)) G).
Qed.
Lemma named_app : forall l s r, well_named s (l ++ r) -> well_named s l /\ well_named (fold_left py_do l s) r.
Proof.
  induction l as [|o l IH]; intros s r Hn; cbn [app fold_left] in *; [split; [exact Logic.I|exact Hn]|]. destruct Hn as (M & B & Hn). destruct (IH _ _ Hn) as (H1 & H2).
  split; [split; [exact M|split; [exact B|exact H1]]|exact H2].
Qed.

(** What the subject of a call points to right after the call. *)
Lemma reaches_needed s o p : sane s -> fits s o -> needs s o p ->
  let s1 := py_do s o in exists a, a < length (ps_cpp s1) /\ co_root (cpp_at s1 a) = p /\ subject s o < length (ps_py s1) /\
    (addr s1 (subject s o) = a \/ In a (co_points (cpp_at s1 (addr s1 (subject s o)))) \/
     exists b, In b (co_points (cpp_at s1 (addr s1 (subject s o)))) /\ In a (co_points (cpp_at s1 b))).
Proof.
  intros W F H. pose proof (sane_step s o W F) as W1. destruct F as (M & B).
  assert (Ad : forall h, In h (mentions o) -> addr s h < length (ps_cpp s)) by (intros h Hh; apply (sa_addr s W), (sa_names s W), M, Hh).
  assert (Nw : forall c q, addr (bind s c q) (length (ps_py s)) = po_addr q) by (intros; unfold addr; now rewrite py_at_new).
  assert (Lp : forall c q, length (ps_py s) < length (ps_py (bind s c q))) by (intros; unfold bind; cbn; rewrite app_length; cbn; lia).
  assert (Lc : forall c q, length (ps_cpp s) <= length (ps_cpp (bind s c q))) by (intros; unfold bind; cbn; rewrite app_length; lia).
  (* an object made by a constructor or inside another, which stores the address [a] *)
  assert (K : forall c q a, po_addr q = length (ps_cpp s) -> In a (co_points c) -> a < length (ps_cpp s) ->
    let s1 := bind s [c] q in a < length (ps_cpp s1) /\ co_root (cpp_at s1 a) = co_root (cpp_at s a) /\ length (ps_py s) < length (ps_py s1) /\
      In a (co_points (cpp_at s1 (addr s1 (length (ps_py s)))))).
  { intros c q a Hq Ia La s1. split; [unfold s1; pose proof (Lc [c] q); lia|]. split; [unfold s1; now rewrite cpp_at_bind|]. split; [apply Lp|]. unfold s1. rewrite Nw, Hq, cpp_at_new0. exact Ia. }
  (* two objects made inside [h], and a pair that points to them *)
  assert (Q : forall h, addr s h < length (ps_cpp s) -> let s1 := py_do s (Made h 2) in addr s h < length (ps_cpp s1) /\ co_root (cpp_at s1 (addr s h)) = owner_of s h /\
    length (ps_py s) < length (ps_py s1) /\ exists b, In b (co_points (cpp_at s1 (addr s1 (length (ps_py s))))) /\ In (addr s h) (co_points (cpp_at s1 b))).
  { intros h La s1. unfold s1. cbn [py_do]. split; [match goal with |- context [bind s ?c ?q] => pose proof (Lc c q) end; lia|]. split; [now rewrite cpp_at_bind|]. split; [apply Lp|].
    rewrite Nw. cbn [po_addr]. exists (length (ps_cpp s)). cbn [repeat app]. rewrite cpp_at_new, cpp_at_new0. cbn [nth co_points seq]. split; now left. }
  assert (C5 : forall args z, In z args -> In z (mentions o) -> let s1 := py_do s (New args []) in exists a, a < length (ps_cpp s1) /\ co_root (cpp_at s1 a) = owner_of s z /\
    length (ps_py s) < length (ps_py s1) /\ (addr s1 (length (ps_py s)) = a \/ In a (co_points (cpp_at s1 (addr s1 (length (ps_py s))))) \/
     exists b, In b (co_points (cpp_at s1 (addr s1 (length (ps_py s))))) /\ In a (co_points (cpp_at s1 b)))).
  { intros args z Hz Mz. cbn [py_do]. exists (addr s z).
    destruct (K (CObj None (length (ps_py s)) (stored s args [])) (PObj (length (ps_cpp s)) []) (addr s z) eq_refl) as (K1 & K2 & K3 & K4);
      [apply in_or_app; left; now apply in_map|now apply Ad|]. split; [exact K1|]. split; [exact K2|]. split; [exact K3|]. right. left. exact K4. }
  destruct H as [x|x|x|x y|x y|x|x|x y|x y b Hb|x|x y]; cbn [subject make_a_solver make_integrator make_planner make_walk make_lipm add_a_frame_task add_contact_on add_contact_on_frame robot_of add_given];
    unfold make_a_solver, make_integrator, make_planner, make_walk, make_lipm, add_a_frame_task, add_contact_on, add_contact_on_frame, robot_of, add_given in *; cbn [subject].
  - apply (C5 [x] x); cbn; auto.
  - apply (C5 [x] x); cbn; auto.
  - apply (C5 [x] x); cbn; auto.
  - apply (C5 [x; y] x); cbn; auto.
  - apply (C5 [x; y] y); cbn; auto.
  - destruct (Q x (Ad x ltac:(cbn; auto))) as (Q1 & Q2 & Q3 & Q4). exists (addr s x). auto 8.
  - destruct (Q x (Ad x ltac:(cbn; auto))) as (Q1 & Q2 & Q3 & Q4). exists (addr s x). auto 8.
  - cbn [py_do]. exists (addr s y).
    match goal with |- context [bind s [?c] ?q] => destruct (K c q (addr s y) eq_refl) as (K1 & K2 & K3 & K4) end; [right; apply in_or_app; left; now left|apply Ad; cbn; auto|auto 8].
  - cbn [py_do]. exists b.
    match goal with |- context [bind s [?c] ?q] => destruct (K c q b eq_refl) as (K1 & K2 & K3 & K4) end.
    + right. apply in_or_app. right. apply in_flat_map. exists y. split; [now left|exact Hb].
    + apply (sa_points s W (addr s y)); [apply Ad; cbn; auto|exact Hb].
    + auto 8.
  - cbn [py_do]. assert (Ln : nth 0 (co_points (cpp_at s (addr s x))) 0 < length (ps_cpp s)).
    { apply (sa_points s W (addr s x)); [apply Ad; cbn; auto|]. now apply nth_In. }
    exists (nth 0 (co_points (cpp_at s (addr s x))) 0). split; [match goal with |- context [bind s ?c ?q] => pose proof (Lc c q) end; lia|]. split; [now rewrite cpp_at_bind|]. split; [apply Lp|].
    left. rewrite Nw. reflexivity.
  - pose proof (Ad x ltac:(cbn; auto)) as Lx. pose proof (Ad y ltac:(cbn; auto)) as Ly. cbn [py_do]. exists (addr s y). cbn [ps_cpp ps_py]. rewrite set_points_length.
    split; [exact Ly|]. split.
    { unfold cpp_at, owner_of. cbn [ps_cpp]. rewrite set_points_nth by exact Lx. destruct (Nat.eqb_spec (addr s y) (addr s x)) as [E|Ne]; [|reflexivity]. cbn. unfold cpp_at. now rewrite E. }
    split; [apply (sa_names s W), M; cbn; auto|]. right. left. change (addr (PyState (set_points (ps_cpp s) (addr s x) (addr s y)) (ps_py s) (ps_names s)) x) with (addr s x).
    unfold cpp_at. cbn [ps_cpp]. rewrite set_points_nth by exact Lx. rewrite Nat.eqb_refl. cbn. apply in_or_app. right. now left.
Qed.

(** In any program: once what a call refers to is gone, its subject cannot be used any more, whatever was done before, between and after. *)
Theorem C170_api_behaviour : forall l o r p, well_named py_start (l ++ o :: r) -> needs (py_run l) o p ->
  let s := py_run (l ++ o :: r) in ~ py_alive s p -> ~ defined_on s (subject (py_run l) o).
Proof.
  intros l o r p Hn H s Hd Df. destruct (named_app l py_start (o :: r) Hn) as (N1 & N2). destruct (grew_run l py_start sane_start N1) as (W & _).
  fold (py_run l) in *. destruct N2 as (M & B & N3). destruct (reaches_needed (py_run l) o p W (conj M B) H) as (a & La & Ra & Ls & Fa).
  pose proof (sane_step _ _ W (conj M B)) as W1. destruct (grew_run r _ W1 N3) as (W2 & (G1 & G2 & G3 & G4)).
  assert (Es : s = fold_left py_do r (py_do (py_run l) o)) by (unfold s, py_run; now rewrite fold_left_app). rewrite <- Es in *.
  set (s1 := py_do (py_run l) o) in *. set (h := subject (py_run l) o) in *. pose proof (sa_addr s1 W1 h Ls) as Lh. apply Hd. rewrite <- Ra. destruct (G4 a La) as [<- _]. apply Df. rewrite (G3 h Ls).
  destruct Fa as [->|[Ia|(b & Ib & Ia)]]; [constructor| |].
  - apply (follows_points _ _ (addr s1 h)); [constructor|]. now apply (G4 _ Lh).
  - pose proof (sa_points s1 W1 _ _ Lh Ib) as Lb. apply (follows_points _ _ b); [apply (follows_points _ _ (addr s1 h)); [constructor|]; now apply (G4 _ Lh)|]. now apply (G4 _ Lb).
Qed.

(** A walk whose parameters were built in the call, a LIPM whose problem is gone, and a contact on a task of another solver that is gone. *)
Example C170_api_example :
  (let l := [New [] []; New [] []] in let r := [Drop 1] in well_named py_start (l ++ make_walk 0 1 :: r) /\ needs (py_run l) (make_walk 0 1) 1 /\ ~ py_alive (py_run (l ++ make_walk 0 1 :: r)) 1) /\
  (let l := [New [] []] in let r := [Drop 0] in well_named py_start (l ++ make_lipm 0 :: r) /\ needs (py_run l) (make_lipm 0) 0 /\ ~ py_alive (py_run (l ++ make_lipm 0 :: r)) 0) /\
  (let l := [New [] []; make_a_solver 0; make_a_solver 0; add_inside 2] in let r := [Drop 2; Drop 3] in
   well_named py_start (l ++ add_contact_on 1 3 :: r) /\ needs (py_run l) (add_contact_on 1 3) 2 /\ ~ py_alive (py_run (l ++ add_contact_on 1 3 :: r)) 2).
Proof.
  assert (D : forall s p, (forall n, In n (ps_names s) -> ~ (p = n \/ In p (po_keeps (py_at s n)))) -> ~ py_alive s p) by (intros s p H (n & Hn & Q); exact (H n Hn Q)).
  repeat split; try (cbn; repeat split; auto; intros; intuition (subst; auto); fail);
    try (match goal with |- needs _ _ _ => first [exact (walk_needs_parameters _ 0 1)|exact (lipm_needs_problem _ 0)|exact (contact_needs_task _ 1 3)] end);
    apply D; cbn; intros n Hn Q; intuition (subst; cbn in *; intuition lia).
Qed.
Print Assumptions C170_api_behaviour.
