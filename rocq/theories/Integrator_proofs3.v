(** Proofs about the trajectories an integrator returns along a history of solves and queries. *)
From Coq Require Import Reals Lra Lia List ZArith Bool.
From Verif Require Import Base Linalg Mexp Expression_model Expression_spec Expression_proofs
  Problem_model Problem_spec Problem_proofs Problem_proofs2 Integrator_model Integrator_spec Integrator_proofs.
Import ListNotations.
Open Scope R_scope.

Lemma ev_ext_cols e x y i : (forall j, (j < cols e)%nat -> x j = y j) -> ev e x i = ev e y i.
Proof. intros H. unfold ev. f_equal. apply Rsum_ext. intros j Hj. now rewrite H. Qed.

Lemma denotes_depends e n m f x y i : denotes e n m f -> (forall j, (j < m)%nat -> x j = y j) -> (i < n)%nat -> f x i = f y i.
Proof.
  intros D H Hi. apply denotes_elim in D. destruct D as (_ & _ & C & E). rewrite <- !E by exact Hi.
  apply ev_ext_cols. now rewrite C.
Qed.

Lemma keyframe_loop_spec order A B (u : vec) x0 n : forall k X, (k + n <= vlen u)%nat -> vlen X = order ->
  (forall i, (i < order)%nat -> vat X i = simulate order A B (vat u) x0 k i) ->
  exists ks, keyframe_loop n k (Mat order order A) (Vec order B) u X = Ok ks /\ length ks = n /\
    forall j, (j < n)%nat -> exists Y, nth_error ks j = Some Y /\ vlen Y = order /\
      forall i, (i < order)%nat -> vat Y i = simulate order A B (vat u) x0 (S (k + j)) i.
Proof.
  induction n as [|n IH]; intros k X Hk LX HX.
  - exists []. split; [reflexivity|]. split; [reflexivity|]. intros j Hj. lia.
  - cbn [keyframe_loop]. replace (Nat.ltb k (vlen u)) with true by (symmetry; apply Nat.ltb_lt; lia). cbn [guard].
    unfold transition at 1. cbn [mcols mrows mat_at vat]. rewrite LX, Nat.eqb_refl. cbn [guard obind].
    set (X' := Vec order (fun i => Rsum order (fun j => A i j * vat X j) + B i * vat u k)).
    assert (HX' : forall i, (i < order)%nat -> vat X' i = simulate order A B (vat u) x0 (S k) i).
    { intros i Hi. cbn [X' vat simulate]. f_equal. apply Rsum_ext. intros j Hj. now rewrite HX. }
    destruct (IH (S k) X' ltac:(lia) eq_refl HX') as (ks & E & L & H). rewrite E. cbn [obind].
    exists (X' :: ks). split; [reflexivity|]. split; [cbn; lia|]. intros [|j] Hj.
    + exists X'. split; [reflexivity|]. split; [reflexivity|]. rewrite Nat.add_0_r. exact HX'.
    + destruct (H j ltac:(lia)) as (Y & HY & LY & VY). exists Y. split; [exact HY|]. split; [exact LY|].
      replace (S (k + S j)) with (S (S k + j)) by lia. exact VY.
Qed.

Lemma update_trajectory_spec mexp v0 X0 M dt ig v x m f0 :
  built mexp v0 X0 M dt ig -> denotes X0 (ig_order ig) m f0 ->
  v_version v <> 0%nat -> ig_version ig <> v_version v ->
  vlen (v_value v) = var_size v -> (m <= vlen x)%nat ->
  exists ig', update_trajectory ig v x = Ok ig' /\ built mexp v0 X0 M dt ig' /\
    ig_version ig' = v_version v /\ ig_start ig' = ig_start ig /\ ig_order ig' = ig_order ig /\
    trajectory_of mexp M dt (ig_start ig) (var_size v) (vat (v_value v)) (f0 (vat x)) (ig_traj ig').
Proof.
  intros Hb D Hv0 Hv Hl Hm. unfold update_trajectory.
  destruct (Nat.eqb_spec (v_version v) 0); [contradiction|].
  destruct (Nat.eqb_spec (ig_version ig) (v_version v)); [contradiction|].
  pose proof D as (_ & _ & _ & D'). destruct (D' x Hm) as (X & EX & LX & VX).
  rewrite (b_X0 _ _ _ _ _ _ Hb), EX. cbn [obind]. rewrite (b_A _ _ _ _ _ _ Hb), (b_B _ _ _ _ _ _ Hb).
  destruct (keyframe_loop_spec (ig_order ig) (discrete_A mexp M dt) (discrete_B mexp M dt) (v_value v) (f0 (vat x))
    (var_size v) 0 X ltac:(lia) LX VX) as (ks & EK & LK & VK).
  rewrite EK. cbn [obind]. eexists. split; [reflexivity|]. cbn [ig_version ig_start ig_order ig_traj].
  split; [destruct Hb; constructor; cbn; assumption || reflexivity|]. split; [reflexivity|]. split; [reflexivity|].
  split; [reflexivity|]. unfold trajectory_of. cbn [tr_M tr_dt tr_start tr_order tr_u tr_keys].
  rewrite (b_M _ _ _ _ _ _ Hb), (b_dt _ _ _ _ _ _ Hb), (b_order _ _ _ _ _ _ Hb).
  split; [reflexivity|]. split; [reflexivity|]. split; [reflexivity|]. split; [reflexivity|]. split; [exact Hl|].
  split; [reflexivity|]. split; [cbn; lia|]. intros [|k] Hk.
  - exists X. split; [reflexivity|]. split; [exact LX|exact VX].
  - destruct (VK k ltac:(lia)) as (Y & HY & LY & VY). exists Y. split; [exact HY|]. split; [exact LY|exact VY].
Qed.

Lemma trajectory_of_ext mexp M dt t0 n u u' x x' tr : trajectory_of mexp M dt t0 n u x tr ->
  (forall k, (k < n)%nat -> u k = u' k) -> (forall i, (S i < mrows M)%nat -> x i = x' i) ->
  trajectory_of mexp M dt t0 n u' x' tr.
Proof.
  intros (H1 & H2 & H3 & H4 & H5 & H6 & H7 & H8) Hu Hx. unfold trajectory_of.
  split; [exact H1|]. split; [exact H2|]. split; [exact H3|]. split; [exact H4|]. split; [exact H5|].
  split; [intros k Hk; rewrite <- Hu by exact Hk; now apply H6|]. split; [exact H7|].
  intros k Hk. destruct (H8 k Hk) as (X & HX & LX & VX). exists X. split; [exact HX|]. split; [exact LX|].
  intros i Hi. rewrite VX by exact Hi. apply simulate_ext; auto.
  - intros s Hs. apply Hu. lia.
  - intros j Hj. apply Hx. lia.
Qed.

(** What solve does to the state the integrator reads. *)
Lemma solve_x pb qr qp pb' r : solve pb qr qp = (pb', r) -> r <> UB ->
  p_n pb' = p_n pb /\
  (r = Ok tt /\ Forall2 (updated (p_x pb')) (p_vars pb) (p_vars pb') /\ (p_n pb <= vlen (p_x pb'))%nat \/
   r <> Ok tt /\ p_vars pb' = p_vars pb /\ (p_x pb' = p_x pb \/ (p_n pb <= vlen (p_x pb'))%nat)).
Proof.
  intros H Hr. unfold solve in H. fold (reset pb) in H.
  destruct (assemble (reset pb) qr) as [a|e|] eqn:Ea.
  - destruct (qp_sizes_ok (a_qp a)); [|injection H as <- <-; congruence].
    pose proof (recompose_len (reset pb) qr a (q_x (qp (a_qp a))) Ea) as HL. cbn [reset set_cons p_n] in HL.
    unfold finish in H. destruct (q_inf (qp (a_qp a))).
    { injection H as <- <-. split; [reflexivity|]. right. split; [discriminate|]. split; [reflexivity|]. right. exact HL. }
    destruct (equality_violated a _).
    { injection H as <- <-. split; [reflexivity|]. right. split; [discriminate|]. split; [reflexivity|]. right. exact HL. }
    destruct (x_has_nan a _).
    { injection H as <- <-. split; [reflexivity|]. right. split; [discriminate|]. split; [reflexivity|]. right. exact HL. }
    destruct (update_variables _ _) as [vs|e|] eqn:U in H.
    + injection H as <- <-. split; [reflexivity|]. left. split; [reflexivity|]. cbn. split; [|exact HL].
      apply update_variables_ok in U. exact U.
    + exfalso. exact (update_variables_no_throw _ _ _ U).
    + injection H as <- <-. congruence.
  - injection H as <- <-. split; [reflexivity|]. right. split; [discriminate|]. split; [reflexivity|]. left. reflexivity.
  - injection H as <- <-. congruence.
Qed.

Lemma Forall2_nth {A B} (P : A -> B -> Prop) l l' k a : Forall2 P l l' -> nth_error l k = Some a ->
  exists b, nth_error l' k = Some b /\ P a b.
Proof.
  intros H. revert k. induction H as [|x y l l' Hxy _ IH]; intros [|k] E; cbn in *; try discriminate.
  - injection E as <-. eauto.
  - eauto.
Qed.

Lemma Forall2_In_r {A B} (P : A -> B -> Prop) l l' b : Forall2 P l l' -> In b l' -> exists a, In a l /\ P a b.
Proof.
  induction 1 as [|x y l l' Hxy _ IH]; intros Hb; [destruct Hb|]. destruct Hb as [<-|Hb].
  - exists x. split; [now left|exact Hxy].
  - destruct (IH Hb) as (a & Ha & Hp). exists a. split; [now right|exact Hp].
Qed.

Section History.
Variables (mexp : mat -> mat) (v0 : variable) (X0 : expr) (M : mat) (dt : R) (ref m order : nat)
  (f0 : (nat -> R) -> nat -> R).
Hypothesis HX0 : denotes X0 order m f0.
Hypothesis Horder : S order = mrows M.

(** [good]: the vector x left by the last solve is the one the variables report. *)
Record inv (s : system) (v : variable) : Prop := Inv {
  inv_var : nth_error (p_vars (sys_pb s)) ref = Some v;
  inv_range : k_start v = k_start v0 /\ k_end v = k_end v0;
  inv_n : (m <= p_n (sys_pb s))%nat;
  inv_tiles : tiles 0 (p_vars (sys_pb s)) (p_n (sys_pb s));
  inv_built : built mexp v0 X0 M dt (sys_ig s);
  inv_value : v_version v <> 0%nat ->
    vlen (v_value v) = var_size v /\ (m <= vlen (p_x (sys_pb s)))%nat /\
    (forall w, In w (p_vars (sys_pb s)) -> (k_start w < m)%nat -> vlen (v_value w) = var_size w);
  inv_version : (ig_version (sys_ig s) <= v_version v)%nat }.

Record inv_good (s : system) (v : variable) : Prop := InvGood {
  ig_agrees : m = 0%nat \/ (v_version v <> 0%nat -> agrees (sys_pb s) (vat (p_x (sys_pb s))));
  ig_cached : v_version v <> 0%nat -> ig_version (sys_ig s) = v_version v ->
    trajectory_of mexp M dt (ig_start (sys_ig s)) (var_size v) (vat (v_value v)) (f0 (vat (p_x (sys_pb s))))
      (ig_traj (sys_ig s)) }.

Lemma inv_order s v : inv s v -> ig_order (sys_ig s) = order.
Proof. intros H. pose proof (b_order _ _ _ _ _ _ (inv_built _ _ H)). lia. Qed.

Lemma agree_on s v x : inv s v -> inv_good s v -> v_version v <> 0%nat -> agrees (sys_pb s) x ->
  forall i, (i < order)%nat -> f0 (vat (p_x (sys_pb s))) i = f0 x i.
Proof.
  intros H G Hv Hx i Hi. apply (denotes_depends X0 order m f0 _ _ i HX0); [|exact Hi].
  intros j Hj. destruct (ig_agrees _ _ G) as [E|A]; [lia|]. specialize (A Hv).
  destruct (tiles_cover _ _ _ j (inv_tiles _ _ H)) as (w & Hw & Hr); [pose proof (inv_n _ _ H); lia|].
  destruct (inv_value _ _ H Hv) as (_ & _ & HL). specialize (HL w Hw ltac:(lia)). unfold var_size in HL.
  specialize (A w (j - k_start w)%nat Hw ltac:(lia)). specialize (Hx w (j - k_start w)%nat Hw ltac:(lia)).
  replace (k_start w + (j - k_start w))%nat with j in A, Hx by lia. congruence.
Qed.

(** A query in a good state. *)
Lemma query_spec s v : inv s v ->
  (v_version v = 0%nat -> get_trajectory (sys_ig s) v (p_x (sys_pb s)) = Throw ERuntime) /\
  (v_version v <> 0%nat ->
   exists ig' tr, get_trajectory (sys_ig s) v (p_x (sys_pb s)) = Ok (ig', tr) /\ tr = ig_traj ig' /\
     inv (System (sys_pb s) ig') v /\ ig_start ig' = ig_start (sys_ig s) /\ ig_version ig' = v_version v /\
     (inv_good s v -> inv_good (System (sys_pb s) ig') v) /\
     (ig_version (sys_ig s) = v_version v -> ig' = sys_ig s)).
Proof.
  intros H. unfold get_trajectory. split; intros Hv.
  - unfold update_trajectory. rewrite Hv. reflexivity.
  - destruct (Nat.eq_dec (ig_version (sys_ig s)) (v_version v)) as [E|E].
    + assert (U : update_trajectory (sys_ig s) v (p_x (sys_pb s)) = Ok (sys_ig s)).
      { unfold update_trajectory. destruct (Nat.eqb_spec (v_version v) 0); [contradiction|]. now rewrite E, Nat.eqb_refl. }
      rewrite U. cbn [obind]. exists (sys_ig s), (ig_traj (sys_ig s)). destruct s as [pb ig]. cbn in *.
      split; [reflexivity|]. split; [reflexivity|]. split; [exact H|]. split; [reflexivity|]. split; [exact E|].
      split; [auto|auto].
    + destruct (inv_value _ _ H Hv) as (HL & Hm & Hw).
      assert (D : denotes X0 (ig_order (sys_ig s)) m f0) by (rewrite (inv_order _ _ H); exact HX0).
      destruct (update_trajectory_spec mexp v0 X0 M dt (sys_ig s) v (p_x (sys_pb s)) m f0 (inv_built _ _ H) D Hv E HL Hm)
        as (ig' & U & B & V & S & O & T).
      rewrite U. cbn [obind]. exists ig', (ig_traj ig'). split; [reflexivity|]. split; [reflexivity|].
      split; [destruct H; constructor; cbn; auto; lia|]. split; [exact S|]. split; [exact V|].
      split; [|intros; contradiction].
      intros G. destruct G as [G1 G2]. constructor; cbn; [exact G1|]. intros _ _. rewrite S. exact T.
Qed.

Lemma tiles_In vs : forall start n v, tiles start vs n -> In v vs -> (start <= k_start v /\ k_start v <= k_end v /\ k_end v <= n)%nat.
Proof.
  intros start n v H Hv. apply tiles_le in H. destruct H as [_ H]. rewrite Forall_forall in H.
  specialize (H v Hv). lia.
Qed.

Lemma perform_inv s v o s' out : inv s v -> perform ref s o = Some (s', out) ->
  exists v', inv s' v' /\
    ((m = 0%nat \/ match o with OSolve qr qp => snd (solve (sys_pb s) qr qp) = Ok tt | _ => True end) ->
     match o with OStart _ => False | _ => True end -> inv_good s v -> inv_good s' v') /\
    match o with
    | OSolve qr qp => v_version v' = (match snd (solve (sys_pb s) qr qp) with Ok _ => S (v_version v) | _ => v_version v end)
    | _ => v' = v
    end /\
    (match o with OStart _ => False | _ => True end -> ig_start (sys_ig s') = ig_start (sys_ig s)).
Proof.
  intros H E. destruct o as [qr qp|c| |k| |t]; cbn [perform] in E.
  - destruct (solve (sys_pb s) qr qp) as [pb' r] eqn:Es.
    assert (Hr : r <> UB) by (intros ->; discriminate).
    assert (E' : Some (System pb' (sys_ig s), @None trajectory) = Some (s', out)) by (destruct r; congruence). clear E.
    injection E' as <- <-. destruct (solve_x _ _ _ _ _ Es Hr) as [HN [(-> & HF & HL)|(Hne & HV & HX)]].
    + destruct (Forall2_nth _ _ _ ref v HF (inv_var _ _ H)) as (v' & Ev & Hu). exists v'.
      destruct Hu as ((R1 & R2) & U1 & U2 & U3). destruct (inv_range _ _ H) as [K1 K2].
      assert (T' : tiles 0 (p_vars pb') (p_n pb')).
      { rewrite HN. eapply tiles_same; [|exact (inv_tiles _ _ H)].
        eapply Forall2_impl; [|exact HF]. intros a b Hab. exact (updated_same _ _ _ Hab). }
      assert (W : forall w, In w (p_vars pb') -> vlen (v_value w) = var_size w /\
                forall i, (i < vlen (v_value w))%nat -> vat (p_x pb') (k_start w + i)%nat = vat (v_value w) i).
      { intros w Hw. destruct (Forall2_In_r _ _ _ w HF Hw) as (w0 & _ & (Q1 & Q2) & _ & Q3 & Q4).
        assert (var_size w = var_size w0) by (unfold var_size; congruence).
        split; [congruence|]. intros i Hi. rewrite Q4 by congruence. f_equal. congruence. }
      split; [|split; [|split; [|reflexivity]]].
      * constructor; cbn [sys_pb sys_ig].
        -- exact Ev.
        -- split; congruence.
        -- rewrite HN. exact (inv_n _ _ H).
        -- exact T'.
        -- exact (inv_built _ _ H).
        -- intros _. split; [apply W, nth_error_In with ref, Ev|]. split; [pose proof (inv_n _ _ H); lia|].
           intros w Hw _. now apply W.
        -- pose proof (inv_version _ _ H). lia.
      * intros _ _ G. constructor; cbn [sys_pb sys_ig].
        -- right. intros _ w i Hw Hi. now apply W.
        -- intros _ Ec. pose proof (inv_version _ _ H). lia.
      * cbn [snd]. exact U1.
    + exists v. split; [|split; [|split; [|reflexivity]]].
      * destruct H as [I1 I2 I3 I4 I5 I6 I7]. constructor; cbn [sys_pb sys_ig]; rewrite ?HV, ?HN; auto.
        intros Hv. destruct (I6 Hv) as (A & B & C). split; [exact A|]. split; [|exact C].
        destruct HX as [->|HX]; [exact B|lia].
      * cbn [snd]. intros [Em|Ef] _ G; [|contradiction]. constructor; cbn [sys_pb sys_ig]; [now left|].
        intros Hv Ec. pose proof (ig_cached _ _ G Hv Ec) as T. eapply trajectory_of_ext; [exact T|auto|].
        intros i Hi. apply (denotes_depends X0 order m f0 _ _ i HX0); [intros; lia|lia].
      * cbn [snd]. destruct r as [[]| |]; [contradiction|reflexivity|reflexivity].
  - injection E as <- <-. exists v. split; [|split; [|split; reflexivity]].
    + destruct H. constructor; assumption.
    + intros _ _ [G1 G2]. constructor; assumption.
  - injection E as <- <-. exists v. split; [|split; [|split; reflexivity]].
    + destruct H. constructor; assumption.
    + intros _ _ [G1 G2]. constructor; assumption.
  - injection E as <- <-. exists v. split; [|split; [|split; reflexivity]].
    + destruct H as [I1 I2 I3 I4 I5 I6 I7]. constructor; cbn; auto.
      * rewrite nth_error_app1; [exact I1|]. apply nth_error_Some. congruence.
      * lia.
      * now apply tiles_app.
      * intros Hv. destruct (I6 Hv) as (A & B & C). split; [exact A|]. split; [exact B|].
        intros w Hw Hk. apply in_app_iff in Hw. destruct Hw as [Hw|[<-|[]]]; [now apply C|cbn in Hk; lia].
    + intros _ _ [G1 G2]. constructor; cbn; [|exact G2]. destruct G1 as [G1|G1]; [now left|right].
      intros Hv w i Hw Hi. apply in_app_iff in Hw. destruct Hw as [Hw|[<-|[]]]; [now apply G1|cbn in Hi; lia].
  - rewrite (inv_var _ _ H) in E. destruct (query_spec s v H) as [Q1 Q2].
    destruct (Nat.eq_dec (v_version v) 0) as [Ev|Ev].
    + rewrite (Q1 Ev) in E. injection E as <- <-. exists v. auto 6.
    + destruct (Q2 Ev) as (ig' & tr & Eg & _ & I & St & _ & G & _). rewrite Eg in E. injection E as <- <-.
      exists v. split; [exact I|]. split; [auto|]. split; [reflexivity|]. intros _. exact St.
  - injection E as <- <-. exists v. split; [|split; [intros _ []|split; [reflexivity|intros []]]].
    destruct H as [I1 I2 I3 I4 I5 I6 I7]. constructor; cbn; auto. now apply built_set_start.
Qed.

Lemma run_inv h : forall s v s', inv s v -> run ref s h = Some s' ->
  exists v', inv s' v' /\
    v_version v' = (v_version v + successes ref s h)%nat /\
    (keeps_start h -> ig_start (sys_ig s') = ig_start (sys_ig s)) /\
    ((m = 0%nat \/ solves_succeed ref s h) -> keeps_start h -> inv_good s v -> inv_good s' v').
Proof.
  induction h as [|o h IH]; intros s v s' H E; cbn [run] in E.
  - injection E as <-. exists v. cbn. split; [exact H|]. split; [lia|]. auto.
  - destruct (perform ref s o) as [[s1 out]|] eqn:Ep; [|discriminate].
    destruct (perform_inv s v o s1 out H Ep) as (v1 & H1 & G1 & V1 & S1).
    destruct (IH s1 v1 s' H1 E) as (v' & H' & V' & S' & G'). exists v'. split; [exact H'|]. split; [|split].
    + cbn [successes]. rewrite Ep, V', Nat.add_assoc. f_equal. destruct o; try (subst v1; lia).
      rewrite V1. destruct (snd (solve (sys_pb s) qr qp)); lia.
    + intros K. rewrite S' by (intros o' Ho'; apply K; now right). apply S1, (K o). now left.
    + intros C K G. apply G'.
      * destruct C as [C|C]; [now left|right]. cbn [solves_succeed] in C. rewrite Ep in C. apply C.
      * intros o' Ho'. apply K. now right.
      * apply G1; [|apply (K o); now left|exact G]. destruct C as [C|C]; [now left|right]. apply C.
Qed.
End History.
