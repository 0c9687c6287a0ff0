(** Lemmas about the kinematics solver. *)
From Coq Require Import Reals List ZArith Bool String Lra Lia.
From Verif Require Import Base Linalg Geom3 Tools_model Geometry_model Expression_model Expression_spec Expression_proofs Problem_model Problem_spec
  Problem_proofs Problem_proofs2 Problem_props Polynom_model Robot_model KinTasks_model Kin_model Kin_spec.
Import ListNotations.
Open Scope R_scope.

Tactic Notation "bind" hyp(H) ident(x) ident(E) :=
  match type of H with
  | obind ?o _ = Ok _ => destruct o as [x| |] eqn:E; cbn [obind] in H; [|discriminate H|discriminate H]
  end.

(** ** Constraints built from expressions *)

(** A constraint with its type, priority and weight, and [n] rows over [m] unknowns of values [f]. *)
Definition made (c : pconstraint) (t : ctype) (p : cprio) (w : R) (n m : nat) (f : (nat -> R) -> nat -> R) : Prop :=
  c_type c = t /\ c_prio c = p /\ c_weight c = w /\ rows (c_expr c) = n /\ vlen (eb (c_expr c)) = n /\ cols (c_expr c) = m /\
  forall x i, (i < n)%nat -> row (c_expr c) x i = f x i.

Lemma made_intro e t p w a n m f : denotes e n m f -> made (PConstraint e t p w a) t p w n m f.
Proof.
  intros D. apply denotes_elim in D. destruct D as (A & B & C & D). unfold made. cbn. repeat split; auto.
Qed.

Lemma made_configure c t p w n m f p' w' : made c t p w n m f -> made (configure_prio c p' w') t p' w' n m f.
Proof. intros (H1 & _ & _ & H4 & H5 & H6 & H7). unfold made. cbn. repeat split; auto. Qed.

Lemma made_ext c t p w n m f g : (forall x i, (i < n)%nat -> f x i = g x i) -> made c t p w n m f -> made c t p w n m g.
Proof. intros E (H1 & H2 & H3 & H4 & H5 & H6 & H7). repeat split; auto. intros x i Hi. rewrite H7, E; auto. Qed.

Lemma made_eq_d e n m f a : denotes e n m f -> exists c, e_eq_d e a = Ok c /\ made c Equality Hard 1 n m (fun x i => f x i - a).
Proof.
  intros D. destruct (e_sub_const_r e a n m f D) as (r & Hr & Dr). unfold e_eq_d, e_eq. rewrite Hr. cbn [obind].
  eexists. split; [reflexivity|]. now apply made_intro.
Qed.
Lemma made_ge_d e n m f a : denotes e n m f -> exists c, e_ge_d e a = Ok c /\ made c Inequality Hard 1 n m (fun x i => f x i - a).
Proof.
  intros D. destruct (e_sub_const_r e a n m f D) as (r & Hr & Dr). unfold e_ge_d, e_ge. rewrite Hr. cbn [obind].
  eexists. split; [reflexivity|]. now apply made_intro.
Qed.
Lemma made_le_d e n m f a : denotes e n m f -> exists c, e_le_d e a = Ok c /\ made c Inequality Hard 1 n m (fun x i => a - f x i).
Proof.
  intros D. destruct (e_sub_const_r e a n m f D) as (r & Hr & Dr). unfold e_le_d, e_le. rewrite Hr. cbn [obind].
  eexists. split; [reflexivity|]. eapply made_ext; [|apply made_intro, e_opp_denotes; exact Dr]. intros x i _. cbv beta. ring.
Qed.
Lemma made_le_v e n m f v : denotes e n m f -> vlen v = n ->
  exists c, e_le_v e v = Ok c /\ made c Inequality Hard 1 n m (fun x i => vat v i - f x i).
Proof.
  intros D Hv. destruct (sub_means_ev e v n m f D Hv) as (r & Hr & Dr). unfold e_le_v, e_le. rewrite Hr. cbn [obind].
  eexists. split; [reflexivity|]. eapply made_ext; [|apply made_intro, e_opp_denotes; exact Dr]. intros x i _. cbv beta. ring.
Qed.
Lemma made_v_le e n m f v : denotes e n m f -> vlen v = n ->
  exists c, v_le_e v e = Ok c /\ made c Inequality Hard 1 n m (fun x i => f x i - vat v i).
Proof.
  intros D Hv. destruct (sub_means_ve e v n m f D Hv) as (r & Hr & Dr). unfold v_le_e, e_le. rewrite Hr. cbn [obind].
  eexists. split; [reflexivity|]. eapply made_ext; [|apply made_intro, e_opp_denotes; exact Dr]. intros x i _. cbv beta. ring.
Qed.

Lemma made_holds c t p w n m f x : made c t p w n m f ->
  (holds c x <-> forall i, (i < n)%nat -> match t with Equality => f x i = 0 | Inequality => 0 <= f x i end).
Proof.
  intros (H1 & _ & _ & H4 & _ & _ & H7). unfold holds. rewrite H1, H4. split; intros H i Hi; specialize (H i Hi).
  - rewrite H7 in H by exact Hi. destruct t; exact H.
  - rewrite H7 by exact Hi. destruct t; exact H.
Qed.

Lemma made_penalty_hard c t w n m f x : made c t Hard w n m f -> soft_penalty c x = 0.
Proof. intros (_ & H & _). unfold soft_penalty. now rewrite H. Qed.
Lemma made_penalty_eq c w n m f x : made c Equality Soft w n m f -> soft_penalty c x = w / 2 * Rsum n (fun i => Rsqr (f x i)).
Proof.
  intros (H1 & H2 & H3 & H4 & _ & _ & H7). unfold soft_penalty. rewrite H1, H2, H3, H4. f_equal. apply Rsum_ext. intros i Hi. now rewrite H7.
Qed.

Lemma hard_holds_app cs cs' x : hard_holds (cs ++ cs') x <-> hard_holds cs x /\ hard_holds cs' x.
Proof.
  unfold hard_holds. split.
  - intros H. split; intros c Hc; apply H; apply in_or_app; auto.
  - intros [H1 H2] c Hc. apply in_app_or in Hc. destruct Hc; auto.
Qed.
Lemma hard_holds_nil x : hard_holds [] x <-> True.
Proof. split; [trivial|]. intros _ c []. Qed.
Lemma hard_holds_cons c cs x : hard_holds (c :: cs) x <-> (c_prio c = Hard -> holds c x) /\ hard_holds cs x.
Proof.
  unfold hard_holds. split.
  - intros H. split; [apply H; now left|]. intros c' Hc'. apply H. now right.
  - intros [H1 H2] c' [<-|Hc']; auto.
Qed.
Lemma soft_cost_app cs cs' x : soft_cost (cs ++ cs') x = soft_cost cs x + soft_cost cs' x.
Proof. induction cs as [|c r IH]; cbn [app soft_cost]; [ring|]. rewrite IH. ring. Qed.

Lemma hard_one c t w n m f x : made c t Hard w n m f ->
  (hard_holds [c] x <-> forall i, (i < n)%nat -> match t with Equality => f x i = 0 | Inequality => 0 <= f x i end).
Proof.
  intros M. rewrite hard_holds_cons, hard_holds_nil. destruct M as (M1 & M2 & M). pose proof (made_holds c t Hard w n m f x (conj M1 (conj M2 M))).
  tauto.
Qed.

(** Constraints of consistent sizes over at most [n] unknowns. *)
Definition sized (n : nat) (c : pconstraint) : Prop := vlen (eb (c_expr c)) = rows (c_expr c) /\ (cols (c_expr c) <= n)%nat.

Lemma made_sized c t p w k m f n : made c t p w k m f -> (m <= n)%nat -> sized n c.
Proof. intros (_ & _ & _ & H4 & H5 & H6 & _) H. split; lia. Qed.

(** ** The variables of the solver *)

Definition knows (N : nat) (s : ksolver) : Prop :=
  ks_N s = N /\
  match ks_qd s, ks_scale_var s with
  | None, None => p_vars (ks_problem s) = [] /\ p_n (ks_problem s) = 0%nat
  | Some k, None => k = 0%nat /\ p_n (ks_problem s) = N /\ exists v, p_vars (ks_problem s) = [v] /\ k_start v = 0%nat /\ k_end v = N
  | Some k, Some k' => k = 0%nat /\ k' = 1%nat /\ p_n (ks_problem s) = S N /\
      exists v w, p_vars (ks_problem s) = [v; w] /\ k_start v = 0%nat /\ k_end v = N /\ k_start w = N /\ k_end w = S N
  | None, Some _ => False
  end.

(** The settings of [s'] are those of [s]. *)
Definition same_settings (s s' : ksolver) : Prop :=
  ks_N s' = ks_N s /\ ks_dt s' = ks_dt s /\ ks_masked s' = ks_masked s /\ ks_masked_fbase s' = ks_masked_fbase s /\
  ks_joint_limits s' = ks_joint_limits s /\ ks_velocity_limits s' = ks_velocity_limits s /\ ks_tasks s' = ks_tasks s /\ ks_cons s' = ks_cons s /\
  p_reg (ks_problem s') = p_reg (ks_problem s) /\ p_sparse (ks_problem s') = p_sparse (ks_problem s) /\
  p_rewrite (ks_problem s') = p_rewrite (ks_problem s).

Lemma same_settings_refl s : same_settings s s.
Proof. repeat split. Qed.
Lemma same_settings_trans a b c : same_settings a b -> same_settings b c -> same_settings a c.
Proof. unfold same_settings. intuition congruence. Qed.

Lemma knows_qd N s : knows N s -> ks_qd s <> None -> exists v, var_at (ks_problem s) (ks_qd s) = Ok v /\ k_start v = 0%nat /\ k_end v = N.
Proof.
  intros [_ H] Hq. destruct (ks_qd s) as [k|]; [|congruence]. destruct (ks_scale_var s) as [k'|].
  - destruct H as (-> & _ & _ & v & w & E & H1 & H2 & _). exists v. cbn. rewrite E. auto.
  - destruct H as (-> & _ & v & E & H1 & H2). exists v. cbn. rewrite E. auto.
Qed.

Lemma knows_scale N s : knows N s -> ks_scale_var s <> None ->
  ks_qd s = Some 0%nat /\ p_n (ks_problem s) = S N /\ exists w, var_at (ks_problem s) (ks_scale_var s) = Ok w /\ k_start w = N /\ k_end w = S N.
Proof.
  intros [_ H] Hq. destruct (ks_scale_var s) as [k'|]; [|congruence]. destruct (ks_qd s) as [k|]; [|contradiction].
  destruct H as (-> & -> & Hn & v & w & E & _ & _ & H1 & H2). split; [reflexivity|]. split; [exact Hn|]. exists w. cbn. rewrite E. auto.
Qed.

Lemma knows_n N s : knows N s -> ks_qd s <> None -> p_n (ks_problem s) = match ks_scale_var s with Some _ => S N | None => N end.
Proof.
  intros [_ H] Hq. destruct (ks_qd s) as [k|]; [|congruence]. destruct (ks_scale_var s); [now destruct H as (_ & _ & H & _)|now destruct H as (_ & H & _)].
Qed.

Lemma add_constraint_vars pb c : p_vars (add_constraint pb c) = p_vars pb /\ p_n (add_constraint pb c) = p_n pb /\
  p_cons (add_constraint pb c) = p_cons pb ++ [c] /\ p_reg (add_constraint pb c) = p_reg pb /\
  p_sparse (add_constraint pb c) = p_sparse pb /\ p_rewrite (add_constraint pb c) = p_rewrite pb.
Proof. repeat split. Qed.

Lemma add_constraints_spec cs : forall pb, p_vars (add_constraints pb cs) = p_vars pb /\ p_n (add_constraints pb cs) = p_n pb /\
  p_cons (add_constraints pb cs) = p_cons pb ++ cs /\ p_reg (add_constraints pb cs) = p_reg pb /\
  p_sparse (add_constraints pb cs) = p_sparse pb /\ p_rewrite (add_constraints pb cs) = p_rewrite pb.
Proof.
  induction cs as [|c r IH]; intros pb; cbn [add_constraints fold_left]; [now rewrite app_nil_r|].
  destruct (IH (add_constraint pb c)) as (H1 & H2 & H3 & H4 & H5 & H6). unfold add_constraints in *.
  rewrite H1, H2, H3, H4, H5, H6. cbn. rewrite <- app_assoc. repeat split.
Qed.

Lemma knows_problem N s pb : knows N s -> p_vars pb = p_vars (ks_problem s) -> p_n pb = p_n (ks_problem s) -> knows N (kset_problem s pb).
Proof. intros [H1 H] E1 E2. split; [exact H1|]. cbn. rewrite E1, E2. exact H. Qed.

Lemma ensure_qd_spec N s : knows N s -> knows N (ensure_qd s) /\ same_settings s (ensure_qd s) /\ ks_qd (ensure_qd s) <> None /\
  ks_scale_var (ensure_qd s) = ks_scale_var s /\ p_cons (ks_problem (ensure_qd s)) = p_cons (ks_problem s).
Proof.
  intros [HN H]. unfold ensure_qd. destruct (ks_qd s) as [k|] eqn:E.
  - split; [split; [exact HN|now rewrite E]|]. split; [apply same_settings_refl|]. split; [congruence|]. split; reflexivity.
  - destruct (ks_scale_var s) eqn:E'; [contradiction|]. destruct H as [H1 H2]. split.
    + split; [exact HN|]. cbn. rewrite H1, H2. cbn. split; [reflexivity|]. split; [lia|]. eexists. split; [reflexivity|]. cbn. lia.
    + split; [repeat split|]. split; [discriminate|]. split; reflexivity.
Qed.

Lemma ensure_scale_spec N s : knows N s -> ks_qd s <> None -> knows N (ensure_scale s) /\ same_settings s (ensure_scale s) /\
  ks_qd (ensure_scale s) = ks_qd s /\ ks_scale_var (ensure_scale s) <> None /\ p_cons (ks_problem (ensure_scale s)) = p_cons (ks_problem s) /\
  ks_has_scaling (ensure_scale s) = ks_has_scaling s.
Proof.
  intros [HN H] Hq. unfold ensure_scale. destruct (ks_scale_var s) as [k|] eqn:E.
  - split; [split; [exact HN|now rewrite E]|]. split; [apply same_settings_refl|]. split; [reflexivity|]. split; [congruence|]. split; reflexivity.
  - destruct (ks_qd s) as [k|]; [|congruence]. destruct H as (-> & H1 & v & H2 & H3 & H4). split.
    + split; [exact HN|]. cbn. rewrite H1, H2. cbn. split; [reflexivity|]. split; [reflexivity|]. split; [lia|].
      eexists v, _. split; [reflexivity|]. cbn. lia.
    + split; [repeat split|]. split; [reflexivity|]. split; [discriminate|]. split; reflexivity.
Qed.

(** The expression of the scale. *)
Lemma scale_expr N w : k_start w = N -> k_end w = S N -> exists e, var_expr w (-1) (-1) = Ok e /\ denotes e 1 (S N) (fun x _ => x N).
Proof.
  intros H1 H2. rewrite var_expr_default_start. change 0%Z with (Z.of_nat 0). rewrite var_expr_default_rows by (unfold var_size; lia).
  destruct (var_expr_denotes w 0 (var_size w - 0)) as (e & E & D); [lia|lia|]. rewrite E. exists e. split; [reflexivity|].
  rewrite H1, H2 in D. replace (var_size w - 0)%nat with 1%nat in D by (unfold var_size; lia).
  eapply denotes_ext; [|exact D]. intros x i Hi. cbv beta. f_equal. lia.
Qed.

(** ** Adding to the problem *)

(** From [s] to [s'], constraints were added that hold, when hard, iff [P], and that cost [C], when soft. *)
Definition adds (N : nat) (s s' : ksolver) (P : (nat -> R) -> Prop) (C : (nat -> R) -> R) : Prop :=
  knows N s' /\ same_settings s s' /\ ks_qd s' <> None /\ (ks_scale_var s <> None -> ks_scale_var s' <> None) /\
  exists cs, p_cons (ks_problem s') = p_cons (ks_problem s) ++ cs /\ Forall (sized (p_n (ks_problem s'))) cs /\
    forall x, (hard_holds cs x <-> P x) /\ soft_cost cs x = C x.

Lemma knows_n_le N s s' : knows N s -> knows N s' -> ks_qd s <> None -> ks_qd s' <> None ->
  (ks_scale_var s <> None -> ks_scale_var s' <> None) -> (p_n (ks_problem s) <= p_n (ks_problem s'))%nat.
Proof.
  intros H H' Q Q' V. rewrite (knows_n N s H Q), (knows_n N s' H' Q'). destruct (ks_scale_var s), (ks_scale_var s'); try lia.
  exfalso. apply V; congruence.
Qed.

Lemma adds_trans N s s' s'' P P' C C' : knows N s' -> adds N s s' P C -> adds N s' s'' P' C' ->
  adds N s s'' (fun x => P x /\ P' x) (fun x => C x + C' x).
Proof.
  intros Hk (K1 & S1 & Q1 & V1 & cs1 & E1 & F1 & H1) (K2 & S2 & Q2 & V2 & cs2 & E2 & F2 & H2).
  split; [exact K2|]. split; [now apply (same_settings_trans s s' s'')|]. split; [exact Q2|]. split; [tauto|].
  exists (cs1 ++ cs2). split; [now rewrite E2, E1, app_assoc|]. split.
  - apply Forall_app. split; [|exact F2]. eapply Forall_impl; [|exact F1]. intros c [A B]. split; [exact A|].
    pose proof (knows_n_le N s' s'' K1 K2 Q1 Q2 V2). lia.
  - intros x. destruct (H1 x) as [A1 B1]. destruct (H2 x) as [A2 B2]. rewrite hard_holds_app, soft_cost_app, A1, A2, B1, B2. tauto.
Qed.

Lemma adds_nothing N s : knows N s -> ks_qd s <> None -> adds N s s (fun _ => True) (fun _ => 0).
Proof.
  intros K Q. split; [exact K|]. split; [apply same_settings_refl|]. split; [exact Q|]. split; [auto|]. exists []. split; [now rewrite app_nil_r|].
  split; [constructor|]. intros x. split; [apply hard_holds_nil|reflexivity].
Qed.

Lemma adds_ext N s s' P P' C C' : (forall x, P x <-> P' x) -> (forall x, C x = C' x) -> adds N s s' P C -> adds N s s' P' C'.
Proof.
  intros EP EC (K & S & Q & V & cs & E & F & H). split; [exact K|]. split; [exact S|]. split; [exact Q|]. split; [exact V|].
  exists cs. split; [exact E|]. split; [exact F|]. intros x. destruct (H x) as [A B]. rewrite A, B, EP, EC. tauto.
Qed.

Lemma adds_constraints N s cs P C : knows N s -> ks_qd s <> None -> Forall (sized (p_n (ks_problem s))) cs ->
  (forall x, (hard_holds cs x <-> P x) /\ soft_cost cs x = C x) ->
  adds N s (kset_problem s (add_constraints (ks_problem s) cs)) P C.
Proof.
  intros K Q F H. destruct (add_constraints_spec cs (ks_problem s)) as (E1 & E2 & E3 & E4 & E5 & E6).
  split; [now apply knows_problem|]. split; [repeat split; assumption|]. split; [exact Q|]. split; [auto|].
  exists cs. split; [exact E3|]. split; [cbn; now rewrite E2|]. exact H.
Qed.

Lemma start_scaling_spec N s s' : knows N s -> ks_qd s <> None -> (ks_has_scaling s = true -> ks_scale_var s <> None) ->
  start_scaling s = (s', Ok tt) ->
  ks_scale_var s' <> None /\ ks_has_scaling s' = true /\
  adds N s s' (fun x => ks_has_scaling s = false -> 0 <= x N <= 1) (fun x => if ks_has_scaling s then 0 else / 2 * Rsqr (x N - 1)).
Proof.
  intros K Q V. unfold start_scaling. destruct (ks_has_scaling s) eqn:Es.
  - intros E. injection E as <-. split; [auto|]. split; [exact Es|]. eapply adds_ext; [| |now apply adds_nothing]; intros x; cbv beta.
    + split; [discriminate|trivial].
    + reflexivity.
  - set (s1 := kset_scale s (ks_scale s) true). assert (K1 : knows N s1) by exact K. assert (Q1 : ks_qd s1 <> None) by exact Q.
    destruct (ensure_scale_spec N s1 K1 Q1) as (K2 & S2 & E2 & V2 & C2 & T2). cbv zeta.
    set (s2 := ensure_scale s1) in *. destruct (knows_scale N s2 K2 V2) as (Q2 & Hn & w & Ew & W1 & W2).
    rewrite Ew. cbn [obind]. destruct (scale_expr N w W1 W2) as (e & Ee & D). rewrite Ee. cbn [obind].
    destruct (made_ge_d e 1 (S N) _ 0 D) as (c0 & -> & M0). destruct (made_le_d e 1 (S N) _ 1 D) as (c1 & -> & M1).
    destruct (made_eq_d e 1 (S N) _ 1 D) as (c2 & -> & M2). cbn [obind]. intros E. injection E as <-.
    apply (made_configure _ _ _ _ _ _ _ Soft 1) in M2. set (c2' := configure_prio c2 Soft 1) in *.
    split; [exact V2|]. split; [exact T2|].
    assert (A : adds N s2 (kset_problem s2 (add_constraints (ks_problem s2) [c0; c1; c2'])) (fun x => false = false -> 0 <= x N <= 1) (fun x => / 2 * Rsqr (x N - 1))).
    { apply adds_constraints; [exact K2|congruence| |].
      - repeat constructor; [exact (proj1 (made_sized _ _ _ _ _ _ _ (S N) M0 (le_n _)))| |exact (proj1 (made_sized _ _ _ _ _ _ _ (S N) M1 (le_n _)))|
          |exact (proj1 (made_sized _ _ _ _ _ _ _ (S N) M2 (le_n _)))|]; rewrite Hn; eapply made_sized; eauto.
      - intros x. rewrite (hard_holds_cons c0), (hard_holds_cons c1), (hard_holds_cons c2'), hard_holds_nil. cbn [soft_cost].
        rewrite (made_penalty_hard _ _ _ _ _ _ x M0), (made_penalty_hard _ _ _ _ _ _ x M1), (made_penalty_eq _ _ _ _ _ x M2).
        rewrite (made_holds _ _ _ _ _ _ _ x M0), (made_holds _ _ _ _ _ _ _ x M1). destruct M0 as (_ & P0 & _). destruct M1 as (_ & P1 & _). destruct M2 as (_ & P2 & _).
        split; [|cbn; field]. split.
        + intros (H0 & H1 & _) _. specialize (H0 P0 0%nat ltac:(lia)). specialize (H1 P1 0%nat ltac:(lia)). cbv beta in *. lra.
        + intros H. specialize (H eq_refl). split; [intros _ i _; cbv beta; lra|]. split; [intros _ i _; cbv beta; lra|]. split; [congruence|trivial]. }
    destruct A as (A1 & A2 & A3 & A4 & cs & A5 & A6 & A7).
    split; [exact A1|]. split; [exact (same_settings_trans s s2 _ S2 A2)|]. split; [exact A3|]. split; [intros _; now apply A4|].
    exists cs. split; [etransitivity; [exact A5|]; now rewrite C2|]. auto.
Qed.

(** ** Tasks *)

Section WithRobot.
Variable pn : pin.
Variable log3 : mat3 -> vec3.
Variable msqrt : mat -> mat.
Notation task_update := (task_update pn log3 msqrt).

Lemma equation_denotes N e : shaped N e -> denotes (Expr (fst e) (Vec (vlen (snd e)) (fun i => - vat (snd e) i))) (mrows (fst e)) N (fun x i => residual e x 1 i).
Proof.
  intros [H1 H2]. apply denotes_intro; [reflexivity|exact H2|exact H1|]. intros x i Hi. unfold residual, ev. cbn. unfold cols. cbn. ring.
Qed.

Lemma scaled_denotes N s e x : knows N s -> ks_scale_var s <> None -> shaped N e -> task_expression s PScaled e = Ok x ->
  denotes x (mrows (fst e)) (S N) (fun y i => residual e y (y N) i).
Proof.
  intros K V [H1 H2]. destruct e as [A b]. cbn [fst snd] in *. cbn [task_expression].
  destruct (knows_scale N s K V) as (_ & _ & w & -> & W1 & W2). cbn [obind]. destruct (scale_expr N w W1 W2) as (e & -> & D). cbn [obind].
  destruct (m_mul_e_denotes (Mat (vlen b) 1 (fun i _ => vat b i)) e 1 (S N) _ D eq_refl) as (y & -> & Dy). cbn [obind mrows] in *.
  apply denotes_elim in Dy. destruct Dy as (Y1 & Y2 & Y3 & Y4). rewrite Y1, Y3. unfold guard.
  destruct (_ && _) eqn:G; [|discriminate]. apply andb_true_iff in G. rewrite !Nat.leb_le in G. intros E. injection E as <-.
  apply denotes_intro; [exact H2|exact H2|reflexivity|]. intros z i Hi. unfold ev, residual. cbn [eA eb cols mcols mat_at vat fst snd zeros].
  pose proof (Y4 z i ltac:(lia)) as Yz. pose proof (Y4 (fun _ => 0) i ltac:(lia)) as Y0. unfold ev in Yz, Y0. rewrite Y3 in Yz, Y0.
  assert (O : forall f, Rsum 1 f = f 0%nat) by (intros; cbn; ring). rewrite O in Yz, Y0. cbn [mat_at mcols] in Yz, Y0. rewrite Rsum_zero_ext in Y0 by (intros; ring).
  assert (E1 : Rsum (S N) (fun j => mat_at (eA y) i j * z j) = vat b i * z N) by lra.
  rewrite (Rsum_ext (S N) _ (fun j => (if Nat.ltb j N then mat_at A i j * z j else 0) - mat_at (eA y) i j * z j)).
  - rewrite Rsum_minus, E1. rewrite H1. rewrite (Rsum_extend N (S N)) by (try lia; intros j Hj; rewrite (proj2 (Nat.ltb_ge j N)) by lia; reflexivity).
    rewrite (Rsum_ext N _ (fun j => mat_at A i j * z j)); [ring|]. intros j Hj. now rewrite (proj2 (Nat.ltb_lt j N)).
  - intros j Hj. rewrite (proj2 (Nat.ltb_lt i (mrows A)) Hi), H1. cbn [andb]. destruct (Nat.ltb j N); ring.
Qed.

(** What a task asks, and what it costs. *)
Definition task_wants (e : equation) (p : task_priority) (N : nat) (x : nat -> R) : Prop :=
  match p with PHard => follows e x 1 | PScaled => follows e x (x N) | PSoft => True end.
Definition task_costs (e : equation) (p : task_priority) (w : R) (x : nat -> R) : R :=
  match p with PSoft => w / 2 * Rsum (mrows (fst e)) (fun k => Rsqr (residual e x 1 k)) | _ => 0 end.

Lemma scaled_total N s e : knows N s -> ks_scale_var s <> None -> shaped N e -> exists x, task_expression s PScaled e = Ok x.
Proof.
  intros K V [H1 H2]. destruct e as [A b]. cbn [fst snd] in *. cbn [task_expression].
  destruct (knows_scale N s K V) as (_ & _ & w & -> & W1 & W2). cbn [obind]. destruct (scale_expr N w W1 W2) as (e & -> & D). cbn [obind].
  destruct (m_mul_e_denotes (Mat (vlen b) 1 (fun i _ => vat b i)) e 1 (S N) _ D eq_refl) as (y & -> & Dy). cbn [obind mrows] in *.
  apply denotes_elim in Dy. destruct Dy as (Y1 & Y2 & Y3 & Y4). rewrite Y1, Y3, H1, H2, Nat.leb_refl.
  rewrite (proj2 (Nat.leb_le N (S N))) by lia. eexists. reflexivity.
Qed.

Lemma knows_n_ge N s : knows N s -> ks_qd s <> None -> (N <= p_n (ks_problem s))%nat.
Proof. intros K Q. rewrite (knows_n N s K Q). destruct (ks_scale_var s); lia. Qed.

Lemma task_constraint_spec N s t e : knows N s -> (kt_priority t = PScaled -> ks_scale_var s <> None) -> ks_qd s <> None -> shaped N e ->
  exists c, task_constraint s t e = Ok c /\
    sized (p_n (ks_problem s)) c /\ rows (c_expr c) = mrows (fst e) /\
    forall x, (hard_holds [c] x <-> task_wants e (kt_priority t) N x) /\ soft_cost [c] x = task_costs e (kt_priority t) (kt_weight t) x.
Proof.
  intros K V Q Hs. pose proof (knows_n_ge N s K Q) as Hn. unfold task_constraint.
  destruct (kt_priority t) eqn:P.
  - pose proof (equation_denotes N e Hs) as D. destruct e as [A b]. cbn [task_expression obind fst snd] in *.
    destruct (made_eq_d _ _ _ _ 0 D) as (c & -> & M). cbn [obind]. apply (made_ext _ _ _ _ _ _ _ (fun x i => residual (A, b) x 1 i)) in M; [|intros; ring].
    apply (made_configure _ _ _ _ _ _ _ Hard (kt_weight t)) in M. eexists. split; [reflexivity|]. split; [now apply (made_sized _ _ _ _ _ _ _ _ M)|].
    split; [exact (proj1 (proj2 (proj2 (proj2 M))))|]. intros x. rewrite (hard_one _ _ _ _ _ _ x M). cbn [soft_cost]. rewrite (made_penalty_hard _ _ _ _ _ _ x M).
    split; [unfold task_wants, follows; tauto|]. unfold task_costs. ring.
  - pose proof (equation_denotes N e Hs) as D. destruct e as [A b]. cbn [task_expression obind fst snd] in *.
    destruct (made_eq_d _ _ _ _ 0 D) as (c & -> & M). cbn [obind]. apply (made_ext _ _ _ _ _ _ _ (fun x i => residual (A, b) x 1 i)) in M; [|intros; ring].
    apply (made_configure _ _ _ _ _ _ _ Soft (kt_weight t)) in M. eexists. split; [reflexivity|]. split; [now apply (made_sized _ _ _ _ _ _ _ _ M)|].
    split; [exact (proj1 (proj2 (proj2 (proj2 M))))|]. intros x. rewrite hard_holds_cons, hard_holds_nil. cbn [soft_cost]. rewrite (made_penalty_eq _ _ _ _ _ x M).
    destruct M as (_ & Pc & _). rewrite Pc. split; [unfold task_wants; split; [trivial|]; intros _; split; [discriminate|trivial]|]. unfold task_costs. cbn [fst]. ring.
  - destruct (scaled_total N s e K (V eq_refl) Hs) as (y & Ey). pose proof (scaled_denotes N s e y K (V eq_refl) Hs Ey) as D. rewrite Ey. cbn [obind].
    destruct (made_eq_d _ _ _ _ 0 D) as (c & -> & M). cbn [obind]. apply (made_ext _ _ _ _ _ _ _ (fun x i => residual e x (x N) i)) in M; [|intros; ring].
    apply (made_configure _ _ _ _ _ _ _ Hard (kt_weight t)) in M. eexists. split; [reflexivity|].
    split; [apply (made_sized _ _ _ _ _ _ _ _ M); destruct (knows_scale N s K (V eq_refl)) as (_ & -> & _); lia|].
    split; [exact (proj1 (proj2 (proj2 (proj2 M))))|]. intros x. rewrite (hard_one _ _ _ _ _ _ x M). cbn [soft_cost]. rewrite (made_penalty_hard _ _ _ _ _ _ x M).
    split; [unfold task_wants, follows; tauto|]. unfold task_costs. ring.
Qed.

(** A task with an equation that starts the scaling. *)
Definition is_scaled (e : equation) (p : task_priority) : bool :=
  negb (Nat.eqb (mrows (fst e)) 0) && match p with PScaled => true | _ => false end.

Lemma add_task_spec N r s t s' : knows N s -> ks_qd s <> None -> (ks_has_scaling s = true -> ks_scale_var s <> None) ->
  (forall e, task_update N (ks_dt s) r (kt_kind t) = Ok e -> shaped N e) ->
  add_task_to_problem pn log3 msqrt r s t = (s', Ok tt) ->
  exists e, task_update N (ks_dt s) r (kt_kind t) = Ok e /\ ks_has_scaling s' = ks_has_scaling s || is_scaled e (kt_priority t) /\
    (ks_has_scaling s' = true -> ks_scale_var s' <> None) /\
    adds N s s' (fun x => task_wants e (kt_priority t) N x /\ (ks_has_scaling s = false -> is_scaled e (kt_priority t) = true -> 0 <= x N <= 1))
      (fun x => task_costs e (kt_priority t) (kt_weight t) x + if negb (ks_has_scaling s) && is_scaled e (kt_priority t) then / 2 * Rsqr (x N - 1) else 0).
Proof.
  intros K Q V Hs. unfold add_task_to_problem. rewrite (proj1 K). destruct (task_update N (ks_dt s) r (kt_kind t)) as [e| |]; try discriminate.
  specialize (Hs e eq_refl). destruct (Nat.eqb (mrows (fst e)) 0) eqn:E0.
  - intros E. injection E as <-. exists e. split; [reflexivity|]. unfold is_scaled. rewrite E0. cbn [negb andb]. rewrite orb_false_r, andb_false_r. split; [reflexivity|].
    split; [exact V|]. apply Nat.eqb_eq in E0. eapply adds_ext; [| |now apply adds_nothing]; intros x; cbv beta.
    + split; [intros _|trivial]. split; [|discriminate]. unfold task_wants, follows. destruct (kt_priority t); [|trivial|]; intros k Hk; lia.
    + unfold task_costs. rewrite E0. destruct (kt_priority t); cbn; ring.
  - assert (Ei : is_scaled e (kt_priority t) = match kt_priority t with PScaled => true | _ => false end) by (unfold is_scaled; now rewrite E0).
    destruct (match kt_priority t with PScaled => start_scaling s | _ => (s, Ok tt) end) as [s1 o] eqn:E1.
    destruct o as [[]| |]; try discriminate.
    assert (H1 : knows N s1 /\ ks_qd s1 <> None /\ (kt_priority t = PScaled -> ks_scale_var s1 <> None) /\
      ks_has_scaling s1 = ks_has_scaling s || is_scaled e (kt_priority t) /\ (ks_has_scaling s1 = true -> ks_scale_var s1 <> None) /\
      adds N s s1 (fun x => ks_has_scaling s = false -> is_scaled e (kt_priority t) = true -> 0 <= x N <= 1)
        (fun x => if negb (ks_has_scaling s) && is_scaled e (kt_priority t) then / 2 * Rsqr (x N - 1) else 0)).
    { rewrite Ei. destruct (kt_priority t) eqn:P.
      1, 2: injection E1 as <-; rewrite orb_false_r, andb_false_r; split; [exact K|]; split; [exact Q|]; split; [discriminate|]; split; [reflexivity|]; split; [exact V|];
        eapply adds_ext; [| |now apply adds_nothing]; intros x; cbv beta; [split; [discriminate|trivial]|reflexivity].
      destruct (start_scaling_spec N s s1 K Q V E1) as (V1 & S1 & A). rewrite orb_true_r, andb_true_r.
      split; [exact (proj1 A)|]. split; [exact (proj1 (proj2 (proj2 A)))|]. split; [auto|]. split; [exact S1|]. split; [auto|].
      eapply adds_ext; [| |exact A]; intros x; cbv beta; [tauto|]. destruct (ks_has_scaling s); reflexivity. }
    destruct H1 as (K1 & Q1 & V1 & S1 & V1' & A1). destruct (task_constraint_spec N s1 t e K1 V1 Q1 Hs) as (c & -> & Sz & _ & Hc).
    intros E. injection E as <-. exists e. split; [reflexivity|]. split; [exact S1|]. split; [exact V1'|].
    assert (A2 : adds N s1 (kset_problem s1 (add_constraint (ks_problem s1) c)) (fun x => task_wants e (kt_priority t) N x) (fun x => task_costs e (kt_priority t) (kt_weight t) x)).
    { change (add_constraint (ks_problem s1) c) with (add_constraints (ks_problem s1) [c]). apply adds_constraints; auto. }
    eapply adds_ext; [| |exact (adds_trans N s s1 _ _ _ _ _ K1 A1 A2)]; intros x; cbv beta; [tauto|ring].
Qed.

(** The tasks of a list. *)
Definition equation_of N (dt : R) (r : robot) (t : ktask) : option equation :=
  match task_update N dt r (kt_kind t) with Ok e => Some e | _ => None end.
Definition scales N dt r (t : ktask) : bool := match equation_of N dt r t with Some e => is_scaled e (kt_priority t) | None => false end.
Definition wants N dt r (t : ktask) (x : nat -> R) : Prop := match equation_of N dt r t with Some e => task_wants e (kt_priority t) N x | None => True end.
Definition costs N dt r (t : ktask) (x : nat -> R) : R := match equation_of N dt r t with Some e => task_costs e (kt_priority t) (kt_weight t) x | None => 0 end.

Lemma add_tasks_spec N r l : forall s s', knows N s -> ks_qd s <> None -> (ks_has_scaling s = true -> ks_scale_var s <> None) ->
  (forall t e, In t l -> task_update N (ks_dt s) r (kt_kind t) = Ok e -> shaped N e) ->
  add_tasks_to_problem pn log3 msqrt r s l = (s', Ok tt) ->
  (forall t, In t l -> exists e, task_update N (ks_dt s) r (kt_kind t) = Ok e) /\
  ks_has_scaling s' = ks_has_scaling s || existsb (scales N (ks_dt s) r) l /\
  (ks_has_scaling s' = true -> ks_scale_var s' <> None) /\
  adds N s s' (fun x => (forall t, In t l -> wants N (ks_dt s) r t x) /\ (ks_has_scaling s = false -> existsb (scales N (ks_dt s) r) l = true -> 0 <= x N <= 1))
    (fun x => total (fun t => costs N (ks_dt s) r t x) l + if negb (ks_has_scaling s) && existsb (scales N (ks_dt s) r) l then / 2 * Rsqr (x N - 1) else 0).
Proof.
  induction l as [|t l IH]; intros s s' K Q V Hs; cbn [add_tasks_to_problem].
  - intros E. injection E as <-. split; [intros t []|]. cbn [existsb]. rewrite orb_false_r, andb_false_r. split; [reflexivity|]. split; [exact V|].
    eapply adds_ext; [| |now apply adds_nothing]; intros x; cbv beta; cbn [total]; [|ring]. split; [intros _|trivial]. split; [intros t []|discriminate].
  - destruct (add_task_to_problem pn log3 msqrt r s t) as [s1 o] eqn:E1. destruct o as [[]| |]; try discriminate. intros E2.
    destruct (add_task_spec N r s t s1 K Q V (fun e => Hs t e (or_introl eq_refl)) E1) as (e & Ee & S1 & V1 & A1).
    pose proof A1 as (K1 & Set1 & Q1 & _). assert (Ed : ks_dt s1 = ks_dt s) by apply Set1.
    destruct (IH s1 s' K1 Q1 V1) as (T2 & S2 & V2 & A2); [rewrite Ed; intros t' e' Ht'; apply Hs; now right|exact E2|]. rewrite Ed in T2, S2, A2.
    assert (Eo : equation_of N (ks_dt s) r t = Some e) by (unfold equation_of; now rewrite Ee).
    assert (Es : scales N (ks_dt s) r t = is_scaled e (kt_priority t)) by (unfold scales; now rewrite Eo).
    split; [intros t' [<-|Ht']; eauto|]. cbn [existsb]. rewrite Es. split; [rewrite S2, S1; now rewrite orb_assoc|]. split; [exact V2|].
    eapply adds_ext; [| |exact (adds_trans N s s1 s' _ _ _ _ K1 A1 A2)]; intros x; cbv beta.
    + rewrite S1. split.
      * intros [[H1 H2] [H3 H4]]. split; [intros t' [<-|Ht']; [unfold wants; now rewrite Eo|auto]|].
        intros Hf He. destruct (is_scaled e (kt_priority t)) eqn:Ei; [auto|]. apply H4; [rewrite Hf; reflexivity|exact He].
      * intros [H1 H2]. pose proof (H1 t (or_introl eq_refl)) as Ht. unfold wants in Ht. rewrite Eo in Ht. split; [split; [exact Ht|]|split].
        -- intros Hf Hi. apply H2; [exact Hf|now rewrite Hi].
        -- intros t' Ht'. apply H1. now right.
        -- intros Hf He. apply H2; [now destruct (ks_has_scaling s)|rewrite He; apply orb_true_r].
    + cbn [total]. unfold costs at 2. rewrite Eo, S1. destruct (ks_has_scaling s), (is_scaled e (kt_priority t)), (existsb (scales N (ks_dt s) r) l); cbn [orb negb andb]; ring.
Qed.

(** ** Masks, limits and constraints *)

Lemma entry_expr N v j e : k_start v = 0%nat -> k_end v = N -> var_expr v (Z.of_nat j) 1 = Ok e -> (j < N)%nat /\ denotes e 1 N (fun x _ => x j).
Proof.
  intros H1 H2 E. destruct (Nat.lt_ge_cases j N) as [Hj|Hj].
  - split; [exact Hj|]. destruct (var_expr_denotes v j 1) as (e' & E' & D); [lia|unfold var_size; lia|]. change (Z.of_nat 1) with 1%Z in E'. rewrite E in E'. injection E' as <-.
    rewrite H1, H2 in D. eapply denotes_ext; [|exact D]. intros x i Hi. cbv beta. f_equal. lia.
  - rewrite var_expr_out_of_range in E; [discriminate|lia|lia|lia|unfold var_size; lia].
Qed.

Lemma mask_constraints_spec N v l : k_start v = 0%nat -> k_end v = N -> forall cs, mask_constraints v l = Ok cs ->
  Forall (sized N) cs /\ (forall j, In j l -> (j < N)%nat) /\ forall x, (hard_holds cs x <-> forall j, In j l -> x j = 0) /\ soft_cost cs x = 0.
Proof.
  intros H1 H2. induction l as [|j l IH]; intros cs; cbn [mask_constraints].
  - intros E. injection E as <-. split; [constructor|]. split; [intros j []|]. intros x. split; [|reflexivity]. rewrite hard_holds_nil. split; [intros _ j []|trivial].
  - intros E. bind E e Ee. destruct (entry_expr N v j e H1 H2 Ee) as [Hj D]. destruct (made_eq_d _ _ _ _ 0 D) as (c & Ec & M). rewrite Ec in E. cbn [obind] in E.
    bind E rest Er. injection E as <-. destruct (IH rest eq_refl) as (F & B & H). split; [constructor; [now apply (made_sized _ _ _ _ _ _ _ _ M)|exact F]|].
    split; [intros j' [<-|Hj']; auto|]. intros x. destruct (H x) as [Hx Cx]. pose proof (hard_one _ _ _ _ _ _ x M) as Hm. change (c :: rest) with ([c] ++ rest).
    rewrite hard_holds_app, soft_cost_app, Hm, Hx, Cx. cbn [soft_cost]. rewrite (made_penalty_hard _ _ _ _ _ _ x M). split; [|ring]. split.
    + intros [H0 H3] j' [<-|Hj']; [|auto]. specialize (H0 0%nat ltac:(lia)). cbv beta in H0. lra.
    + intros H3. split; [|intros j' Hj'; apply H3; now right]. intros i Hi. rewrite (H3 j (or_introl eq_refl)). ring.
Qed.

Lemma fbase_spec N s v cs : k_start v = 0%nat -> k_end v = N -> fbase_constraint s v = Ok cs ->
  Forall (sized N) cs /\ (ks_masked_fbase s = true -> (6 <= N)%nat) /\ forall x, (hard_holds cs x <-> (ks_masked_fbase s = true -> forall j, (j < 6)%nat -> x j = 0)) /\ soft_cost cs x = 0.
Proof.
  intros H1 H2. unfold fbase_constraint. destruct (ks_masked_fbase s).
  - intros E. bind E e Ee. assert (HN : (6 <= N)%nat).
    { destruct (Nat.lt_ge_cases N 6) as [H|H]; [|lia]. rewrite var_expr_out_of_range in Ee; [discriminate|lia|lia|lia|unfold var_size; lia]. }
    destruct (var_expr_denotes v 0 6) as (e' & E' & D); [lia|unfold var_size; lia|]. change (Z.of_nat 0) with 0%Z in E'. change (Z.of_nat 6) with 6%Z in E'. rewrite Ee in E'. injection E' as <-.
    destruct (made_eq_d _ _ _ _ 0 D) as (c & Ec & M). rewrite Ec in E. cbn [obind] in E. injection E as <-. rewrite H1, H2 in M.
    split; [repeat constructor; [exact (proj1 (made_sized _ _ _ _ _ _ _ N M (le_n _)))|apply (made_sized _ _ _ _ _ _ _ N M (le_n _))]|]. split; [auto|].
    intros x. rewrite (hard_one _ _ _ _ _ _ x M). cbn [soft_cost]. rewrite (made_penalty_hard _ _ _ _ _ _ x M). split; [|ring]. split.
    + intros H _ j Hj. specialize (H j Hj). cbv beta in H. cbn [Nat.add] in H. lra.
    + intros H i Hi. cbn [Nat.add]. rewrite (H eq_refl i Hi). ring.
  - intros E. injection E as <-. split; [constructor|]. split; [discriminate|]. intros x. split; [|reflexivity]. rewrite hard_holds_nil. split; [discriminate|trivial].
Qed.

Definition from_end (n : nat) (v : vec) (k : nat) : R := vat v (vlen v - n + k).

Lemma bottom_rows_ok v n u : bottom_rows v n = Ok u -> vlen u = n /\ (forall k, vat u k = from_end n v k) /\ (n <= vlen v)%nat.
Proof. unfold bottom_rows, guard. destruct (Nat.leb_spec n (vlen v)); [|discriminate]. intros E. injection E as <-. auto. Qed.

Lemma joints_expr N v : k_start v = 0%nat -> k_end v = N -> (6 <= N)%nat -> exists e, var_expr v 6 (-1) = Ok e /\ denotes e (N - 6) N (fun x i => x (6 + i)%nat).
Proof.
  intros H1 H2 H6. change 6%Z with (Z.of_nat 6). rewrite var_expr_default_rows by (unfold var_size; lia).
  destruct (var_expr_denotes v 6 (var_size v - 6)) as (e & E & D); [lia|unfold var_size; lia|]. exists e. split; [exact E|].
  rewrite H1, H2 in D. replace (var_size v - 6)%nat with (N - 6)%nat in D by (unfold var_size; lia). exact D.
Qed.

Lemma limits_spec N r s v cs : ks_N s = N -> k_start v = 0%nat -> k_end v = N -> limit_constraints r s v = Ok cs ->
  Forall (sized N) cs /\ (ks_velocity_limits s = true -> ks_dt s <> 0) /\
  forall x, (hard_holds cs x <->
    (ks_joint_limits s = true -> forall k, (k < N - 6)%nat ->
       from_end (N - 6) (m_lower (r_model r)) k <= from_end (N - 6) (st_q (r_state r)) k + x (6 + k)%nat <= from_end (N - 6) (m_upper (r_model r)) k) /\
    (ks_velocity_limits s = true -> forall k, (k < N - 6)%nat ->
       - (ks_dt s * from_end (N - 6) (m_velocity (r_model r)) k) <= x (6 + k)%nat <= ks_dt s * from_end (N - 6) (m_velocity (r_model r)) k)) /\ soft_cost cs x = 0.
Proof.
  intros HN H1 H2. unfold limit_constraints. rewrite HN.
  destruct (ks_velocity_limits s && (if Req_EM_T (ks_dt s) 0 then true else false)) eqn:Ev; [discriminate|]. intros E.
  assert (Hdt : ks_velocity_limits s = true -> ks_dt s <> 0).
  { intros Hv. rewrite Hv in Ev. cbn in Ev. destruct (Req_EM_T (ks_dt s) 0); [discriminate|assumption]. }
  bind E cs1 E1. bind E cs2 E2. injection E as <-. cbv zeta in *. set (m := r_model r) in *.
  assert (G1 : Forall (sized N) cs1 /\ forall x, (hard_holds cs1 x <->
    (ks_joint_limits s = true -> forall k, (k < N - 6)%nat ->
       from_end (N - 6) (m_lower m) k <= from_end (N - 6) (st_q (r_state r)) k + x (6 + k)%nat <= from_end (N - 6) (m_upper m) k)) /\ soft_cost cs1 x = 0).
  { destruct (ks_joint_limits s).
    - unfold guard in E1. destruct (Nat.leb_spec 6 N); [|discriminate]. bind E1 q Eq. bind E1 hi Eh. bind E1 lo El.
      destruct (bottom_rows_ok _ _ _ Eq) as (Lq & Aq & _). destruct (bottom_rows_ok _ _ _ Eh) as (Lh & Ah & _). destruct (bottom_rows_ok _ _ _ El) as (Ll & Al & _).
      destruct (joints_expr N v H1 H2 H) as (e & Ee & D). rewrite Ee in E1. cbn [obind] in E1. unfold v_add_e in E1.
      destruct (e_add_v_denotes e _ _ _ q D Lq) as (e' & Ee' & D'). rewrite Ee' in E1. cbn [obind] in E1.
      destruct (made_le_v _ _ _ _ hi D' Lh) as (c1 & Ec1 & M1). rewrite Ec1 in E1. cbn [obind] in E1.
      destruct (made_v_le _ _ _ _ lo D' Ll) as (c2 & Ec2 & M2). rewrite Ec2 in E1. cbn [obind] in E1. injection E1 as <-.
      split; [constructor; [exact (made_sized _ _ _ _ _ _ _ N M1 (le_n _))|constructor; [exact (made_sized _ _ _ _ _ _ _ N M2 (le_n _))|constructor]]|].
      intros x. change [c1; c2] with ([c1] ++ [c2]). rewrite hard_holds_app, (hard_one _ _ _ _ _ _ x M1), (hard_one _ _ _ _ _ _ x M2). cbn [app soft_cost].
      rewrite (made_penalty_hard _ _ _ _ _ _ x M1), (made_penalty_hard _ _ _ _ _ _ x M2). split; [|ring]. split.
      + intros [A B] _ k Hk. specialize (A k Hk). specialize (B k Hk). cbv beta in *. rewrite Ah, Aq in A. rewrite Al, Aq in B. lra.
      + intros A. specialize (A eq_refl). split; intros k Hk; specialize (A k Hk); rewrite ?Ah, ?Al, Aq; lra.
    - injection E1 as <-. split; [constructor|]. intros x. split; [|reflexivity]. rewrite hard_holds_nil. split; [discriminate|trivial]. }
  assert (G2 : Forall (sized N) cs2 /\ forall x, (hard_holds cs2 x <->
    (ks_velocity_limits s = true -> forall k, (k < N - 6)%nat ->
       - (ks_dt s * from_end (N - 6) (m_velocity m) k) <= x (6 + k)%nat <= ks_dt s * from_end (N - 6) (m_velocity m) k)) /\ soft_cost cs2 x = 0).
  { destruct (ks_velocity_limits s).
    - unfold guard in E2. destruct (Nat.leb_spec 6 N); [|discriminate]. bind E2 l El.
      destruct (bottom_rows_ok _ _ _ El) as (Ll & Al & _).
      destruct (joints_expr N v H1 H2 H) as (e & Ee & D). rewrite Ee in E2. cbn [obind] in E2.
      destruct (made_le_v _ _ _ _ (vec_scale (ks_dt s) l) D Ll) as (c1 & Ec1 & M1). rewrite Ec1 in E2. cbn [obind] in E2.
      destruct (made_v_le _ _ _ _ (vec_scale (- ks_dt s) l) D Ll) as (c2 & Ec2 & M2). rewrite Ec2 in E2. cbn [obind] in E2. injection E2 as <-.
      split; [constructor; [exact (made_sized _ _ _ _ _ _ _ N M1 (le_n _))|constructor; [exact (made_sized _ _ _ _ _ _ _ N M2 (le_n _))|constructor]]|].
      intros x. change [c1; c2] with ([c1] ++ [c2]). rewrite hard_holds_app, (hard_one _ _ _ _ _ _ x M1), (hard_one _ _ _ _ _ _ x M2). cbn [app soft_cost].
      rewrite (made_penalty_hard _ _ _ _ _ _ x M1), (made_penalty_hard _ _ _ _ _ _ x M2). split; [|ring]. unfold vec_scale. cbn [vat]. split.
      + intros [A B] _ k Hk. specialize (A k Hk). specialize (B k Hk). cbv beta in *. rewrite Al in A, B. lra.
      + intros A. specialize (A eq_refl). split; intros k Hk; specialize (A k Hk); rewrite Al; lra.
    - injection E2 as <-. split; [constructor|]. intros x. split; [|reflexivity]. rewrite hard_holds_nil. split; [discriminate|trivial]. }
  destruct G1 as [F1 G1]. destruct G2 as [F2 G2]. split; [now apply Forall_app|]. split; [exact Hdt|]. intros x. destruct (G1 x) as [A1 B1]. destruct (G2 x) as [A2 B2].
  rewrite hard_holds_app, soft_cost_app, A1, A2, B1, B2. split; [tauto|ring].
Qed.

Lemma constraints_spec N dt r l : forall cs, constraints_add pn N dt r l = Ok cs ->
  (forall c, In c l -> exists cs', constraint_add pn N dt r c = Ok cs') /\
  forall x, (hard_holds cs x <-> forall c cs', In c l -> constraint_add pn N dt r c = Ok cs' -> hard_holds cs' x) /\
    soft_cost cs x = total (fun c => match constraint_add pn N dt r c with Ok cs' => soft_cost cs' x | _ => 0 end) l.
Proof.
  induction l as [|c l IH]; intros cs; cbn [constraints_add].
  - intros E. injection E as <-. split; [intros c []|]. intros x. split; [|reflexivity]. rewrite hard_holds_nil. split; [intros _ c cs' []|trivial].
  - intros E. bind E cs1 E1. bind E rest Er. injection E as <-. destruct (IH rest eq_refl) as [T H]. split; [intros c' [<-|Hc']; eauto|].
    intros x. destruct (H x) as [A B]. rewrite hard_holds_app, soft_cost_app, A, B. cbn [total]. rewrite E1. split; [|reflexivity]. split.
    + intros [H1 H2] c' cs' [<-|Hc'] E'; [rewrite E1 in E'; injection E' as <-; exact H1|eauto].
    + intros H1. split; [now apply (H1 c); [left|]|]. intros c' cs' Hc'. apply H1. now right.
Qed.

(** ** The problem that is solved *)

Lemma allowed_iff N s r x : ks_N s = N ->
  (forall t, In t (ks_tasks s) -> exists e, task_update N (ks_dt s) r (kt_kind t) = Ok e) ->
  (allowed pn log3 msqrt s r x <->
   ((forall t, In t (ks_tasks s) -> wants N (ks_dt s) r t x) /\ (existsb (scales N (ks_dt s) r) (ks_tasks s) = true -> 0 <= x N <= 1)) /\
   (forall j, In j (ks_masked s) -> x j = 0) /\ (ks_masked_fbase s = true -> forall j, (j < 6)%nat -> x j = 0) /\
   ((ks_joint_limits s = true -> forall k, (k < N - 6)%nat ->
       from_end (N - 6) (m_lower (r_model r)) k <= from_end (N - 6) (st_q (r_state r)) k + x (6 + k)%nat <= from_end (N - 6) (m_upper (r_model r)) k) /\
    (ks_velocity_limits s = true -> forall k, (k < N - 6)%nat ->
       - (ks_dt s * from_end (N - 6) (m_velocity (r_model r)) k) <= x (6 + k)%nat <= ks_dt s * from_end (N - 6) (m_velocity (r_model r)) k)) /\
   (forall c cs', In c (ks_cons s) -> constraint_add pn N (ks_dt s) r c = Ok cs' -> hard_holds cs' x)).
Proof.
  intros <- HT. set (N := ks_N s) in *.
  assert (Hsc : existsb (scales N (ks_dt s) r) (ks_tasks s) = true <-> scaling pn log3 msqrt s r).
  { rewrite existsb_exists. unfold scaling, asks_for, scales, equation_of, is_scaled. split.
    - intros (t & Ht & H). destruct (task_update N (ks_dt s) r (kt_kind t)) as [e| |] eqn:E; try discriminate. exists t, e. apply andb_true_iff in H. destruct H as [H H'].
      split; [split; assumption|]. split; [destruct (kt_priority t); (reflexivity || discriminate)|]. apply negb_true_iff, Nat.eqb_neq in H. lia.
    - intros (t & e & [Ht E] & P & Hm). exists t. split; [exact Ht|]. fold N in E. rewrite E, P, andb_true_r. apply negb_true_iff, Nat.eqb_neq. lia. }
  split.
  - intros [A1 A2 A3 A4 A5 A6 A7 A8]. split; [split|]; [| |split; [exact A4|split; [exact A5|split; [split|]]]].
    + intros t Ht. unfold wants, equation_of. destruct (task_update N (ks_dt s) r (kt_kind t)) as [e| |] eqn:E; trivial. unfold task_wants.
      destruct (kt_priority t) eqn:P; [apply (A1 t e (conj Ht E) P)|trivial|apply (A2 t e (conj Ht E) P)].
    + intros H. apply A3. now apply Hsc.
    + intros H k Hk. specialize (A6 H k Hk). exact A6.
    + intros H k Hk. exact (A7 H k Hk).
    + exact A8.
  - intros ((A1 & A2) & A4 & A5 & (A6 & A7) & A8).
    assert (W : forall t e, asks_for pn log3 msqrt s r t e -> task_wants e (kt_priority t) N x).
    { intros t e [Ht E]. specialize (A1 t Ht). unfold wants, equation_of in A1. fold N in E. rewrite E in A1. exact A1. }
    constructor; [| | |exact A4|exact A5|exact A6|exact A7|exact A8].
    + intros t e H P. specialize (W t e H). rewrite P in W. exact W.
    + intros t e H P. specialize (W t e H). rewrite P in W. exact W.
    + intros H. apply A2. now apply Hsc.
Qed.

End WithRobot.
