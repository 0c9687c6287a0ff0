(** Lemmas about the kinematics solver: when a solve must succeed. *)
From Coq Require Import Reals List ZArith Bool String Lra Lia.
From Verif Require Import Base Linalg Geom3 Tools_model Geometry_model Expression_model Expression_spec Expression_proofs Problem_model Problem_spec
  Problem_proofs Problem_proofs2 Problem_proofs3 Problem_props Polynom_model Robot_model KinTasks_model Kin_model Kin_spec Kin_proofs Kin_proofs2.
Import ListNotations.
Open Scope R_scope.

(** ** Rows of the hard equalities *)

Definition same_rows (l l' : list (nat -> R)) : Prop := Forall2 (fun a b => forall j, a j = b j) l l'.

Lemma same_rows_refl l : same_rows l l.
Proof. induction l; constructor; auto. Qed.
Lemma same_rows_app a b c d : same_rows a b -> same_rows c d -> same_rows (a ++ c) (b ++ d).
Proof. apply Forall2_app. Qed.
Lemma same_rows_nth a b : same_rows a b -> forall k j, nth k a (fun _ => 0) j = nth k b (fun _ => 0) j.
Proof. induction 1 as [|x y l l' H _ IH]; intros [|k] j; cbn; auto. Qed.
Lemma same_rows_map {A} (f g : A -> nat -> R) l : (forall a, In a l -> forall j, f a j = g a j) -> same_rows (map f l) (map g l).
Proof. induction l as [|a l IH]; intros H; cbn; constructor; [apply H; now left|]. apply IH. intros b Hb. apply H. now right. Qed.

Lemma same_rows_length a b : same_rows a b -> List.length a = List.length b.
Proof. induction 1; cbn; auto. Qed.

Lemma combination_rows cs mu : forall k j,
  combination cs mu k j = Rsum (List.length (flat_map equality_rows cs)) (fun i => mu (k + i)%nat * nth i (flat_map equality_rows cs) (fun _ => 0) j).
Proof.
  induction cs as [|c cs IH]; intros k j; [reflexivity|]. cbn [combination flat_map]. unfold equality_rows at 1 3.
  destruct (c_prio c); [cbn [app]; apply IH|]. destruct (c_type c); [|cbn [app]; apply IH].
  set (n := rows (c_expr c)). set (g := fun (i j : nat) => if Nat.ltb j (cols (c_expr c)) then mat_at (eA (c_expr c)) i j else 0).
  assert (Ln : List.length (map g (seq 0 n)) = n) by now rewrite map_length, seq_length.
  rewrite app_length, Ln, Rsum_split. f_equal.
  - apply Rsum_ext. intros i Hi. f_equal. rewrite app_nth1 by lia. rewrite nth_indep with (d' := g 0%nat) by lia. rewrite map_nth, seq_nth by lia. reflexivity.
  - rewrite IH. apply Rsum_ext. intros i Hi. rewrite app_nth2 by lia. rewrite Ln. f_equal; [f_equal; lia|f_equal; lia].
Qed.

Lemma equality_count cs : hard_equality_rows cs = List.length (flat_map equality_rows cs).
Proof.
  induction cs as [|c cs IH]; [reflexivity|]. cbn [hard_equality_rows flat_map]. rewrite app_length, IH. unfold equality_rows.
  destruct (c_prio c), (c_type c); cbn [List.length]; auto. now rewrite map_length, seq_length.
Qed.

Lemma independent_of_rows pb l : same_rows (flat_map equality_rows (p_cons pb)) l -> independent_rows (p_n pb) l -> independent_equalities pb.
Proof.
  intros H I mu Hmu k Hk. pose proof (same_rows_length _ _ H) as L. rewrite equality_count, L in Hk. apply (I mu); [|exact Hk].
  intros j Hj. transitivity (combination (p_cons pb) mu 0 j); [|now apply Hmu]. rewrite combination_rows, L. apply Rsum_ext. intros i Hi. f_equal. symmetry. apply same_rows_nth, H.
Qed.

(** ** Constraints a problem can be given *)

Definition good (n : nat) (cs : list pconstraint) (rs : list (nat -> R)) : Prop :=
  (forall c, In c cs -> (0 < rows (c_expr c))%nat /\ vlen (eb (c_expr c)) = rows (c_expr c) /\ (cols (c_expr c) <= n)%nat /\
     (c_prio c = Soft -> 0 <= c_weight c /\ (c_type c = Inequality -> 0 < c_weight c))) /\
  same_rows (flat_map equality_rows cs) rs.

Lemma good_nil n : good n [] [].
Proof. split; [intros c []|constructor]. Qed.
Lemma good_app n a b ra rb : good n a ra -> good n b rb -> good n (a ++ b) (ra ++ rb).
Proof.
  intros [A1 A2] [B1 B2]. split; [intros c Hc; apply in_app_or in Hc; destruct Hc; auto|]. rewrite flat_map_app. now apply same_rows_app.
Qed.
Lemma good_more n m cs rs : (n <= m)%nat -> good n cs rs -> good m cs rs.
Proof. intros H [A B]. split; [|exact B]. intros c Hc. destruct (A c Hc) as (A1 & A2 & A3 & A4). repeat split; auto; try lia; now apply A4. Qed.
Lemma good_rows n cs rs rs' : same_rows rs rs' -> good n cs rs -> good n cs rs'.
Proof.
  intros H [A B]. split; [exact A|]. clear A. unfold same_rows in *. revert rs' H. generalize (flat_map equality_rows cs) B. clear. intros l B. induction B as [|x y l l' Hxy _ IH]; intros rs' H; inversion H; subst; constructor; auto.
  intros j. now rewrite Hxy.
Qed.

Lemma Rsum_unit_row m j (g : nat -> R) : Rsum m (fun k => g k * unit_row j k) = if Nat.ltb j m then g j else 0.
Proof.
  destruct (Nat.ltb_spec j m) as [H|H].
  - rewrite (Rsum_delta m j _ H); unfold unit_row; [rewrite Nat.eqb_refl; ring|]. intros k _ Hk. destruct (Nat.eqb_spec k j); [contradiction|ring].
  - apply Rsum_zero_ext. intros k Hk. unfold unit_row. destruct (Nat.eqb_spec k j); [lia|ring].
Qed.

Lemma made_coefficients c t p w n m f i j : made c t p w n m f -> (i < n)%nat ->
  (if Nat.ltb j (cols (c_expr c)) then mat_at (eA (c_expr c)) i j else 0) = f (unit_row j) i - f (fun _ => 0) i.
Proof.
  intros (_ & _ & _ & _ & _ & _ & H) Hi. rewrite <- !H by exact Hi. unfold row. rewrite Rsum_unit_row.
  rewrite (Rsum_zero_ext (cols (c_expr c)) (fun j0 => mat_at (eA (c_expr c)) i j0 * 0)) by (intros; ring). destruct (Nat.ltb j (cols (c_expr c))); ring.
Qed.

Lemma made_good c t p w n m f M : made c t p w n m f -> (0 < n)%nat -> (m <= M)%nat -> (p = Soft -> t = Equality /\ 0 <= w) ->
  good M [c] (match p, t with Hard, Equality => map (fun i j => f (unit_row j) i - f (fun _ => 0) i) (seq 0 n) | _, _ => [] end).
Proof.
  intros Hm Hn HM Hw. pose proof Hm as (E1 & E2 & E3 & E4 & E5 & E6 & _). split.
  - intros c' [<-|[]]. rewrite E1, E2, E3, E4, E5, E6. repeat split; try lia; [now apply Hw|]. intros ->. destruct (Hw ltac:(assumption)). discriminate.
  - cbn [flat_map]. rewrite app_nil_r. unfold equality_rows. rewrite E1, E2, E4. destruct p; [constructor|]. destruct t; [|constructor].
    apply same_rows_map. intros i Hi j. apply in_seq in Hi. apply (made_coefficients c Equality Hard w n m f i j Hm). lia.
Qed.

Section WithRobot.
Variable pn : pin.
Variable log3 : mat3 -> vec3.
Variable msqrt : mat -> mat.
Notation task_update := (task_update pn log3 msqrt).
Notation ksolve := (ksolve pn log3 msqrt).

(** The rows of an equation. *)
Definition rows_of (N : nat) (p : task_priority) (e : equation) : list (nat -> R) :=
  match p with
  | PHard => map (fun k j => if Nat.ltb j N then mat_at (fst e) k j else 0) (seq 0 (mrows (fst e)))
  | PScaled => map (fun k j => if Nat.ltb j N then mat_at (fst e) k j else if Nat.eqb j N then - vat (snd e) k else 0) (seq 0 (mrows (fst e)))
  | PSoft => []
  end.

Lemma task_rows_of s r t e : task_update (ks_N s) (ks_dt s) r (kt_kind t) = Ok e -> task_rows pn log3 msqrt s r t = rows_of (ks_N s) (kt_priority t) e.
Proof. intros E. unfold task_rows. rewrite E. destruct e as [A b], (kt_priority t); reflexivity. Qed.

Lemma residual_unit N e s i j : mcols (fst e) = N -> residual e (unit_row j) s i - residual e (fun _ => 0) 1 i = (if Nat.ltb j N then mat_at (fst e) i j else 0) - (s - 1) * vat (snd e) i.
Proof.
  intros H. unfold residual. rewrite H, Rsum_unit_row. rewrite (Rsum_zero_ext N (fun j0 => mat_at (fst e) i j0 * 0)) by (intros; ring). destruct (Nat.ltb j N); ring.
Qed.

Lemma task_constraint_good N s t e : knows N s -> (kt_priority t = PScaled -> ks_scale_var s <> None) -> ks_qd s <> None -> shaped N e ->
  (0 < mrows (fst e))%nat -> (kt_priority t = PSoft -> 0 <= kt_weight t) ->
  exists c, task_constraint s t e = Ok c /\ good (p_n (ks_problem s)) [c] (rows_of N (kt_priority t) e).
Proof.
  intros K V Q Hs H0 Hw. pose proof (knows_n_ge N s K Q) as Hn. pose proof (proj1 Hs) as Hc. unfold task_constraint.
  destruct (kt_priority t) eqn:P.
  - pose proof (equation_denotes N e Hs) as D. destruct e as [A b]. cbn [task_expression obind fst snd] in *.
    destruct (made_eq_d _ _ _ _ 0 D) as (c & -> & M). cbn [obind]. apply (made_configure _ _ _ _ _ _ _ Hard (kt_weight t)) in M. eexists. split; [reflexivity|].
    eapply good_rows; [|apply (made_good _ _ _ _ _ _ _ (p_n (ks_problem s)) M H0 Hn); discriminate]. apply same_rows_map. intros i Hi j. cbv beta.
    transitivity (residual (A, b) (unit_row j) 1 i - residual (A, b) (fun _ => 0) 1 i); [ring|]. rewrite (residual_unit N) by exact Hc. cbn [fst snd]. ring.
  - pose proof (equation_denotes N e Hs) as D. destruct e as [A b]. cbn [task_expression obind fst snd] in *.
    destruct (made_eq_d _ _ _ _ 0 D) as (c & -> & M). cbn [obind]. apply (made_configure _ _ _ _ _ _ _ Soft (kt_weight t)) in M. eexists. split; [reflexivity|].
    apply (made_good _ _ _ _ _ _ _ (p_n (ks_problem s)) M H0 Hn). intros _. split; [reflexivity|auto].
  - destruct (scaled_total N s e K (V eq_refl) Hs) as (y & Ey). pose proof (scaled_denotes N s e y K (V eq_refl) Hs Ey) as D. rewrite Ey. cbn [obind].
    destruct (made_eq_d _ _ _ _ 0 D) as (c & -> & M). cbn [obind]. apply (made_configure _ _ _ _ _ _ _ Hard (kt_weight t)) in M. eexists. split; [reflexivity|].
    destruct (knows_scale N s K (V eq_refl)) as (_ & En & _).
    eapply good_rows; [|apply (made_good _ _ _ _ _ _ _ (p_n (ks_problem s)) M H0); [lia|discriminate]]. apply same_rows_map. intros i Hi j. cbv beta.
    transitivity (residual e (unit_row j) (unit_row j N) i - residual e (fun _ => 0) 0 i); [ring|]. unfold residual. rewrite Hc, Rsum_unit_row.
    rewrite (Rsum_zero_ext N (fun j0 => mat_at (fst e) i j0 * 0)) by (intros; ring). unfold unit_row. rewrite (Nat.eqb_sym N j).
    destruct (Nat.ltb_spec j N); destruct (Nat.eqb_spec j N); try lia; ring.
Qed.

Lemma start_scaling_good N s : knows N s -> ks_qd s <> None -> (ks_has_scaling s = true -> ks_scale_var s <> None) ->
  exists s' cs, start_scaling s = (s', Ok tt) /\ p_cons (ks_problem s') = p_cons (ks_problem s) ++ cs /\ good (p_n (ks_problem s')) cs [] /\ ks_scale_var s' <> None.
Proof.
  intros K Q V. unfold start_scaling. destruct (ks_has_scaling s) eqn:Es.
  - exists s, []. split; [reflexivity|]. split; [now rewrite app_nil_r|]. split; [apply good_nil|auto].
  - set (s1 := kset_scale s (ks_scale s) true). cbv zeta. destruct (ensure_scale_spec N s1 K Q) as (K2 & S2 & E2 & V2 & C2 & _). set (s2 := ensure_scale s1) in *.
    destruct (knows_scale N s2 K2 V2) as (_ & En & w & -> & W1 & W2). cbn [obind]. destruct (scale_expr N w W1 W2) as (e & -> & D). cbn [obind].
    destruct (made_ge_d _ _ _ _ 0 D) as (c0 & -> & M0). destruct (made_le_d _ _ _ _ 1 D) as (c1 & -> & M1). destruct (made_eq_d _ _ _ _ 1 D) as (c2 & -> & M2). cbn [obind].
    apply (made_configure _ _ _ _ _ _ _ Soft 1) in M2. eexists. eexists. split; [reflexivity|].
    destruct (add_constraints_spec [c0; c1; configure_prio c2 Soft 1] (ks_problem s2)) as (Y1 & Y2 & Y3 & _).
    cbn [kset_problem ks_problem ks_scale_var]. split; [rewrite Y3, C2; reflexivity|]. split; [|exact V2].
    rewrite Y2, En. change (@nil (nat -> R)) with ([] ++ [] ++ [] : list (nat -> R)). change [c0; c1; configure_prio c2 Soft 1] with ([c0] ++ [c1] ++ [configure_prio c2 Soft 1]).
    apply good_app; [|apply good_app].
    + apply (made_good _ _ _ _ _ _ _ (S N) M0); [lia|lia|discriminate].
    + apply (made_good _ _ _ _ _ _ _ (S N) M1); [lia|lia|discriminate].
    + apply (made_good _ _ _ _ _ _ _ (S N) M2); [lia|lia|]. intros _. split; [reflexivity|lra].
Qed.

Lemma add_task_good N r s t e : knows N s -> ks_qd s <> None -> (ks_has_scaling s = true -> ks_scale_var s <> None) ->
  task_update N (ks_dt s) r (kt_kind t) = Ok e -> shaped N e -> (kt_priority t = PSoft -> 0 <= kt_weight t) ->
  exists s' cs, add_task_to_problem pn log3 msqrt r s t = (s', Ok tt) /\ p_cons (ks_problem s') = p_cons (ks_problem s) ++ cs /\
    good (p_n (ks_problem s')) cs (rows_of N (kt_priority t) e).
Proof.
  intros K Q V Ee Hs Hw. unfold add_task_to_problem. rewrite (proj1 K), Ee. destruct (Nat.eqb_spec (mrows (fst e)) 0) as [E0|E0].
  - exists s, []. split; [reflexivity|]. split; [now rewrite app_nil_r|]. unfold rows_of. rewrite E0. destruct (kt_priority t); apply good_nil.
  - assert (A : exists s1 cs1, match kt_priority t with PScaled => start_scaling s | _ => (s, Ok tt) end = (s1, Ok tt) /\
      p_cons (ks_problem s1) = p_cons (ks_problem s) ++ cs1 /\ good (p_n (ks_problem s1)) cs1 [] /\ (kt_priority t = PScaled -> ks_scale_var s1 <> None)).
    { destruct (kt_priority t).
      1, 2: exists s, []; split; [reflexivity|]; split; [now rewrite app_nil_r|]; split; [apply good_nil|discriminate].
      destruct (start_scaling_good N s K Q V) as (s1 & cs1 & A1 & A2 & A3 & A4). exists s1, cs1. auto. }
    destruct A as (s1 & cs1 & E1 & C1 & G1 & V1). rewrite E1.
    assert (B : kept N s s1).
    { destruct (kt_priority t); [injection E1 as <-|injection E1 as <-|exact (start_scaling_kept N s s1 (Ok tt) K Q E1)];
        (split; [exact K|]; split; [apply same_settings_refl|exact Q]). }
    destruct B as (K1 & S1 & Q1). destruct (task_constraint_good N s1 t e K1 V1 Q1 Hs ltac:(lia) Hw) as (c & Ec & Gc). rewrite Ec.
    exists (kset_problem s1 (add_constraint (ks_problem s1) c)), (cs1 ++ [c]). split; [reflexivity|].
    split; [change (p_cons (ks_problem s1) ++ [c] = p_cons (ks_problem s) ++ cs1 ++ [c]); now rewrite C1, app_assoc|]. change (rows_of N (kt_priority t) e) with ([] ++ rows_of N (kt_priority t) e). exact (good_app _ _ _ _ _ G1 Gc).
Qed.

Lemma add_tasks_good N r l : forall s, knows N s -> ks_qd s <> None -> (ks_has_scaling s = true -> ks_scale_var s <> None) ->
  (forall t, In t l -> (exists e, task_update N (ks_dt s) r (kt_kind t) = Ok e /\ shaped N e) /\ (kt_priority t = PSoft -> 0 <= kt_weight t)) ->
  exists s' cs, add_tasks_to_problem pn log3 msqrt r s l = (s', Ok tt) /\ p_cons (ks_problem s') = p_cons (ks_problem s) ++ cs /\
    good (p_n (ks_problem s')) cs (flat_map (fun t => match task_update N (ks_dt s) r (kt_kind t) with Ok e => rows_of N (kt_priority t) e | _ => [] end) l).
Proof.
  induction l as [|t l IH]; intros s K Q V Hl; cbn [add_tasks_to_problem flat_map].
  - exists s, []. split; [reflexivity|]. split; [now rewrite app_nil_r|]. apply good_nil.
  - destruct (Hl t (or_introl eq_refl)) as [(e & Ee & Hs) Hw]. destruct (add_task_good N r s t e K Q V Ee Hs Hw) as (s1 & cs1 & E1 & C1 & G1). rewrite E1.
    destruct (add_task_spec pn log3 msqrt N r s t s1 K Q V) as (e0 & E0' & S0' & V1 & A1); [intros e' Ee'; rewrite Ee in Ee'; now injection Ee' as <-|exact E1|].
    pose proof A1 as (K1 & S1 & Q1 & _). assert (Ed : ks_dt s1 = ks_dt s) by apply S1.
    destruct (IH s1 K1 Q1 V1) as (s' & cs & E2 & C2 & G2); [rewrite Ed; intros t' Ht'; apply Hl; now right|]. rewrite Ed in G2. exists s', (cs1 ++ cs). split; [exact E2|].
    split; [now rewrite C2, C1, app_assoc|]. rewrite Ee. apply good_app; [|exact G2]. eapply good_more; [|exact G1].
    destruct (add_tasks_spec pn log3 msqrt N r l s1 s' K1 Q1 V1) as (_ & _ & _ & A2); [|exact E2|].
    { rewrite Ed. intros t' e' Ht' Ee'. destruct (Hl t' (or_intror Ht')) as [(e2 & Ee2 & Hs2) _]. rewrite Ee' in Ee2. now injection Ee2 as <-. }
    destruct A2 as (K2 & _ & Q2 & V2 & _). exact (knows_n_le N s1 s' K1 K2 Q1 Q2 V2).
Qed.

(** ** Masks, limits and constraints *)

Lemma unit_difference (i j : nat) : unit_row j i - 0 - (0 - 0) = unit_row i j.
Proof. unfold unit_row. rewrite Nat.eqb_sym. ring. Qed.

Lemma mask_good N v l : k_start v = 0%nat -> k_end v = N -> (forall j, In j l -> (j < N)%nat) ->
  exists cs, mask_constraints v l = Ok cs /\ good N cs (map unit_row l).
Proof.
  intros H1 H2. induction l as [|j l IH]; intros Hl; cbn [mask_constraints map].
  - exists []. split; [reflexivity|apply good_nil].
  - specialize (Hl j (or_introl eq_refl)) as Hj. destruct (var_expr_denotes v j 1) as (e & E & _); [lia|unfold var_size; lia|]. change (Z.of_nat 1) with 1%Z in E.
    destruct (entry_expr N v j e H1 H2 E) as [_ D]. destruct (made_eq_d _ _ _ _ 0 D) as (c & Ec & M). rewrite E. cbn [obind]. rewrite Ec. cbn [obind].
    destruct IH as (cs & -> & G); [intros k Hk; apply Hl; now right|]. cbn [obind]. exists (c :: cs). split; [reflexivity|].
    change (c :: cs) with ([c] ++ cs). change (unit_row j :: map unit_row l) with ([unit_row j] ++ map unit_row l). apply good_app; [|exact G].
    eapply good_rows; [|apply (made_good _ _ _ _ _ _ _ N M); [lia|lia|discriminate]]. constructor; [|constructor]. intros k. apply unit_difference.
Qed.

Lemma fbase_good N s v : k_start v = 0%nat -> k_end v = N -> (ks_masked_fbase s = true -> (6 <= N)%nat) ->
  exists cs, fbase_constraint s v = Ok cs /\ good N cs (if ks_masked_fbase s then map unit_row (seq 0 6) else []).
Proof.
  intros H1 H2 HN. unfold fbase_constraint. destruct (ks_masked_fbase s).
  - specialize (HN eq_refl). destruct (var_expr_denotes v 0 6) as (e & E & D); [lia|unfold var_size; lia|]. change (Z.of_nat 0) with 0%Z in E. change (Z.of_nat 6) with 6%Z in E.
    rewrite E. cbn [obind]. rewrite H1, H2 in D. destruct (made_eq_d _ _ _ _ 0 D) as (c & -> & M). cbn [obind]. exists [c]. split; [reflexivity|].
    eapply good_rows; [|apply (made_good _ _ _ _ _ _ _ N M); [lia|lia|discriminate]]. apply same_rows_map. intros i Hi j. cbn [Nat.add]. apply unit_difference.
  - exists []. split; [reflexivity|apply good_nil].
Qed.

Lemma bottom_rows_total v n : (n <= vlen v)%nat -> exists u, bottom_rows v n = Ok u /\ vlen u = n.
Proof. intros H. unfold bottom_rows, guard. destruct (Nat.leb_spec n (vlen v)); [|lia]. eexists. split; reflexivity. Qed.

Lemma limits_good N r s v : ks_N s = N -> k_start v = 0%nat -> k_end v = N ->
  (ks_joint_limits s = true -> (6 < N)%nat /\ (N - 6 <= vlen (st_q (r_state r)))%nat /\ (N - 6 <= vlen (m_lower (r_model r)))%nat /\ (N - 6 <= vlen (m_upper (r_model r)))%nat) ->
  (ks_velocity_limits s = true -> (6 < N)%nat /\ (N - 6 <= vlen (m_velocity (r_model r)))%nat /\ ks_dt s <> 0) ->
  exists cs, limit_constraints r s v = Ok cs /\ good N cs [].
Proof.
  intros HN H1 H2 HJ HV. unfold limit_constraints. rewrite HN. cbv zeta.
  replace (ks_velocity_limits s && (if Req_EM_T (ks_dt s) 0 then true else false)) with false.
  2: { destruct (ks_velocity_limits s); [|reflexivity]. destruct (HV eq_refl) as (_ & _ & H). destruct (Req_EM_T (ks_dt s) 0); [contradiction|reflexivity]. }
  assert (A : exists cs, (if ks_joint_limits s then
             guard (Nat.leb 6 N)
               (q <- bottom_rows (st_q (r_state r)) (N - 6) ;; hi <- bottom_rows (m_upper (r_model r)) (N - 6) ;; lo <- bottom_rows (m_lower (r_model r)) (N - 6) ;;
                e <- var_expr v 6 (-1) ;; e <- v_add_e q e ;; c1 <- e_le_v e hi ;; c2 <- v_le_e lo e ;; Ok [c1; c2])
           else Ok []) = Ok cs /\ good N cs []).
  { destruct (ks_joint_limits s); [|exists []; split; [reflexivity|apply good_nil]]. destruct (HJ eq_refl) as (J1 & J2 & J3 & J4).
    unfold guard. destruct (Nat.leb_spec 6 N); [|lia]. destruct (bottom_rows_total _ _ J2) as (q & -> & Lq). destruct (bottom_rows_total _ _ J4) as (hi & -> & Lh).
    destruct (bottom_rows_total _ _ J3) as (lo & -> & Ll). cbn [obind]. destruct (joints_expr N v H1 H2 ltac:(lia)) as (e & -> & D). cbn [obind].
    destruct (e_add_v_denotes e _ _ _ q D Lq) as (e' & E' & D'). unfold v_add_e. rewrite E'. cbn [obind].
    destruct (made_le_v _ _ _ _ hi D' Lh) as (c1 & -> & M1). cbn [obind]. destruct (made_v_le _ _ _ _ lo D' Ll) as (c2 & -> & M2). cbn [obind]. exists [c1; c2]. split; [reflexivity|].
    change [c1; c2] with ([c1] ++ [c2]). change (@nil (nat -> R)) with ([] ++ [] : list (nat -> R)). apply good_app.
    - apply (made_good _ _ _ _ _ _ _ N M1); [lia|lia|discriminate].
    - apply (made_good _ _ _ _ _ _ _ N M2); [lia|lia|discriminate]. }
  destruct A as (cs & -> & G). cbn [obind].
  assert (B : exists cs', (if ks_velocity_limits s then
              guard (Nat.leb 6 N)
                (l <- bottom_rows (m_velocity (r_model r)) (N - 6) ;; e <- var_expr v 6 (-1) ;;
                 c1 <- e_le_v e (vec_scale (ks_dt s) l) ;; c2 <- v_le_e (vec_scale (- ks_dt s) l) e ;; Ok [c1; c2])
            else Ok []) = Ok cs' /\ good N cs' []).
  { destruct (ks_velocity_limits s); [|exists []; split; [reflexivity|apply good_nil]]. destruct (HV eq_refl) as (J1 & J2 & _).
    unfold guard. destruct (Nat.leb_spec 6 N); [|lia]. destruct (bottom_rows_total _ _ J2) as (l & -> & Ll). cbn [obind].
    destruct (joints_expr N v H1 H2 ltac:(lia)) as (e & -> & D). cbn [obind].
    destruct (made_le_v _ _ _ _ (vec_scale (ks_dt s) l) D Ll) as (c1 & -> & M1). cbn [obind]. destruct (made_v_le _ _ _ _ (vec_scale (- ks_dt s) l) D Ll) as (c2 & -> & M2). cbn [obind].
    exists [c1; c2]. split; [reflexivity|].
    change [c1; c2] with ([c1] ++ [c2]). change (@nil (nat -> R)) with ([] ++ [] : list (nat -> R)). apply good_app.
    - apply (made_good _ _ _ _ _ _ _ N M1); [lia|lia|discriminate].
    - apply (made_good _ _ _ _ _ _ _ N M2); [lia|lia|discriminate]. }
  destruct B as (cs' & -> & G'). cbn [obind]. exists (cs ++ cs'). split; [reflexivity|]. exact (good_app N cs cs' [] [] G G').
Qed.

Lemma constraints_good N dt r l :
  (forall c, In c l -> exists cs, constraint_add pn N dt r c = Ok cs /\
    forall c', In c' cs -> (0 < rows (c_expr c'))%nat /\ vlen (eb (c_expr c')) = rows (c_expr c') /\ (cols (c_expr c') <= N)%nat /\ (c_prio c' = Soft -> 0 < c_weight c')) ->
  exists cs, constraints_add pn N dt r l = Ok cs /\
    good N cs (flat_map (fun c => match constraint_add pn N dt r c with Ok cs => flat_map equality_rows cs | _ => [] end) l).
Proof.
  induction l as [|c l IH]; intros Hl; cbn [constraints_add flat_map].
  - exists []. split; [reflexivity|apply good_nil].
  - destruct (Hl c (or_introl eq_refl)) as (cs & E & H). destruct IH as (cs' & E' & G); [intros c' Hc'; apply Hl; now right|]. rewrite E, E'. cbn [obind].
    exists (cs ++ cs'). split; [reflexivity|]. apply good_app; [|exact G]. split; [|apply same_rows_refl].
    intros c' Hc'. destruct (H c' Hc') as (A & B & C & D). repeat split; auto. specialize (D ltac:(assumption)). lra.
Qed.

(** ** The whole problem *)

Lemma knows_tiles N s : knows N s -> tiles 0 (p_vars (ks_problem s)) (p_n (ks_problem s)).
Proof.
  intros [_ H]. destruct (ks_qd s), (ks_scale_var s); try contradiction.
  - destruct H as (_ & _ & -> & v & w & -> & A & B & C & D). cbn. rewrite A, B, C, D. repeat split; lia.
  - destruct H as (_ & -> & v & -> & A & B). cbn. rewrite A, B. repeat split; lia.
  - destruct H as [-> ->]. reflexivity.
Qed.

Lemma answerable_built N s r : knows N s -> answerable pn log3 msqrt s r ->
  exists s2, built pn log3 msqrt s r = Some s2 /\ good (p_n (ks_problem s2)) (p_cons (ks_problem s2)) (hard_rows pn log3 msqrt s r).
Proof.
  intros K An. pose proof (proj1 K) as HN. destruct (started_spec N s K) as (A & Ec0 & Es0 & Esc0 & Ev0). unfold built. set (s0 := started s) in *.
  destruct A as (K0 & S0 & Q0). assert (Et : ks_tasks s0 = ks_tasks s) by apply S0. assert (Ed : ks_dt s0 = ks_dt s) by apply S0. rewrite Et.
  assert (V0 : ks_has_scaling s0 = true -> ks_scale_var s0 <> None) by congruence.
  assert (Ht : forall t, In t (ks_tasks s) -> (exists e, task_update N (ks_dt s0) r (kt_kind t) = Ok e /\ shaped N e) /\ (kt_priority t = PSoft -> 0 <= kt_weight t)).
  { intros t Ht. split; [|now apply (an_weights _ _ _ _ _ An)]. destruct (an_tasks _ _ _ _ _ An t Ht) as (e & [_ E] & Hs). exists e. rewrite Ed, <- HN. auto. }
  destruct (add_tasks_good N r (ks_tasks s) s0 K0 Q0 V0 Ht) as (s1 & cs1 & E1 & C1 & G1). rewrite E1. rewrite Ec0 in C1. cbn [app] in C1. rewrite Ed in G1.
  pose proof (add_tasks_kept pn log3 msqrt N r (ks_tasks s) s0 s1 (Ok tt) K0 Q0 E1) as (K1 & S1 & Q1).
  assert (S01 : same_settings s s1) by exact (same_settings_trans s s0 s1 S0 S1).
  destruct S01 as (X1 & X2 & X3 & X4 & X5 & X6 & X7 & X8 & X9 & X10 & X11).
  unfold after_tasks. destruct (knows_qd N s1 K1 Q1) as (v & -> & Vs & Ve). cbn [obind].
  destruct (mask_good N v (ks_masked s1) Vs Ve) as (csm & -> & Gm); [rewrite X3, <- HN; apply An|]. cbn [obind].
  destruct (fbase_good N s1 v Vs Ve) as (csf & -> & Gf); [rewrite X4, <- HN; apply An|]. cbn [obind].
  destruct (limits_good N r s1 v ltac:(congruence) Vs Ve) as (csl & -> & Gl); [rewrite X5, <- HN; apply An|rewrite X6, X2, <- HN; apply An|]. cbn [obind].
  destruct (constraints_good (ks_N s1) (ks_dt s1) r (ks_cons s1)) as (csc & -> & Gc); [rewrite X1, X2, X8; apply An|]. cbn [obind].
  eexists. split; [reflexivity|]. cbn [kset_problem ks_problem].
  destruct (add_constraints_spec (csm ++ csf ++ csl ++ csc) (ks_problem s1)) as (Y1 & Y2 & Y3 & _). rewrite Y2, Y3, C1. pose proof (knows_n_ge N s1 K1 Q1) as Hn.
  unfold hard_rows. apply good_app; [|apply good_app; [|apply good_app]].
  - eapply good_rows; [|exact G1]. clear - HN. induction (ks_tasks s) as [|t l IH]; cbn [flat_map]; [constructor|]. apply same_rows_app; [|exact IH].
    unfold task_rows. rewrite HN. destruct (Kin_model.task_update pn log3 msqrt N (ks_dt s) r (kt_kind t)) as [[A b]| |]; destruct (kt_priority t); apply same_rows_refl.
  - rewrite X3 in Gm. exact (good_more _ _ _ _ Hn Gm).
  - rewrite X4 in Gf. exact (good_more _ _ _ _ Hn Gf).
  - rewrite X1, X2, X8, HN in Gc. change (flat_map (constraint_rows pn s r) (ks_cons s)) with ([] ++ flat_map (constraint_rows pn s r) (ks_cons s)).
    apply good_app; [exact (good_more _ _ _ _ Hn Gl)|]. eapply good_more; [exact Hn|]. unfold constraint_rows. rewrite HN. exact Gc.
Qed.

Lemma answerable_shaped N s r : ks_N s = N -> answerable pn log3 msqrt s r -> forall t e, asks_for pn log3 msqrt s r t e -> shaped N e.
Proof.
  intros HN An t e [Ht E]. destruct (an_tasks _ _ _ _ _ An t Ht) as (e' & [_ E'] & Hs). rewrite E in E'. injection E' as <-. now rewrite <- HN.
Qed.

(** The rows mention the unknowns of the problem only. *)
Lemma good_zero n cs rs : good n cs rs -> forall k j, (n <= j)%nat -> nth k rs (fun _ => 0) j = 0.
Proof.
  intros [A B] k j Hj. rewrite <- (same_rows_nth _ _ B). clear B rs.
  assert (H : forall a, In a (flat_map equality_rows cs) -> a j = 0).
  { intros a Ha. apply in_flat_map in Ha. destruct Ha as (c & Hc & Ha). destruct (A c Hc) as (_ & _ & Hn & _). unfold equality_rows in Ha.
    destruct (c_prio c); [contradiction|]. destruct (c_type c); [|contradiction]. apply in_map_iff in Ha. destruct Ha as (i & <- & _).
    destruct (Nat.ltb_spec j (cols (c_expr c))); [lia|reflexivity]. }
  destruct (Nat.lt_ge_cases k (List.length (flat_map equality_rows cs))) as [Hk|Hk]; [apply H, nth_In, Hk|]. now rewrite nth_overflow.
Qed.

Lemma independent_fewer n m cs rs : good n cs rs -> (n <= m)%nat -> independent_rows m rs -> independent_rows n rs.
Proof.
  intros G H I mu Hmu. apply I. intros j Hj. destruct (Nat.lt_ge_cases j n) as [Hn|Hn]; [now apply Hmu|].
  apply Rsum_zero_ext. intros k Hk. rewrite (good_zero n cs rs G k j Hn). ring.
Qed.

(** A solve that must succeed, before the result is applied. *)
Lemma ksolve_complete N s r qr qp : knows N s -> answerable pn log3 msqrt s r -> qr_correct qr -> qp_correct qp ->
  p_rewrite (ks_problem s) = true -> 0 < p_reg (ks_problem s) -> independent_rows (S N) (hard_rows pn log3 msqrt s r) ->
  (exists x, allowed pn log3 msqrt s r x) ->
  (forall apply, exists s' r' delta o, ksolve qr qp s r apply = (s', r', o) /\ vlen delta = N /\
     o = (if apply then x <- apply_delta pn (ks_dt s) r delta ;; Ok delta else Ok delta)) \/ qr_fails qr \/ qp_fails qp.
Proof.
  intros K An Hqr Hqp Hrw Hreg Hi (x & Hx). destruct (answerable_built N s r K An) as (s2 & EB & G).
  pose proof (built_prepared pn log3 msqrt N s r s2 K (answerable_shaped N s r (proj1 K) An) EB) as P.
  pose proof (pr_settings _ _ _ _ _ _ _ P) as (_ & Ed & _ & _ & _ & _ & _ & _ & Er & Es & Ew).
  pose proof (knows_n N s2 (pr_knows _ _ _ _ _ _ _ P) (pr_qd _ _ _ _ _ _ _ P)) as En.
  destruct (solve_complete (ks_problem s2) qr qp Hqr Hqp) as [(pb' & E)|F]; [| | | | | | | |left|now right].
  - apply (knows_tiles N), P.
  - intros c Hc. destruct (proj1 G c Hc) as (A & B & C & _). auto.
  - left. congruence.
  - apply (independent_of_rows _ _ (proj2 G)). apply (independent_fewer _ (S N) _ _ G); [destruct (ks_scale_var s2); lia|exact Hi].
  - rewrite Er. exact Hreg.
  - intros c Hc Hp. now destruct (proj1 G c Hc) as (_ & _ & _ & A); apply A.
  - intros c Hc Hp Ht. destruct (proj1 G c Hc) as (_ & _ & _ & A). now apply A.
  - exists x. now apply (pr_hard _ _ _ _ _ _ _ P).
  - intros apply. pose proof (built_ends pn log3 msqrt N s r s2 qr qp apply (pr_knows _ _ _ _ _ _ _ P) (pr_qd _ _ _ _ _ _ _ P) (pr_var _ _ _ _ _ _ _ P) EB) as H.
    rewrite E in H. destruct H as (d & Hd & _ & H). cbv zeta in H. rewrite Ed in H.
    set (s4 := if ks_has_scaling s2 then _ else _) in H. destruct apply; [|exists s4, r, d, (Ok d); auto].
    destruct (apply_delta pn (ks_dt s) r d) as [r1|e|] eqn:Ea.
    + exists s4, r1, d, (Ok d). rewrite Ea. auto.
    + exists s4, r, d, (Throw e). rewrite Ea. auto.
    + exists s4, r, d, UB. rewrite Ea. auto.
Qed.

End WithRobot.
