(** Lemmas about the kinematics solver: a whole solve. *)
From Coq Require Import Reals List ZArith Bool String Lra Lia.
From Verif Require Import Base Linalg Geom3 Tools_model Geometry_model Expression_model Expression_spec Expression_proofs Problem_model Problem_spec
  Problem_proofs Problem_proofs2 Problem_props Polynom_model Robot_model KinTasks_model Kin_model Kin_spec Kin_proofs.
Import ListNotations.
Open Scope R_scope.

(** ** The variables *)

Lemma solve_ranges pb qr qp pb' o : solve pb qr qp = (pb', o) -> o <> UB ->
  p_n pb' = p_n pb /\ Forall2 same_range (p_vars pb) (p_vars pb').
Proof.
  intros E Ho. destruct (solve_cases pb qr qp) as [(pb1 & e & E1 & V & Hn)|[(pb1 & E1)|(a & pb1 & vs & _ & _ & E1 & _ & _ & _ & _ & _ & Hn & Hv & Hu & _)]];
    rewrite E1 in E; injection E as <- <-; [|congruence|].
  - split; [exact Hn|]. rewrite V. clear. induction (p_vars pb); constructor; auto. split; reflexivity.
  - split; [exact Hn|]. rewrite Hv. apply update_variables_ok in Hu. clear - Hu. induction Hu as [|v v' r r' H _ IH]; constructor; [apply H|exact IH].
Qed.

Lemma solve_values pb qr qp pb' : solve pb qr qp = (pb', Ok tt) -> Forall2 (updated (p_x pb')) (p_vars pb) (p_vars pb').
Proof.
  intros E. destruct (solve_cases pb qr qp) as [(pb1 & e & E1 & V & Hn)|[(pb1 & E1)|(a & pb1 & vs & _ & _ & E1 & _ & _ & _ & _ & _ & Hn & Hv & Hu & _)]];
    rewrite E1 in E; [discriminate|discriminate|injection E as <-]. rewrite Hv. now apply update_variables_ok.
Qed.

Lemma knows_solve N s pb qr qp pb' o : knows N (kset_problem s pb) -> solve pb qr qp = (pb', o) -> o <> UB -> knows N (kset_problem s pb').
Proof.
  intros [HN H] E Ho. destruct (solve_ranges _ _ _ _ _ E Ho) as [En F]. split; [exact HN|]. cbn in *. rewrite En.
  destruct (ks_qd s) as [k|], (ks_scale_var s) as [k'|]; auto.
  - destruct H as (H1 & H2 & H3 & v & w & E1 & A & B & C & D). rewrite E1 in F. inversion F as [|? v' ? ? [R1 R2] F' X Y]; subst. inversion F' as [|? w' ? ? [R3 R4] F'' X' Y']; subst.
    inversion F''; subst. do 3 (split; [auto|]). exists v', w'. rewrite <- R1, <- R2, <- R3, <- R4. auto.
  - destruct H as (H1 & H2 & v & E1 & A & B). rewrite E1 in F. inversion F as [|? v' ? ? [R1 R2] F' X Y]; subst. inversion F'; subst.
    do 2 (split; [auto|]). exists v'. rewrite <- R1, <- R2. auto.
  - destruct H as [H1 H2]. rewrite H1 in F. inversion F. auto.
Qed.

Section WithRobot.
Variable pn : pin.
Variable log3 : mat3 -> vec3.
Variable msqrt : mat -> mat.
Notation task_update := (task_update pn log3 msqrt).
Notation ksolve := (ksolve pn log3 msqrt).

Definition kept (N : nat) (s s' : ksolver) : Prop := knows N s' /\ same_settings s s' /\ ks_qd s' <> None.

Lemma kept_trans N a b c : kept N a b -> kept N b c -> kept N a c.
Proof. intros (_ & S1 & _) (K & S2 & Q). split; [exact K|]. split; [now apply (same_settings_trans a b c)|exact Q]. Qed.

Lemma kept_add N s cs : knows N s -> ks_qd s <> None -> kept N s (kset_problem s (add_constraints (ks_problem s) cs)).
Proof.
  intros K Q. destruct (add_constraints_spec cs (ks_problem s)) as (E1 & E2 & E3 & E4 & E5 & E6).
  split; [now apply knows_problem|]. split; [repeat split; assumption|exact Q].
Qed.

Lemma start_scaling_kept N s s' o : knows N s -> ks_qd s <> None -> start_scaling s = (s', o) -> kept N s s'.
Proof.
  intros K Q. unfold start_scaling. destruct (ks_has_scaling s).
  - intros E. injection E as <- _. split; [exact K|]. split; [apply same_settings_refl|exact Q].
  - set (s1 := kset_scale s (ks_scale s) true). cbv zeta. destruct (ensure_scale_spec N s1 K Q) as (K2 & S2 & E2 & V2 & _). set (s2 := ensure_scale s1) in *.
    assert (Q2 : ks_qd s2 <> None) by (rewrite E2; exact Q). assert (A : kept N s s2) by (split; [exact K2|]; split; [exact S2|exact Q2]).
    destruct (obind _ _) as [cs| |]; intros E; injection E as <- _; [|exact A|exact A].
    eapply kept_trans; [exact A|]. now apply kept_add.
Qed.

Lemma add_task_kept N r s t s' o : knows N s -> ks_qd s <> None -> add_task_to_problem pn log3 msqrt r s t = (s', o) -> kept N s s'.
Proof.
  intros K Q. assert (A : kept N s s) by (split; [exact K|]; split; [apply same_settings_refl|exact Q]). unfold add_task_to_problem.
  destruct (Kin_model.task_update pn log3 msqrt (ks_N s) (ks_dt s) r (kt_kind t)) as [e| |]; [|intros E; injection E as <- _; exact A|intros E; injection E as <- _; exact A].
  destruct (Nat.eqb (mrows (fst e)) 0); [intros E; injection E as <- _; exact A|].
  destruct (match kt_priority t with PScaled => start_scaling s | _ => (s, Ok tt) end) as [s1 o1] eqn:E1.
  assert (B : kept N s s1) by (destruct (kt_priority t); [injection E1 as <- _; exact A|injection E1 as <- _; exact A|now apply (start_scaling_kept N s s1 o1)]).
  destruct o1; [|intros E; injection E as <- _; exact B|intros E; injection E as <- _; exact B].
  destruct (task_constraint s1 t e); intros E; injection E as <- _; [|exact B|exact B]. eapply kept_trans; [exact B|].
  apply (kept_add N s1 [a0]); apply B.
Qed.

Lemma add_tasks_kept N r l : forall s s' o, knows N s -> ks_qd s <> None -> add_tasks_to_problem pn log3 msqrt r s l = (s', o) -> kept N s s'.
Proof.
  induction l as [|t l IH]; intros s s' o K Q; cbn [add_tasks_to_problem].
  - intros E. injection E as <- _. split; [exact K|]. split; [apply same_settings_refl|exact Q].
  - destruct (add_task_to_problem pn log3 msqrt r s t) as [s1 o1] eqn:E1. pose proof (add_task_kept N r s t s1 o1 K Q E1) as A.
    destruct o1; intros E; [|injection E as <- _; exact A|injection E as <- _; exact A]. eapply kept_trans; [exact A|]. eapply IH; [apply A|apply A|exact E].
Qed.

(** The solver at the start of a solve. *)
Definition started (s : ksolver) : ksolver :=
  let s := ensure_qd s in let s := kset_problem s (clear_constraints (ks_problem s)) in kset_scale s (ks_scale s) false.

Lemma started_spec N s : knows N s -> kept N s (started s) /\ p_cons (ks_problem (started s)) = [] /\ ks_has_scaling (started s) = false /\
  ks_scale (started s) = ks_scale s /\ ks_scale_var (started s) = ks_scale_var s.
Proof.
  intros K. destruct (ensure_qd_spec N s K) as (K1 & S1 & Q1 & V1 & _). unfold started. cbv zeta. set (s1 := ensure_qd s) in *.
  split; [split; [exact K1|]; split; [exact S1|exact Q1]|]. split; [reflexivity|]. split; [reflexivity|]. split; [|exact V1].
  unfold s1, ensure_qd. destruct (ks_qd s); reflexivity.
Qed.

Lemma ksolve_knows N s r qr qp apply s' r' o : knows N s -> ksolve qr qp s r apply = (s', r', o) -> o <> UB -> knows N s'.
Proof.
  intros K. destruct (started_spec N s K) as (A & _). unfold Kin_model.ksolve. fold (started s). set (s0 := started s) in *.
  destruct (add_tasks_to_problem pn log3 msqrt r s0 (ks_tasks s0)) as [s1 o1] eqn:E1.
  pose proof (add_tasks_kept N r _ s0 s1 o1 (proj1 A) (proj2 (proj2 A)) E1) as B.
  destruct o1; [|intros E _; injection E as <- _ _; apply B|intros E _; injection E as <- _ _; apply B].
  destruct (after_tasks pn r s1) as [cs| |]; [|intros E _; injection E as <- _ _; apply B|intros E _; injection E as <- _ _; apply B].
  pose proof (kept_add N s1 cs (proj1 B) (proj2 (proj2 B))) as C. set (s2 := kset_problem s1 (add_constraints (ks_problem s1) cs)) in *. cbv zeta.
  destruct (solve (ks_problem s2) qr qp) as [pb' o2] eqn:E2.
  assert (D : o2 <> UB -> knows N (kset_problem s2 pb')).
  { intros Ho. apply (knows_solve N s2 (ks_problem s2) qr qp pb' o2); [|exact E2|exact Ho]. apply C. }
  destruct o2; [|intros E _; injection E as <- _ _; apply D; discriminate|intros E Ho; injection E as _ _ <-; congruence].
  specialize (D ltac:(discriminate)). destruct (var_at pb' (ks_qd (kset_problem s2 pb'))); [|intros E _; injection E as <- _ _; exact D|intros E _; injection E as <- _ _; exact D].
  destruct (if ks_has_scaling (kset_problem s2 pb') then _ else _) as [s3| |] eqn:E3;
    [|intros E _; injection E as <- _ _; exact D|intros E _; injection E as <- _ _; exact D].
  assert (F : knows N s3).
  { destruct (ks_has_scaling (kset_problem s2 pb')); [|injection E3 as <-; exact D].
    destruct (var_at pb' (ks_scale_var (kset_problem s2 pb'))) as [w| |]; cbn [obind] in E3; try discriminate.
    destruct (vec_get (v_value w) 0) as [y| |]; cbn [obind] in E3; try discriminate. injection E3 as <-. exact D. }
  destruct apply; [|intros E _; injection E as <- _ _; exact F].
  destruct (apply_delta pn (ks_dt s3) r (v_value a1)); intros E _; injection E as <- _ _; exact F.
Qed.

Lemma reachable_knows N s : kreachable pn log3 msqrt N s -> knows N s.
Proof.
  induction 1 as [r Hr|s dt masked fbase jl vl tasks cons reg sparse rewrite _ IH|s qr qp r apply s' r' o _ IH Hr E Ho].
  - split; [exact Hr|]. cbn. auto.
  - exact IH.
  - now apply (ksolve_knows N s r qr qp apply s' r' o).
Qed.

(** ** Success *)

Lemma costs_penalty s r t x : costs pn log3 msqrt (ks_N s) (ks_dt s) r t x = task_penalty pn log3 msqrt s r t x.
Proof.
  unfold costs, equation_of, task_penalty, task_costs. destruct (Kin_model.task_update pn log3 msqrt (ks_N s) (ks_dt s) r (kt_kind t)) as [e| |]; destruct (kt_priority t); reflexivity.
Qed.

Lemma total_ext {A} (f g : A -> R) l : (forall a, f a = g a) -> total f l = total g l.
Proof. intros H. induction l as [|a l IH]; cbn [total]; [reflexivity|]. now rewrite H, IH. Qed.

Lemma add_tasks_scale r l : forall s0 s1, add_tasks_to_problem pn log3 msqrt r s0 l = (s1, Ok tt) -> ks_scale s1 = ks_scale s0.
Proof.
  induction l as [|t l IH]; intros s0 s1; cbn [add_tasks_to_problem]; [intros E; now injection E as <-|].
  destruct (add_task_to_problem pn log3 msqrt r s0 t) as [s2 o2] eqn:E2. destruct o2; try discriminate. intros E. rewrite (IH s2 s1 E). clear - E2. revert E2.
  unfold add_task_to_problem. destruct (Kin_model.task_update pn log3 msqrt (ks_N s0) (ks_dt s0) r (kt_kind t)) as [e| |]; try discriminate.
  destruct (Nat.eqb (mrows (fst e)) 0); [intros E; now injection E as <- _|].
  destruct (match kt_priority t with PScaled => start_scaling s0 | _ => (s0, Ok tt) end) as [s3 o3] eqn:E3.
  assert (G : ks_scale s3 = ks_scale s0).
  { destruct (kt_priority t); [injection E3 as <- _; reflexivity|injection E3 as <- _; reflexivity|]. revert E3. unfold start_scaling.
    destruct (ks_has_scaling s0); [intros E; injection E as <- _; reflexivity|]. cbv zeta. set (s4 := ensure_scale _).
    assert (G : ks_scale s4 = ks_scale s0) by (unfold s4, ensure_scale; cbn; destruct (ks_scale_var s0); reflexivity).
    destruct (obind _ _); intros E; injection E as <- _; exact G. }
  destruct o3; try discriminate. destruct (task_constraint s3 t e); try discriminate. intros E. injection E as <- _. exact G.
Qed.

(** The solver when its problem is about to be solved. *)
Definition built (s : ksolver) (r : robot) : option ksolver :=
  match add_tasks_to_problem pn log3 msqrt r (started s) (ks_tasks (started s)) with
  | (s1, Ok _) => match after_tasks pn r s1 with Ok cs => Some (kset_problem s1 (add_constraints (ks_problem s1) cs)) | _ => None end
  | _ => None
  end.

Record prepared (N : nat) (s : ksolver) (r : robot) (s2 : ksolver) : Prop := Prepared {
  pr_knows : knows N s2;
  pr_qd : ks_qd s2 <> None;
  pr_settings : same_settings s s2;
  pr_hard : forall x, hard_holds (p_cons (ks_problem s2)) x <-> allowed pn log3 msqrt s r x;
  pr_soft : forall x, soft_cost (p_cons (ks_problem s2)) x = penalties pn log3 msqrt s r (ks_has_scaling s2) x;
  pr_scaling : ks_has_scaling s2 = true <-> scaling pn log3 msqrt s r;
  pr_var : ks_has_scaling s2 = true -> ks_scale_var s2 <> None;
  pr_scale : ks_scale s2 = ks_scale s;
  pr_tasks : forall t, In t (ks_tasks s) -> exists e, asks_for pn log3 msqrt s r t e;
  pr_cons : forall c, In c (ks_cons s) -> exists cs, constraint_add pn (ks_N s) (ks_dt s) r c = Ok cs;
  pr_masked : forall j, In j (ks_masked s) -> (j < N)%nat;
  pr_fbase : ks_masked_fbase s = true -> (6 <= N)%nat;
  pr_velocity : ks_velocity_limits s = true -> ks_dt s <> 0 }.

Lemma built_prepared N s r s2 : knows N s ->
  (forall t e, asks_for pn log3 msqrt s r t e -> shaped N e) -> built s r = Some s2 -> prepared N s r s2.
Proof.
  intros K Hsh. pose proof (proj1 K) as HN. destruct (started_spec N s K) as (A & Ec0 & Es0 & Esc0 & Ev0). unfold built. set (s0 := started s) in *.
  destruct A as (K0 & S0 & Q0). assert (Et : ks_tasks s0 = ks_tasks s) by apply S0. assert (Ed : ks_dt s0 = ks_dt s) by apply S0. rewrite Et.
  destruct (add_tasks_to_problem pn log3 msqrt r s0 (ks_tasks s)) as [s1 o1] eqn:E1. destruct o1 as [[]| |]; try discriminate.
  destruct (add_tasks_spec pn log3 msqrt N r (ks_tasks s) s0 s1 K0 Q0 ltac:(congruence)) as (T1 & Sc1 & V1 & K1 & S1 & Q1 & V1' & cs1 & C1 & F1 & H1).
  { intros t e Ht E. apply (Hsh t e). split; [exact Ht|]. rewrite HN, <- Ed. exact E. }
  { exact E1. }
  rewrite Es0 in Sc1. cbn [orb] in Sc1. rewrite Ed in *. rewrite Ec0 in C1. cbn [app] in C1.
  pose proof (add_tasks_scale r (ks_tasks s) s0 s1 E1) as Keep.
  destruct (after_tasks pn r s1) as [cs| |] eqn:E2; try discriminate.
  assert (S01 : same_settings s s1) by exact (same_settings_trans s s0 s1 S0 S1).
  unfold after_tasks in E2. destruct (knows_qd N s1 K1 Q1) as (v & Ev & Vs & Ve). rewrite Ev in E2. cbn [obind] in E2.
  bind E2 csm Em. bind E2 csf Ef. bind E2 csl El. bind E2 csc Ecc. injection E2 as <-. pose proof S01 as S01'.
  destruct S01 as (X1 & X2 & X3 & X4 & X5 & X6 & X7 & X8 & X9 & X10 & X11). rewrite X3 in Em. rewrite X1, X2, X8, HN in Ecc.
  destruct (mask_constraints_spec N v _ Vs Ve _ Em) as (Fm & Bm & Gm). destruct (fbase_spec N s1 v csf Vs Ve Ef) as (Ff & Bf & Gf).
  destruct (limits_spec N r s1 v csl ltac:(congruence) Vs Ve El) as (Fl & Bl & Gl). destruct (constraints_spec pn N (ks_dt s) r _ _ Ecc) as (Tc & Gc).
  rewrite X4 in Bf, Gf. rewrite X2, X5, X6 in *.
  set (cs := csm ++ csf ++ csl ++ csc) in *. pose proof (kept_add N s1 cs K1 Q1) as (K2 & S2 & Q2). destruct (add_constraints_spec cs (ks_problem s1)) as (Y1 & Y2 & Y3 & Y4 & Y5 & Y6).
  intros E. injection E as <-.
  assert (TT : forall t, In t (ks_tasks s) -> exists e, task_update N (ks_dt s) r (kt_kind t) = Ok e) by exact T1.
  assert (Esc : ks_has_scaling s1 = existsb (scales pn log3 msqrt N (ks_dt s) r) (ks_tasks s)) by exact Sc1.
  constructor; try (assumption || exact (same_settings_trans s s1 _ S01' S2)).
  - intros x. cbn [kset_problem ks_problem]. rewrite Y3, C1. unfold cs. rewrite !hard_holds_app.
    destruct (H1 x) as [Hx _]. destruct (Gm x) as [Mx _]. destruct (Gf x) as [Fx _]. destruct (Gl x) as [Lx _]. destruct (Gc x) as [Cx _].
    rewrite Hx, Mx, Fx, Lx, Cx. rewrite (allowed_iff pn log3 msqrt N s r x HN TT). rewrite Es0.
    assert (Triv : (false = false -> existsb (scales pn log3 msqrt N (ks_dt s) r) (ks_tasks s) = true -> 0 <= x N <= 1) <->
      (existsb (scales pn log3 msqrt N (ks_dt s) r) (ks_tasks s) = true -> 0 <= x N <= 1)) by tauto. rewrite Triv. tauto.
  - intros x. cbn [kset_problem ks_problem ks_has_scaling]. rewrite Y3, C1. unfold cs. rewrite !soft_cost_app.
    destruct (H1 x) as [_ Hx]. destruct (Gm x) as [_ Mx]. destruct (Gf x) as [_ Fx]. destruct (Gl x) as [_ Lx]. destruct (Gc x) as [_ Cx].
    rewrite Hx, Mx, Fx, Lx, Cx, Es0. unfold penalties. rewrite Esc. cbn [negb andb].
    rewrite (total_ext (fun t => task_penalty pn log3 msqrt s r t x) (fun t => costs pn log3 msqrt N (ks_dt s) r t x)) by (intros t; rewrite <- costs_penalty, HN; reflexivity).
    unfold constraint_penalty. rewrite HN. ring.
  - change (ks_has_scaling (kset_problem s1 (add_constraints (ks_problem s1) cs))) with (ks_has_scaling s1).
    rewrite Esc, existsb_exists. unfold scaling, asks_for, scales, equation_of, is_scaled. rewrite HN. split.
    + intros (t & Ht & H). destruct (Kin_model.task_update pn log3 msqrt N (ks_dt s) r (kt_kind t)) as [e| |] eqn:E; try discriminate. exists t, e. apply andb_true_iff in H. destruct H as [H H'].
      split; [split; assumption|]. split; [destruct (kt_priority t); (reflexivity || discriminate)|]. apply negb_true_iff, Nat.eqb_neq in H. lia.
    + intros (t & e & [Ht E] & P & Hm). exists t. split; [exact Ht|]. rewrite E, P, andb_true_r. apply negb_true_iff, Nat.eqb_neq. lia.
  - cbn. congruence.
  - intros t Ht. destruct (TT t Ht) as (e & He). exists e. split; [exact Ht|]. rewrite HN. exact He.
  - intros c Hc. rewrite HN. now apply Tc.
Qed.

(** The end of a solve. *)
Lemma updated_nth x l l' k u' : Forall2 (updated x) l l' -> nth_error l' k = Some u' -> exists u, nth_error l k = Some u /\ updated x u u'.
Proof. intros U. revert k. induction U as [|a b l l' Hab _ IH]; intros [|k]; cbn; try discriminate; [intros [= <-]; eauto|apply IH]. Qed.

Lemma built_ends N s r s2 qr qp apply : knows N s2 -> ks_qd s2 <> None -> (ks_has_scaling s2 = true -> ks_scale_var s2 <> None) -> built s r = Some s2 ->
  match solve (ks_problem s2) qr qp with
  | (pb', Ok _) => exists delta, vlen delta = N /\ (forall j, (j < N)%nat -> vat delta j = vat (p_x pb') j) /\
      let s3 := kset_problem s2 pb' in let s4 := if ks_has_scaling s2 then kset_scale s3 (vat (p_x pb') N) true else s3 in
      ksolve qr qp s r apply =
        (if apply then match apply_delta pn (ks_dt s2) r delta with Ok r' => (s4, r', Ok delta) | Throw e => (s4, r, Throw e) | UB => (s4, r, UB) end
         else (s4, r, Ok delta))
  | (pb', Throw e) => ksolve qr qp s r apply = (kset_problem s2 pb', r, Throw e)
  | (pb', UB) => ksolve qr qp s r apply = (kset_problem s2 pb', r, UB)
  end.
Proof.
  intros K2 Q2 V2 EB. unfold built in EB. unfold Kin_model.ksolve. fold (started s).
  destruct (add_tasks_to_problem pn log3 msqrt r (started s) (ks_tasks (started s))) as [s1 o1]. destruct o1 as [[]| |]; try discriminate.
  destruct (after_tasks pn r s1) as [cs| |]; try discriminate. cbv zeta. injection EB as EB. rewrite EB. clear EB s1 cs.
  destruct (solve (ks_problem s2) qr qp) as [pb' o2] eqn:E2. destruct o2 as [[]| |]; try reflexivity.
  assert (K3 : knows N (kset_problem s2 pb')) by (apply (knows_solve N s2 (ks_problem s2) qr qp pb' (Ok tt)); [destruct s2; exact K2|exact E2|discriminate]).
  pose proof (solve_values (ks_problem s2) qr qp pb' E2) as U. destruct (knows_qd N (kset_problem s2 pb') K3 Q2) as (v' & Ev' & Vs' & Ve').
  change (ks_problem (kset_problem s2 pb')) with pb' in *. change (ks_qd (kset_problem s2 pb')) with (ks_qd s2) in *. rewrite Ev'.
  exists (v_value v').
  assert (D : vlen (v_value v') = N /\ forall j, (j < N)%nat -> vat (v_value v') j = vat (p_x pb') j).
  { unfold var_at in Ev'. destruct (ks_qd s2) as [k|]; [|discriminate]. destruct (nth_error (p_vars pb') k) as [u'|] eqn:Eu'; [|discriminate]. injection Ev' as ->.
    destruct (updated_nth _ _ _ _ _ U Eu') as (u & _ & [R1 R2] & _ & L & G). unfold var_size in *. rewrite R1, R2, Vs', Ve' in *. split; [lia|]. intros j Hj. apply G. lia. }
  split; [apply D|]. split; [apply D|]. change (ks_has_scaling (kset_problem s2 pb')) with (ks_has_scaling s2). destruct (ks_has_scaling s2) eqn:Eh.
  - destruct (knows_scale N _ K3 (V2 eq_refl)) as (_ & _ & w & Ew & W1 & W2). change (ks_problem (kset_problem s2 pb')) with pb' in *. rewrite Ew. cbn [obind].
    assert (G : vlen (v_value w) = 1%nat /\ vat (v_value w) 0 = vat (p_x pb') N).
    { unfold var_at in Ew. destruct (ks_scale_var (kset_problem s2 pb')) as [k|]; [|discriminate]. destruct (nth_error (p_vars pb') k) as [u'|] eqn:Eu'; [|discriminate]. injection Ew as ->.
      destruct (updated_nth _ _ _ _ _ U Eu') as (u & _ & [R1 R2] & _ & L & G). unfold var_size in *. rewrite R1, R2, W1, W2 in *. split; [lia|]. rewrite (G 0%nat) by lia. f_equal. lia. }
    destruct G as [G1 G2]. unfold vec_get, guard. rewrite G1. cbn [Nat.ltb Nat.leb obind]. rewrite G2. reflexivity.
  - reflexivity.
Qed.

(** A successful solve: the solver [s2] of which the problem was solved, its solution [pb']. *)
Record solved (N : nat) (s : ksolver) (r : robot) (apply : bool) qr qp (s' : ksolver) (r' : robot) (delta : vec) (s2 : ksolver) (pb' : problem) : Prop := Solved {
  so_built : built s r = Some s2;
  so_prepared : prepared N s r s2;
  so_solve : solve (ks_problem s2) qr qp = (pb', Ok tt);
  so_scaling : ks_has_scaling s' = ks_has_scaling s2;
  so_var : ks_scale_var s' = ks_scale_var s2;
  so_scale : ks_scale s' = if ks_has_scaling s' then vat (p_x pb') N else ks_scale s;
  so_delta : vlen delta = N /\ forall j, (j < N)%nat -> vat delta j = vat (p_x pb') j;
  so_apply : if apply then apply_delta pn (ks_dt s) r delta = Ok r' else r' = r }.

Lemma ksolve_built s r qr qp apply s' r' delta : ksolve qr qp s r apply = (s', r', Ok delta) -> exists s2, built s r = Some s2.
Proof.
  unfold Kin_model.ksolve, built. fold (started s). destruct (add_tasks_to_problem pn log3 msqrt r (started s) (ks_tasks (started s))) as [s1 o1].
  destruct o1 as [[]| |]; try discriminate. destruct (after_tasks pn r s1) as [cs| |]; try discriminate. eauto.
Qed.

Lemma ksolve_solved N s r apply qr qp s' r' delta : knows N s ->
  (forall t e, asks_for pn log3 msqrt s r t e -> shaped N e) ->
  ksolve qr qp s r apply = (s', r', Ok delta) -> exists s2 pb', solved N s r apply qr qp s' r' delta s2 pb'.
Proof.
  intros K Hsh E. destruct (ksolve_built _ _ _ _ _ _ _ _ E) as (s2 & EB). pose proof (built_prepared N s r s2 K Hsh EB) as P.
  pose proof (built_ends N s r s2 qr qp apply (pr_knows _ _ _ _ P) (pr_qd _ _ _ _ P) (pr_var _ _ _ _ P) EB) as H.
  destruct (solve (ks_problem s2) qr qp) as [pb' o] eqn:Es. destruct o as [[]| |]; [|rewrite H in E; discriminate|rewrite H in E; discriminate].
  destruct H as (d & Hd & Hv & H). cbv zeta in H. rewrite H in E. clear H. exists s2, pb'. assert (Ed : ks_dt s2 = ks_dt s) by apply (pr_settings _ _ _ _ P).
  set (s4 := if ks_has_scaling s2 then kset_scale (kset_problem s2 pb') (vat (p_x pb') N) true else kset_problem s2 pb') in *.
  assert (Er : s' = s4 /\ delta = d /\ if apply then apply_delta pn (ks_dt s) r delta = Ok r' else r' = r).
  { rewrite Ed in E. destruct apply; [|injection E as <- <- <-; auto]. destruct (apply_delta pn (ks_dt s) r d) as [r1| |] eqn:Ea; try discriminate. injection E as <- <- <-. auto. }
  destruct Er as (-> & -> & Ha).
  apply (Solved N s r apply qr qp s4 r' d s2 pb'); auto; unfold s4; destruct (ks_has_scaling s2) eqn:Eh; try reflexivity; try (symmetry; exact Eh).
  - exact Eh.
  - cbn. rewrite Eh. apply (pr_scale _ _ _ _ P).
Qed.

(** A failed solve does not touch the robot. *)
Lemma ksolve_failed qr qp s r apply s' r' o : ksolve qr qp s r apply = (s', r', o) -> (forall d, o <> Ok d) -> r' = r.
Proof.
  unfold Kin_model.ksolve. cbv zeta. intros E Ho.
  repeat match type of E with
  | (let (_, _) := ?x in _) = _ => destruct x
  | match ?x with _ => _ end = _ => destruct x
  | (if ?x then _ else _) = _ => destruct x
  end; injection E; intros; subst; auto; exfalso; eapply Ho; reflexivity.
Qed.

End WithRobot.
