(** Proofs about the planners. *)
From Coq Require Import Reals List ZArith Bool Lia Lra.
From Verif Require Import Base Geom3 Geometry_model Footsteps_model Footsteps_spec Footsteps_proofs Planners_model Planners_spec.
Import ListNotations.
Open Scope R_scope.

Section Run.
Variable c : clipping.

Lemma prun_app l1 : forall s l2, prun c s (l1 ++ l2) = prun c (prun c s l1) l2.
Proof. induction l1 as [|x l1 IH]; intros s l2; [reflexivity|]. cbn [app prun]. apply IH. Qed.
Lemma put_length {X} (x : X) : forall l k, length (put k x l) = length l.
Proof. induction l as [|y l IH]; intros [|k]; cbn; auto. Qed.
Lemma put_nth {X} (x : X) : forall l k j, nth_error (put k x l) j = if Nat.eqb j k then match nth_error l j with Some _ => Some x | None => None end else nth_error l j.
Proof. induction l as [|y l IH]; intros [|k] [|j]; cbn; auto. destruct (Nat.eqb j k); reflexivity. Qed.

(** Parameters. *)
Lemma step_params s x : (forall q, x <> CParams q) -> ps_params (fst (pstep c s x)) = ps_params s.
Proof.
  intros H. destruct x; cbn; try reflexivity; [now destruct (H p)|destruct (nth_error _ _) as [[]|]; reflexivity|destruct (nth_error _ _) as [[]|]; reflexivity].
Qed.
Lemma run_params : forall l s, (forall q, ~ In (CParams q) l) -> ps_params (prun c s l) = ps_params s.
Proof.
  induction l as [|x l IH]; intros s H; [reflexivity|]. cbn [prun]. rewrite IH by (intros q Hq; apply (H q); now right). apply step_params. intros q ->. apply (H q). now left.
Qed.
Lemma params_are p l q : parameters_are p l q -> ps_params (prun c (Planners p []) l) = q.
Proof.
  intros [l0 H|l1 q0 l2 H]; [now rewrite run_params|]. rewrite prun_app. cbn [prun]. now rewrite run_params.
Qed.

(** Creations. *)
Lemma step_length s x : length (ps_list (fst (pstep c s x))) = match x with CNaive | CRepetitive => S (length (ps_list s)) | _ => length (ps_list s) end.
Proof.
  destruct x; cbn; rewrite ?app_length; cbn; try lia; (destruct (nth_error _ _) as [[]|]; cbn; rewrite ?put_length; reflexivity).
Qed.
Lemma creations_length p l k : creations l k -> length (ps_list (prun c (Planners p []) l)) = k.
Proof.
  induction 1 as [|l x k _ IH Hx|l x k _ IH Hx]; [reflexivity| |]; rewrite prun_app; cbn [prun]; rewrite step_length.
  - destruct Hx as [->| ->]; now rewrite IH.
  - destruct x; try exact IH; destruct Hx; [now left|now right].
Qed.

(** What a planner keeps: its kind and the accessibility of a naive one. *)
Definition kind (x : planner) : option naive := match x with PNaive n _ => Some n | PRepetitive _ => None end.
Lemma step_kind s x k a : nth_error (ps_list s) k = Some a -> exists b, nth_error (ps_list (fst (pstep c s x))) k = Some b /\ kind b = kind a.
Proof.
  intros H. assert (L : (k < length (ps_list s))%nat) by (apply nth_error_Some; congruence).
  destruct x as [q| | |j tl tr|j dx dy dth n|j fl u v]; cbn [pstep fst ps_list].
  - eauto.
  - rewrite nth_error_app1 by exact L. eauto.
  - rewrite nth_error_app1 by exact L. eauto.
  - destruct (nth_error (ps_list s) j) as [[n o|o]|] eqn:E; [|eauto|eauto]. cbn [ps_list]. rewrite put_nth, H. destruct (Nat.eqb_spec k j) as [->|]; [|eauto].
    rewrite H in E. injection E as ->. eauto.
  - destruct (nth_error (ps_list s) j) as [[n' o|o]|] eqn:E; [eauto| |eauto]. cbn [ps_list]. rewrite put_nth, H. destruct (Nat.eqb_spec k j) as [->|]; [|eauto].
    rewrite H in E. injection E as ->. eauto.
  - eauto.
Qed.
Lemma run_kind : forall l s k a, nth_error (ps_list s) k = Some a -> exists b, nth_error (ps_list (prun c s l)) k = Some b /\ kind b = kind a.
Proof.
  induction l as [|x l IH]; intros s k a H; [eauto|]. cbn [prun]. destruct (step_kind s x k a H) as (b & Hb & Eb). destruct (IH _ _ _ Hb) as (d & Hd & Ed). exists d. split; [exact Hd|congruence].
Qed.
Lemma made p l k before x p0 : made_by l k before x -> parameters_are p before p0 ->
  exists a, nth_error (ps_list (prun c (Planners p []) l)) k = Some a /\ kind a = match x with CNaive => Some (new_naive p0) | _ => None end.
Proof.
  intros (after & -> & Hk & Hx) Hp. rewrite prun_app. cbn [prun]. pose proof (creations_length p before k Hk) as L. pose proof (params_are p before p0 Hp) as P.
  set (s := prun c (Planners p []) before) in *. destruct Hx as [-> | ->].
  - destruct (run_kind after (fst (pstep c s CNaive)) k (PNaive (new_naive p0) None)) as (b & Hb & Eb); [|eauto].
    cbn [pstep fst ps_list]. rewrite nth_error_app2, L, Nat.sub_diag, P by lia. reflexivity.
  - destruct (run_kind after (fst (pstep c s CRepetitive)) k (PRepetitive None)) as (b & Hb & Eb); [|eauto].
    cbn [pstep fst ps_list]. rewrite nth_error_app2, L, Nat.sub_diag by lia. reflexivity.
Qed.

(** A planner that is not configured stays as it is. *)
Definition configures (k : nat) (x : pcall) : Prop := match x with CTargets j _ _ => j = k | CSteps j _ _ _ _ => j = k | _ => False end.
Lemma step_same s x k a : nth_error (ps_list s) k = Some a -> match a, x with PNaive _ _, CTargets j _ _ => j <> k | PRepetitive _, CSteps j _ _ _ _ => j <> k | _, _ => True end ->
  nth_error (ps_list (fst (pstep c s x))) k = Some a.
Proof.
  intros H Hx. assert (L : (k < length (ps_list s))%nat) by (apply nth_error_Some; congruence).
  destruct x as [q| | |j tl tr|j dx dy dth n|j fl u v]; cbn [pstep fst ps_list]; rewrite ?nth_error_app1 by exact L; try exact H.
  - destruct (nth_error (ps_list s) j) as [[n o|o]|] eqn:E; [|exact H|exact H]. cbn [ps_list]. rewrite put_nth. destruct (Nat.eqb_spec k j) as [->|]; [|exact H].
    rewrite H in E. injection E as ->. now destruct Hx.
  - destruct (nth_error (ps_list s) j) as [[n' o|o]|] eqn:E; [exact H| |exact H]. cbn [ps_list]. rewrite put_nth. destruct (Nat.eqb_spec k j) as [->|]; [|exact H].
    rewrite H in E. injection E as ->. now destruct Hx.
Qed.
Lemma run_same : forall l s k a, nth_error (ps_list s) k = Some a ->
  match a with PNaive _ _ => forall u v, ~ In (CTargets k u v) l | PRepetitive _ => forall u v w n, ~ In (CSteps k u v w n) l end -> nth_error (ps_list (prun c s l)) k = Some a.
Proof.
  induction l as [|x l IH]; intros s k a H Hl; [exact H|]. cbn [prun]. apply IH.
  - apply step_same; [exact H|]. destruct a as [n o|o]; destruct x; try exact Logic.I; intros ->; eapply Hl; now left.
  - destruct a; intros; intros X; eapply Hl; right; exact X.
Qed.

Lemma configured_steps p l k before p0 dx dy dth n : made_by l k before CRepetitive -> parameters_are p before p0 -> last_steps l k dx dy dth n ->
  nth_error (ps_list (prun c (Planners p []) l)) k = Some (PRepetitive (Some (dx, dy, dth, n))).
Proof.
  intros M P (l1 & l2 & -> & (m & Hm & Lm) & Hl). destruct (made p _ k before _ p0 M P) as (a & Ha & Ka). rewrite prun_app in Ha |- *.
  pose proof (creations_length p l1 m Hm) as L. set (s := prun c (Planners p []) l1) in *. destruct (nth_error (ps_list s) k) as [b|] eqn:E; [|apply nth_error_None in E; lia].
  cbn [prun]. destruct (run_kind (CSteps k dx dy dth n :: l2) s k b E) as (a' & Ha' & Ka'). rewrite Ha in Ha'. injection Ha' as <-. rewrite Ka in Ka'. destruct b as [n0 o|o]; [discriminate Ka'|].
  apply (run_same l2 _ k (PRepetitive (Some (dx, dy, dth, n)))); [|exact Hl]. cbn [pstep fst]. rewrite E. cbn [ps_list]. rewrite put_nth, Nat.eqb_refl, E. reflexivity.
Qed.
Lemma configured_targets p l k before p0 tl tr : made_by l k before CNaive -> parameters_are p before p0 -> last_targets l k tl tr ->
  nth_error (ps_list (prun c (Planners p []) l)) k = Some (PNaive (new_naive p0) (Some (tl, tr))).
Proof.
  intros M P (l1 & l2 & -> & (m & Hm & Lm) & Hl). destruct (made p _ k before _ p0 M P) as (a & Ha & Ka). rewrite prun_app in Ha |- *.
  pose proof (creations_length p l1 m Hm) as L. set (s := prun c (Planners p []) l1) in *. destruct (nth_error (ps_list s) k) as [b|] eqn:E; [|apply nth_error_None in E; lia].
  cbn [prun]. destruct (run_kind (CTargets k tl tr :: l2) s k b E) as (a' & Ha' & Ka'). rewrite Ha in Ha'. injection Ha' as <-. rewrite Ka in Ka'. destruct b as [n0 o|o]; [|discriminate Ka'].
  injection Ka' as <-.
  apply (run_same l2 _ k (PNaive (new_naive p0) (Some (tl, tr)))); [|exact Hl]. cbn [pstep fst]. rewrite E. cbn [ps_list]. rewrite put_nth, Nat.eqb_refl, E. reflexivity.
Qed.
Lemma unconfigured p l k before p0 x : made_by l k before x -> parameters_are p before p0 ->
  (forall u v, ~ In (CTargets k u v) l) -> (forall u v w n, ~ In (CSteps k u v w n) l) ->
  exists a, nth_error (ps_list (prun c (Planners p []) l)) k = Some a /\ (a = PNaive (new_naive p0) None \/ a = PRepetitive None).
Proof.
  intros (after & -> & Hk & Hx) Hp T1 T2. rewrite prun_app. cbn [prun]. pose proof (creations_length p before k Hk) as L. pose proof (params_are p before p0 Hp) as P.
  set (s := prun c (Planners p []) before) in *.
  assert (T1' : forall u v, ~ In (CTargets k u v) after) by (intros u v X; apply (T1 u v), in_or_app; right; now right).
  assert (T2' : forall u v w n, ~ In (CSteps k u v w n) after) by (intros u v w n X; apply (T2 u v w n), in_or_app; right; now right). destruct Hx as [-> | ->].
  - exists (PNaive (new_naive p0) None). split; [|now left]. apply run_same; [|exact T1']. cbn [pstep fst ps_list]. rewrite nth_error_app2, L, Nat.sub_diag, P by lia. reflexivity.
  - exists (PRepetitive None). split; [|now right]. apply run_same; [|exact T2']. cbn [pstep fst ps_list]. rewrite nth_error_app2, L, Nat.sub_diag by lia. reflexivity.
Qed.
End Run.

(** With limits that are not zero, planning always gives steps. *)
Lemma naive_step_total p n tl tr s : positive_limits p -> exists f s', naive_step p n tl tr s = Some (f, s').
Proof.
  intros P. unfold naive_step. destruct (window (n_length n) _ 1) as [r1 o1]. destruct (window (n_width n) _ r1) as [r2 o2]. cbv zeta. rewrite clip_spec by exact P. eauto.
Qed.
Lemma naive_loop_total p n tl tr : positive_limits p -> forall k s, exists l s', naive_loop k p n tl tr s = Some (l, s').
Proof.
  intros P. induction k as [|k IH]; intros s; cbn [naive_loop]; destruct (ns_left_arrived s && ns_right_arrived s); eauto.
  destruct (naive_step_total p n tl tr s P) as (f & s' & ->). destruct (IH s') as (l & s'' & ->). eauto.
Qed.
