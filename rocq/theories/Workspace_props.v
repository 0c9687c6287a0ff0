(** C175: questions do not change the answers. *)
From Coq Require Import Reals List Arith Bool String Lra Lia.
From Verif Require Import Base Geom3 Robot_model Robot_spec Robot_props Workspace_model Workspace_spec.
Import ListNotations.
Open Scope R_scope.

Section Library.
Variable A : Type.
Variable effect : question -> slot -> source.
Variable reply : question -> workspace -> vec * vec -> A.
Variable answer : question -> vec * vec -> A.
Variable placement : A -> outcome frame.
Hypothesis He : honest_effect effect.
Hypothesis Hr : honest_reply reply answer.

Definition level (ready curved : bool) (r : working) : Prop :=
  (ready = true -> forall s, s <> Hessians -> wk_data r s = current r) /\ (curved = true -> ready = true /\ wk_data r Hessians = current r).

Lemma level_ask k ready curved r : ready = true -> level ready curved r ->
  (match k with AHessian _ _ => curved = true | _ => True end) ->
  level ready curved (Working (wk_state r) (write (current r) (wk_data r) (effect k))) /\
  reply k (write (current r) (wk_data r) (effect k)) (current r) = answer k (current r).
Proof.
  intros R1 [L1 L2] Hk. specialize (L1 R1).
  assert (W1 : forall s, s <> Hessians -> write (current r) (wk_data r) (effect k) s = current r).
  { intros s Hs. unfold write. pose proof (He k s Hs) as N1. destruct (effect k s) as [| |s']; [apply L1; exact Hs|reflexivity|].
    apply L1. intros ->. apply N1. reflexivity. }
  assert (W2 : curved = true -> write (current r) (wk_data r) (effect k) Hessians = current r).
  { intros C. destruct (L2 C) as [_ L3]. unfold write. destruct (effect k Hessians) as [| |s']; [exact L3|reflexivity|].
    destruct s'; try exact L3; apply L1; discriminate. }
  split; [split|].
  - intros _ s Hs. apply W1; exact Hs.
  - intros C. split; [exact R1|apply W2; exact C].
  - apply Hr; [exact W1|]. destruct k; try exact Logic.I. apply W2; exact Hk.
Qed.

Lemma acts_plain : forall l ready curved r, level ready curved r -> careful ready curved l ->
  snd (acts A effect reply placement r l) = snd (plains A answer placement (wk_state r) l) /\
  wk_state (fst (acts A effect reply placement r l)) = fst (plains A answer placement (wk_state r) l).
Proof.
  induction l as [|a l IH]; intros ready curved r L C.
  - split; reflexivity.
  - cbn [acts plains]. destruct a as [f|f g| | |k]; cbn [careful] in C; cbn [act plain].
    + destruct (IH false false (Working (f (wk_state r)) (wk_data r))) as [X Y]; [split; discriminate|exact C|].
      cbn [wk_state] in X, Y. destruct (acts A effect reply placement _ l), (plains A answer placement _ l). cbn in *. split; congruence.
    + destruct C as [R1 C]. destruct (level_ask (AFrame f) ready curved r R1 L Logic.I) as [_ Q]. rewrite Q.
      change (st_q (wk_state r), st_qd (wk_state r)) with (current r).
      destruct (IH false false (Working (g (placement (answer (AFrame f) (current r))) (wk_state r)) (write (current r) (wk_data r) (effect (AFrame f))))) as [X Y];
        [split; discriminate|exact C|].
      cbn [wk_state] in X, Y. destruct (acts A effect reply placement _ l), (plains A answer placement _ l). cbn in *. split; congruence.
    + destruct (IH true false (Working (wk_state r) (write (current r) (wk_data r) refresh))) as [X Y]; [|exact C|].
      { split; [|discriminate]. intros _ s Hs. unfold write. destruct s; try reflexivity. contradiction. }
      cbn [wk_state] in X, Y. destruct (acts A effect reply placement _ l), (plains A answer placement _ l). cbn in *. split; congruence.
    + destruct (IH ready ready (Working (wk_state r) (write (current r) (wk_data r) refresh_hessians))) as [X Y]; [|exact C|].
      { destruct L as [L1 L2]. split.
        - intros R1 s Hs. unfold write. destruct s; apply L1; try exact R1; discriminate.
        - intros R1. split; [exact R1|]. cbn. apply L1; [exact R1|discriminate]. }
      cbn [wk_state] in X, Y. destruct (acts A effect reply placement _ l), (plains A answer placement _ l). cbn in *. split; congruence.
    + destruct C as (R1 & Hk & C). destruct (level_ask k ready curved r R1 L Hk) as [L' Q]. rewrite Q.
      change (st_q (wk_state r), st_qd (wk_state r)) with (current r).
      destruct (IH ready curved _ L' C) as [X Y].
      cbn [wk_state] in X, Y. destruct (acts A effect reply placement _ l), (plains A answer placement _ l). cbn in *. split; congruence.
Qed.
End Library.

(** A program that calls update_kinematics after having changed the state, before it asks anything, is answered as by a robot that computes everything
    again for each question: whatever was asked before, whatever the workspace held at first, and whatever the library writes in it. *)
Theorem C175_answers : forall (A : Type) effect (reply : question -> workspace -> vec * vec -> A) answer placement, honest_effect effect -> honest_reply reply answer ->
  forall r l, careful false false l ->
  snd (acts A effect reply placement r l) = snd (plains A answer placement (wk_state r) l) /\
  wk_state (fst (acts A effect reply placement r l)) = fst (plains A answer placement (wk_state r) l).
Proof. intros A effect reply answer placement He Hr r l. apply (acts_plain A effect reply answer placement He Hr). split; discriminate. Qed.
Print Assumptions C175_answers.

(** In particular two libraries that answer the same for an up to date workspace cannot be told apart, whatever they write. *)
Theorem C175_libraries : forall (A : Type) effect effect' (reply reply' : question -> workspace -> vec * vec -> A) answer placement,
  honest_effect effect -> honest_effect effect' -> honest_reply reply answer -> honest_reply reply' answer ->
  forall s d d' l, careful false false l ->
  snd (acts A effect reply placement (Working s d) l) = snd (acts A effect' reply' placement (Working s d') l).
Proof.
  intros A effect effect' reply reply' answer placement He He' Hr Hr' s d d' l C.
  destruct (C175_answers A effect reply answer placement He Hr (Working s d) l C) as [-> _].
  destruct (C175_answers A effect' reply' answer placement He' Hr' (Working s d') l C) as [-> _]. reflexivity.
Qed.
Print Assumptions C175_libraries.

(** The model of the robot used for the other properties (Robot_model.v), in which a question writes nothing, is one of them: so what is proved there of
    programs that update the kinematics holds of a library that writes in the workspace. *)
Definition robot_answer pn m geometry hessian (k : question) (q : vec * vec) : answered := robot_reply pn m geometry hessian k (fun _ => q) q.
Theorem C175_robot_model : forall pn m geometry hessian, honest_reply (robot_reply pn m geometry hessian) (robot_answer pn m geometry hessian).
Proof.
  intros pn m geometry hessian k d q H Hh. assert (E : d Frames = q) by (apply H; discriminate).
  unfold robot_answer, robot_reply. rewrite E. destruct k; try reflexivity. cbn. rewrite Hh. reflexivity.
Qed.
Print Assumptions C175_robot_model.

(** A library that writes a lot: every question computes the placements and the Jacobian of the joints again. *)
Definition busy (k : question) (s : slot) : source :=
  match s with Placements | Jacobian => Now | Velocities => match k with ANonLinear => Now | _ => Keep end | _ => Keep end.
Example C175_example : honest_effect busy /\
  careful false false [Update; Ask AMass; Ask (AFrame 2); Change (fun s => State (Vec 8 (fun k => vat (st_q s) k + 1)) (st_qd s) (st_qdd s)); Update; Ask AComJacobian; Ask (AFrame 2)] /\
  (forall r, snd (acts answered busy (robot_reply ex_pin ex_model (fun _ _ => []) (fun _ _ _ => UB)) got_placement r
     [Update; Ask AComJacobian; Ask (AFrame 2)]) =
     [GotMatrix (Ok (pn_comjac ex_pin (st_q (wk_state r)))); GotFrame (Ok (pn_frame ex_pin (st_q (wk_state r)) 2))]).
Proof.
  split; [intros k s H; destruct s, k; discriminate|]. split; [cbn; auto 10|]. intros r.
  destruct (C175_answers answered busy _ _ got_placement ltac:(intros k s H; destruct s, k; discriminate)
    (C175_robot_model ex_pin ex_model (fun _ _ => []) (fun _ _ _ => UB)) r [Update; Ask AComJacobian; Ask (AFrame 2)] ltac:(cbn; auto 10)) as [-> _].
  reflexivity.
Qed.

(** Without update_kinematics, what the robot knows may be a mixture. If com_jacobian computes the Jacobian of the joints and keeps the placements of the
    frames, as jacobianCenterOfMass does, then after a change of the state it leaves the frames of the old state, and the Jacobian of the new one. *)
Theorem C175_mixture_behaviour : forall (A : Type) effect (reply : question -> workspace -> vec * vec -> A) placement r f,
  effect AComJacobian Frames = Keep -> effect AComJacobian Jacobian = Now ->
  let r' := fst (acts A effect reply placement r [Update; Change f; Ask AComJacobian]) in
  wk_data r' Frames = current r /\ wk_data r' Jacobian = (st_q (f (wk_state r)), st_qd (f (wk_state r))).
Proof. intros A effect reply placement r f E1 E2. cbn. unfold write, current. cbn. rewrite E1, E2. split; reflexivity. Qed.
Print Assumptions C175_mixture_behaviour.

(** So a question can change the answer to another one: there is an honest library, and a program that is answered differently for having asked something
    in between. *)
Definition first_number (q : vec * vec) : R := vat (fst q) 0.
Definition probe (k : question) (d : workspace) (q : vec * vec) : R :=
  match k with AFrame _ => first_number (d Frames) | AHessian _ _ => first_number (d Hessians) | AComJacobian => first_number q | _ => first_number (d Jacobian) end.
Theorem C175_careless_refuted : exists effect (reply : question -> workspace -> vec * vec -> R) answer r f k,
  honest_effect effect /\ honest_reply reply answer /\
  snd (acts R effect reply (fun _ => UB) r [Update; Change f; Ask k]) <> skipn 1 (snd (acts R effect reply (fun _ => UB) r [Update; Change f; Ask AComJacobian; Ask k])).
Proof.
  exists (fun k s => match k with AComJacobian => busy k s | _ => Keep end), probe, (fun _ q => first_number q),
    (Working (State ex_q (zeros 7) (zeros 7)) (fun _ => (ex_q, zeros 7))), (fun s => State (zeros 8) (st_qd s) (st_qdd s)), (AJacobian 2 Local).
  split; [intros k s H; destruct k, s; discriminate|]. split.
  - intros k d q H Hh. assert (E1 : d Frames = q) by (apply H; discriminate). assert (E2 : d Jacobian = q) by (apply H; discriminate).
    destruct k; cbn; rewrite ?E1, ?E2; try reflexivity. rewrite Hh. reflexivity.
  - cbn. unfold first_number. cbn. intros E. injection E as E. lra.
Qed.
Print Assumptions C175_careless_refuted.

(** update_kinematics does not compute the Hessians: they remain those of the last compute_hessians. *)
Theorem C175_hessians_behaviour : forall (A : Type) effect (reply : question -> workspace -> vec * vec -> A) placement r f,
  let r' := fst (acts A effect reply placement r [Update; UpdateHessians; Change f; Update]) in
  wk_data r' Hessians = current r /\ wk_data r' Jacobian = (st_q (f (wk_state r)), st_qd (f (wk_state r))).
Proof. intros. split; reflexivity. Qed.
Print Assumptions C175_hessians_behaviour.
