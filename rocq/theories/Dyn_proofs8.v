(** Lemmas about the dynamics solver: the sizes of the equations of the tasks of the library. *)
From Coq Require Import Reals List ZArith Bool String Lra Lia.
From Verif Require Import Base Linalg Geom3 Tools_model Geometry_model Expression_model Expression_spec Expression_proofs Problem_model Problem_spec
  Problem_proofs Problem_proofs2 Problem_props Polynom_model Robot_model Robot_spec KinTasks_model Kin_model Kin_spec Kin_proofs Kin_proofs6 Kin_proofs7
  DynTasks_model Dyn_model Dyn_spec Dyn_proofs Dyn_proofs2.
Import ListNotations.
Open Scope R_scope.

Lemma masked_size m J a b c e : masked_equation m J a b c = Ok e -> mcols (de_A e) = mcols J /\ vlen (de_b e) = mrows (de_A e).
Proof.
  unfold masked_equation. intros H. bindall H. injection H as <-. cbn. destruct (mask_size _ _ _ E) as [A B]. rewrite (mask_v_size _ _ _ E0). split; congruence.
Qed.

Section WithRobot.
Variable pn : pin.
Variable log3 : mat3 -> vec3.
Variable jlog : mat3 -> mat3.

Ltac sizes := repeat match goal with
  | H : mat_mul _ _ = Ok _ |- _ => apply mul_size in H; destruct H
  | H : Robot_model.mat_add _ _ = Ok _ |- _ => apply add_size in H; destruct H
  | H : mat_sub _ _ = Ok _ |- _ => apply sub_size in H; destruct H
  | H : block _ _ _ _ _ = Ok _ |- _ => apply block_size in H; destruct H
  end.

Lemma task_dshaped N r t e : (forall q, mcols (pn_comjac pn q) = N) -> (forall f a, dt_kind t = DCustom f a -> f r = Ok e -> dshaped N e) ->
  dtask_update pn log3 jlog N r t = Ok e -> dshaped N e.
Proof.
  intros HJ HC H. unfold dshaped. unfold dtask_update in H. destruct (dt_kind t) eqn:K.
  - unfold position_dynamics in H. bindall H. apply masked_size in H. destruct H as [A B]. sizes. split; congruence.
  - unfold com_dynamics in H. bindall H. apply masked_size in H. destruct H as [A B]. split; [|exact B]. rewrite A. apply HJ.
  - unfold orientation_dynamics in H. bindall H. apply masked_size in H. destruct H as [A B]. sizes. split; congruence.
  - unfold relative_position_dynamics in H. bindall H. apply masked_size in H. destruct H as [A B]. sizes. split; congruence.
  - unfold relative_orientation_dynamics in H. bindall H. apply masked_size in H. destruct H as [A B]. sizes. split; congruence.
  - unfold joints_dynamics in H. bindall H. injection H as <-. split; reflexivity.
  - unfold gear_dynamics in H. bindall H. injection H as <-. split; reflexivity.
  - unfold torque_dynamics in H. bindall H. injection H as <-. split; reflexivity.
  - now apply (HC f about_tau).
Qed.

Lemma usual_dsound s r : dusual pn s r -> dsound pn log3 jlog s r.
Proof.
  intros [U1 U2 U3 [U4 U5] U6 U7 U8 U9 U10]. constructor; auto.
  - intros t e [Ht E]. apply (task_dshaped (ds_N s) r t e U5); [|exact E]. intros f a K E'. exact (U7 t f a e Ht K E').
  - intros c f k w Hc _ K. rewrite (U6 c f k w Hc K). symmetry. apply U4.
  - intros c tau cs c' Hc E Hc'. unfold dconstraint_add in E. destruct (dc_kind c) eqn:K; [|exact (U8 c f tau cs c' Hc K E Hc')].
    unfold dcollisions in E. destruct (Req_EM_T (ds_dt s) 0); [discriminate|]. destruct (filter _ _) as [|d l]; [injection E as <-; destruct Hc'|].
    bindall E. injection E as <-. destruct Hc' as [<-|[]].
    match goal with G : e_ge_d (Expr ?A ?b) 0 = Ok ?y |- _ => pose proof (ge_d_made A b 0 y eq_refl G) as Md end.
    pose proof (made_cols _ _ _ _ _ _ _ Md) as C. destruct Md as (M1 & M2 & M3 & M4 & M5 & M6). cbn [configure_prio c_expr c_prio c_type c_weight mrows mcols] in *.
    split; [destruct M6; cbn in *; congruence|]. split; [rewrite C; lia|]. intros _ _. now apply U9.
  - now apply sorted_nodup.
Qed.

End WithRobot.
