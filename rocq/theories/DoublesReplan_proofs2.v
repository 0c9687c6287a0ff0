(** The elapsed ratio of a support that is replanned several times is accurate. *)
From Coq Require Import Reals ZArith List Bool Lia Lra Psatz.
From Flocq Require Import Core.
From Verif Require Import Base Footsteps_model Wpg_model Doubles_model Doubles_spec Doubles_proofs DoublesReplan_model DoublesReplan_spec DoublesReplan_proofs DoublesClip_proofs.
Import ListNotations.
Open Scope R_scope.

Lemma ratio_within X D t start : is_double start -> is_double t -> 0 < X <= 2 ^ 100 -> within 3 X D -> big 100 (t - start) ->
  within 8 ((t - start) / X) (d_div (d_sub t start) D) /\ is_double (d_div (d_sub t start) D).
Proof.
  intros Ds Dt (X0 & X1) W B. split; [|apply double_is]. assert (P : 0 <= t - start) by exact (big_pos _ _ B).
  assert (W1 : within 1 (t - start) (d_sub t start)) by (apply (double_within _ 100); [lia|exact B]).
  pose proof (inverse_within 3 X D X0 W) as WI. assert (I0 : 0 <= / X) by (apply Rlt_le, Rinv_0_lt_compat, X0).
  pose proof (within_mul _ _ _ _ _ _ P I0 W1 WI) as W2. assert (BQ : big 200 ((t - start) / X)) by (apply (big_div 100 100); [exact B|split; assumption]).
  exact (within_double (1 + 2 * 3) 200 ((t - start) / X) _ ltac:(lia) ltac:(lia) BQ W2).
Qed.

Lemma replans_accurate p X times : 0 < X <= 2 ^ 100 -> forall s start k x, timed p s -> is_double start -> u_t_start s <= start -> 
  within 3 X (d_mul (d_default_duration p s) (u_time_ratio s)) -> (8 <= k)%nat -> 0 <= x -> within k x (u_elapsed_ratio s) ->
  in_turn p s start times -> spaced_times start times ->
  within (k + length times) (x + (last times start - start) / X) (u_elapsed_ratio (d_replans p s start times)).
Proof.
  intros HX. induction times as [|t rest IH]; intros s start k x Ts Ds TS WX K Px Wx H SP.
  - cbn [d_replans last length]. replace (x + (start - start) / X) with x by (unfold Rdiv; ring). now rewrite Nat.add_0_r.
  - cbn [in_turn spaced_times d_replans length] in *. destruct H as (Dt & H & HR). destruct SP as (B & SP).
    destruct (step_bound p s start t Ts Ds Dt TS H) as (_ & T' & _ & _).
    destruct (ratio_within X _ t start Ds Dt HX WX B) as (WQ & DQ).
    assert (Q0 : 0 <= (t - start) / X) by (unfold Rdiv; apply Rmult_le_pos; [exact (big_pos _ _ B)|apply Rlt_le, Rinv_0_lt_compat; lra]).
    assert (E : u_elapsed_ratio (d_replanned p s t start) = d_add (u_elapsed_ratio s) (d_div (d_sub t start) (d_mul (d_default_duration p s) (u_time_ratio s)))).
    { unfold d_replanned, d_elapsed_ratio. cbn [u_elapsed_ratio]. now rewrite Rmax_left. }
    assert (W' : within (k + 1) (x + (t - start) / X) (u_elapsed_ratio (d_replanned p s t start))).
    { rewrite E. apply add_k; [apply Ts|exact DQ|exact Px|exact Q0|exact Wx|]. apply (within_weak 8); [exact K|exact Q0|exact WQ]. }
    specialize (IH (d_replanned p s t start) t (k + 1)%nat (x + (t - start) / X) T' Dt ltac:(change (u_t_start s <= t); lra) WX ltac:(lia) ltac:(lra) W' HR SP).
    replace (k + S (length rest))%nat with (k + 1 + length rest)%nat by lia.
    replace (x + (last (t :: rest) start - start) / X) with (x + (t - start) / X + (last rest t - t) / X); [exact IH|].
    assert (L : last (t :: rest) start = last rest t).
    { clear. revert t. induction rest as [|u r IHr]; intros t; [reflexivity|]. cbn [last] in *. destruct r; [reflexivity|]. apply (IHr t). }
    rewrite L. unfold Rdiv. ring.
Qed.
