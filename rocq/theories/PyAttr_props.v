(** Claim C171: an attribute of a Python object that can be assigned reads as the value assigned. *)

From Coq Require Import List String Bool Reals Lra.
From Verif Require Import Tools_model PyAttr_model PyAttr_spec PyAttr_proofs.
Import ListNotations.
Local Open Scope string_scope.

(** The whole property is [forall c a, assignable c a -> ordinary c a]. It fails for two attributes, and holds for
    all the others, of all classes, inherited ones included. *)
Theorem C171_attributes_partial : forall c a,
  assignable c a ->
  (c, a) <> ("Segment", "end") -> (c, a) <> ("LineContact", "R_world_surface") ->
  ordinary c a.
Proof.
  intros c a [e [m [He Hm]]] H1 H2. apply (sound_ordinary c a e m He Hm).
  destruct (resolve_in c a e He) as [Hin Hname].
  pose proof (class_of_family c e Hin) as Hc.
  pose proof classes_sound as Hs. rewrite forallb_forall in Hs. specialize (Hs c Hc).
  cbv beta in Hs. rewrite forallb_forall in Hs. specialize (Hs e Hin). apply orb_prop in Hs.
  destruct Hs as [Hs|Hs]; [|exact Hs]. exfalso. rewrite Hname in Hs. unfold broken in Hs.
  apply orb_prop in Hs. destruct Hs as [Hs|Hs]; apply andb_prop in Hs; destruct Hs as [Hs Hs'];
    apply String.eqb_eq in Hs; apply String.eqb_eq in Hs'; [apply H1|apply H2]; congruence.
Qed.

(** Attributes of the class itself and of a base class. *)
Example some_assignable :
  assignable "HumanoidParameters" "walk_foot_height" /\ assignable "HumanoidRobot" "state" /\
  assignable "LineContact" "mu" /\ assignable "ManipulabilityTask" "lambda_".
Proof. repeat split; unfold assignable; vm_compute; do 2 eexists; split; reflexivity. Qed.

(** An attribute declared without a setter cannot be assigned. *)
Theorem C171_read_only : forall (V : Type) c a e (x : string -> V) v,
  resolve c a = Some e -> at_write e = None -> py_set c a x v = AttributeError.
Proof. intros V c a e x v He Hw. unfold py_set. rewrite He, Hw. reflexivity. Qed.

Example a_read_only_attribute : exists e, resolve "WPGTrajectory" "t_start" = Some e /\ at_write e = None.
Proof. vm_compute. eexists; split; reflexivity. Qed.

(** Assigning the end of a segment moves its start instead, and does not raise. *)
Definition segment_of (x : string -> point) : segment := Segment (x "start") (x "end").

Theorem C171_segment_end_behaviour : forall (x : string -> point) (p : point),
  exists y, py_set "Segment" "end" x p = Done y /\
    segment_of y = Segment p (s_end (segment_of x)) /\
    py_get "Segment" "end" y = Done (s_end (segment_of x)) /\ py_get "Segment" "start" y = Done p.
Proof.
  intros x p. exists (fun k => if String.eqb k "start" then p else x k).
  repeat split; vm_compute; reflexivity.
Qed.

(** So extending a segment of length 1 to length 3 gives one of length 2 that starts where it should end. *)
Theorem C171_segment_end_refuted :
  assignable "Segment" "end" /\ ~ ordinary "Segment" "end" /\
  exists (x y : string -> point),
    segment_of x = Segment (0, 0)%R (1, 0)%R /\ py_set "Segment" "end" x (3, 0)%R = Done y /\
    segment_norm (segment_of y) = 2%R.
Proof.
  split; [|split].
  - unfold assignable. vm_compute. do 2 eexists; split; reflexivity.
  - intros H. destruct (H bool (fun _ => false) true) as [y [Hy [Hg _]]].
    vm_compute in Hy. injection Hy as <-. vm_compute in Hg. discriminate Hg.
  - exists (fun k => if String.eqb k "end" then (1, 0)%R else (0, 0)%R).
    destruct (C171_segment_end_behaviour (fun k => if String.eqb k "end" then (1, 0)%R else (0, 0)%R) (3, 0)%R)
      as [y [Hy [Hs _]]].
    exists y. split; [reflexivity|]. split; [exact Hy|]. rewrite Hs.
    cbn [segment_of s_end String.eqb Ascii.eqb Bool.eqb]. unfold segment_norm, v2_norm, v2_dot, v2_sub.
    cbn [s_start s_end fst snd].
    replace ((1 - 3) * (1 - 3) + (0 - 0) * (0 - 0))%R with (2 * 2)%R by lra.
    apply sqrt_square. lra.
Qed.

(** The orientation of the surface of a line contact can neither be read nor assigned from Python: its accessors take
    a point contact. The same attribute of a point contact can. *)
Theorem C171_line_contact_behaviour : forall (V : Type) (x : string -> V) (v : V),
  py_get "LineContact" "R_world_surface" x = ArgumentError /\
  py_set "LineContact" "R_world_surface" x v = ArgumentError.
Proof. intros V x v. split; vm_compute; reflexivity. Qed.

Theorem C171_line_contact_refuted :
  assignable "LineContact" "R_world_surface" /\ ~ ordinary "LineContact" "R_world_surface" /\
  ordinary "PointContact" "R_world_surface".
Proof.
  split; [|split].
  - unfold assignable. vm_compute. do 2 eexists; split; reflexivity.
  - intros H. destruct (H bool (fun _ => false) true) as [y [Hy _]]. vm_compute in Hy. discriminate Hy.
  - apply C171_attributes_partial; [|discriminate|discriminate].
    unfold assignable. vm_compute. do 2 eexists; split; reflexivity.
Qed.

Print Assumptions C171_attributes_partial.
Print Assumptions C171_read_only.
Print Assumptions C171_segment_end_behaviour.
Print Assumptions C171_segment_end_refuted.
Print Assumptions C171_line_contact_behaviour.
Print Assumptions C171_line_contact_refuted.
