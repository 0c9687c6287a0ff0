(** Specification of the constraints of the kinematics solver: for each of them, the quantities that should not be negative ("gaps"), predicted at the
    first order for a robot that moves along [q] with the velocity [x] during a unit of time. *)
From Coq Require Import Reals List ZArith Bool String.
From Verif Require Import Base Geom3 Tools_model Geometry_model Polynom_model Polynom_spec Robot_model Robot_spec KinTasks_model Kin_model Tasks_spec KinTasks_spec.
Import ListNotations.
Open Scope R_scope.

(** ** Polygons *)

(** The distance of [P] to the line (A, B), negative on the outer side of the edge of a clockwise polygon. *)
Definition inner_distance (A B P : R * R) : R := right_area A B P / distance A B.

(** ** Distances *)

Definition frames_distance (pn : pin) (a b : nat) (q : vec) : R := v3_norm (v3_sub (fr_t (pn_frame pn q b)) (fr_t (pn_frame pn q a))).

(** ** Collisions *)

(** The point of the body of placement [T] that is at [p] at 0. *)
Definition carried (T : R -> frame) (p : vec3) (u : R) : vec3 := frame_act (T u) (frame_act (frame_inv (T 0)) p).
(** The distance between the points that are the closest at 0, with the sign of the distance between the objects (negative when one is in the other). *)
Definition separation (place : nat -> R -> frame) (d : distance_info) (u : R) : R :=
  (if Rlt_dec (di_min d) 0 then -1 else 1) * v3_norm (v3_sub (carried (place (di_B d)) (di_pB d) u) (carried (place (di_A d)) (di_pA d) u)).
(** The pairs of objects that are closer than [trigger]. *)
Definition near_pairs (trigger : R) (l : list distance_info) : list distance_info := filter (fun d => if Rlt_dec (di_min d) trigger then true else false) l.

(** Contract of the Jacobians of the joints in the world: they give the angular velocity of the placement of the joint, and the velocity of the point of
    the body that is at the origin of the world. *)
Definition joint_moves (pn : pin) (m : rmodel) (q : R -> vec) (x : vec) (place : nat -> R -> frame) (j : nat) : Prop :=
  let J := pn_joint_jac pn (q 0) j World in
  mrows J = 6%nat /\ mcols J = m_nv m /\ vlen x = m_nv m /\ (forall u, rigid (place j u)) /\
  let w := rows3 J 3 x in moves (place j) 0 (v3_add (rows3 J 0 x) (v3_cross w (fr_t (place j 0)))) w.

(** ** The gaps *)

Definition gaps (pn : pin) (dt : R) (r : robot) (place : nat -> R -> frame) (q : R -> vec) (x : vec) (k : constraint_kind) (n : nat) (gap : nat -> R) : Prop :=
  match k with
  | KMaxDistance a b max => n = 1%nat /\ exists d, derivable_pt_lim (fun u => frames_distance pn a b (q u)) 0 d /\
      forall i, (i < n)%nat -> gap i = max - (frames_distance pn a b (q 0) + d)
  | KHalfSpaces A b => n = mrows A /\ forall i, (i < n)%nat ->
      gap i = vat b i - Rsum (mcols A - 7) (fun j => mat_at A i (7 + j) * vat (pn_integrate pn (q 0) x) (7 + j))
  | KComPolygon polygon margin omega dcm => n = List.length polygon /\ exists v, v3_deriv (fun u => pn_com pn (q u)) 0 v /\
      forall i, (i < n)%nat -> exists A B, edge polygon i A B /\
        (** the center of mass after the displacement; or the DCM, with the velocity of this displacement in dt *)
        let c := v3_add (pn_com pn (q 0)) (v3_add v (if dcm then v3_scale (/ omega) (v3_scale (/ dt) v) else v3_zero)) in
        gap i = inner_distance A B (vx c, vy c) - margin
  | KCollisions distances margin trigger => n = List.length (near_pairs trigger (distances r)) /\
      forall i d, nth_error (near_pairs trigger (distances r)) i = Some d -> exists v, derivable_pt_lim (separation place d) 0 v /\ gap i = di_min d + v - margin
  | _ => False
  end.

(** What pinocchio and hpp-fcl compute is right. *)
Definition cons_motion (pn : pin) (r : robot) (place : nat -> R -> frame) (q : R -> vec) (x : vec) (k : constraint_kind) : Prop :=
  match k with
  | KMaxDistance a b _ => jacobian_of pn (r_model r) q 0 x a /\ jacobian_of pn (r_model r) q 0 x b /\ fr_t (pn_frame pn (q 0) a) <> fr_t (pn_frame pn (q 0) b)
  | KHalfSpaces A b => forall j, (j < mcols A - 7)%nat -> vat (pn_integrate pn (q 0) x) (7 + j) = vat (q 0) (7 + j) + vat x (6 + j)
  | KComPolygon polygon _ _ _ => com_moves pn (r_model r) q x /\ (0 < List.length polygon)%nat /\ forall i A B, edge polygon i A B -> A <> B
  | KCollisions distances margin trigger => forall d, In d (near_pairs trigger (distances r)) ->
      joint_moves pn (r_model r) q x place (di_A d) /\ joint_moves pn (r_model r) q x place (di_B d) /\ di_pA d <> di_pB d
  | _ => False
  end.

(** A constraint that is not hard is soft; the self collisions are soft only when they are asked to be. *)
Definition constraint_hard (c : kconstraint) : Prop :=
  match kc_kind c with KCollisions _ _ _ => kc_priority c <> PSoft | _ => kc_priority c = PHard end.
