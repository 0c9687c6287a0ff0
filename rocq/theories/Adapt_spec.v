(** Specification of the choice of a ZMP and of the adaptation of a step to the measured DCM. *)
From Coq Require Import Reals List ZArith Bool.
From Verif Require Import Base Geom3 Tools_model Polynom_model Polynom_spec Footsteps_model Wpg_model Wpg_spec.
Import ListNotations.
Open Scope R_scope.

(** The law of the linear inverted pendulum: the DCM is repelled by the ZMP, which stays at [z]. *)
Definition repelled (omega z : R) (xi : R -> R) : Prop := forall t, derivable_pt_lim xi t (omega * (xi t - z)).

(** The ZMP [z], fixed, takes the DCM from [a] to [b] in the duration [d]. *)
Definition drives (omega d : R) (z a b : point) : Prop :=
  exists xi eta, repelled omega (fst z) xi /\ repelled omega (snd z) eta /\
    xi 0 = fst a /\ eta 0 = snd a /\ xi d = fst b /\ eta d = snd b.

(** The ZMP [z] is in the polygon of the support, at the margin of the parameters. *)
Definition stands_at (hull : list point -> list point) (p : wparams) (s : support) (z : point) : Prop :=
  exists polygon, snd (support_support_polygon hull s) = Ok polygon /\ inside polygon (w_zmp_margin p) z.

(** A polygon that can be used: it has vertices, and the ends of each edge differ. *)
Definition usable (polygon : list point) : Prop := polygon <> [] /\ forall i A B, edge polygon i A B -> A <> B.

Definition squared_distance (a b : point) : R := Rsqr (fst a - fst b) + Rsqr (snd a - snd b).
Definition squared_norm (a : point) : R := Rsqr (fst a) + Rsqr (snd a).

(** Among the ZMPs that the support allows, [z] is the closest to [ideal]; the squared norm of the ZMP has a small weight. *)
Definition best_zmp (hull : list point -> list point) (p : wparams) (s : support) (ideal z : point) : Prop :=
  stands_at hull p s z /\ forall z', stands_at hull p s z' ->
    squared_distance z ideal + 1 / 100000000 * squared_norm z <= squared_distance z' ideal + 1 / 100000000 * squared_norm z'.

(** The point of coordinates [u] in the frame [f], seen from above. *)
Definition placed (f : frame) (u : point) : point :=
  (vx (fr_t f) + (m00 (fr_R f) * fst u + m01 (fr_R f) * snd u), vy (fr_t f) + (m10 (fr_R f) * fst u + m11 (fr_R f) * snd u)).
Definition turned_by (f : frame) (u : point) : point :=
  (m00 (fr_R f) * fst u + m01 (fr_R f) * snd u, m10 (fr_R f) * fst u + m11 (fr_R f) * snd u).

(** Seen from above, the axes x and y of the frame do not lie on one line. *)
Definition seen_from_above (f : frame) : Prop := m00 (fr_R f) * m11 (fr_R f) - m01 (fr_R f) * m10 (fr_R f) <> 0.

(** The zone where the next ZMP may be, in the frame of the support: the polygon of the parameters on the right foot, the
    polygon turned by half a turn on the left foot. *)
Definition reachable_zone (p : wparams) (sd : side) (u : point) : Prop :=
  match sd with Right => inside (w_op_space p) 0 u | Left => inside (w_op_space p) 0 (- fst u, - snd u) end.

(** What update_supports may choose: the next ZMP [u] and the offset [o] of the DCM (both in the frame [f] of the support), and
    the duration [T] of the step, of which [elapsed] is over. With the ZMP [z], the DCM moves from [dcm] to where the step ends. *)
Definition possible_step (p : wparams) (omega elapsed : R) (sd : side) (f : frame) (z dcm u o : point) (T : R) : Prop :=
  reachable_zone p sd u /\ Rmax 0.15 elapsed <= T <= Rmax 3 elapsed /\
  drives omega (T - elapsed) z dcm (placed f (fst u + fst o, snd u + snd o)).

(** How far out of the polygon the point is: the squared distances to the edges it is on the wrong side of. *)
Definition out_by (polygon : list point) (P : point) (v : R) : Prop :=
  exists gap, (forall i A B, edge polygon i A B -> gap i = right_area A B P / distance A B) /\
    v = Rsum (length polygon) (fun i => Rsqr (Rmin 0 (gap i))).

(** What the choice minimises: the time of the step, the place of the next ZMP and the offset of the DCM should be those that
    were planned, and the offset of the DCM should be in its polygon. *)
Definition step_cost (p : wparams) (omega planned : R) (f : frame) (zmp dcm : point) (u o : point) (T : R) (v : R) : R :=
  5 * Rsqr (exp (omega * T) - exp (omega * planned)) + 100 * squared_distance (placed f u) zmp +
  1000 * squared_distance (turned_by f o) (fst dcm - fst zmp, snd dcm - snd zmp) + 1000000 * v +
  1 / 100000000 * (squared_norm u + Rsqr (exp (omega * T)) + squared_norm o).

(** No possible step costs less than this one. *)
Definition best_step (p : wparams) (omega elapsed : R) (sd : side) (f : frame) (z dcm zmp target : point) (u o : point) (T : R) : Prop :=
  exists v, out_by (w_dcm_offset p) o v /\ forall u' o' T' v', possible_step p omega elapsed sd f z dcm u' o' T' -> out_by (w_dcm_offset p) o' v' ->
    step_cost p omega (p_single_support_duration (w_base p)) f zmp target u o T v <= step_cost p omega (p_single_support_duration (w_base p)) f zmp target u' o' T' v'.

(** The support [s'] is [s] but for the time it takes. *)
Definition retimed (s s' : support) : Prop :=
  u_footsteps s' = u_footsteps s /\ u_t_start s' = u_t_start s /\ u_elapsed_ratio s' = u_elapsed_ratio s /\
  u_target_world_dcm s' = u_target_world_dcm s /\ u_start s' = u_start s /\ u_end s' = u_end s /\ u_polygon s' = u_polygon s /\
  u_computed s' = u_computed s.

(** The support [s'] is [s], but for the position of its first footstep in the horizontal plane, now [P]. The polygons that were
    computed are kept. *)
Definition first_moved (P : point) (s s' : support) : Prop :=
  exists f f' l, u_footsteps s = f :: l /\ u_footsteps s' = f' :: l /\
    fr_t (f_frame f') = V3 (fst P) (snd P) (vz (fr_t (f_frame f))) /\ fr_R (f_frame f') = fr_R (f_frame f) /\
    f_side f' = f_side f /\ f_width f' = f_width f /\ f_length f' = f_length f /\ f_polygon f' = f_polygon f /\ f_computed f' = f_computed f /\
    u_t_start s' = u_t_start s /\ u_elapsed_ratio s' = u_elapsed_ratio s /\ u_time_ratio s' = u_time_ratio s /\
    u_target_world_dcm s' = u_target_world_dcm s /\ u_start s' = u_start s /\ u_end s' = u_end s /\ u_polygon s' = u_polygon s /\
    u_computed s' = u_computed s.
