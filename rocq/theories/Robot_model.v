(** Model of src/placo/model/robot_wrapper.cpp. The kinematics and dynamics algorithms of pinocchio are inputs of the model (record
    [pin]): functions of the configuration, whose contracts are in Robot_spec. Collisions and Hessians are in Collision_model and Manip_model; loading URDF and MJCF files is not
    modelled. *)
From Coq Require Import Reals List ZArith Bool String.
From Verif Require Import Base Geom3 Tools_model Geometry_model.
Import ListNotations.
Open Scope R_scope.

(** ** Eigen *)

(** v[i], and v[i] = x. *)
Definition vec_get (v : vec) (i : nat) : outcome R := guard (Nat.ltb i (vlen v)) (Ok (vat v i)).
Definition vec_set (v : vec) (i : nat) (x : R) : outcome vec :=
  guard (Nat.ltb i (vlen v)) (Ok (Vec (vlen v) (fun k => if Nat.eqb k i then x else vat v k))).

(** A * v. *)
Definition mat_vec (A : mat) (v : vec) : outcome vec :=
  guard (Nat.eqb (mcols A) (vlen v)) (Ok (Vec (mrows A) (fun i => Rsum (mcols A) (fun k => mat_at A i k * vat v k)))).

(** a + b, a - b, k * a on vectors. *)
Definition vec_add (a b : vec) : outcome vec := guard (Nat.eqb (vlen a) (vlen b)) (Ok (Vec (vlen a) (fun i => vat a i + vat b i))).
Definition vec_sub (a b : vec) : outcome vec := guard (Nat.eqb (vlen a) (vlen b)) (Ok (Vec (vlen a) (fun i => vat a i - vat b i))).
Definition vec_scale (k : R) (a : vec) : vec := Vec (vlen a) (fun i => k * vat a i).

(** A.transpose(), A.block(i, j, p, q), v.segment(i, n) (also written v.block(i, 0, n, 1)), v.bottomRows(n). *)
Definition mat_t (A : mat) : mat := Mat (mcols A) (mrows A) (fun i j => mat_at A j i).
Definition block (A : mat) (i j p q : nat) : outcome mat :=
  guard (Nat.leb (i + p) (mrows A) && Nat.leb (j + q) (mcols A)) (Ok (Mat p q (fun k l => mat_at A (i + k) (j + l)))).
Definition segment_of (v : vec) (i n : nat) : outcome vec :=
  guard (Nat.leb (i + n) (vlen v)) (Ok (Vec n (fun k => vat v (i + k)))).
Definition bottom_rows (v : vec) (n : nat) : outcome vec :=
  guard (Nat.leb n (vlen v)) (Ok (Vec n (fun k => vat v (vlen v - n + k)))).

(** ** The robot *)

(** A joint of pinocchio: its name, idx_q(), nq(), idx_v(), nv(). *)
Record joint : Type := Joint { jt_name : string; jt_idx_q : nat; jt_nq : nat; jt_idx_v : nat; jt_nv : nat }.

(** pinocchio::Model. [m_joints] are the joints 1, 2, ... (the first one being the floating base, root_joint); the joint 0,
    "universe", has no place in q and v. [m_root] is jointPlacements[1]. *)
Record rmodel : Type := RModel {
  m_nq : nat; m_nv : nat; m_joints : list joint; m_frames : list string; m_root : frame;
  m_lower : vec; m_upper : vec; m_velocity : vec; m_effort : vec; m_rotor : vec; m_gear : vec; m_masses : list R
}.

(** robot_wrapper.h: RobotWrapper::State. *)
Record state : Type := State { st_q : vec; st_qd : vec; st_qdd : vec }.

(** RobotWrapper. [r_seen] is the configuration and the velocity the data (frames, Jacobians) was computed for: the state at the time of the last
    update_kinematics. Simplification: some calls (com_jacobian, mass_matrix, ...) compute parts of the data again for the current state; they are
    modelled as leaving the data as it is, which is the same as long as the state has not changed since the last update_kinematics (C175). *)
Record robot : Type := Robot { r_model : rmodel; r_state : state; r_seen : vec * vec }.

(** pinocchio::ReferenceFrame. *)
Inductive ref : Type := Local | World | LocalWorldAligned.

(** The algorithms of pinocchio, for a model that is not changed: the placement and the Jacobian of a frame, and its time variation; integrate,
    difference and neutral; the center of mass, its Jacobian and its time variation; the centroidal map; the mass matrix (its upper triangle, crba);
    the gravity and the non linear effects; the Jacobian of a joint, and its time variation. *)
Record pin : Type := Pin {
  pn_frame : vec -> nat -> frame; pn_jac : vec -> nat -> ref -> mat; pn_djac : vec -> vec -> nat -> ref -> mat;
  pn_integrate : vec -> vec -> vec; pn_difference : vec -> vec -> vec; pn_neutral : vec;
  pn_com : vec -> vec3; pn_comjac : vec -> mat; pn_dcomjac : vec -> vec -> mat; pn_centroidal : vec -> mat;
  pn_crba : vec -> mat; pn_gravity : vec -> vec; pn_nle : vec -> vec -> vec; pn_joint_jac : vec -> nat -> ref -> mat;
  pn_joint_djac : vec -> vec -> nat -> ref -> mat
}.

Definition set_state (r : robot) (s : state) : robot := Robot (r_model r) s (r_seen r).
Definition set_model (r : robot) (m : rmodel) : robot := Robot m (r_state r) (r_seen r).
Definition set_q (r : robot) (q : vec) : robot := set_state r (State q (st_qd (r_state r)) (st_qdd (r_state r))).
Definition set_qd (r : robot) (qd : vec) : robot := set_state r (State (st_q (r_state r)) qd (st_qdd (r_state r))).
Definition set_qdd (r : robot) (qdd : vec) : robot := set_state r (State (st_q (r_state r)) (st_qd (r_state r)) qdd).

(** ** Joints *)

(** pinocchio: the joint of a name; getJointId is the number of joints when there is none, and reading model.joints there is undefined.
    The offsets of "universe" are not set. *)
Definition find_joint (m : rmodel) (name : string) : option joint := find (fun j => String.eqb (jt_name j) name) (m_joints m).
Definition exist_joint_name (m : rmodel) (name : string) : bool :=
  String.eqb name "universe" || match find_joint m name with Some _ => true | None => false end.
Definition joint_of (m : rmodel) (name : string) : outcome joint :=
  if String.eqb name "universe" then UB else match find_joint m name with Some j => Ok j | None => UB end.

(** robot_wrapper.cpp:196-207. *)
Definition get_joint_offset (r : robot) (name : string) : outcome nat :=
  if negb (exist_joint_name (r_model r) name) then Throw ERuntime
  else j <- joint_of (r_model r) name ;; Ok (jt_idx_q j).

(** robot_wrapper.cpp:209-213, 215-219, 221-225. *)
Definition get_joint_size (r : robot) (name : string) : outcome nat := j <- joint_of (r_model r) name ;; Ok (jt_nq j).
Definition get_joint_v_offset (r : robot) (name : string) : outcome nat := j <- joint_of (r_model r) name ;; Ok (jt_idx_v j).
Definition get_joint_v_size (r : robot) (name : string) : outcome nat := j <- joint_of (r_model r) name ;; Ok (jt_nv j).

(** robot_wrapper.cpp:186-189, 191-194. *)
Definition set_joint (r : robot) (name : string) (value : R) : outcome robot :=
  k <- get_joint_offset r name ;; q <- vec_set (st_q (r_state r)) k value ;; Ok (set_q r q).
Definition get_joint (r : robot) (name : string) : outcome R :=
  k <- get_joint_offset r name ;; vec_get (st_q (r_state r)) k.

(** robot_wrapper.cpp:227-230, 232-235, 237-240, 242-245. *)
Definition get_joint_velocity (r : robot) (name : string) : outcome R :=
  k <- get_joint_v_offset r name ;; vec_get (st_qd (r_state r)) k.
Definition set_joint_acceleration (r : robot) (name : string) (value : R) : outcome robot :=
  k <- get_joint_v_offset r name ;; v <- vec_set (st_qdd (r_state r)) k value ;; Ok (set_qdd r v).
Definition get_joint_acceleration (r : robot) (name : string) : outcome R :=
  k <- get_joint_v_offset r name ;; vec_get (st_qdd (r_state r)) k.
Definition set_joint_velocity (r : robot) (name : string) (value : R) : outcome robot :=
  k <- get_joint_v_offset r name ;; v <- vec_set (st_qd (r_state r)) k value ;; Ok (set_qd r v).

Definition with_limits (m : rmodel) (lower upper velocity effort : vec) : rmodel :=
  RModel (m_nq m) (m_nv m) (m_joints m) (m_frames m) (m_root m) lower upper velocity effort (m_rotor m) (m_gear m) (m_masses m).

(** robot_wrapper.cpp:247-250, 252-255. *)
Definition set_velocity_limit (r : robot) (name : string) (limit : R) : outcome robot :=
  k <- get_joint_v_offset r name ;; v <- vec_set (m_velocity (r_model r)) k limit ;;
  let m := r_model r in Ok (set_model r (with_limits m (m_lower m) (m_upper m) v (m_effort m))).
Definition set_torque_limit (r : robot) (name : string) (limit : R) : outcome robot :=
  k <- get_joint_v_offset r name ;; v <- vec_set (m_effort (r_model r)) k limit ;;
  let m := r_model r in Ok (set_model r (with_limits m (m_lower m) (m_upper m) (m_velocity m) v)).

(** robot_wrapper.cpp:663-666, 668-671. *)
Definition set_rotor_inertia (r : robot) (name : string) (inertia : R) : outcome robot :=
  k <- get_joint_v_offset r name ;; v <- vec_set (m_rotor (r_model r)) k inertia ;;
  let m := r_model r in
  Ok (set_model r (RModel (m_nq m) (m_nv m) (m_joints m) (m_frames m) (m_root m) (m_lower m) (m_upper m) (m_velocity m) (m_effort m) v (m_gear m) (m_masses m))).
Definition set_gear_ratio (r : robot) (name : string) (ratio : R) : outcome robot :=
  k <- get_joint_v_offset r name ;; v <- vec_set (m_gear (r_model r)) k ratio ;;
  let m := r_model r in
  Ok (set_model r (RModel (m_nq m) (m_nv m) (m_joints m) (m_frames m) (m_root m) (m_lower m) (m_upper m) (m_velocity m) (m_effort m) (m_rotor m) v (m_masses m))).

(** robot_wrapper.cpp:755-764. *)
Definition joint_names (r : robot) (include_floating_base : bool) : list string :=
  let names := "universe"%string :: map jt_name (m_joints (r_model r)) in
  if include_floating_base then names
  else filter (fun n => negb (String.eqb n "root_joint")) (filter (fun n => negb (String.eqb n "universe")) names).

(** robot_wrapper.cpp:257-263. *)
Definition set_velocity_limits (r : robot) (limit : R) : outcome robot :=
  fold_left (fun o name => r <- o ;; set_velocity_limit r name limit) (joint_names r false) (Ok r).

(** robot_wrapper.cpp:265-270, 272-276. *)
Definition set_joint_limits (r : robot) (name : string) (lower upper : R) : outcome robot :=
  k <- get_joint_offset r name ;;
  l <- vec_set (m_lower (r_model r)) k lower ;; u <- vec_set (m_upper (r_model r)) k upper ;;
  let m := r_model r in Ok (set_model r (with_limits m l u (m_velocity m) (m_effort m))).
Definition get_joint_limits (r : robot) (name : string) : outcome (R * R) :=
  k <- get_joint_offset r name ;;
  l <- vec_get (m_lower (r_model r)) k ;; u <- vec_get (m_upper (r_model r)) k ;; Ok (l, u).

(** robot_wrapper.cpp:134-141: the limits of the joints of which both limits are zero become the lowest and the greatest double,
    [- huge] and [huge]. *)
Definition patch_limits (huge : R) (m : rmodel) : rmodel :=
  let undefined k := if Req_EM_T (vat (m_lower m) k) 0 then (if Req_EM_T (vat (m_upper m) k) 0 then true else false) else false in
  with_limits m (Vec (vlen (m_lower m)) (fun k => if undefined k then - huge else vat (m_lower m) k))
                (Vec (vlen (m_upper m)) (fun k => if undefined k then huge else vat (m_upper m) k)) (m_velocity m) (m_effort m).

(** ** Frames *)

(** robot_wrapper.cpp:174-184. *)
Fixpoint position_of (name : string) (l : list string) : option nat :=
  match l with
  | [] => None
  | n :: l' => if String.eqb n name then Some O else option_map S (position_of name l')
  end.
Definition get_frame_index (r : robot) (name : string) : outcome nat :=
  match position_of name (m_frames (r_model r)) with Some i => Ok i | None => Throw ERuntime end.

(** robot_wrapper.cpp:278-291. *)
Definition q_base (q : vec) : frame :=
  Frame (quat_matrix (Quat (vat q 6) (vat q 3) (vat q 4) (vat q 5))) (V3 (vat q 0) (vat q 1) (vat q 2)).
Definition get_T_world_fbase (r : robot) : outcome frame :=
  guard (Nat.leb 7 (vlen (st_q (r_state r)))) (Ok (frame_mul (m_root (r_model r)) (q_base (st_q (r_state r))))).

(** robot_wrapper.cpp:293-306. *)
Definition with_base (q : vec) (T : frame) : vec :=
  let k := quat_of (fr_R T) in
  Vec (vlen q) (fun i => match i with
    | 0 => vx (fr_t T) | 1 => vy (fr_t T) | 2 => vz (fr_t T) | 3 => qx k | 4 => qy k | 5 => qz k | 6 => qw k | _ => vat q i end)%nat.
Definition set_T_world_fbase (r : robot) (T : frame) : outcome robot :=
  guard (Nat.leb 7 (vlen (st_q (r_state r))))
    (Ok (set_q r (with_base (st_q (r_state r)) (frame_mul (frame_inv (m_root (r_model r))) T)))).

Section WithPinocchio.
Variable pn : pin.

(** robot_wrapper.cpp:167-170 and 342-352. *)
Definition zeros (n : nat) : vec := Vec n (fun _ => 0).
Definition neutral_state (r : robot) : state := State (pn_neutral pn) (zeros (m_nv (r_model r))) (zeros (m_nv (r_model r))).
Definition reset (r : robot) : robot := set_state r (neutral_state r).

(** robot_wrapper.cpp:315-321. *)
Definition update_kinematics (r : robot) : robot := Robot (r_model r) (r_state r) (st_q (r_state r), st_qd (r_state r)).

(** robot_wrapper.cpp:426-429: the placement that was computed by the last update_kinematics. *)
Definition get_T_world_frame (r : robot) (f : nat) : outcome frame :=
  guard (Nat.ltb f (List.length (m_frames (r_model r)))) (Ok (pn_frame pn (fst (r_seen r)) f)).
(** robot_wrapper.cpp:421-424. *)
Definition get_T_world_frame_name (r : robot) (name : string) : outcome frame := f <- get_frame_index r name ;; get_T_world_frame r f.

(** robot_wrapper.cpp:436-439. *)
Definition get_T_a_b (r : robot) (a b : nat) : outcome frame :=
  p <- get_T_world_frame r a ;; q <- get_T_world_frame r b ;; Ok (frame_mul (frame_inv p) q).

(** robot_wrapper.cpp:446-453 and 441-444. *)
Definition set_T_world_frame (r : robot) (f : nat) (target : frame) : outcome robot :=
  base <- get_T_world_fbase r ;;
  w <- get_T_world_frame r f ;;
  set_T_world_fbase r (frame_mul target (frame_mul (frame_inv w) base)).
Definition set_T_world_frame_name (r : robot) (name : string) (target : frame) : outcome robot :=
  f <- get_frame_index r name ;; set_T_world_frame r f target.

(** robot_wrapper.cpp:535-555. *)
Definition string_to_reference (s : string) : outcome ref :=
  if String.eqb s "local_world_aligned" then Ok LocalWorldAligned
  else if String.eqb s "local" then Ok Local
  else if String.eqb s "world" then Ok World
  else Throw ERuntime.

(** robot_wrapper.cpp:562-569 and 557-560. *)
Definition frame_jacobian (r : robot) (f : nat) (k : ref) : mat := pn_jac pn (fst (r_seen r)) f k.
Definition frame_jacobian_name (r : robot) (name reference : string) : outcome mat :=
  f <- get_frame_index r name ;; k <- string_to_reference reference ;; Ok (frame_jacobian r f k).

(** robot_wrapper.cpp:308-313 and 635-638. The center of mass is computed from the data; its Jacobian is computed again for the current state. *)
Definition com_world (r : robot) : vec3 := pn_com pn (fst (r_seen r)).
Definition com_jacobian (r : robot) : mat := pn_comjac pn (st_q (r_state r)).

(** robot_wrapper.cpp:576-584 and 571-574. *)
Definition frame_jacobian_time_variation (r : robot) (f : nat) (k : ref) : mat := pn_djac pn (fst (r_seen r)) (snd (r_seen r)) f k.
Definition frame_jacobian_time_variation_name (r : robot) (name reference : string) : outcome mat :=
  f <- get_frame_index r name ;; k <- string_to_reference reference ;; Ok (frame_jacobian_time_variation r f k).

(** robot_wrapper.cpp:586-589, 600-603. A name that is not the name of a joint gives the index of no joint, out of the model. The joint 0
    ("universe") is not modelled. *)
Definition joint_index (r : robot) (name : string) : outcome nat :=
  match position_of name (map jt_name (m_joints (r_model r))) with Some i => Ok (S i) | None => UB end.
Definition joint_jacobian_name (r : robot) (name reference : string) : outcome mat :=
  j <- joint_index r name ;; k <- string_to_reference reference ;; Ok (pn_joint_jac pn (fst (r_seen r)) j k).
Definition joint_jacobian_time_variation_name (r : robot) (name reference : string) : outcome mat :=
  j <- joint_index r name ;; k <- string_to_reference reference ;; Ok (pn_joint_jac pn (fst (r_seen r)) j k).
(** robot_wrapper.cpp:605-612. *)
Definition joint_jacobian_time_variation (r : robot) (j : nat) (k : ref) : mat := pn_joint_djac pn (fst (r_seen r)) (snd (r_seen r)) j k.

(** robot_wrapper.cpp:614-628. *)
Definition mat_of3 (m : mat3) : mat := Mat 3 3 (fun i j => match i, j with
  | 0, 0 => m00 m | 0, 1 => m01 m | 0, _ => m02 m | 1, 0 => m10 m | 1, 1 => m11 m | 1, _ => m12 m | _, 0 => m20 m | _, 1 => m21 m | _, _ => m22 m end)%nat.
Definition skew (v : vec3) : mat3 := M3 0 (- vz v) (vy v) (vz v) 0 (- vx v) (- vy v) (vx v) 0.
Definition mat_add (A B : mat) : outcome mat :=
  guard (Nat.eqb (mrows A) (mrows B) && Nat.eqb (mcols A) (mcols B)) (Ok (Mat (mrows A) (mcols A) (fun i j => mat_at A i j + mat_at B i j))).
Definition mat_sub (A B : mat) : outcome mat :=
  guard (Nat.eqb (mrows A) (mrows B) && Nat.eqb (mcols A) (mcols B)) (Ok (Mat (mrows A) (mcols A) (fun i j => mat_at A i j - mat_at B i j))).
Definition relative_position_jacobian (r : robot) (a b : nat) : outcome mat :=
  let nv := m_nv (r_model r) in
  p <- get_T_world_frame r a ;; q <- get_T_world_frame r b ;;
  let T := frame_mul (frame_inv p) q in
  ja <- block (frame_jacobian r a LocalWorldAligned) 0 0 3 nv ;;
  wa <- block (frame_jacobian r a LocalWorldAligned) 3 0 3 nv ;;
  jb <- block (frame_jacobian r b LocalWorldAligned) 0 0 3 nv ;;
  d <- mat_sub jb ja ;;
  u <- mat_mul (mat_of3 (m3_t (fr_R p))) d ;;
  v <- mat_mul (mat_of3 (m3_mul (skew (fr_t T)) (m3_t (fr_R p)))) wa ;;
  mat_add u v.

(** robot_wrapper.cpp:673-687. *)
Definition mass_matrix (r : robot) : outcome mat :=
  let M := pn_crba pn (st_q (r_state r)) in
  let m := r_model r in
  guard (Nat.eqb (mrows M) (mcols M) && Nat.leb (mrows M) (vlen (m_rotor m)) && Nat.leb (mrows M) (vlen (m_gear m)))
    (Ok (Mat (mrows M) (mcols M) (fun i j =>
      (if Nat.ltb j i then mat_at M j i else mat_at M i j)
      + (if Nat.eqb i j then vat (m_gear m) i * vat (m_gear m) i * vat (m_rotor m) i else 0)))).

(** robot_wrapper.cpp:658-661, 651-656. *)
Definition non_linear_effects (r : robot) : vec := pn_nle pn (st_q (r_state r)) (st_qd (r_state r)).
Definition generalized_gravity (r : robot) : vec := pn_gravity pn (st_q (r_state r)).

(** robot_wrapper.cpp:694-710. *)
Definition integrate (r : robot) (dt : R) : outcome robot :=
  let s := r_state r in
  let qd := if Nat.eqb (vlen (st_qd s)) 0 then zeros (m_nv (r_model r)) else st_qd s in
  qd <- (if Nat.eqb (vlen (st_qdd s)) 0 then Ok qd else vec_add qd (vec_scale dt (st_qdd s))) ;;
  Ok (set_state r (State (pn_integrate pn (st_q s) (vec_scale dt qd)) qd (st_qdd s))).

(** robot_wrapper.cpp:712-726. [inv] is Eigen's inverse(). The Jacobian is given in the frame of the point of the frame, aligned with the world, by default (robot_wrapper.h:450-451). *)
Definition static_gravity_compensation_torques (inv : mat -> mat) (r : robot) (f : nat) : outcome vec :=
  let g := generalized_gravity r in
  let J := frame_jacobian r f LocalWorldAligned in
  Ju <- block J 0 0 6 6 ;;
  gu <- segment_of g 0 6 ;;
  f_ext <- mat_vec (inv (mat_t Ju)) gu ;;
  t <- mat_vec (mat_t J) f_ext ;;
  vec_sub g t.

(** robot_wrapper.cpp:733-748. *)
Definition torques_from_acceleration_with_fixed_frame (inv : mat -> mat) (r : robot) (qdd_a : vec) (f : nat) : outcome vec :=
  let nv := m_nv (r_model r) in
  let h := non_linear_effects r in
  M <- mass_matrix r ;;
  let J := frame_jacobian r f LocalWorldAligned in
  Ju <- block (mat_t J) 0 0 6 6 ;;
  hu <- segment_of h 0 6 ;;
  force <- mat_vec (inv Ju) hu ;;
  guard (Nat.leb 6 nv) (
  h_a <- bottom_rows h (nv - 6) ;;
  M_a <- block M (mrows M - (nv - 6)) (mcols M - (nv - 6)) (nv - 6) (nv - 6) ;;
  a <- mat_vec M_a qdd_a ;;
  a <- vec_add a h_a ;;
  t <- mat_vec (mat_t J) force ;;
  t <- bottom_rows t (nv - 6) ;;
  vec_sub a t).

(** robot_wrapper.cpp:776-786. *)
Definition total_mass (r : robot) : R := fold_left Rplus (m_masses (r_model r)) 0.

(** robot_wrapper.cpp:788-803. [random] is the random configuration, [huge] the greatest double. *)
Definition add_q_noise (huge : R) (random : vec) (r : robot) (noise : R) : robot :=
  let m := r_model r in
  let q := st_q (r_state r) in
  let unlimited k := if Req_EM_T (vat (m_lower m) k) (- huge) then true else if Req_EM_T (vat (m_upper m) k) huge then true else false in
  set_q r (Vec (vlen q) (fun k =>
    if Nat.ltb k 7 || Nat.leb (m_nq m) k || unlimited k then vat q k else vat q k + (vat random k - vat q k) * noise)).

End WithPinocchio.
