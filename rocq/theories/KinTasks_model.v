(** Model of the tasks and constraints of src/placo/kinematics (manipulability_task.cpp is in Manip_model). Each task computes the matrix A and the
    vector b of its equation A dq = b, each constraint a row of inequalities over dq. *)
From Coq Require Import Reals List ZArith Bool String.
From Verif Require Import Base Angle Geom3 Tools_model Geometry_model Expression_model Problem_model Polynom_model Robot_model.
Import ListNotations.
Open Scope R_scope.

(** ** Eigen *)

(** A Vector3d as a matrix with one column; the column of a matrix with one column as a vector. *)
Definition coord (v : vec3) (i : nat) : R := match i with 0 => vx v | 1 => vy v | _ => vz v end%nat.
Definition col3 (v : vec3) : mat := Mat 3 1 (fun i _ => coord v i).
Definition vec_of_col (M : mat) : vec := Vec (mrows M) (fun i => mat_at M i 0).

(** v.transpose() * M, a matrix with one row. *)
Definition row_times (v : vec3) (M : mat) : outcome mat := mat_mul (Mat 1 3 (fun _ j => coord v j)) M.

(** Matrix3d::inverse(): the adjugate over the determinant. [None]: the determinant is 0, the result is not finite. *)
Definition m3_inverse (a : mat3) : option mat3 := if Req_EM_T (m3_det a) 0 then None else Some (m3_scale (/ m3_det a) (m3_adj a)).

(** axises_mask.cpp:63-82 on a matrix and on a vector, after mask.R_local_world = R. *)
Definition with_local (m : axises_mask) (R_local : mat3) : axises_mask := Mask (mat_of3 R_local) (m_R_custom m) (m_indices m) (m_frame m).
Definition mask_v (m : axises_mask) (v : vec3) : outcome vec := M <- apply_mask m (col3 v) ;; Ok (vec_of_col M).

(** std::map with integer keys, sorted: m[k] = v, and the value at a key. *)
Fixpoint map_put {V} (k : nat) (v : V) (l : list (nat * V)) : list (nat * V) :=
  match l with
  | [] => [(k, v)]
  | (k', v') :: l' => if Nat.eqb k k' then (k, v) :: l' else if Nat.ltb k k' then (k, v) :: l else (k', v') :: map_put k v l'
  end.
Fixpoint map_find {V} (k : nat) (l : list (nat * V)) : option V :=
  match l with
  | [] => None
  | (k', v') :: l' => if Nat.eqb k k' then Some v' else map_find k l'
  end.

(** std::map with names as keys. Simplification: the entries are kept in the order they were inserted, not in alphabetical order. *)
Fixpoint name_put {V} (k : string) (v : V) (l : list (string * V)) : list (string * V) :=
  match l with
  | [] => [(k, v)]
  | (k', v') :: l' => if String.eqb k k' then (k, v) :: l' else (k', v') :: name_put k v l'
  end.
Fixpoint name_find {V} (k : string) (l : list (string * V)) : option V :=
  match l with
  | [] => None
  | (k', v') :: l' => if String.eqb k k' then Some v' else name_find k l'
  end.

(** What a task computes. *)
Definition equation : Type := (mat * vec)%type.

Section WithRobot.
Variable pn : pin.

(** ** Joints and gears *)

(** joints_task.cpp:10-13 and 15-23. *)
Definition joints_set (l : list (string * R)) (joint : string) (target : R) : list (string * R) := name_put joint target l.
Definition joints_get (l : list (string * R)) (joint : string) : outcome R :=
  match name_find joint l with Some t => Ok t | None => Throw ERuntime end.

(** joints_task.cpp:31-38: for each entry, the column of its 1 and its row of b. *)
Fixpoint joints_rows (N : nat) (r : robot) (l : list (string * R)) : outcome (list (nat * R)) :=
  match l with
  | [] => Ok []
  | (name, target) :: l' =>
      off <- get_joint_v_offset r name ;;
      guard (Nat.ltb off N) (q <- get_joint r name ;; rest <- joints_rows N r l' ;; Ok ((off, target - q) :: rest))
  end.
(** joints_task.cpp:25-39. *)
Definition joints_update (N : nat) (r : robot) (l : list (string * R)) : outcome equation :=
  rs <- joints_rows N r l ;;
  Ok (Mat (List.length l) N (fun k j => if Nat.eqb j (fst (nth k rs (0%nat, 0))) then 1 else 0),
      Vec (List.length l) (fun k => snd (nth k rs (0%nat, 0)))).

(** gear_task.h: std::map<int, std::map<int, double>> gears. *)
Definition gears : Type := list (nat * list (nat * R)).

(** gear_task.cpp:18-24 and 10-16. gears[target] creates an empty map when there is none. *)
Definition sources_of (g : gears) (target : nat) : list (nat * R) := match map_find target g with Some s => s | None => [] end.
Definition add_gear (r : robot) (g : gears) (target source : string) (ratio : R) : outcome gears :=
  t <- get_joint_v_offset r target ;; s <- get_joint_v_offset r source ;;
  Ok (map_put t (map_put s ratio (sources_of g t)) g).
Definition set_gear (r : robot) (g : gears) (target source : string) (ratio : R) : outcome gears :=
  t <- get_joint_v_offset r target ;;
  add_gear r (map_put t [] g) target source ratio.

(** gear_task.cpp:36-49, one row: A(k, target) = -1, then A(k, source) = ratio for each source; b(k) = q_target - sum of q_source * ratio. *)
Fixpoint gear_sources (N : nat) (q : vec) (l : list (nat * R)) (row : nat -> R) (b : R) : outcome ((nat -> R) * R) :=
  match l with
  | [] => Ok (row, b)
  | (source, ratio) :: l' =>
      q_source <- vec_get q (source + 1) ;;
      guard (Nat.ltb source N) (gear_sources N q l' (fun j => if Nat.eqb j source then ratio else row j) (b - q_source * ratio))
  end.
Definition gear_row (N : nat) (q : vec) (target : nat) (l : list (nat * R)) : outcome ((nat -> R) * R) :=
  guard (Nat.ltb target N)
    (q_target <- vec_get q (target + 1) ;; gear_sources N q l (fun j => if Nat.eqb j target then -1 else 0) q_target).
Fixpoint gear_rows (N : nat) (q : vec) (g : gears) : outcome (list ((nat -> R) * R)) :=
  match g with
  | [] => Ok []
  | (target, l) :: g' => x <- gear_row N q target l ;; rest <- gear_rows N q g' ;; Ok (x :: rest)
  end.
(** gear_task.cpp:26-53. *)
Definition gear_update (N : nat) (r : robot) (g : gears) : outcome equation :=
  rs <- gear_rows N (st_q (r_state r)) g ;;
  Ok (Mat (List.length g) N (fun k => fst (nth k rs (fun _ => 0, 0))), Vec (List.length g) (fun k => snd (nth k rs (fun _ => 0, 0)))).

(** ** Positions *)

(** position_task.cpp:11-20. *)
Definition position_update (N : nat) (r : robot) (f : nat) (target : vec3) (m : axises_mask) : outcome equation :=
  T <- get_T_world_frame pn r f ;;
  let m := with_local m (m3_t (fr_R T)) in
  J <- block (frame_jacobian pn r f LocalWorldAligned) 0 0 3 N ;;
  A <- apply_mask m J ;; b <- mask_v m (v3_sub target (fr_t T)) ;; Ok (A, b).

(** com_task.cpp:10-14. *)
Definition com_update (r : robot) (target : vec3) (m : axises_mask) : outcome equation :=
  A <- apply_mask m (com_jacobian pn r) ;; b <- mask_v m (v3_sub target (com_world pn r)) ;; Ok (A, b).

(** relative_position_task.cpp:12-20. *)
Definition relative_position_update (r : robot) (a b : nat) (target : vec3) (m : axises_mask) : outcome equation :=
  Ta <- get_T_world_frame pn r a ;; Tb <- get_T_world_frame pn r b ;;
  J <- relative_position_jacobian pn r a b ;;
  A <- apply_mask m J ;; v <- mask_v m (v3_sub target (fr_t (frame_mul (frame_inv Ta) Tb))) ;; Ok (A, v).

(** distance_task.cpp:18-25 and distance_constraint.cpp:15-25: the distance and its Jacobian (one row). *)
Definition distance_jacobian (N : nat) (r : robot) (a b : nat) : outcome (R * mat) :=
  Ta <- get_T_world_frame pn r a ;; Tb <- get_T_world_frame pn r b ;;
  let ab := v3_sub (fr_t Tb) (fr_t Ta) in
  D <- mat_sub (frame_jacobian pn r b LocalWorldAligned) (frame_jacobian pn r a LocalWorldAligned) ;;
  D <- block D 0 0 3 N ;; J <- row_times (v3_normalize ab) D ;; Ok (v3_norm ab, J).
(** distance_task.cpp:13-27. *)
Definition distance_update (N : nat) (r : robot) (a b : nat) (distance : R) : outcome equation :=
  x <- distance_jacobian N r a b ;; Ok (snd x, Vec 1 (fun _ => distance - fst x)).

(** ** Orientations. [log3] is pinocchio::log3. *)
Variable log3 : mat3 -> vec3.

(** orientation_task.cpp:12-24. *)
Definition orientation_update (N : nat) (r : robot) (f : nat) (target : mat3) (m : axises_mask) : outcome equation :=
  T <- get_T_world_frame pn r f ;;
  let error := log3 (m3_mul target (m3_t (fr_R T))) in
  let m := with_local m (m3_t target) in
  J <- block (frame_jacobian pn r f World) 3 0 3 N ;;
  A <- apply_mask m J ;; b <- mask_v m error ;; Ok (A, b).

(** relative_orientation_task.cpp:12-28; Jlog is not used. *)
Definition relative_orientation_update (N : nat) (r : robot) (a b : nat) (target : mat3) (m : axises_mask) : outcome equation :=
  Ta <- get_T_world_frame pn r a ;; Tb <- get_T_world_frame pn r b ;;
  let Tab := frame_mul (frame_inv Ta) Tb in
  let error := log3 (m3_mul target (m3_t (fr_R Tab))) in
  D <- mat_sub (frame_jacobian pn r b World) (frame_jacobian pn r a World) ;;
  D <- block D 3 0 3 N ;; J <- mat_mul (mat_of3 (m3_t (fr_R Ta))) D ;;
  A <- apply_mask m J ;; v <- mask_v m error ;; Ok (A, v).

(** axis_align_task.cpp:12-25: the "axis frame". *)
Definition columns (x y z : vec3) : mat3 := M3 (vx x) (vx y) (vx z) (vy x) (vy y) (vy z) (vz x) (vz y) (vz z).
Definition axis_frame (T : frame) (axis target : vec3) : mat3 :=
  let x := v3_normalize (m3_vec (fr_R T) axis) in
  let z := v3_normalize (v3_cross x target) in
  columns x (v3_cross z x) z.
(** axis_align_task.cpp:12-36. [Ok None]: A is not finite. rotation() is the linear part (rigid transformations). *)
Definition axis_align_update (N : nat) (r : robot) (f : nat) (axis target : vec3) : outcome (option equation) :=
  T <- get_T_world_frame pn r f ;;
  let target := v3_normalize target in
  let F := axis_frame T axis target in
  let angle := safe_acos (v3_dot (V3 (m00 F) (m10 F) (m20 F)) target) in
  J <- block (frame_jacobian pn r f World) 3 0 3 N ;;
  match m3_inverse F with
  | None => Ok None
  | Some Finv => J <- mat_mul (mat_of3 Finv) J ;; A <- block J 1 0 2 N ;; Ok (Some (A, Vec 2 (fun i => if Nat.eqb i 0 then 0 else angle)))
  end.

(** ** Regularizations *)

(** regularization_task.h: the fields of RegularizationTask; [rg_W] is [None] when dirty. *)
Record regularization : Type := Regularization { rg_weights : list (string * R); rg_default : R; rg_W : option mat }.
Definition new_regularization : regularization := Regularization [] 1 None.
(** regularization_task.cpp:6-10, 12-16. *)
Definition set_reg_weight (t : regularization) (w : R) : regularization := Regularization (rg_weights t) w None.
Definition set_reg_joint_weight (t : regularization) (joint : string) (w : R) : regularization :=
  Regularization (name_put joint w (rg_weights t)) (rg_default t) None.
(** regularization_task.cpp:30-38: W(j + i, j + i) = sqrt(weight) for each degree of freedom of the joint. The square root of a negative weight (NaN)
    is not modelled: Coq's sqrt gives 0. *)
Fixpoint reg_overrides (N : nat) (r : robot) (l : list (string * R)) (diag : nat -> R) : outcome (nat -> R) :=
  match l with
  | [] => Ok diag
  | (name, w) :: l' =>
      k <- get_joint_v_offset r name ;; n <- get_joint_v_size r name ;;
      guard (Nat.leb (k + n) N)
        (reg_overrides N r l' (fun i => if Nat.leb k i && Nat.ltb i (k + n) then sqrt w else diag i))
  end.
Definition reg_matrix (N : nat) (r : robot) (l : list (string * R)) (default : R) : outcome mat :=
  d <- reg_overrides N r l (fun _ => sqrt default) ;; Ok (Mat N N (fun i j => if Nat.eqb i j then d i else 0)).
(** regularization_task.cpp:18-47: the task after the call, A and b. N - 6 is negative when N < 6. *)
Definition regularization_update (N : nat) (r : robot) (t : regularization) : outcome (regularization * equation) :=
  W <- match rg_W t with Some W => Ok W | None => reg_matrix N r (rg_weights t) (rg_default t) end ;;
  guard (Nat.leb 6 N)
    (A <- block W 6 0 (N - 6) N ;; Ok (Regularization (rg_weights t) (rg_default t) (Some W), (A, zeros (N - 6)))).

(** kinetic_energy_regularization_task.cpp:8-27. [msqrt] is MatrixBase::sqrt(). *)
Variable msqrt : mat -> mat.
Definition kinetic_update (N : nat) (dt : R) (r : robot) : outcome equation :=
  M <- mass_matrix pn r ;;
  if Req_EM_T dt 0 then Throw ERuntime
  else let S := msqrt M in Ok (Mat (mrows S) (mcols S) (fun i j => mat_at S i j / (sqrt 2 * dt)), zeros N).

(** robot_wrapper.cpp:646-649 and centroidal_momentum_task.cpp:11-23. *)
Definition centroidal_map (r : robot) : mat := pn_centroidal pn (st_q (r_state r)).
Definition centroidal_update (N : nat) (dt : R) (r : robot) (L : vec3) (m : axises_mask) : outcome equation :=
  G <- block (centroidal_map r) 3 0 3 N ;;
  if Req_EM_T dt 0 then Throw ERuntime
  else A <- apply_mask m G ;; b <- mask_v m L ;; Ok (Mat (mrows A) (mcols A) (fun i j => mat_at A i j / dt), b).

(** ** Wheels *)

(** wheel_task.cpp:14-31: the frame of the contact point in the surface. The wheel turns around its axis z. *)
Definition wheel_contact (T_surface_wheel : frame) (radius : R) : frame :=
  let Rw := fr_R T_surface_wheel in
  let down_wheel := v3_normalize (V3 (- m20 Rw) (- m21 Rw) 0) in
  let down := m3_vec Rw down_wheel in
  let x := v3_normalize (v3_cross (V3 (m02 Rw) (m12 Rw) (m22 Rw)) (V3 0 0 1)) in
  let y := v3_cross (V3 0 0 1) x in
  Frame (columns x y (V3 0 0 1)) (v3_add (fr_t T_surface_wheel) (v3_scale radius down)).
(** pinocchio::SE3::toActionMatrix(): [R, [t]R; 0, R]. *)
Definition action_matrix (T : frame) : mat :=
  let top := mat_of3 (m3_mul (skew (fr_t T)) (fr_R T)) in let rot := mat_of3 (fr_R T) in
  Mat 6 6 (fun i j => if Nat.ltb i 3 then (if Nat.ltb j 3 then mat_at rot i j else mat_at top i (j - 3))
                      else (if Nat.ltb j 3 then 0 else mat_at rot (i - 3) (j - 3))).
(** wheel_task.cpp:12-47. The wheel's frame is the frame of its joint. *)
Definition wheel_update (r : robot) (T_surface : frame) (joint : string) (radius : R) (omni : bool) : outcome equation :=
  T <- get_T_world_frame_name pn r joint ;;
  let W := frame_mul (frame_inv T_surface) T in
  let C := wheel_contact W radius in
  J <- joint_jacobian_name pn r joint "local" ;;
  A <- mat_mul (action_matrix (frame_mul (frame_inv C) W)) J ;;
  A <- block A 0 0 3 (mcols A) ;;
  let b := V3 0 0 (- vz (fr_t C)) in
  Ok (if omni then (Mat 2 (mcols A) (fun i j => mat_at A (if Nat.eqb i 0 then 0 else 2) j), Vec 2 (fun i => if Nat.eqb i 0 then vx b else vz b))
      else (A, Vec 3 (coord b))).

(** ** Constraints. The priority of a constraint: Hard, or else Soft (also for Scaled, except for self collisions). *)
Definition to_priority (p : task_priority) : cprio := match p with PHard => Hard | _ => Soft end.

(** com_polygon_constraint.cpp:12-39. *)
Definition com_polygon_constraint (dt : R) (r : robot) (polygon : list point) (margin omega : R) (dcm : bool) : outcome pconstraint :=
  let com := com_world pn r in
  let J := com_jacobian pn r in
  J <- block J 0 0 2 (mcols J) ;;
  J <- (if dcm then
          if Req_EM_T dt 0 then Throw ERuntime else if Req_EM_T omega 0 then Throw ERuntime
          else Ok (Mat 2 (mcols J) (fun i j => mat_at J i j * (1 + 1 / (dt * omega))))
        else Ok J) ;;
  in_polygon_xy (Expr J (Vec 2 (coord com))) polygon margin.

(** joint_space_half_spaces_constraint.cpp:11-41. *)
Definition half_spaces_constraint (N : nat) (r : robot) (A : mat) (b : vec) : outcome pconstraint :=
  let q := st_q (r_state r) in
  if negb (Nat.eqb (mrows A) (vlen b)) then Throw ERuntime
  else if negb (Nat.eqb (mcols A) (vlen q)) then Throw ERuntime
  else guard (Nat.leb 7 (mcols A) && Nat.leb 6 N && Nat.eqb (mcols A - 7) (N - 6))
    (A' <- block A 0 7 (mrows A) (mcols A - 7) ;;
     s <- segment_of q 7 (N - 6) ;; b' <- mat_vec A' s ;;
     e_le_v (Expr (Mat (mrows A) N (fun i j => if Nat.ltb j 6 then 0 else mat_at A' i (j - 6))) b') b).

(** distance_constraint.cpp:13-39. *)
Definition distance_constraint (N : nat) (r : robot) (a b : nat) (max : R) : outcome pconstraint :=
  x <- distance_jacobian N r a b ;; e_le_d (Expr (snd x) (Vec 1 (fun _ => fst x))) max.

(** yaw_constraint.cpp:15-22 and cone_constraint.cpp:15-24: the Jacobian of the angular velocity of b relatively to a, in a. *)
Definition relative_rotation_jacobian (N : nat) (r : robot) (a b : nat) : outcome (frame * mat) :=
  T <- get_T_a_b pn r a b ;;
  Jb <- block (frame_jacobian pn r b Local) 3 0 3 N ;; Ja <- block (frame_jacobian pn r a Local) 3 0 3 N ;;
  Jb <- mat_mul (mat_of3 (fr_R T)) Jb ;; J <- mat_sub Jb Ja ;; Ok (T, J).
(** yaw_constraint.cpp:13-50. *)
Definition yaw_constraint (N : nat) (r : robot) (a b : nat) (max : R) : outcome pconstraint :=
  x <- relative_rotation_jacobian N r a b ;;
  let (T, J) := x : frame * mat in
  let x_axis := V3 (m00 (fr_R T)) (m10 (fr_R T)) (m20 (fr_R T)) in
  let alpha := atan2 (vy x_axis) (vx x_axis) in
  let perp := v3_normalize (v3_cross (V3 0 0 1) x_axis) in
  let yaw_axis := v3_normalize (v3_cross x_axis perp) in
  Ja <- row_times yaw_axis J ;;
  e_le_d (Expr (Mat 2 N (fun i j => if Nat.eqb i 0 then mat_at Ja 0 j else - mat_at Ja 0 j)) (Vec 2 (fun i => if Nat.eqb i 0 then alpha else - alpha))) max.
(** cone_constraint.cpp:35-51: the slice k of n. *)
Definition cone_slice (range : R) (n : nat) (axis : vec3) (k : nat) : R * vec3 :=
  let slice := atan2 (vy axis) (vx axis) + (INR k * 2 * range / INR n) - range in
  let S := rot_z slice in
  let a := m3_vec (m3_t S) axis in
  (atan2 (vx a) (vz a), V3 (m01 S) (m11 S) (m21 S)).
(** cone_constraint.cpp:13-57. *)
Definition cone_constraint (N : nat) (r : robot) (a b : nat) (max : R) (n : nat) (range : R) : outcome pconstraint :=
  x <- relative_rotation_jacobian N r a b ;;
  let (T, J) := x : frame * mat in
  let axis := m3_vec (fr_R T) (V3 0 0 1) in
  guard (Nat.eqb (mcols J) N)
    (e_le_d (Expr (Mat n N (fun k j => let v := snd (cone_slice range n axis k) in
                              vx v * mat_at J 0 j + vy v * mat_at J 1 j + vz v * mat_at J 2 j))
                  (Vec n (fun k => fst (cone_slice range n axis k)))) max).

(** robot_wrapper.h: RobotWrapper::Distance, the fields used here: the joints the objects are attached to, the closest points, the distance. *)
Record distance_info : Type := DistanceInfo { di_A : nat; di_B : nat; di_pA : vec3; di_pB : vec3; di_min : R }.
(** avoid_self_collisions_constraint.cpp:34-51: one row. *)
Definition collision_row (N : nat) (r : robot) (margin : R) (d : distance_info) : outcome (mat * R) :=
  let n := v3_normalize (v3_sub (di_pB d) (di_pA d)) in
  let n := if Rlt_dec (di_min d) 0 then v3_scale (-1) n else n in
  JA <- mat_mul (action_matrix (Frame m3_id (v3_scale (-1) (di_pA d)))) (pn_joint_jac pn (fst (r_seen r)) (di_A d) World) ;;
  JB <- mat_mul (action_matrix (Frame m3_id (v3_scale (-1) (di_pB d)))) (pn_joint_jac pn (fst (r_seen r)) (di_B d) World) ;;
  D <- mat_sub JB JA ;; D <- block D 0 0 3 N ;; J <- row_times n D ;; Ok (J, di_min d - margin).
Fixpoint collision_rows (N : nat) (r : robot) (margin : R) (l : list distance_info) : outcome (list (mat * R)) :=
  match l with
  | [] => Ok []
  | d :: l' => x <- collision_row N r margin d ;; rest <- collision_rows N r margin l' ;; Ok (x :: rest)
  end.
(** avoid_self_collisions_constraint.cpp:6-59. [distances] is the result of robot.distances(); [None]: no constraint is added. *)
Definition collisions_constraint (N : nat) (r : robot) (distances : list distance_info) (margin trigger : R) : outcome (option pconstraint) :=
  let near := filter (fun d => if Rlt_dec (di_min d) trigger then true else false) distances in
  match near with
  | [] => Ok None
  | _ =>
      rs <- collision_rows N r margin near ;;
      let dflt := (Mat 0 0 (fun _ _ => 0), 0) in
      c <- e_ge_d (Expr (Mat (List.length near) N (fun i j => mat_at (fst (nth i rs dflt)) 0 j))
                        (Vec (List.length near) (fun i => snd (nth i rs dflt)))) 0 ;;
      Ok (Some c)
  end.

End WithRobot.
