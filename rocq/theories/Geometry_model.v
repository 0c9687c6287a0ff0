(** Model of the geometric helpers of src/placo/tools/utils.cpp, with the parts of Eigen (quaternions) and of pinocchio
    (exp3) they call. *)
From Coq Require Import Reals List ZArith Bool String.
From Verif Require Import Base Linalg Angle Geom3 Tools_model.
Import ListNotations.
Open Scope R_scope.

(** Eigen::Quaterniond. *)
Record quat : Type := Quat { qw : R; qx : R; qy : R; qz : R }.

(** Eigen/src/Geometry/Quaternion.h, quaternionbase_assign_impl<Matrix3>::run: Quaterniond(Matrix3d). *)
Definition quat_of (m : mat3) : quat :=
  let t := m3_trace m in
  if Rlt_dec 0 t then
    let t := sqrt (t + 1) in
    let h := (1 / 2) / t in
    Quat (1 / 2 * t) ((m21 m - m12 m) * h) ((m02 m - m20 m) * h) ((m10 m - m01 m) * h)
  else
    let i := if Rlt_dec (m00 m) (m11 m) then 1%nat else 0%nat in
    let i := if Rlt_dec (match i with 1%nat => m11 m | _ => m00 m end) (m22 m) then 2%nat else i in
    match i with
    | O =>
        let t := sqrt (m00 m - m11 m - m22 m + 1) in
        let h := (1 / 2) / t in
        Quat ((m21 m - m12 m) * h) (1 / 2 * t) ((m10 m + m01 m) * h) ((m20 m + m02 m) * h)
    | S O =>
        let t := sqrt (m11 m - m22 m - m00 m + 1) in
        let h := (1 / 2) / t in
        Quat ((m02 m - m20 m) * h) ((m01 m + m10 m) * h) (1 / 2 * t) ((m21 m + m12 m) * h)
    | _ =>
        let t := sqrt (m22 m - m00 m - m11 m + 1) in
        let h := (1 / 2) / t in
        Quat ((m10 m - m01 m) * h) ((m02 m + m20 m) * h) ((m12 m + m21 m) * h) (1 / 2 * t)
    end.

(** Eigen: QuaternionBase::toRotationMatrix. *)
Definition quat_matrix (q : quat) : mat3 :=
  let tx := 2 * qx q in
  let ty := 2 * qy q in
  let tz := 2 * qz q in
  let twx := tx * qw q in
  let twy := ty * qw q in
  let twz := tz * qw q in
  let txx := tx * qx q in
  let txy := ty * qx q in
  let txz := tz * qx q in
  let tyy := ty * qy q in
  let tyz := tz * qy q in
  let tzz := tz * qz q in
  M3 (1 - (tyy + tzz)) (txy - twz) (txz + twy)
     (txy + twz) (1 - (txx + tzz)) (tyz - twx)
     (txz - twy) (tyz + twx) (1 - (txx + tyy)).

(** Eigen: QuaternionBase::dot. *)
Definition quat_dot (a b : quat) : R := qw a * qw b + qx a * qx b + qy a * qy b + qz a * qz b.

(** scale0 * a + scale1 * b on the coefficients. *)
Definition quat_comb (k : R) (a : quat) (l : R) (b : quat) : quat :=
  Quat (k * qw a + l * qw b) (k * qx a + l * qx b) (k * qy a + l * qy b) (k * qz a + l * qz b).

(** NumTraits<double>::epsilon(). *)
Definition slerp_epsilon : R := / IZR (2 ^ 52).

(** Eigen: QuaternionBase::slerp. *)
Definition slerp (a : quat) (t : R) (b : quat) : quat :=
  let d := quat_dot a b in
  let abs_d := Rabs d in
  let (scale0, scale1) :=
    if Rle_dec (1 - slerp_epsilon) abs_d then (1 - t, t)
    else
      let theta := acos abs_d in
      (sin ((1 - t) * theta) / sin theta, sin (t * theta) / sin theta) in
  let scale1 := if Rlt_dec d 0 then - scale1 else scale1 in
  quat_comb scale0 a scale1 b.

(** utils.cpp:7-20. Affine3d::rotation() is the orthogonal factor of the polar decomposition of the linear part; for a
    rigid transformation it is the linear part itself. Only rigid transformations are modelled. *)
Definition interpolate_frames (a b : frame) (t : R) : frame :=
  Frame (quat_matrix (slerp (quat_of (fr_R a)) t (quat_of (fr_R b))))
        (v3_add (v3_scale (1 - t) (fr_t a)) (v3_scale t (fr_t b))).

(** utils.cpp:27-32. *)
Definition frame_yaw (r : mat3) : R :=
  let x := m3_vec r (V3 1 0 0) in
  atan2 (vy x) (vx x).

(** utils.cpp:76-88; same remark on rotation(). *)
Definition flatten_on_floor (t : frame) : frame :=
  Frame (rot_z (frame_yaw (fr_R t))) (V3 (vx (fr_t t)) (vy (fr_t t)) 0).

(** Eigen: MatrixBase::normalize: a null vector is left unchanged. *)
Definition v3_normalize (v : vec3) : vec3 :=
  if Rlt_dec 0 (v3_dot v v) then v3_scale (/ v3_norm v) v else v.

(** pinocchio::exp3: the rotation of the given rotation vector (formula of Rodrigues). pinocchio replaces the two
    coefficients by their Taylor expansions for very small angles, which is not modelled. *)
Definition exp3 (v : vec3) : mat3 :=
  let t := v3_norm v in
  if Req_EM_T t 0 then m3_id
  else
    let a := (1 - cos t) / (t * t) in
    let b := sin t / t in
    let c := cos t in
    M3 (c + a * vx v * vx v) (a * vx v * vy v - b * vz v) (a * vx v * vz v + b * vy v)
       (a * vx v * vy v + b * vz v) (c + a * vy v * vy v) (a * vy v * vz v - b * vx v)
       (a * vx v * vz v - b * vy v) (a * vy v * vz v + b * vx v) (c + a * vz v * vz v).

(** utils.cpp:39-55: the axis of the given name. *)
Definition axis_vector (axis : string) : option vec3 :=
  if String.eqb axis "x" then Some (V3 1 0 0)
  else if String.eqb axis "y" then Some (V3 0 1 0)
  else if String.eqb axis "z" then Some (V3 0 0 1)
  else None.

(** utils.cpp:34-74. *)
Definition rotation_from_axis (axis : string) (v : vec3) : outcome mat3 :=
  let v := v3_normalize v in
  match axis_vector axis with
  | None => Throw ERuntime
  | Some id =>
      let w := v3_cross id v in
      let theta := safe_acos (v3_dot id v) in
      let w :=
        if Req_EM_T (v3_norm w) 0 then
          let w := if String.eqb axis "x" then V3 0 1 0 else w in
          let w := if String.eqb axis "y" then V3 0 0 1 else w in
          if String.eqb axis "z" then V3 1 0 0 else w
        else v3_normalize w in
      Ok (exp3 (v3_scale theta w))
  end.

(** Row i of a matrix of points. *)
Definition row3 (m : mat) (i : nat) : vec3 := V3 (mat_at m i 0) (mat_at m i 1) (mat_at m i 2).

(** colwise().mean(). *)
Definition barycenter (m : mat) : vec3 :=
  let n := INR (mrows m) in
  V3 (Rsum (mrows m) (fun i => vx (row3 m i)) / n) (Rsum (mrows m) (fun i => vy (row3 m i)) / n)
     (Rsum (mrows m) (fun i => vz (row3 m i)) / n).

(** utils.cpp:146: centered_B^T * centered_A. *)
Definition covariance (a b : mat) : mat3 :=
  let ca i := v3_sub (row3 a i) (barycenter a) in
  let cb i := v3_sub (row3 b i) (barycenter b) in
  let s f := Rsum (mrows a) f in
  M3 (s (fun i => vx (cb i) * vx (ca i))) (s (fun i => vx (cb i) * vy (ca i))) (s (fun i => vx (cb i) * vz (ca i)))
     (s (fun i => vy (cb i) * vx (ca i))) (s (fun i => vy (cb i) * vy (ca i))) (s (fun i => vy (cb i) * vz (ca i)))
     (s (fun i => vz (cb i) * vx (ca i))) (s (fun i => vz (cb i) * vy (ca i))) (s (fun i => vz (cb i) * vz (ca i))).

(** utils.cpp:119-169. [svd] is Eigen::JacobiSVD: it returns the matrices U and V. *)
Definition optimal_transformation (svd : mat3 -> mat3 * mat3) (a b : mat) : outcome frame :=
  if negb (Nat.eqb (mcols a) 3) || negb (Nat.eqb (mcols b) 3) then Throw ERuntime
  else if negb (Nat.eqb (mrows a) (mrows b)) then Throw ERuntime
  else if Nat.ltb (mrows a) 3 then Throw ERuntime
  else
    let (u, v) := svd (covariance a b) in
    let r := m3_mul v (m3_t u) in
    let r := if Rlt_dec (m3_det r) 0 then m3_mul (m3_mul v (M3 1 0 0 0 1 0 0 0 (-1))) (m3_t u) else r in
    Ok (Frame r (v3_sub (barycenter a) (m3_vec r (barycenter b)))).
