(** Model of src/placo/kinematics/manipulability_task.cpp, and of the Hessians of src/placo/model/robot_wrapper.cpp. *)
From Coq Require Import Reals List ZArith Bool String.
From Verif Require Import Base Geom3 Tools_model Geometry_model Robot_model KinTasks_model Kin_model Det.
Import ListNotations.
Open Scope R_scope.

(** What the Hessians need of pinocchio: the joint a frame is attached to and its placement on it, and getJointKinematicHessian in the frame of the
    joint: one matrix for each degree of freedom (robot_wrapper.cpp:323-326; the tensor is read matrix by matrix at lines 334-337). *)
Record hessians : Type := Hessians { hs_parent : nat -> nat; hs_placement : nat -> frame; hs_joint : vec -> nat -> nat -> mat }.

(** SE3::toActionMatrix(). *)
Definition action_matrix (T : frame) : mat :=
  let Rm := mat_of3 (fr_R T) in let pR := mat_of3 (m3_mul (skew (fr_t T)) (fr_R T)) in
  Mat 6 6 (fun i j => if Nat.ltb i 3 then if Nat.ltb j 3 then mat_at Rm i j else mat_at pR i (j - 3)
    else if Nat.ltb j 3 then 0 else mat_at Rm (i - 3) (j - 3)).

(** manipulability_task.h:10-15. *)
Inductive manip_type : Type := MPosition | MOrientation | MBoth.

(** Sum of the products of the entries: A.cwiseProduct(B).sum(). *)
Definition cwise_sum (A B : mat) : outcome R :=
  guard (Nat.eqb (mrows A) (mrows B) && Nat.eqb (mcols A) (mcols B))
    (Ok (Rsum (mrows A) (fun i => Rsum (mcols A) (fun j => mat_at A i j * mat_at B i j)))).

(** manipulability_task.cpp:11-25. *)
Definition manip_mask (type : manip_type) (M : mat) : outcome mat :=
  guard (Nat.leb 6 (mcols M))
  match type with
  | MPosition => block M 0 6 3 (mcols M - 6)
  | MOrientation => block M 3 6 3 (mcols M - 6)
  | MBoth => block M 0 6 6 (mcols M - 6)
  end.

(** kinematics_solver.cpp:172-193: the type is read before the frame is looked for. *)
Definition manip_arguments (r : robot) (name type : string) : outcome (nat * manip_type) :=
  t <- (if String.eqb type "position" then Ok MPosition else if String.eqb type "orientation" then Ok MOrientation
        else if String.eqb type "both" then Ok MBoth else Throw ERuntime) ;;
  f <- get_frame_index r name ;; Ok (f, t).

Section WithRobot.
Variable pn : pin.
Variable hs : hessians.
(** MatrixXd::inverse(). *)
Variable inv : mat -> mat.

(** robot_wrapper.cpp:328-341. *)
Definition get_frame_hessian (r : robot) (f dof : nat) : outcome mat :=
  guard (Nat.ltb f (List.length (m_frames (r_model r))))
    (mat_mul (action_matrix (frame_inv (hs_placement hs f))) (hs_joint hs (fst (r_seen r)) (hs_parent hs f) dof)).

(** manipulability_task.cpp:39-46, for the degrees of freedom 6 to 6 + n - 1, the entries being pushed one after the other. *)
Fixpoint manip_gradient (r : robot) (f : nat) (type : manip_type) (J JJT_inv : mat) (w : R) (n : nat) : outcome (list R) :=
  match n with
  | O => Ok []
  | S n' =>
      g <- manip_gradient r f type J JJT_inv w n' ;;
      H <- get_frame_hessian r f (6 + n') ;; H <- manip_mask type H ;;
      JH <- mat_mul J (mat_t H) ;; s <- cwise_sum JH JJT_inv ;;
      Ok (g ++ [w * s])
  end.

(** manipulability_task.cpp:27-62: the manipulability and the equation of the task. Simplification: when J J^T has no inverse or lambda is 0, the code
    computes infinities or NaNs; the model says [UB], of which nothing is known. *)
Definition manip_update (N : nat) (r : robot) (f : nat) (type : manip_type) (lambda : R) (minimize : bool) : outcome (R * equation) :=
  J <- manip_mask type (frame_jacobian pn r f Local) ;;
  JJT <- mat_mul J (mat_t J) ;;
  let d := det (mrows JJT) (mat_at JJT) in
  if Req_EM_T d 0 then UB else
  let JJT_inv := inv JJT in
  let w := sqrt (Rmax 0 d) in
  guard (Nat.leb 6 N)
  (gradient <- manip_gradient r f type J JJT_inv w (N - 6) ;;
   let A := Mat (N - 6) N (fun i j => (if Nat.eqb (6 + i) j then 1 else 0) * lambda) in
   if Req_EM_T lambda 0 then UB else
   let b := Vec (N - 6) (fun i => 1 / (2 * lambda) * nth i gradient 0) in
   let b := if minimize then vec_scale (-1) b else b in
   Ok (w, (A, b))).

(** The task, as a task of the solver. *)
Definition manip_kind (N f : nat) (type : manip_type) (lambda : R) (minimize : bool) : task_kind :=
  KCustom (fun r => x <- manip_update N r f type lambda minimize ;; Ok (snd x)).
End WithRobot.
