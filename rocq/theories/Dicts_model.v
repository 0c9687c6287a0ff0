(** The Python functions that build dictionaries by joint, or are given one: torques by joint (expose-robot-wrapper.cpp, expose-dynamics.cpp) and
    set_joints (expose-kinematics.cpp, expose-dynamics.cpp). A dictionary is the list of its items; [name_put] of KinTasks_model is d[k] = v. *)
From Coq Require Import Reals List Arith Bool String.
From Verif Require Import Base Linalg Robot_model KinTasks_model DynTasks_model Dyn_model Humanoid_model.
Import ListNotations.
Open Scope R_scope.

(** The loop of the four functions: dict[dof] = torques[robot.get_joint_v_offset(dof) - shift] for each of robot.joint_names(). A negative index is
    out of the vector. *)
Definition torques_by_joint (shift : nat) (r : robot) (torques : vec) : outcome (list (string * R)) :=
  fold_left (fun o dof =>
    d <- o ;;
    k <- get_joint_v_offset r dof ;;
    x <- guard (Nat.leb shift k) (vec_get torques (k - shift)) ;;
    Ok (name_put dof x d)) (joint_names r false) (Ok []).

(** expose-robot-wrapper.cpp:82-94. *)
Definition static_gravity_compensation_torques_dict (pn : pin) (inv : mat -> mat) (r : robot) (f : nat) : outcome (list (string * R)) :=
  torques <- static_gravity_compensation_torques pn inv r f ;; torques_by_joint 0 r torques.
(** expose-robot-wrapper.cpp:100-112. *)
Definition torques_from_acceleration_with_fixed_frame_dict (pn : pin) (inv : mat -> mat) (r : robot) (qdd_a : vec) (f : nat) : outcome (list (string * R)) :=
  torques <- torques_from_acceleration_with_fixed_frame pn inv r qdd_a f ;; torques_by_joint 6 r torques.
(** expose-robot-wrapper.cpp:200-212. *)
Definition get_torques_dict (pn : pin) (inv : mat -> mat) (h : hrobot) (qdd_a contact_forces : vec) (use_nle : bool) : outcome (list (string * R)) :=
  torques <- get_torques pn inv h qdd_a contact_forces use_nle ;; torques_by_joint 0 (hr_robot h) torques.
(** expose-dynamics.cpp:30-40. *)
Definition tau_dict (res : dresult) (r : robot) : outcome (list (string * R)) := torques_by_joint 0 r (dr_tau res).

(** An item of a dictionary given by a Python program: its key, when it is a string, and its value, when it is a number. *)
Definition py_item : Type := (option string * option R)%type.

(** expose-utils.hpp:77-100: the items that are not a string and a number are skipped, with a message. *)
Fixpoint update_map (m : list (string * R)) (d : list py_item) : list (string * R) :=
  match d with
  | [] => m
  | (Some k, Some x) :: d' => update_map (name_put k x m) d'
  | _ :: d' => update_map m d'
  end.

(** expose-kinematics.cpp:203-206: set_joints of the joints task of the kinematics. *)
Definition set_joints (l : list (string * R)) (d : list py_item) : list (string * R) := update_map l d.

(** dynamics/joints_task.h: the three maps of the joints task of the dynamics. DynTasks_model has them as one. *)
Record joint_maps : Type := JointMaps { jm_joints : list (string * R); jm_djoints : list (string * R); jm_ddjoints : list (string * R) }.
(** dynamics/joints_task.cpp:10-15. *)
Definition maps_set_joint (m : joint_maps) (joint : string) (target velocity acceleration : R) : joint_maps :=
  JointMaps (name_put joint target (jm_joints m)) (name_put joint velocity (jm_djoints m)) (name_put joint acceleration (jm_ddjoints m)).
(** dynamics/joints_task.cpp:36-41: what update() reads in the maps, for each joint that has a target. *)
Definition or_zero (o : option R) : R := match o with Some x => x | None => 0 end.
Definition targets_read (m : joint_maps) : joint_targets :=
  map (fun e => (fst e, (snd e, or_zero (name_find (fst e) (jm_djoints m)), or_zero (name_find (fst e) (jm_ddjoints m))))) (jm_joints m).
(** expose-dynamics.cpp:227-229 and 230-233. *)
Definition maps_set_joints (m : joint_maps) (d : list py_item) : joint_maps := JointMaps (update_map (jm_joints m) d) (jm_djoints m) (jm_ddjoints m).
Definition maps_set_joints_velocities (m : joint_maps) (d : list py_item) : joint_maps :=
  JointMaps (jm_joints m) (update_map (jm_djoints m) d) (jm_ddjoints m).
