(** Specification: two problems that ask for the same thing. *)
From Coq Require Import Reals List Permutation.
From Verif Require Import Base Expression_model Problem_model.
Import ListNotations.
Open Scope R_scope.

(** What a constraint asks, leaving out the report of the last solve. *)
Definition asks (c : pconstraint) : expr * ctype * cprio * R := (c_expr c, c_type c, c_prio c, c_weight c).

(** The same number of unknowns, the same regularisation, and the same constraints in some order. The variables, the
    options of the algorithm, the previous solution and the reports of previous solves are free. *)
Definition same_question (pb pb' : problem) : Prop :=
  p_n pb = p_n pb' /\ p_reg pb = p_reg pb' /\ Permutation (map asks (p_cons pb)) (map asks (p_cons pb')).
