(** Properties C30-C32 and C88: polynomials and polygon constraints. *)
From Coq Require Import Reals Lra Lia List ZArith Bool Arith.
From Coquelicot Require Import Coquelicot.
From Verif Require Import Base Linalg Expression_model Expression_spec Expression_proofs Polynom_model Polynom_spec
  Polynom_proofs.
Import ListNotations.
Open Scope R_scope.

(** ** C30 *)

(** value(x, 0) is the polynomial and value(x, d) its d-th derivative, for every d. *)
Theorem C30_derivatives c x (d : nat) :
  exists y, polynom_value c x (Z.of_nat d) = Ok y /\ is_derive_n (polynomial c) d x y.
Proof. exists (dvalue c d x). split; [apply polynom_value_spec|apply dvalue_is_derive_n]. Qed.
Print Assumptions C30_derivatives.

(** The same without Coquelicot's iterated derivative: value(., d + 1) is the derivative of value(., d). *)
Theorem C30_chain c : exists V : nat -> R -> R,
  (forall d x, polynom_value c x (Z.of_nat d) = Ok (V d x)) /\ (forall x, V 0%nat x = polynomial c x) /\
  (forall d x, derivable_pt_lim (V d) x (V (S d) x)) /\ (forall d x, (vlen c <= d)%nat -> V d x = 0).
Proof.
  exists (dvalue c). split; [intros; apply polynom_value_spec|]. split; [apply dvalue_0|].
  split; [intros; apply dvalue_derive|]. intros d x H. unfold dvalue. now replace (vlen c - d)%nat with 0%nat by lia.
Qed.
Print Assumptions C30_chain.

(** Negative orders are not rejected: the call reads past the end of the coefficients. *)
Theorem C30_negative_order c x d : (d < 0)%Z -> polynom_value c x d = UB.
Proof. apply polynom_value_negative. Qed.
Print Assumptions C30_negative_order.

(** 3 x^2 + 5 x + 7 at 2: value 29, derivative 17, second derivative 6, third 0. *)
Example C30_example :
  let c := Vec 3 (fun i => match i with O => 3 | S O => 5 | _ => 7 end) in
  polynomial c 2 = 29 /\
  exists y0 y1 y2 y3, polynom_value c 2 0 = Ok y0 /\ y0 = 29 /\ polynom_value c 2 1 = Ok y1 /\ y1 = 17 /\
    polynom_value c 2 2 = Ok y2 /\ y2 = 6 /\ polynom_value c 2 3 = Ok y3 /\ y3 = 0.
Proof.
  cbv zeta. split; [unfold polynomial; simpl; ring|].
  eexists. eexists. eexists. eexists. split; [apply (polynom_value_spec _ _ 0)|].
  split; [unfold dvalue; simpl; ring|]. split; [apply (polynom_value_spec _ _ 1)|].
  split; [unfold dvalue; simpl; ring|]. split; [apply (polynom_value_spec _ _ 2)|].
  split; [unfold dvalue; simpl; ring|]. split; [apply (polynom_value_spec _ _ 3)|]. reflexivity.
Qed.

(** ** C31 *)

(** For every assignment of the unknowns, expr(x, d) is the value of the polynom with the coefficients it gives to the
    variable. *)
Theorem C31_expression_is_polynom v x (d : nat) : (k_start v <= k_end v)%nat ->
  exists e, problem_polynom_expr v x (Z.of_nat d) = Ok e /\
    exists f, denotes e 1 (k_end v) f /\
      forall y, polynom_value (Vec (var_size v) (fun i => y (k_start v + i)%nat)) x (Z.of_nat d) = Ok (f y 0%nat).
Proof.
  intros Hv. destruct (problem_polynom_denotes v x d Hv) as (e & E & D). exists e. split; [exact E|].
  eexists. split; [exact D|]. intros y. apply polynom_value_spec.
Qed.
Print Assumptions C31_expression_is_polynom.

(** In particular at the solution: after a solve the variable holds its part of x, and get_polynom agrees. *)
Theorem C31_solution v x (d : nat) (X : vec) : (k_start v <= k_end v)%nat -> (k_end v <= vlen X)%nat ->
  vlen (v_value v) = var_size v -> (forall i, (i < var_size v)%nat -> vat (v_value v) i = vat X (k_start v + i)%nat) ->
  exists e y, problem_polynom_expr v x (Z.of_nat d) = Ok e /\ value e X = Ok y /\ vlen y = 1%nat /\
    polynom_value (get_polynom v) x (Z.of_nat d) = Ok (vat y 0%nat).
Proof.
  intros Hv HX Hl Hval. destruct (problem_polynom_denotes v x d Hv) as (e & E & _ & _ & _ & D).
  destruct (D X HX) as (y & Ey & Ly & Vy). exists e, y. split; [exact E|]. split; [exact Ey|]. split; [exact Ly|].
  rewrite polynom_value_spec, Vy by lia. unfold dvalue, get_polynom. rewrite Hl. cbn [vlen vat]. f_equal.
  apply Rsum_ext. intros k Hk. rewrite Hval by lia. reflexivity.
Qed.
Print Assumptions C31_solution.

Theorem C31_negative_order v x d : (d < 0)%Z -> problem_polynom_expr v x d = UB.
Proof. apply problem_polynom_negative. Qed.
Print Assumptions C31_negative_order.

Example C31_example :
  let v := MkVar 1 4 (Vec 3 (fun i => INR i + 1)) 1 in let X := Vec 5 INR in
  (k_start v <= k_end v)%nat /\ (k_end v <= vlen X)%nat /\ vlen (v_value v) = var_size v /\
  forall i, (i < var_size v)%nat -> vat (v_value v) i = vat X (k_start v + i)%nat.
Proof.
  cbv zeta. cbn [k_start k_end v_value vlen var_size vat]. split; [lia|]. split; [lia|]. split; [reflexivity|].
  intros i _. rewrite plus_INR. simpl. ring.
Qed.

(** ** C32 *)

(** The specification's [right_area] is, up to its sign, the distance to the line times the length of the edge: the
    margin is a distance. *)
Theorem C32_margin_is_a_distance A B P : A <> B ->
  (forall s, Rabs (right_area A B P) <= distance P (on_line A B s) * distance A B) /\
  exists s, Rabs (right_area A B P) = distance P (on_line A B s) * distance A B.
Proof.
  intros Hne. destruct A as [ax ay], B as [bx b_y], P as [px py]. unfold right_area, distance, on_line. cbn [fst snd].
  assert (Hd : 0 < (ax - bx)² + (ay - b_y)²).
  { assert (ax <> bx \/ ay <> b_y) as [H|H].
    { destruct (Req_dec ax bx) as [->|]; [right|left; assumption]. intros ->. now apply Hne. }
    - assert (Hn : ax - bx <> 0) by lra. pose proof (Rsqr_pos_lt _ Hn). pose proof (Rle_0_sqr (ay - b_y)). lra.
    - assert (Hn : ay - b_y <> 0) by lra. pose proof (Rsqr_pos_lt _ Hn). pose proof (Rle_0_sqr (ax - bx)). lra. }
  split.
  - intros s. rewrite <- sqrt_mult by (try apply Rplus_le_le_0_compat; try apply Rle_0_sqr).
    rewrite <- sqrt_Rsqr_abs. apply sqrt_le_1_alt. unfold Rsqr.
    set (u := bx - ax). set (w := b_y - ay). set (p := px - ax). set (q := py - ay).
    replace (px - (ax + s * u)) with (p - s * u) by (unfold p, u; ring).
    replace (py - (ay + s * w)) with (q - s * w) by (unfold q, w; ring).
    replace (ax - bx) with (- u) by (unfold u; ring). replace (ay - b_y) with (- w) by (unfold w; ring).
    assert (0 <= ((p - s * u) * u + (q - s * w) * w) * ((p - s * u) * u + (q - s * w) * w)) by apply Rle_0_sqr. nra.
  - set (D := (ax - bx)² + (ay - b_y)²) in *.
    exists (((px - ax) * (bx - ax) + (py - ay) * (b_y - ay)) / D).
    rewrite <- sqrt_mult by (try apply Rplus_le_le_0_compat; try apply Rle_0_sqr; lra).
    rewrite <- sqrt_Rsqr_abs. f_equal.
    set (u := bx - ax). set (w := b_y - ay). set (p := px - ax). set (q := py - ay).
    assert (HD : D = u * u + w * w) by (unfold D, u, w, Rsqr; ring).
    replace (px - (ax + (p * u + q * w) / D * u)) with (w * (p * w - q * u) / D)
      by (replace px with (p + ax) by (unfold p; ring); rewrite HD; field; lra).
    replace (py - (ay + (p * u + q * w) / D * w)) with (u * (q * u - p * w) / D)
      by (replace py with (q + ay) by (unfold q; ring); rewrite HD; field; lra).
    unfold Rsqr. rewrite HD. field. lra.
Qed.
Print Assumptions C32_margin_is_a_distance.

(** The exact meaning, repeated vertices included: an edge of length 0 only asks for margin <= 0, so a positive margin
    cannot be met. *)
Theorem C32_in_polygon_exact e m f polygon margin : denotes e 2 m f -> (0 < length polygon)%nat ->
  constraint_means (in_polygon_xy e polygon margin) (length polygon) m Inequality
    (fun x i => exists A B, edge polygon i A B /\ (A <> B -> keeps_margin margin A B (f x 0%nat, f x 1%nat)) /\
       (A = B -> margin <= 0)).
Proof.
  intros D Hp. unfold in_polygon_xy. pose proof D as (D1 & _ & D3 & _). rewrite D1. cbn [Nat.eqb negb].
  destruct (edges_loop_spec e m f polygon margin D Hp (length polygon) 0 eq_refl) as (l & El & Ll & Hl). rewrite El. cbn [obind].
  set (vals := Expr _ _).
  assert (DV : denotes vals (length polygon) m (fun x i =>
     match nth_error polygon i, nth_error polygon (if Nat.eqb (S i) (length polygon) then 0 else S i)%nat with
     | Some A, Some B => let n := normalize2 (snd B - snd A, fst A - fst B) in
         fst n * (f x 0%nat - fst A) + snd n * (f x 1%nat - snd A) - margin
     | _, _ => 0 end)).
  { apply denotes_intro; [reflexivity|reflexivity|exact D3|]. intros x i Hi.
    destruct (Hl i Hi) as (A & B & r & [He1 He2] & Hr & Dr). cbn [Nat.add] in He1, He2. rewrite He1, He2.
    apply denotes_elim in Dr. destruct Dr as (R1 & R2 & R3 & R4). rewrite <- (R4 x 0%nat) by lia.
    unfold ev, vals, cols. cbn [eA eb mcols mat_at vat]. unfold cols in R3. rewrite (nth_error_nth _ _ _ Hr), R3. 
    unfold cols in D3. rewrite D3. reflexivity. }
  destruct (cmp_e_d vals 0 _ _ _ DV) as (G & _).
  destruct G as (c & Hc & T1 & T2 & T3 & T4 & T5 & T6 & T7).
  exists c. split; [exact Hc|]. split; [exact T1|]. split; [exact T2|]. split; [exact T3|]. split; [exact T4|].
  split; [exact T5|]. split; [exact T6|]. intros x Hx. rewrite (T7 x Hx).
  assert (Q : forall i, (i < length polygon)%nat ->
    (match nth_error polygon i, nth_error polygon (if Nat.eqb (S i) (length polygon) then 0 else S i)%nat with
     | Some A, Some B => let n := normalize2 (snd B - snd A, fst A - fst B) in
         fst n * (f (vat x) 0%nat - fst A) + snd n * (f (vat x) 1%nat - snd A) - margin
     | _, _ => 0 end >= 0 <-> exists A B, edge polygon i A B /\ (A <> B -> keeps_margin margin A B (f (vat x) 0%nat, f (vat x) 1%nat)) /\
       (A = B -> margin <= 0))).
  { intros i Hi. destruct (Hl i Hi) as (A & B & r & [He1 He2] & _). cbn [Nat.add] in He1, He2. rewrite He1, He2.
    assert (Hab : A = B \/ A <> B).
    { destruct A as [ax ay], B as [bx b_y]. destruct (Req_dec ax bx) as [->|]; [|right; congruence].
      destruct (Req_dec ay b_y) as [->|]; [now left|right; congruence]. }
    destruct Hab as [<-|Hab].
    - pose proof (normalize2_zero A (f (vat x) 0%nat) (f (vat x) 1%nat) margin) as N. cbv zeta in N |- *. split.
      + intros H. exists A, A. split; [split; assumption|]. split; [intros G; now elim G|]. intros _. apply N. lra.
      + intros (A' & B' & [H1 H2] & _ & H3). rewrite He1 in H1. rewrite He2 in H2. injection H1 as <-. injection H2 as <-.
        apply Rle_ge, N, H3. reflexivity.
    - pose proof (normalize2_inner A B (f (vat x) 0%nat) (f (vat x) 1%nat) margin Hab) as N. cbv zeta in N |- *. split.
      + intros H. exists A, B. split; [split; assumption|]. split; [|intros G; now elim Hab]. intros _. apply N. lra.
      + intros (A' & B' & [H1 H2] & H3 & _). rewrite He1 in H1. rewrite He2 in H2. injection H1 as <-. injection H2 as <-.
        apply Rle_ge, N, H3, Hab. }
  split; intros H i Hi; specialize (H i Hi); apply (Q i Hi); assumption.
Qed.
Print Assumptions C32_in_polygon_exact.

(** A polygon with at least one vertex and no repeated consecutive vertices: one row per edge, and the constraint holds
    iff the point is on the inner side of every edge at the distance [margin] or more. *)
Theorem C32_in_polygon e m f polygon margin : denotes e 2 m f -> (0 < length polygon)%nat ->
  (forall i A B, edge polygon i A B -> A <> B) ->
  constraint_means (in_polygon_xy e polygon margin) (length polygon) m Inequality
    (fun x i => exists A B, edge polygon i A B /\ keeps_margin margin A B (f x 0%nat, f x 1%nat)).
Proof.
  intros D Hp Hne. destruct (C32_in_polygon_exact e m f polygon margin D Hp) as (c & Hc & T1 & T2 & T3 & T4 & T5 & T6 & T7).
  exists c. split; [exact Hc|]. split; [exact T1|]. split; [exact T2|]. split; [exact T3|]. split; [exact T4|].
  split; [exact T5|]. split; [exact T6|]. intros x Hx. rewrite (T7 x Hx).
  split; intros H i Hi; destruct (H i Hi) as (A & B & He & K); exists A, B; (split; [exact He|]); pose proof (Hne i A B He).
  - now apply K.
  - split; [now intros _|]. intros G. contradiction.
Qed.
Print Assumptions C32_in_polygon.

(** The variant taking the two coordinates separately. *)
Theorem C32_in_polygon_xy ex ey m1 m2 f g polygon margin : denotes ex 1 m1 f -> denotes ey 1 m2 g -> (0 < length polygon)%nat ->
  (forall i A B, edge polygon i A B -> A <> B) ->
  constraint_means (in_polygon ex ey polygon margin) (length polygon) (Nat.max m1 m2) Inequality
    (fun x i => exists A B, edge polygon i A B /\ keeps_margin margin A B (f x 0%nat, g x 0%nat)).
Proof.
  intros D1 D2 Hp Hne. destruct (e_stack_denotes ex ey 1 1 m1 m2 f g D1 D2) as (e & E & D).
  unfold in_polygon. rewrite E. cbn [obind]. exact (C32_in_polygon e (Nat.max m1 m2) _ polygon margin D Hp Hne).
Qed.
Print Assumptions C32_in_polygon_xy.

Theorem C32_two_rows e polygon margin : rows e <> 2%nat -> in_polygon_xy e polygon margin = Throw ERuntime.
Proof. intros H. unfold in_polygon_xy. now rewrite (proj2 (Nat.eqb_neq _ _) H). Qed.
Print Assumptions C32_two_rows.

(** A clockwise triangle; the point (x0, x1). The point (1, 1) keeps the margin 1/2, the point (0, 1) does not. *)
Definition ex_triangle : list (R * R) := [(0, 0); (0, 4); (4, 0)].
Definition ex_point : expr := Expr (Mat 2 2 (fun i j => if Nat.eqb i j then 1 else 0)) (Vec 2 (fun _ => 0)).
Example C32_example :
  denotes ex_point 2 2 (fun x i => x i) /\ (forall i A B, edge ex_triangle i A B -> A <> B) /\
  exists c, in_polygon_xy ex_point ex_triangle (1 / 2) = Ok c /\ satisfied c (Vec 2 (fun _ => 1)) /\
    ~ satisfied c (Vec 2 (fun i => INR i)).
Proof.
  assert (D : denotes ex_point 2 2 (fun x i => x i)).
  { apply denotes_intro; try reflexivity. intros x i Hi. unfold ev. cbn. destruct i as [|[|i]]; cbn; [ring|ring|lia]. }
  assert (Hne : forall i A B, edge ex_triangle i A B -> A <> B).
  { intros i A B [H1 H2] E. subst B. rewrite <- H1 in H2.
    destruct i as [|[|[|[|i]]]]; cbn in H1, H2; try discriminate H1; injection H2; intros; lra. }
  split; [exact D|]. split; [exact Hne|].
  destruct (C32_in_polygon ex_point 2 _ ex_triangle (1 / 2) D ltac:(cbn; lia) Hne) as (c & Hc & _ & _ & _ & _ & _ & _ & S).
  exists c. split; [exact Hc|]. split.
  - apply S; [cbn; lia|]. intros i Hi. cbn [length ex_triangle] in Hi.
    assert (s2 : sqrt ((0 - 4)² + (4 - 0)²) <= 6).
    { rewrite <- (sqrt_Rsqr 6) by lra. apply sqrt_le_1_alt. unfold Rsqr. lra. }
    assert (s1 : sqrt ((0 - 0)² + (0 - 4)²) = 4).
    { replace ((0 - 0)² + (0 - 4)²) with (4²) by (unfold Rsqr; ring). apply sqrt_Rsqr. lra. }
    assert (s3 : sqrt ((4 - 0)² + (0 - 0)²) = 4).
    { replace ((4 - 0)² + (0 - 0)²) with (4²) by (unfold Rsqr; ring). apply sqrt_Rsqr. lra. }
    destruct i as [|[|[|i]]]; [| | |lia]; eexists; eexists; (split; [split; reflexivity|]);
      unfold keeps_margin, right_area, distance; cbn [fst snd vat]; lra.
  - intros Hs. destruct (proj1 (S (Vec 2 INR) ltac:(cbn; lia)) Hs 0%nat ltac:(cbn; lia)) as (A & B & [H1 H2] & K).
    cbn in H1, H2. injection H1 as <-. injection H2 as <-. unfold keeps_margin, right_area, distance in K. cbn [fst snd vat INR] in K.
    assert (s1 : sqrt ((0 - 0)² + (0 - 4)²) = 4).
    { replace ((0 - 0)² + (0 - 4)²) with (4²) by (unfold Rsqr; ring). apply sqrt_Rsqr. lra. }
    rewrite s1 in K. lra.
Qed.

(** ** C88 *)

(** The largest int. *)
Definition int_max : Z := 2147483647.

(** Up to degree 12 every coefficient computed, intermediate products included, is an int. *)
Theorem C88_int_coefficients_partial (degree derivative : nat) : (degree <= 12)%nat ->
  (0 <= derivative_coefficient (Z.of_nat degree) (Z.of_nat derivative) <= int_max)%Z /\
  forall k, (k <= derivative)%nat -> (derivative <= degree)%nat ->
    (0 <= coefficient_loop k (Z.of_nat degree) 1 <= int_max)%Z.
Proof.
  intros H.
  assert (L : forall k, (k <= degree)%nat -> (0 <= coefficient_loop k (Z.of_nat degree) 1 <= int_max)%Z).
  { intros k Hk. rewrite coefficient_loop_spec by lia.
    assert (F : forall d m, (falling m d <= fact m)%nat).
    { induction d as [|d IH]; intros m; cbn [falling]; [pose proof (lt_O_fact m); lia|].
      destruct m as [|m]; [simpl; lia|]. cbn [Nat.sub fact]. rewrite Nat.sub_0_r. specialize (IH m). nia. }
    assert (G : (fact degree <= fact 12)%nat) by now apply fact_le.
    assert (T : Z.of_nat (fact 12) = 479001600%Z).
    { change 12%nat with (S (S (S (S (S (S (S (S (S (S (S (S 0)))))))))))). cbn [fact]. rewrite ?Nat2Z.inj_add, ?Nat2Z.inj_mul. 
      rewrite ?Nat2Z.inj_succ. change (Z.of_nat 0) with 0%Z. lia. }
    specialize (F k degree). unfold int_max. lia. }
  split; [|intros k Hk Hd; apply L; lia].
  unfold derivative_coefficient. rewrite Z.gtb_ltb. destruct (Z.ltb_spec (Z.of_nat degree) (Z.of_nat derivative)).
  - unfold int_max. lia.
  - rewrite Nat2Z.id. apply L. lia.
Qed.
Print Assumptions C88_int_coefficients_partial.

(** The claim fails at degree 13: the last derivative needs 13! = 6227020800. *)
Theorem C88_int_coefficients_refuted : exists degree derivative : nat,
  (derivative <= degree)%nat /\ (derivative_coefficient (Z.of_nat degree) (Z.of_nat derivative) > int_max)%Z.
Proof. exists 13%nat, 13%nat. split; [lia|reflexivity]. Qed.
Print Assumptions C88_int_coefficients_refuted.
