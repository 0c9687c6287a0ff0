(** Lemmas about the model of swing foot trajectories. *)
From Coq Require Import Reals Lra Lia List Bool Sorted ClassicalEpsilon.
From Coquelicot Require Import Coquelicot.
From Verif Require Import Base Linalg Geom3 Spline_model Spline_spec Spline_proofs Spline_props Swing_model Swing_spec.
Import ListNotations.
Open Scope R_scope.

(** ** Cubic polynomials *)

Ltac index4 i H := destruct i as [|[|[|[|i]]]]; [| | | |exfalso; cbn in H; lia].

Definition of_cubic (c : cubic) (i : nat) : R := match i with 0%nat => c_a c | 1%nat => c_b c | 2%nat => c_c c | _ => c_d c end.

(** The matrix of make_trajectory and remake_trajectory. *)
Definition hermite (t1 t2 : R) : mat :=
  rows_of 4 [position_coefficients t1; position_coefficients t2; velocity_coefficients t1; velocity_coefficients t2].

Lemma hermite_solution t1 t2 x1 x2 d1 d2 w : solution (hermite t1 t2) (vec_of [x1; x2; d1; d2]) w <->
  system t1 t2 (Cubic (w 0%nat) (w 1%nat) (w 2%nat) (w 3%nat)) = [x1; d1; x2; d2].
Proof.
  unfold solution, system. cbn [hermite rows_of mrows mcols length c_a c_b c_c c_d]. split.
  - intros H. pose proof (H 0%nat ltac:(lia)) as H0. pose proof (H 1%nat ltac:(lia)) as H1. pose proof (H 2%nat ltac:(lia)) as H2.
    pose proof (H 3%nat ltac:(lia)) as H3. cbn in H0, H1, H2, H3. do 3 (f_equal; [lra|]). f_equal. lra.
  - intros E i Hi. injection E as E0 E1 E2 E3. index4 i Hi; cbn; lra.
Qed.

Lemma hermite_solved inv t1 t2 x1 x2 d1 d2 : inverse_correct inv -> t1 <> t2 ->
  let c := fit t1 x1 d1 t2 x2 d2 in forall i, (i < 4)%nat -> vat (inv (hermite t1 t2) (vec_of [x1; x2; d1; d2])) i = of_cubic c i.
Proof.
  intros I T c i Hi. apply (I (hermite t1 t2) (vec_of [x1; x2; d1; d2]) (of_cubic c)); auto.
  - apply hermite_solution. cbn [of_cubic]. replace (Cubic (c_a c) (c_b c) (c_c c) (c_d c)) with c by (destruct c; reflexivity). now apply fit_system.
  - intros w' H j Hj. apply hermite_solution in H. apply fit_unique in H; [|exact T]. fold c in H. cbn in Hj.
    rewrite <- H. index4 j Hj; reflexivity.
Qed.

Lemma fit_ends t1 x1 d1 t2 x2 d2 : t1 <> t2 -> let c := fit t1 x1 d1 t2 x2 d2 in
  c_a c * (t1 * t1 * t1) + c_b c * (t1 * t1) + c_c c * t1 + c_d c = x1 /\
  3 * c_a c * (t1 * t1) + 2 * c_b c * t1 + c_c c = d1 /\
  c_a c * (t2 * t2 * t2) + c_b c * (t2 * t2) + c_c c * t2 + c_d c = x2 /\
  3 * c_a c * (t2 * t2) + 2 * c_b c * t2 + c_c c = d2.
Proof.
  intros T c. pose proof (fit_system t1 x1 d1 t2 x2 d2 T) as E. fold c in E. clearbody c. unfold system in E. injection E as E1 E2 E3 E4.
  split; [lra|]. split; [lra|]. split; lra.
Qed.

(** The matrix of the heights. *)
Definition heights (T : R) : mat :=
  rows_of 4 [position_coefficients 0; position_coefficients (1 / 4 * T); position_coefficients (3 / 4 * T); position_coefficients T].

(** The vertical motion as a function of the phase u = t / T. *)
Definition bump_slope (z0 h z1 : R) : R := 8 * (h - (3 * z0 + z1) / 4) - 8 / 3 * (h - (z0 + 3 * z1) / 4).
Definition bump_tilt (z0 h z1 : R) : R := 32 / 3 * ((z0 - z1) / 2).
Definition vertical (T z0 h z1 : R) (i : nat) : R :=
  let a := bump_slope z0 h z1 in
  let b := bump_tilt z0 h z1 in
  match i with
  | 0%nat => - b / (T * T * T) | 1%nat => (b - a) / (T * T) | 2%nat => (a + (z1 - z0)) / T | _ => z0
  end.

Lemma heights_solved inv T z0 h z1 : inverse_correct inv -> T <> 0 ->
  forall i, (i < 4)%nat -> vat (inv (heights T) (vec_of [z0; h; h; z1])) i = vertical T z0 h z1 i.
Proof.
  intros I H i Hi. apply (I (heights T) (vec_of [z0; h; h; z1]) (vertical T z0 h z1)); auto.
  - intros j Hj. cbn in Hj. unfold heights, vertical, bump_slope, bump_tilt. index4 j Hj; cbn; field; exact H.
  - intros w S j Hj. cbn in Hj.
    pose proof (S 0%nat ltac:(cbn; lia)) as H0. pose proof (S 1%nat ltac:(cbn; lia)) as H1. pose proof (S 2%nat ltac:(cbn; lia)) as H2.
    pose proof (S 3%nat ltac:(cbn; lia)) as H3. cbn in H0, H1, H2, H3.
    set (X := T * T * T * w 0%nat). set (Y := T * T * w 1%nat). set (Z := T * w 2%nat).
    assert (D : w 3%nat = z0) by lra.
    assert (E1 : 1 / 64 * X + 1 / 16 * Y + 1 / 4 * Z = h - z0) by (unfold X, Y, Z; lra).
    assert (E2 : 27 / 64 * X + 9 / 16 * Y + 3 / 4 * Z = h - z0) by (unfold X, Y, Z; lra).
    assert (E3 : X + Y + Z = z1 - z0) by (unfold X, Y, Z; lra).
    assert (EX : X = - bump_tilt z0 h z1) by (unfold bump_tilt; lra).
    assert (EY : Y = bump_tilt z0 h z1 - bump_slope z0 h z1) by (unfold bump_tilt, bump_slope; lra).
    assert (EZ : Z = bump_slope z0 h z1 + (z1 - z0)) by (unfold bump_slope; lra).
    unfold vertical. index4 j Hj.
    + rewrite <- EX. unfold X. field. exact H.
    + rewrite <- EY. unfold Y. field. exact H.
    + rewrite <- EZ. unfold Z. field. exact H.
    + exact D.
Qed.

(** ** SwingFoot *)

Lemma make_swing_coefficients inv ts te h s e : inverse_correct inv -> ts <> te ->
  let T := te - ts in
  let x := of_cubic (fit 0 (vx s) 0 T (vx e) 0) in
  let y := of_cubic (fit 0 (vy s) 0 T (vy e) 0) in
  let z := vertical T (vz s) h (vz e) in
  make_swing inv ts te h s e = Swing ts te (V3 (x 0%nat) (y 0%nat) (z 0%nat)) (V3 (x 1%nat) (y 1%nat) (z 1%nat))
    (V3 (x 2%nat) (y 2%nat) (z 2%nat)) (V3 (x 3%nat) (y 3%nat) (z 3%nat)).
Proof.
  intros I N T x y z. unfold make_swing, coefficient. fold T. fold (hermite 0 T) (heights T).
  assert (HT : T <> 0) by (unfold T; lra).
  rewrite !(hermite_solved inv 0 T) by (auto; lia). rewrite !(heights_solved inv T) by (auto; lia). reflexivity.
Qed.

Lemma swing_velocity w t : velocity_of (swing_pos w) (swing_vel w) t.
Proof.
  unfold velocity_of, swing_pos, swing_vel. cbn. split; [|split]; apply is_derive_Reals; auto_derive; auto; ring.
Qed.

(** ** SwingFootQuintic *)

(** The value and the derivatives of a polynomial of degree 5 given by its coefficients, the highest one first. *)
Definition p5 (c : nat -> R) (t : R) : R := c 0%nat * t ^ 5 + c 1%nat * t ^ 4 + c 2%nat * t ^ 3 + c 3%nat * t ^ 2 + c 4%nat * t + c 5%nat.
Definition d5 (c : nat -> R) (t : R) : R := 5 * c 0%nat * t ^ 4 + 4 * c 1%nat * t ^ 3 + 3 * c 2%nat * t ^ 2 + 2 * c 3%nat * t + c 4%nat.
Definition dd5 (c : nat -> R) (t : R) : R := 20 * c 0%nat * t ^ 3 + 12 * c 1%nat * t ^ 2 + 6 * c 2%nat * t + 2 * c 3%nat.

(** The coefficients in powers of t from those in powers of (t - s). *)
Definition shift (s : R) (k : nat -> R) (i : nat) : R :=
  match i with
  | 0%nat => k 0%nat
  | 1%nat => k 1%nat - 5 * k 0%nat * s
  | 2%nat => k 2%nat - 4 * k 1%nat * s + 10 * k 0%nat * s ^ 2
  | 3%nat => k 3%nat - 3 * k 2%nat * s + 6 * k 1%nat * s ^ 2 - 10 * k 0%nat * s ^ 3
  | 4%nat => k 4%nat - 2 * k 3%nat * s + 3 * k 2%nat * s ^ 2 - 4 * k 1%nat * s ^ 3 + 5 * k 0%nat * s ^ 4
  | _ => k 5%nat - k 4%nat * s + k 3%nat * s ^ 2 - k 2%nat * s ^ 3 + k 1%nat * s ^ 4 - k 0%nat * s ^ 5
  end.

Lemma shift_p5 s k t : p5 (shift s k) t = p5 k (t - s).
Proof. unfold p5, shift. ring. Qed.
Lemma shift_d5 s k t : d5 (shift s k) t = d5 k (t - s).
Proof. unfold d5, shift. ring. Qed.
Lemma shift_dd5 s k t : dd5 (shift s k) t = dd5 k (t - s).
Proof. unfold dd5, shift. ring. Qed.

Ltac index6 i H := destruct i as [|[|[|[|[|[|i]]]]]]; [| | | | | |exfalso; cbn in H; lia].

Lemma shift_back s k i : (i < 6)%nat -> shift s (shift (- s) k) i = k i.
Proof. intros H. index6 i H; unfold shift; ring. Qed.

(** Solutions of both systems, on [0, h]. *)
Definition horizontal5 (h x0 x1 : R) (i : nat) : R :=
  match i with
  | 0%nat => 6 * (x1 - x0) / h ^ 5 | 1%nat => - 15 * (x1 - x0) / h ^ 4 | 2%nat => 10 * (x1 - x0) / h ^ 3
  | 3%nat => 0 | 4%nat => 0 | _ => x0
  end.
Definition vertical5 (h z0 H z1 : R) (i : nat) : R :=
  let A := H - z0 - 5 / 32 * (z1 - z0) in
  let B := H - z0 - 27 / 32 * (z1 - z0) in
  let b := 512 / 9 * (B - A) in
  let a := 384 / 9 * A - 128 / 9 * B in
  match i with
  | 0%nat => b / h ^ 5 | 1%nat => (a - 2 * b) / h ^ 4 | 2%nat => (b - 2 * a - 2 * (z1 - z0)) / h ^ 3
  | 3%nat => (a + 3 * (z1 - z0)) / h ^ 2 | 4%nat => 0 | _ => z0
  end.

Lemma horizontal5_ok h x0 x1 : h <> 0 -> let k := horizontal5 h x0 x1 in
  p5 k 0 = x0 /\ p5 k h = x1 /\ d5 k 0 = 0 /\ d5 k h = 0 /\ dd5 k 0 = 0 /\ dd5 k h = 0.
Proof. intros H k. unfold k, p5, d5, dd5, horizontal5. split; [|split; [|split; [|split; [|split]]]]; field; exact H. Qed.

Lemma vertical5_ok h z0 H z1 : h <> 0 -> let k := vertical5 h z0 H z1 in
  p5 k 0 = z0 /\ p5 k h = z1 /\ d5 k 0 = 0 /\ d5 k h = 0 /\ p5 k (h / 4) = H /\ p5 k (3 * h / 4) = H.
Proof. intros Hh k. unfold k, p5, d5, dd5, vertical5. split; [|split; [|split; [|split; [|split]]]]; field; exact Hh. Qed.

Lemma pow_cancel h n a : h <> 0 -> a * h ^ n = 0 -> a = 0.
Proof. intros H E. apply Rmult_integral in E as [E|E]; [exact E|]. exfalso. now apply (pow_nonzero h n H). Qed.

Lemma horizontal5_unique h (c : nat -> R) : h <> 0 -> p5 c 0 = 0 -> p5 c h = 0 -> d5 c 0 = 0 -> d5 c h = 0 -> dd5 c 0 = 0 -> dd5 c h = 0 ->
  forall i, (i < 6)%nat -> c i = 0.
Proof.
  intros H P0 P1 D0 D1 E0 E1 i Hi. unfold p5, d5, dd5 in *.
  assert (c 5%nat = 0) by lra. assert (c 4%nat = 0) by lra. assert (c 3%nat = 0) by lra.
  set (X := c 0%nat * h ^ 5). set (Y := c 1%nat * h ^ 4). set (Z := c 2%nat * h ^ 3).
  assert (F1 : X + Y + Z = 0) by (unfold X, Y, Z; nra).
  assert (F2 : 5 * X + 4 * Y + 3 * Z = 0).
  { transitivity (h * (5 * c 0%nat * h ^ 4 + 4 * c 1%nat * h ^ 3 + 3 * c 2%nat * h ^ 2 + 2 * c 3%nat * h + c 4%nat) - h * (2 * c 3%nat * h + c 4%nat)); [unfold X, Y, Z; ring|].
    rewrite D1. replace (c 3%nat) with 0 by auto. replace (c 4%nat) with 0 by auto. ring. }
  assert (F3 : 20 * X + 12 * Y + 6 * Z = 0).
  { transitivity (h ^ 2 * (20 * c 0%nat * h ^ 3 + 12 * c 1%nat * h ^ 2 + 6 * c 2%nat * h + 2 * c 3%nat) - h ^ 2 * (2 * c 3%nat)); [unfold X, Y, Z; ring|].
    rewrite E1. replace (c 3%nat) with 0 by auto. ring. }
  assert (X0 : X = 0) by lra. assert (Y0 : Y = 0) by lra. assert (Z0 : Z = 0) by lra.
  index6 i Hi; auto; eapply pow_cancel; eauto.
Qed.

Lemma vertical5_unique h (c : nat -> R) : h <> 0 -> p5 c 0 = 0 -> p5 c h = 0 -> d5 c 0 = 0 -> d5 c h = 0 -> p5 c (h / 4) = 0 -> p5 c (3 * h / 4) = 0 ->
  forall i, (i < 6)%nat -> c i = 0.
Proof.
  intros H P0 P1 D0 D1 E0 E1 i Hi. unfold p5, d5 in *.
  assert (A5 : c 5%nat = 0) by lra. assert (A4 : c 4%nat = 0) by lra. rewrite A5, A4 in *.
  set (X := c 0%nat * h ^ 5). set (Y := c 1%nat * h ^ 4). set (Z := c 2%nat * h ^ 3). set (W := c 3%nat * h ^ 2).
  assert (F1 : X + Y + Z + W = 0) by (unfold X, Y, Z, W; lra).
  assert (F2 : 5 * X + 4 * Y + 3 * Z + 2 * W = 0).
  { transitivity (h * (5 * c 0%nat * h ^ 4 + 4 * c 1%nat * h ^ 3 + 3 * c 2%nat * h ^ 2 + 2 * c 3%nat * h + 0)); [unfold X, Y, Z, W; ring|]. rewrite D1. ring. }
  assert (F3 : X / 1024 + Y / 256 + Z / 64 + W / 16 = 0).
  { rewrite <- E0. unfold X, Y, Z, W. field. }
  assert (F4 : 243 * X / 1024 + 81 * Y / 256 + 27 * Z / 64 + 9 * W / 16 = 0).
  { rewrite <- E1. unfold X, Y, Z, W. field. }
  assert (X0 : X = 0) by lra. assert (Y0 : Y = 0) by lra. assert (Z0 : Z = 0) by lra. assert (W0 : W = 0) by lra.
  index6 i Hi; auto; eapply pow_cancel; eauto.
Qed.

(** The rows of the system of 18 equations. *)
Lemma row_sum axis times w : (axis < 3)%nat ->
  Rsum 18 (fun j => vat (quintic_row axis times) j * w j) = Rsum 6 (fun k => vat times k * w (6 * axis + k)%nat).
Proof.
  intros H. destruct axis as [|[|[|axis]]]; [| | |lia]; unfold quintic_row; cbn -[Rmult Rplus]; ring.
Qed.

Lemma row_p junk axis t w : (axis < 3)%nat -> Rsum 18 (fun j => vat (quintic_row axis (quintic_pos_times junk t)) j * w j) = p5 (fun k => w (6 * axis + k)%nat) t.
Proof. intros H. rewrite row_sum by auto. unfold p5, quintic_pos_times. cbn [Rsum vat Nat.ltb Nat.leb nth]. ring. Qed.
Lemma row_d junk axis t w : (axis < 3)%nat -> Rsum 18 (fun j => vat (quintic_row axis (quintic_d_times junk t)) j * w j) = d5 (fun k => w (6 * axis + k)%nat) t.
Proof. intros H. rewrite row_sum by auto. unfold d5, quintic_d_times. cbn [Rsum vat Nat.ltb Nat.leb nth]. ring. Qed.
Lemma row_dd junk axis t w : (axis < 3)%nat -> Rsum 18 (fun j => vat (quintic_row axis (quintic_dd_times junk t)) j * w j) = dd5 (fun k => w (6 * axis + k)%nat) t.
Proof. intros H. rewrite row_sum by auto. unfold dd5, quintic_dd_times. cbn [Rsum vat Nat.ltb Nat.leb nth]. ring. Qed.

Definition quintic_matrix (junk : nat -> R) (ts te : R) : mat :=
  let t_a := ts + (te - ts) / 4 in
  let t_b := ts + 3 * (te - ts) / 4 in
  let p axis t := quintic_row axis (quintic_pos_times junk t) in
  let d axis t := quintic_row axis (quintic_d_times junk t) in
  let dd axis t := quintic_row axis (quintic_dd_times junk t) in
  rows_of 18
    [p 0%nat ts; p 1%nat ts; p 2%nat ts; p 0%nat te; p 1%nat te; p 2%nat te;
     d 0%nat ts; d 1%nat ts; d 2%nat ts; d 0%nat te; d 1%nat te; d 2%nat te;
     dd 0%nat ts; dd 1%nat ts; dd 0%nat te; dd 1%nat te; p 2%nat t_a; p 2%nat t_b].
Definition quintic_data (h : R) (s e : vec3) : vec :=
  vec_of [vx s; vy s; vz s; vx e; vy e; vz e; 0; 0; 0; 0; 0; 0; 0; 0; 0; 0; h; h].

Definition horizontal_conditions (ts te x0 x1 : R) (c : nat -> R) : Prop :=
  p5 c ts = x0 /\ p5 c te = x1 /\ d5 c ts = 0 /\ d5 c te = 0 /\ dd5 c ts = 0 /\ dd5 c te = 0.
Definition vertical_conditions (ts te z0 H z1 : R) (c : nat -> R) : Prop :=
  p5 c ts = z0 /\ p5 c te = z1 /\ d5 c ts = 0 /\ d5 c te = 0 /\ p5 c (ts + (te - ts) / 4) = H /\ p5 c (ts + 3 * (te - ts) / 4) = H.

Lemma quintic_solution junk ts te h s e w : solution (quintic_matrix junk ts te) (quintic_data h s e) w <->
  horizontal_conditions ts te (vx s) (vx e) (fun k => w (0 + k)%nat) /\ horizontal_conditions ts te (vy s) (vy e) (fun k => w (6 + k)%nat) /\
  vertical_conditions ts te (vz s) h (vz e) (fun k => w (12 + k)%nat).
Proof.
  unfold solution, horizontal_conditions, vertical_conditions. cbn [quintic_matrix rows_of mrows mcols length].
  assert (E : forall i l, mat_at (rows_of 18 l) i = vat (nth i l (vec_of []))) by reflexivity. split.
  - intros H.
    pose proof (H 0%nat ltac:(lia)) as H0. pose proof (H 1%nat ltac:(lia)) as H1. pose proof (H 2%nat ltac:(lia)) as H2.
    pose proof (H 3%nat ltac:(lia)) as H3. pose proof (H 4%nat ltac:(lia)) as H4. pose proof (H 5%nat ltac:(lia)) as H5.
    pose proof (H 6%nat ltac:(lia)) as H6. pose proof (H 7%nat ltac:(lia)) as H7. pose proof (H 8%nat ltac:(lia)) as H8.
    pose proof (H 9%nat ltac:(lia)) as H9. pose proof (H 10%nat ltac:(lia)) as H10. pose proof (H 11%nat ltac:(lia)) as H11.
    pose proof (H 12%nat ltac:(lia)) as H12. pose proof (H 13%nat ltac:(lia)) as H13. pose proof (H 14%nat ltac:(lia)) as H14.
    pose proof (H 15%nat ltac:(lia)) as H15. pose proof (H 16%nat ltac:(lia)) as H16. pose proof (H 17%nat ltac:(lia)) as H17.
    clear H. cbn [quintic_matrix rows_of mat_at nth quintic_data vec_of vat length] in *.
    rewrite ?row_p, ?row_d, ?row_dd in * by lia. cbn [Nat.mul Nat.add] in *. tauto.
  - intros ((A0 & A1 & A2 & A3 & A4 & A5) & (B0 & B1 & B2 & B3 & B4 & B5) & (C0 & C1 & C2 & C3 & C4 & C5)) i Hi.
    do 18 (destruct i as [|i]; [cbn [quintic_matrix rows_of mat_at nth quintic_data vec_of vat length]; rewrite ?row_p, ?row_d, ?row_dd by lia; assumption|]). lia.
Qed.

Lemma p5_minus a b t : p5 (fun k => a k - b k) t = p5 a t - p5 b t.
Proof. unfold p5. ring. Qed.
Lemma d5_minus a b t : d5 (fun k => a k - b k) t = d5 a t - d5 b t.
Proof. unfold d5. ring. Qed.
Lemma dd5_minus a b t : dd5 (fun k => a k - b k) t = dd5 a t - dd5 b t.
Proof. unfold dd5. ring. Qed.

Lemma shift_zero s c : (forall i, (i < 6)%nat -> shift (- s) c i = 0) -> forall i, (i < 6)%nat -> c i = 0.
Proof.
  intros H i Hi. rewrite <- (shift_back s c i Hi).
  assert (Z : forall k, (forall j, (j < 6)%nat -> k j = 0) -> forall j, (j < 6)%nat -> shift s k j = 0).
  { intros k K j Hj. index6 j Hj; unfold shift; rewrite ?(K 0%nat), ?(K 1%nat), ?(K 2%nat), ?(K 3%nat), ?(K 4%nat), ?(K 5%nat) by lia; ring. }
  now apply Z.
Qed.

Lemma horizontal_exists ts te x0 x1 : ts <> te -> horizontal_conditions ts te x0 x1 (shift ts (horizontal5 (te - ts) x0 x1)).
Proof.
  intros N. destruct (horizontal5_ok (te - ts) x0 x1 ltac:(lra)) as (A & B & C & D & E & F).
  unfold horizontal_conditions. rewrite !shift_p5, !shift_d5, !shift_dd5. replace (ts - ts) with 0 by ring. tauto.
Qed.
Lemma vertical_exists ts te z0 h z1 : ts <> te -> vertical_conditions ts te z0 h z1 (shift ts (vertical5 (te - ts) z0 h z1)).
Proof.
  intros N. destruct (vertical5_ok (te - ts) z0 h z1 ltac:(lra)) as (A & B & C & D & E & F).
  unfold vertical_conditions. rewrite !shift_p5, !shift_d5. replace (ts - ts) with 0 by ring.
  replace (ts + (te - ts) / 4 - ts) with ((te - ts) / 4) by ring. replace (ts + 3 * (te - ts) / 4 - ts) with (3 * (te - ts) / 4) by ring. tauto.
Qed.

Lemma horizontal_unique ts te x0 x1 a b : ts <> te -> horizontal_conditions ts te x0 x1 a -> horizontal_conditions ts te x0 x1 b ->
  forall i, (i < 6)%nat -> a i = b i.
Proof.
  intros N (A0 & A1 & A2 & A3 & A4 & A5) (B0 & B1 & B2 & B3 & B4 & B5) i Hi.
  enough (Q : (fun k => a k - b k) i = 0) by (cbn beta in Q; lra).
  revert i Hi. apply (shift_zero ts). apply (horizontal5_unique (te - ts)); [lra|..];
    rewrite ?shift_p5, ?shift_d5, ?shift_dd5; rewrite ?p5_minus, ?d5_minus, ?dd5_minus;
    replace (0 - - ts) with ts by ring; replace (te - ts - - ts) with te by ring; lra.
Qed.
Lemma vertical_unique ts te z0 h z1 a b : ts <> te -> vertical_conditions ts te z0 h z1 a -> vertical_conditions ts te z0 h z1 b ->
  forall i, (i < 6)%nat -> a i = b i.
Proof.
  intros N (A0 & A1 & A2 & A3 & A4 & A5) (B0 & B1 & B2 & B3 & B4 & B5) i Hi.
  enough (Q : (fun k => a k - b k) i = 0) by (cbn beta in Q; lra).
  revert i Hi. apply (shift_zero ts). apply (vertical5_unique (te - ts)); [lra|..];
    rewrite ?shift_p5, ?shift_d5, ?shift_dd5; rewrite ?p5_minus, ?d5_minus;
    replace (0 - - ts) with ts by ring; replace (te - ts - - ts) with te by ring;
    replace ((te - ts) / 4 - - ts) with (ts + (te - ts) / 4) by ring; replace (3 * (te - ts) / 4 - - ts) with (ts + 3 * (te - ts) / 4) by ring; lra.
Qed.

Lemma quintic_solved inv junk ts te h s e : inverse_correct inv -> ts <> te ->
  let k := vat (inv (quintic_matrix junk ts te) (quintic_data h s e)) in
  horizontal_conditions ts te (vx s) (vx e) (fun i => k i) /\ horizontal_conditions ts te (vy s) (vy e) (fun i => k (6 + i)%nat) /\
  vertical_conditions ts te (vz s) h (vz e) (fun i => k (12 + i)%nat).
Proof.
  intros I N k.
  set (a := shift ts (horizontal5 (te - ts) (vx s) (vx e))). set (b := shift ts (horizontal5 (te - ts) (vy s) (vy e))).
  set (c := shift ts (vertical5 (te - ts) (vz s) h (vz e))).
  set (w := fun i => if Nat.ltb i 6 then a i else if Nat.ltb i 12 then b (i - 6)%nat else c (i - 12)%nat).
  assert (S : solution (quintic_matrix junk ts te) (quintic_data h s e) w).
  { apply quintic_solution.
    pose proof (horizontal_exists ts te (vx s) (vx e) N) as A. pose proof (horizontal_exists ts te (vy s) (vy e) N) as B.
    pose proof (vertical_exists ts te (vz s) h (vz e) N) as C. split; [exact A|]. split; [exact B|exact C]. }
  assert (K : forall i, (i < 18)%nat -> k i = w i).
  { intros i Hi. apply (I (quintic_matrix junk ts te) (quintic_data h s e) w); auto.
    intros w' S' j Hj. cbn in Hj. apply quintic_solution in S, S'. destruct S as (S1 & S2 & S3), S' as (T1 & T2 & T3).
    destruct (lt_dec j 6) as [L|L]; [exact (horizontal_unique _ _ _ _ _ _ N T1 S1 j L)|]. destruct (lt_dec j 12) as [M|M].
    - replace j with (6 + (j - 6))%nat by lia. exact (horizontal_unique _ _ _ _ _ _ N T2 S2 (j - 6)%nat ltac:(lia)).
    - replace j with (12 + (j - 12))%nat by lia. exact (vertical_unique _ _ _ _ _ _ _ N T3 S3 (j - 12)%nat ltac:(lia)). }
  apply quintic_solution in S. unfold horizontal_conditions, vertical_conditions, p5, d5, dd5 in *. cbn [Nat.add] in *.
  rewrite !K by lia. exact S.
Qed.

(** ** SwingFootCubic *)

Definition to_point (p : R * R * R) : spoint := SPoint (fst (fst p)) (snd (fst p)) (snd p).

Lemma last_point_snoc l p : last_point (l ++ [p]) = Some p.
Proof. unfold last_point. now rewrite rev_app_distr. Qed.

(** Points at increasing times are all accepted. *)
Fixpoint increasing (t : R) (l : list (R * R * R)) : Prop :=
  match l with [] => True | p :: l' => t < fst (fst p) /\ increasing (fst (fst p)) l' end.

Lemma add_points_ok l : forall s p, cs_angular s = false -> last_point (cs_points s) = Some p -> increasing (sp_t p) l ->
  exists s', add_points s l = Ok s' /\ cs_points s' = cs_points s ++ map to_point l /\ (reachable s -> reachable s') /\ cs_angular s' = false.
Proof.
  induction l as [|[[t x] d] l IH]; intros s p A L I; cbn [add_points map]; [exists s; rewrite app_nil_r; auto|].
  destruct I as [I1 I2]. cbn [fst snd] in *. pose proof (add_point_reachable s t x d) as Rs. unfold add_point in *. rewrite L in *. rewrite A in *. destruct (Rle_dec t (sp_t p)); [lra|].
  destruct (IH (Spline false true (cs_points s ++ [SPoint t x d]) (cs_pieces s)) (SPoint t x d)) as (s' & E & P & Q & B); cbn; auto.
  - apply last_point_snoc.
  - exists s'. split; [exact E|]. cbn [cs_points] in P. rewrite P, <- app_assoc. split; [reflexivity|]. split; [|exact B]. intros R. apply Q, Rs, R.
Qed.

Lemma add_points_new t x d l : increasing t l -> exists s, add_points (new_spline false) ((t, x, d) :: l) = Ok s /\
  cs_points s = SPoint t x d :: map to_point l /\ reachable s.
Proof.
  intros I. pose proof (add_point_reachable (new_spline false) t x d) as Rs.
  destruct (add_points_ok l (Spline false true [SPoint t x d] []) (SPoint t x d)) as (s & E & P & Q & _); auto.
  exists s. cbn [add_points add_point new_spline last_point cs_points rev app cs_angular cs_pieces]. split; [exact E|]. split; [exact P|].
  apply Q. apply Rs. exists false, []. reflexivity.
Qed.

Lemma last_of_cons {A} (l : list A) : forall a d, last (a :: l) d = last l a.
Proof. induction l as [|b l IH]; intros a d; [reflexivity|]. change (last (a :: b :: l) d) with (last (b :: l) d). now rewrite !IH. Qed.

(** A point too early is refused. *)
Lemma add_points_late l : forall s p t x d l', cs_angular s = false -> last_point (cs_points s) = Some p -> increasing (sp_t p) l ->
  t <= (last (map (fun q => fst (fst q)) l) (sp_t p)) -> add_points s (l ++ (t, x, d) :: l') = Throw ERuntime.
Proof.
  induction l as [|[[u y] e] l IH]; intros s p t x d l' A L I H; cbn [app add_points].
  - unfold add_point. rewrite L. cbn in H. destruct Rle_dec; [reflexivity|lra].
  - destruct I as [I1 I2]. cbn [fst snd] in *. unfold add_point. rewrite L, A. destruct (Rle_dec u (sp_t p)); [lra|].
    apply (IH _ (SPoint u y e)); cbn [cs_angular cs_points sp_t]; auto; [apply last_point_snoc|].
    cbn [map fst] in H. now rewrite last_of_cons in H.
Qed.

(** A cubic that starts and ends at rest goes from one value to the other one without overshooting. *)
Lemma cubic_at_rest a x b y f df ddf : a < b -> cubic_between a x 0 b y 0 f df ddf ->
  forall t, a <= t <= b -> let u := (t - a) / (b - a) in f t = x + (3 * u ^ 2 - 2 * u ^ 3) * (y - x) /\ 0 <= 3 * u ^ 2 - 2 * u ^ 3 <= 1.
Proof.
  intros L (k0 & k1 & k2 & k3 & F & D & Fa & Da & Fb & Db & _) t Ht u.
  assert (U : 0 <= u <= 1).
  { unfold u. split; [apply Rmult_le_pos; [lra|left; apply Rinv_0_lt_compat; lra]|]. apply (Rmult_le_reg_r (b - a)); [lra|].
    unfold Rdiv. rewrite Rmult_assoc, Rinv_l by lra. lra. }
  assert (T : t = a + u * (b - a)) by (unfold u; field; lra).
  split.
  2: { split.
       - replace (3 * u ^ 2 - 2 * u ^ 3) with (u * u * (3 - 2 * u)) by ring. apply Rmult_le_pos; [apply Rmult_le_pos|]; lra.
       - enough (0 <= (1 - u) * (1 - u) * (1 + 2 * u)) by lra. apply Rmult_le_pos; [apply Rmult_le_pos|]; lra. }
  rewrite F in Fa, Fb by lra. rewrite D in Da, Db by lra. rewrite F by lra. rewrite T. set (h := b - a) in *. assert (Hh : h <> 0) by (unfold h; lra).
  replace b with (a + h) in * by (unfold h; ring).
  assert (K3 : k3 * h ^ 3 = - 2 * (y - x)).
  { transitivity (h * ((k1 + 2 * k2 * (a + h) + 3 * k3 * (a + h) ^ 2) + (k1 + 2 * k2 * a + 3 * k3 * a ^ 2))
       - 2 * ((k0 + k1 * (a + h) + k2 * (a + h) ^ 2 + k3 * (a + h) ^ 3) - (k0 + k1 * a + k2 * a ^ 2 + k3 * a ^ 3))); [ring|].
    rewrite Fa, Fb, Da, Db. ring. }
  assert (K2 : (k2 + 3 * k3 * a) * h ^ 2 = 3 * (y - x)).
  { transitivity ((k0 + k1 * (a + h) + k2 * (a + h) ^ 2 + k3 * (a + h) ^ 3) - (k0 + k1 * a + k2 * a ^ 2 + k3 * a ^ 3)
        - h * (k1 + 2 * k2 * a + 3 * k3 * a ^ 2) - k3 * h ^ 3); [ring|]. rewrite Fa, Fb, Da, K3. ring. }
  transitivity ((k0 + k1 * a + k2 * a ^ 2 + k3 * a ^ 3) + u * h * (k1 + 2 * k2 * a + 3 * k3 * a ^ 2) + u ^ 2 * ((k2 + 3 * k3 * a) * h ^ 2) + u ^ 3 * (k3 * h ^ 3)); [ring|].
  rewrite Fa, Da, K2, K3. ring.
Qed.

(** ** The contract of the inverse can be met *)
Lemma inverse_exists : exists inv, inverse_correct inv.
Proof.
  exists (fun M b => match excluded_middle_informative (exists w, solution M b w) with
                     | left H => Vec (mcols M) (proj1_sig (constructive_indefinite_description _ H))
                     | right _ => Vec 0 (fun _ => 0)
                     end).
  intros M b w _ S U i Hi. destruct excluded_middle_informative as [H|H]; [|exfalso; apply H; now exists w].
  cbn [vat]. apply U; [|exact Hi]. apply (proj2_sig (constructive_indefinite_description _ H)).
Qed.
