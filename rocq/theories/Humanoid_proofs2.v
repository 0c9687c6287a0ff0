From Coq Require Import Reals List ZArith Bool String Lra Lia.
From Verif Require Import Base Linalg Angle Geom3 Tools_model Geometry_model Geometry_spec Geometry_proofs Footsteps_model Robot_model Robot_spec Robot_proofs Robot_props Humanoid_model Humanoid_spec Humanoid_proofs.
Import ListNotations.
Open Scope R_scope.

(** A * (B * d) = d. *)
Lemma inverse_applied A B n d k : times_is_identity A B -> mrows A = n -> mcols A = n -> (k < n)%nat ->
  Rsum n (fun i => mat_at A k i * Rsum n (fun j => mat_at B i j * d j)) = d k.
Proof.
  intros (_ & _ & H) Hr Hc Hk. rewrite Hr, Hc in H.
  rewrite (Rsum_ext n _ (fun i => Rsum n (fun j => mat_at A k i * mat_at B i j * d j))) by (intros i _; rewrite <- Rsum_scal_l; apply Rsum_ext; intros; ring).
  rewrite Rsum_swap. rewrite (Rsum_ext n _ (fun j => (if Nat.eqb k j then 1 else 0) * d j)).
  - rewrite (Rsum_delta n k) by (try exact Hk; intros i _ Ne; apply not_eq_sym, Nat.eqb_neq in Ne; rewrite Ne; ring). rewrite Nat.eqb_refl. ring.
  - intros j Hj. rewrite Rsum_scal_r, H by assumption. reflexivity.
Qed.

(** ** The torques *)
Lemma sole_columns_ok pn r l idx : Forall2 (fun name i => get_frame_index r name = Ok i) l idx ->
  (forall i, In i idx -> mrows (frame_jacobian pn r i Local) = 6%nat /\ mcols (frame_jacobian pn r i Local) = m_nv (r_model r)) ->
  sole_columns pn r l = Ok (map (fun i k => mat_at (frame_jacobian pn r i Local) 2 k) idx).
Proof.
  induction 1 as [|name i l idx E F IH]; intros Hs; [reflexivity|]. cbn [sole_columns map]. unfold frame_jacobian_name. rewrite E. cbn [obind].
  change (string_to_reference "local") with (@Ok ref Local). cbn [obind]. destruct (Hs i (or_introl eq_refl)) as [-> ->]. unfold guard. rewrite Nat.eqb_refl. cbn [Nat.ltb Nat.leb andb obind].
  rewrite IH by (intros j Hj; apply Hs; now right). reflexivity.
Qed.

Lemma Forall2_len {A B} (P : A -> B -> Prop) l m : Forall2 P l m -> List.length l = List.length m.
Proof. induction 1; cbn; congruence. Qed.
Lemma leb_true a b : (a <= b)%nat -> Nat.leb a b = true.
Proof. apply Nat.leb_le. Qed.

Lemma torques_eq pn inv h acc_a f (b : bool) M idx : let r := hr_robot h in let n := m_nv (r_model r) in let hh := if b then non_linear_effects pn r else generalized_gravity pn r in
  (6 <= n)%nat -> dynamics_sized pn r -> vlen acc_a = (n - 6)%nat -> vlen f = 8%nat -> mass_matrix pn r = Ok M ->
  Forall2 (fun name i => get_frame_index r name = Ok i) sole_points idx ->
  (forall i, In i idx -> mrows (frame_jacobian pn r i Local) = 6%nat /\ mcols (frame_jacobian pn r i Local) = n) ->
  mrows (inv (Mat 6 6 (mat_at M))) = 6%nat -> mcols (inv (Mat 6 6 (mat_at M))) = 6%nat ->
  exists tau qdd, get_torques pn inv h acc_a f b = Ok tau /\ vlen tau = n /\
    (forall k, (k < 6)%nat -> qdd k = Rsum 6 (fun j => mat_at (inv (Mat 6 6 (mat_at M))) k j * (normal_forces pn r idx (vat f) j - vat hh j - Rsum (n - 6) (fun i => mat_at M j (6 + i) * vat acc_a i)))) /\
    (forall k, (k < n - 6)%nat -> qdd (6 + k)%nat = vat acc_a k) /\
    forall k, (k < n)%nat -> vat tau k = Rsum n (fun j => mat_at M k j * qdd j) + vat hh k - normal_forces pn r idx (vat f) k.
Proof.
  intros r n hh H6 (Hg & Hn & HM) La Lf EM Fi Fs I1 I2.
  assert (Lidx : List.length idx = 8%nat) by (rewrite <- (Forall2_len _ _ _ Fi); reflexivity).
  assert (Lh : vlen hh = n) by (unfold hh; destruct b; [apply Hn|apply Hg]).
  assert (SM : mrows M = n /\ mcols M = n).
  { unfold mass_matrix in EM. destruct (HM (st_q (r_state r))) as [A B]. rewrite A, B in EM. unfold guard in EM. destruct (_ && _ && _); [|discriminate]. injection EM as <-. auto. }
  destruct SM as [Mr Mc]. change (Robot_model.mass_matrix pn (hr_robot h)) with (mass_matrix pn r).
  set (J_c := Mat n 8 (fun k i => nth i (map (fun i k => mat_at (frame_jacobian pn r i Local) 2 k) idx) (fun _ => 0) k)).
  assert (NF : forall k, Rsum 8 (fun i => mat_at J_c k i * vat f i) = normal_forces pn r idx (vat f) k).
  { intros k. unfold normal_forces. rewrite Lidx. apply Rsum_ext. intros i Hi. unfold J_c. cbn [mat_at]. f_equal.
    set (g := fun i k => mat_at (frame_jacobian pn r i Local) 2 k). rewrite (nth_indep _ (fun _ => 0) (g 0%nat)) by (rewrite map_length; lia). rewrite (map_nth g). reflexivity. }
  set (acc_bf := fun k => Rsum 6 (fun j => mat_at (inv (Mat 6 6 (mat_at M))) k j * (normal_forces pn r idx (vat f) j - vat hh j - Rsum (n - 6) (fun i => mat_at M j (6 + i) * vat acc_a i)))).
  set (qdd := fun k => if Nat.ltb k 6 then acc_bf k else vat acc_a (k - 6)).
  eexists. exists qdd. split.
  { unfold get_torques. fold r. rewrite (sole_columns_ok pn r sole_points idx Fi Fs). cbn [obind]. fold n. fold J_c. rewrite EM. cbn [obind].
    unfold block at 1. unfold guard at 1. rewrite Mr, Mc, !leb_true by lia. cbn [andb obind].
    change (Mat 6 6 (fun k l : nat => mat_at M (0 + k) (0 + l))) with (Mat 6 6 (mat_at M)).
    unfold block. unfold guard at 1 2. rewrite Mr, Mc, !leb_true by lia. cbn [andb obind]. replace (n - (n - 6))%nat with 6%nat by lia. fold hh.
    unfold segment_of at 1. unfold guard at 1. rewrite Lh, leb_true by lia. cbn [obind].
    unfold mat_vec at 1. unfold guard at 1. cbn [J_c mcols mrows]. rewrite Lf. cbn [Nat.eqb obind].
    unfold segment_of at 1. unfold guard at 1. cbn [vlen]. rewrite leb_true by lia. cbn [obind].
    unfold vec_sub at 1. unfold guard at 1. cbn [vlen Nat.eqb obind].
    unfold mat_vec at 1. unfold guard at 1. cbn [mcols mrows]. rewrite La, Nat.eqb_refl. cbn [obind].
    unfold vec_sub at 1. unfold guard at 1. cbn [vlen Nat.eqb obind].
    unfold mat_vec at 1. unfold guard at 1. rewrite I1, I2. cbn [vlen Nat.eqb obind vat].
    unfold mat_vec at 1. unfold guard at 1. cbn [vlen]. rewrite Mc, Mr. replace (6 + (n - 6))%nat with n by lia. rewrite Nat.eqb_refl. cbn [obind vat].
    unfold vec_add at 1. unfold guard at 1. cbn [vlen]. rewrite Lh, Nat.eqb_refl. cbn [obind vat].
    unfold vec_sub at 1. unfold guard at 1. cbn [vlen]. rewrite Nat.eqb_refl. reflexivity. }
  cbn [vlen vat]. split; [reflexivity|]. split; [|split].
  - intros k Hk. unfold qdd. apply Nat.ltb_lt in Hk. rewrite Hk. reflexivity.
  - intros k Hk. unfold qdd. replace (Nat.ltb (6 + k) 6) with false by (symmetry; apply Nat.ltb_ge; lia). f_equal. lia.
  - intros k Hk. f_equal; [|exact (NF k)]. f_equal. apply Rsum_ext. intros j Hj. f_equal. unfold qdd. destruct (Nat.ltb_spec j 6) as [Hj6|Hj6]; [|reflexivity].
    unfold acc_bf. apply Rsum_ext. intros i Hi. f_equal. f_equal. f_equal. exact (NF i).
Qed.

(** ** The velocity of the center of mass *)
Definition stacked (A B : mat) (i j : nat) : R := if Nat.ltb i 3 then mat_at A i j else mat_at B i j.
Definition gyro (w : vec3) (i : nat) : R := match i with 3%nat => vx w | 4%nat => vy w | 5%nat => vz w | _ => 0 end.

Lemma com_velocity_eq pn inv h sup w it : let r := hr_robot h in let JC := com_jacobian pn r in
  m_nv (r_model r) = 26%nat -> mrows JC = 3%nat -> mcols JC = 26%nat -> get_frame_index r "trunk" = Ok it ->
  let A := frame_jacobian pn r (hr_frame h) Local in let B := frame_jacobian pn r it Local in
  mrows A = 6%nat -> mcols A = 26%nat -> mrows B = 6%nat -> mcols B = 26%nat -> vlen (st_qd (r_state r)) = 26%nat ->
  let V := inv (Mat 6 6 (stacked A B)) in mrows V = 6%nat -> mcols V = 6%nat ->
  let P := fun i k => Rsum 6 (fun l => mat_at JC i l * mat_at V l k) in
  exists c, get_com_velocity pn inv h sup w = Ok c /\ vlen c = 3%nat /\
    forall i, (i < 3)%nat -> vat c i = Rsum 6 (fun k => P i k * gyro w k) + Rsum 20 (fun k => (mat_at JC i (6 + k) - Rsum 6 (fun l => P i l * stacked A B l (6 + k))) * vat (st_qd (r_state r)) (6 + k)).
Proof.
  intros r JC N C1 C2 It A B A1 A2 B1 B2 Lq V V1 V2 P. eexists. split.
  { unfold get_com_velocity. fold r. fold JC. unfold left_cols at 1. unfold block at 1. unfold guard at 1. rewrite C1, C2. cbn [Nat.add Nat.leb andb obind].
    unfold right_cols at 1. unfold block at 1. unfold guard at 1 2. rewrite C1, C2. cbn [Nat.add Nat.sub Nat.leb andb obind].
    unfold frame_jacobian_name. rewrite It. cbn [obind]. change (string_to_reference "local") with (@Ok ref Local). cbn [obind]. fold B.
    unfold stack_rows. fold A. unfold block at 1. unfold guard at 1. rewrite A1, A2. cbn [Nat.add Nat.leb andb obind].
    unfold block at 1. unfold guard at 1 2. rewrite B1, B2. cbn [Nat.add Nat.sub Nat.leb andb obind mcols]. unfold guard at 1. cbn [Nat.eqb mat_at obind].
    unfold left_cols at 1. unfold block at 1. unfold guard at 1. cbn [mrows mcols Nat.add Nat.leb andb obind mat_at].
    unfold right_cols at 1. unfold block at 1. unfold guard at 1 2. cbn [mrows mcols Nat.add Nat.sub Nat.leb andb obind mat_at].
    assert (EM : Mat 6 6 (fun k l : nat => if Nat.ltb k 3 then mat_at A k l else mat_at B (S (S (S (k - 3)))) l) = Mat 6 6 (stacked A B)).
    { f_equal. apply FunctionalExtensionality.functional_extensionality. intros k. apply FunctionalExtensionality.functional_extensionality. intros l. unfold stacked. destruct (Nat.ltb_spec k 3); [reflexivity|]. f_equal. lia. }
    rewrite EM. fold V. unfold mat_mul at 1. cbn [mcols mrows mat_at]. rewrite V1. cbn [Nat.eqb obind].
    unfold mat_vec at 1. unfold guard at 1. cbn [mcols mrows]. rewrite V2. cbn [vlen Nat.eqb obind vat mat_at].
    unfold mat_mul at 1. cbn [mcols mrows mat_at]. rewrite ?V2. cbn [Nat.eqb obind].
    unfold mat_sub at 1. unfold guard at 1. cbn [mcols mrows mat_at Nat.eqb andb obind].
    rewrite N. unfold segment_of at 1. unfold guard at 1 2. rewrite Lq. cbn [Nat.sub Nat.add Nat.leb obind].
    unfold mat_vec at 1. unfold guard at 1. cbn [mcols mrows mat_at vlen Nat.eqb obind vat].
    unfold vec_add at 1. unfold guard at 1. cbn [vlen Nat.eqb vat]. reflexivity. }
  split; [reflexivity|]. intros i Hi. reflexivity.
Qed.

(** The same for a motion that the Jacobians give. *)
Lemma com_velocity_motion pn inv h sup w it x : let r := hr_robot h in let JC := com_jacobian pn r in
  m_nv (r_model r) = 26%nat -> mrows JC = 3%nat -> mcols JC = 26%nat -> get_frame_index r "trunk" = Ok it ->
  let A := frame_jacobian pn r (hr_frame h) Local in let B := frame_jacobian pn r it Local in
  mrows A = 6%nat -> mcols A = 26%nat -> mrows B = 6%nat -> mcols B = 26%nat -> vlen (st_qd (r_state r)) = 26%nat ->
  inverts_both inv -> (exists V, two_sided (Mat 6 6 (stacked A B)) V) ->
  (forall k, (6 <= k < 26)%nat -> x k = vat (st_qd (r_state r)) k) -> (forall i, (i < 6)%nat -> Rsum 26 (fun k => stacked A B i k * x k) = gyro w i) ->
  exists c, get_com_velocity pn inv h sup w = Ok c /\ vlen c = 3%nat /\ forall i, (i < 3)%nat -> vat c i = Rsum 26 (fun k => mat_at JC i k * x k).
Proof.
  intros r JC N C1 C2 It A B A1 A2 B1 B2 Lq Hinv Hv Hx HJ. destruct (Hinv (Mat 6 6 (stacked A B)) eq_refl Hv) as [(V1 & V2 & _) Hl]. cbn [mrows] in V1, V2.
  destruct (com_velocity_eq pn inv h sup w it N C1 C2 It A1 A2 B1 B2 Lq V1 V2) as (c & E & Lc & Hc). fold r in Hc. fold JC in Hc. fold A in Hc. fold B in Hc. fold A B in V1, V2, Hl.
  set (V := inv (Mat 6 6 (stacked A B))) in *. exists c. split; [exact E|]. split; [exact Lc|]. intros i Hi. rewrite Hc by exact Hi.
  change 26%nat with (6 + 20)%nat. rewrite Rsum_split.
  assert (X : forall l, (l < 6)%nat -> x l = Rsum 6 (fun k => mat_at V l k * (gyro w k - Rsum 20 (fun j => stacked A B k (6 + j) * x (6 + j)%nat)))).
  { intros l Hl6. rewrite <- (inverse_applied V (Mat 6 6 (stacked A B)) 6 x l Hl V1 V2 Hl6). apply Rsum_ext. intros k Hk. f_equal. rewrite <- HJ by exact Hk. change 26%nat with (6 + 20)%nat. rewrite Rsum_split. cbn [mat_at]. ring. }
  rewrite (Rsum_ext 6 (fun k => mat_at JC i k * x k) (fun l => Rsum 6 (fun k => mat_at JC i l * mat_at V l k * (gyro w k - Rsum 20 (fun j => stacked A B k (6 + j) * x (6 + j)%nat)))))
    by (intros l Hl6; rewrite (X l Hl6), <- Rsum_scal_l; apply Rsum_ext; intros; ring).
  rewrite Rsum_swap. rewrite (Rsum_ext 6 (fun j => Rsum 6 _) (fun k => Rsum 6 (fun l => mat_at JC i l * mat_at V l k) * (gyro w k - Rsum 20 (fun j => stacked A B k (6 + j) * x (6 + j)%nat))))
    by (intros k _; now rewrite Rsum_scal_r).
  set (P := fun k => Rsum 6 (fun l => mat_at JC i l * mat_at V l k)).
  rewrite (Rsum_ext 20 _ (fun k => mat_at JC i (6 + k) * x (6 + k)%nat - Rsum 6 (fun l => P l * (stacked A B l (6 + k) * x (6 + k)%nat)))).
  2:{ intros k Hk. rewrite <- (Hx (6 + k)%nat) by lia. rewrite Rmult_minus_distr_r, <- Rsum_scal_r. f_equal. apply Rsum_ext. intros; unfold P; ring. }
  rewrite Rsum_minus. rewrite (Rsum_swap 20 6). rewrite (Rsum_ext 6 (fun j => Rsum 20 _) (fun l => P l * Rsum 20 (fun k => stacked A B l (6 + k) * x (6 + k)%nat))) by (intros l _; now rewrite Rsum_scal_l).
  rewrite (Rsum_ext 6 (fun k => Rsum 6 (fun l => mat_at JC i l * mat_at V l k) * (gyro w k - Rsum 20 (fun j => stacked A B k (6 + j) * x (6 + j)%nat)))
    (fun k => P k * gyro w k - P k * Rsum 20 (fun j => stacked A B k (6 + j) * x (6 + j)%nat))) by (intros; unfold P; ring).
  rewrite Rsum_minus. fold P. ring_simplify. unfold P. ring.
Qed.
