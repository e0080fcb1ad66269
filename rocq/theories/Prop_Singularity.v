(** C36: the contact frame, and the singular field in physical coordinates. *)
From Coquelicot Require Import Coquelicot.
From Verif Require Import Base S_Fem M_Geometry M_Particle M_Truncation M_SingNormal M_SingTang M_SingWrap M_Singularity P_Sing P_SingCart P_SingDir Prop_Truncation Prop_SingNormal Prop_SingTang.
Open Scope R_scope.

(** ** specification: what a frame is *)
Definition dot (u v : list R) : R := Rsum (length u) (fun i => nth i u 0 * nth i v 0).
(** the vectors of the list are pairwise orthogonal and of length one *)
Definition orthonormal (b : list (list R)) : Prop :=
  forall i j, (i < length b)%nat -> (j < length b)%nat -> dot (nth i b []) (nth j b []) = if (i =? j)%nat then 1 else 0.
(** squared distance of two points *)
Definition sqdist (p q : list R) : R := Rsum (length p) (fun i => (nth i p 0 - nth i q 0) * (nth i p 0 - nth i q 0)).

(** ** 2D *)
Section TwoD.
Variables (x1 y1 x2 y2 u1 w1 u2 w2 r1 r2 h alpha : R).
Hypothesis (Hc : [x1; y1] <> [x2; y2]) (H1 : 0 < r1) (H2 : 0 < r2).
Notation s := (make_sing 2 [x1; y1] [x2; y2] [u1; w1] [u2; w2] r1 r2 h alpha).
Let D := distance [x1; y1] [x2; y2].
Lemma D_pos : 0 < D /\ D * D = (x1 - x2) * (x1 - x2) + (y1 - y2) * (y1 - y2).
Proof.
  assert (P : 0 < (x1 - x2) * (x1 - x2) + (y1 - y2) * (y1 - y2)).
  { apply r2_pos. intros E. apply Hc. pose proof (sq_nn (x1 - x2)). pose proof (sq_nn (y1 - y2)). assert (A : (x1 - x2) * (x1 - x2) = 0) by lra. assert (B : (y1 - y2) * (y1 - y2) = 0) by lra.
    apply Rmult_integral in A. apply Rmult_integral in B. replace x2 with x1 by (destruct A; lra). replace y2 with y1 by (destruct B; lra). reflexivity. }
  unfold D, distance, position_diff. cbn [zip_with fold_left]. split; [apply sqrt_lt_R0|rewrite sqrt_sqrt]; lra.
Qed.
Lemma base2 : s_base s = [[(x2 - x1) / D; (y2 - y1) / D]; [- ((y2 - y1) / D); (x2 - x1) / D]] /\ s_origin s = [x1 + r1 * ((x2 - x1) / D); y1 + r1 * ((y2 - y1) / D)] /\
  s_contact s = D - r1 - r2 /\ s_UN s = (u2 - u1) * ((x2 - x1) / D) + (w2 - w1) * ((y2 - y1) / D) /\ s_UT s = - (u2 - u1) * ((y2 - y1) / D) + (w2 - w1) * ((x2 - x1) / D).
Proof. repeat split; cbn; unfold D; cbn; try reflexivity; ring. Qed.
Lemma unit2 : (x2 - x1) / D * ((x2 - x1) / D) + (y2 - y1) / D * ((y2 - y1) / D) = 1.
Proof. destruct D_pos as [P E]. assert (E' : D ^ 2 = (x1 - x2) ^ 2 + (y1 - y2) ^ 2) by (simpl; lra). field_simplify_eq; [|lra]. rewrite E'. ring. Qed.
(** the frame is orthonormal, its first vector points from the first centre to the second *)
Theorem C36_frame_2d : orthonormal (s_base s) /\
  (forall i, (i < 2)%nat -> nth i [x2; y2] 0 - nth i [x1; y1] 0 = distance [x1; y1] [x2; y2] * nth i (nth 0 (s_base s) []) 0) /\
  0 < distance [x1; y1] [x2; y2].
Proof.
  destruct base2 as (B & _). rewrite B. pose proof unit2 as Un. destruct D_pos as [P E]. fold D. split; [|split; [|exact P]].
  - intros i j Hi Hj. cbn [length] in Hi, Hj. destruct i as [|[|i]]; [| |lia]; (destruct j as [|[|j]]; [| |lia]); unfold dot; cbn [nth length Rsum Nat.eqb]; lra.
  - intros i Hi. destruct i as [|[|i]]; [| |lia]; cbn [nth]; field; lra.
Qed.
(** the relative velocity of the two particles is decomposed on it *)
Theorem C36_velocity_2d : forall i, (i < 2)%nat ->
  nth i [u2; w2] 0 - nth i [u1; w1] 0 = s_UN s * nth i (nth 0 (s_base s) []) 0 + s_UT s * nth i (nth 1 (s_base s) []) 0.
Proof.
  intros i Hi. destruct base2 as (B & _ & _ & N & T). rewrite B, N, T. pose proof unit2 as Un. set (a := (x2 - x1) / D) in *. set (b := (y2 - y1) / D) in *. clearbody a b.
  assert (E : a ^ 2 = 1 - b ^ 2) by (simpl; lra). destruct i as [|[|i]]; [| |lia]; cbn [nth]; ring [E].
Qed.
(** the two changes of coordinates undo each other and preserve distances *)
Theorem C36_inverse_2d : forall p q : list R, length p = 2%nat -> length q = 2%nat ->
  get_pos_from_part_ref s (get_pos_in_part_ref s p) = p /\ get_pos_in_part_ref s (get_pos_from_part_ref s p) = p /\
  sqdist (get_pos_in_part_ref s p) (get_pos_in_part_ref s q) = sqdist p q.
Proof.
  intros p q Hp Hq. destruct p as [|p0 [|p1 [|? ?]]]; try discriminate. destruct q as [|q0 [|q1 [|? ?]]]; try discriminate.
  destruct base2 as (B & O & _). unfold get_pos_from_part_ref, get_pos_in_part_ref. rewrite B, O. pose proof unit2 as Un. set (a := (x2 - x1) / D) in *. set (b := (y2 - y1) / D) in *. clearbody a b.
  assert (E : a ^ 2 = 1 - b ^ 2) by (simpl; lra). unfold sqdist, inner_product. cbn.
  split; [|split]; [f_equal; [ring [E]|f_equal; ring [E]]|f_equal; [ring [E]|f_equal; ring [E]]|ring [E]].
Qed.
(** the origin is the point of the first particle nearest to the second; in the frame the two centres are at (-r1, 0) and (gap + r2, 0) *)
Theorem C36_origin_2d :
  distance [x1; y1] (s_origin s) = r1 /\ get_pos_in_part_ref s [x1; y1] = [- r1; 0] /\ get_pos_in_part_ref s [x2; y2] = [s_contact s + r2; 0].
Proof.
  destruct base2 as (B & O & C & _). destruct D_pos as [P E]. pose proof unit2 as Un. unfold get_pos_in_part_ref. rewrite B, O, C. split; [|split].
  - unfold distance, position_diff. cbn [zip_with fold_left]. replace (_ + _) with (r1 * r1); [apply sqrt_square; lra|]. set (a := (x2 - x1) / D) in *. set (b := (y2 - y1) / D) in *. clearbody a b.
    assert (E' : a ^ 2 = 1 - b ^ 2) by (simpl; lra). ring [E'].
  - unfold inner_product. cbn. set (a := (x2 - x1) / D) in *. set (b := (y2 - y1) / D) in *. clearbody a b. assert (E' : a ^ 2 = 1 - b ^ 2) by (simpl; lra). f_equal; [ring [E']|f_equal; ring [E']].
  - unfold inner_product. cbn. assert (X : x2 = x1 + D * ((x2 - x1) / D)) by (field; lra). assert (Y : y2 = y1 + D * ((y2 - y1) / D)) by (field; lra). set (a := (x2 - x1) / D) in *. set (b := (y2 - y1) / D) in *. clearbody a b.
    rewrite X, Y. assert (E' : a ^ 2 = 1 - b ^ 2) by (simpl; lra). f_equal; [ring [E']|f_equal; ring [E']].
Qed.
End TwoD.
(** ** the cut-off distance *)
Theorem C36_cutoff : forall dim c1 c2 v1 v2 r1 r2 h alpha, 0 < h -> 0 < r1 -> 0 < r2 ->
  let s := make_sing dim c1 c2 v1 v2 r1 r2 h alpha in
  sqrt 2 * h <= s_cutoff s /\ s_cutoff s <= Rmax (sqrt 2 * h) (Rmin r1 r2) /\ 0 < s_param s /\ 2 * s_param s = s_cutoff s * s_cutoff s /\
  (forall r, s_cutoff s <= Rabs r -> chiTrunc r (s_param s) (s_param s) = 0).
Proof.
  intros dim c1 c2 v1 v2 r1 r2 h alpha Hh H1 H2 s.
  assert (S2 : 0 < sqrt 2) by (apply sqrt_lt_R0; lra). assert (Sh : 0 < sqrt 2 * h) by (apply Rmult_lt_0_compat; auto).
  assert (E : s_param s = 1 / 2 * s_cutoff s * s_cutoff s) by (unfold s, make_sing; destruct (if (dim =? 2)%nat then _ else _) as [[? ?] ?]; reflexivity).
  assert (C : sqrt 2 * h <= s_cutoff s /\ s_cutoff s <= Rmax (sqrt 2 * h) (Rmin r1 r2)).
  { unfold s, make_sing. destruct (if (dim =? 2)%nat then _ else _) as [[? ?] ?]. cbn [s_cutoff]. set (tmp := alpha * _). pose proof (Rmax_l (sqrt 2 * h) (Rmin r1 r2)). pose proof (Rmax_r (sqrt 2 * h) (Rmin r1 r2)).
    assert (M : (if Rltb r1 r2 then r1 else r2) = Rmin r1 r2) by (unfold Rmin; destruct (Rltb_spec r1 r2), (Rle_dec r1 r2); lra). rewrite M.
    destruct (Rltb_spec tmp (Rmin r1 r2)); destruct (Rleb_spec (if true then tmp else Rmin r1 r2) (sqrt 2 * h)); destruct (Rleb_spec (Rmin r1 r2) (sqrt 2 * h)); cbn in *; repeat match goal with |- context [Rleb ?a ?b] => destruct (Rleb_spec a b) end; split; lra. }
  destruct C as [C1 C2]. assert (P : 0 < s_param s) by (rewrite E; assert (0 < s_cutoff s * s_cutoff s) by (apply Rmult_lt_0_compat; lra); lra).
  split; [exact C1|]. split; [exact C2|]. split; [exact P|]. split; [rewrite E; field|]. intros r Hr.
  apply (C35_cutoff (s_param s) P). rewrite E. assert (s_cutoff s * s_cutoff s <= Rabs r * Rabs r) by (apply Rmult_le_compat; lra). rewrite <- Rabs_mult, Rabs_pos_eq in H by apply sq_nn. lra.
Qed.

(** its value: [alpha] times the radius at which the gap has widened by as much as it measures, not more than either
    radius, not less than the diagonal of a square cell; and what counts as a contact *)
Theorem C36_cutoff_value : forall dim c1 c2 v1 v2 r1 r2 h alpha, 0 < r1 -> 0 < r2 ->
  let s := make_sing dim c1 c2 v1 v2 r1 r2 h alpha in
  let gap := distance c1 c2 - r1 - r2 in
  s_contact s = gap /\ (s_is s = true <-> gap < 1) /\ s_H1 s * r1 = 1 /\ s_H2 s * r2 = 1 /\
  s_cutoff s = Rmax (sqrt 2 * h) (Rmin (alpha * sqrt (2 * gap * (r1 * r2) / (r1 + r2))) (Rmin r1 r2)).
Proof.
  intros dim c1 c2 v1 v2 r1 r2 h alpha H1 H2 s gap. unfold s, make_sing. destruct (if (dim =? 2)%nat then _ else _) as [[? ?] ?]. cbn [s_cutoff s_contact s_is s_H1 s_H2]. fold gap.
  split; [reflexivity|]. split; [destruct (Rltb_spec gap 1); split; [auto|reflexivity|discriminate|lra]|]. split; [field; lra|]. split; [field; lra|].
  replace (gap / (1 / 2 * (1 / r1 + 1 / r2))) with (2 * gap * (r1 * r2) / (r1 + r2)) by (field; lra). set (tmp := alpha * _).
  assert (M : (if Rltb r1 r2 then r1 else r2) = Rmin r1 r2) by (unfold Rmin; destruct (Rltb_spec r1 r2), (Rle_dec r1 r2); lra). rewrite M.
  assert (M2 : (if Rltb tmp (Rmin r1 r2) then tmp else Rmin r1 r2) = Rmin tmp (Rmin r1 r2)) by (generalize (Rmin r1 r2); intros x; unfold Rmin; destruct (Rltb_spec tmp x), (Rle_dec tmp x); lra). rewrite M2.
  generalize (Rmin tmp (Rmin r1 r2)). intros x. unfold Rmax. destruct (Rleb_spec x (sqrt 2 * h)), (Rle_dec (sqrt 2 * h) x); lra.
Qed.

(** ** the field in physical coordinates *)
Lemma n2_zero r z H M a U : ux_sing_normalMvt2D_body r z H M a U 0 0 0 = 0 /\ uz_sing_normalMvt2D_body r z H M a U 0 = 0 /\ p_sing_withT_normalMvt2D_body r z H M a U 0 = 0.
Proof. unfold ux_sing_normalMvt2D_body, uz_sing_normalMvt2D_body, p_sing_withT_normalMvt2D_body. cbv zeta. split; [|split]; unfold Rdiv; ring. Qed.
Lemma n3_zero r z H M a U : ur_sing_normalMvt3D_body (r * r) r z H M a U 0 0 = 0 /\ uz_sing_normalMvt3D_body (r * r) r z H M a U 0 0 0 = 0 /\ p_sing_withT_normalMvt3D_body (r * r) r z H M a U 0 = 0.
Proof. unfold ur_sing_normalMvt3D_body, uz_sing_normalMvt3D_body, p_sing_withT_normalMvt3D_body. cbv zeta. split; [|split]; unfold Rdiv; ring. Qed.
(** beyond the cut-off distance from the line of centres the singular velocity and pressure vanish *)
Theorem C36_support_2d : forall s pos, length (s_base s) = 2%nat -> 0 < s_param s -> 2 * s_param s <= nth 1 (get_pos_in_part_ref s pos) 0 * nth 1 (get_pos_in_part_ref s pos) 0 ->
  get_u_sing s pos = [0; 0] /\ get_p_sing s pos = 0.
Proof.
  intros s pos HL HP HX. destruct (C35_cutoff _ HP) as (_ & _ & _ & Z & _). destruct (Z _ HX) as (Z0 & Z1 & Z2 & _).
  unfold get_u_sing, get_p_sing, get_u_sing_ref. rewrite HL. cbn [Nat.eqb]. cbv zeta. unfold ux_sing_normalMvt2D, uz_sing_normalMvt2D, p_sing_withT_normalMvt2D. rewrite Z0, Z1, Z2.
  set (X := get_pos_in_part_ref s pos) in *. destruct (n2_zero (nth 1 X 0) (nth 0 X 0) (s_H1 s) (s_H2 s) (s_contact s) (s_UN s)) as (-> & -> & ->).
  split; [|reflexivity]. cbn [seq map fold_left nth]. f_equal; [ring|f_equal; ring].
Qed.
Theorem C36_support_3d : forall s pos, length (s_base s) = 3%nat -> 0 < s_param s ->
  let X := get_pos_in_part_ref s pos in 2 * s_param s <= nth 0 X 0 * nth 0 X 0 + nth 1 X 0 * nth 1 X 0 -> get_u_sing s pos = [0; 0; 0] /\ get_p_sing s pos = 0.
Proof.
  intros s pos HL HP X HX. destruct (C35_cutoff _ HP) as (_ & _ & _ & Z & _). rewrite <- sq_r in HX. destruct (Z _ HX) as (Z0 & Z1 & Z2 & _).
  unfold get_u_sing, get_p_sing, get_u_sing_ref. rewrite HL. cbn [Nat.eqb]. cbv zeta. fold X. unfold ux_sing_normalMvt3D, uy_sing_normalMvt3D, ur_sing_normalMvt3D, uz_sing_normalMvt3D, p_sing_withT_normalMvt3D. cbv zeta. rewrite Z0, Z1, Z2.
  destruct (n3_zero (sqrt (nth 0 X 0 * nth 0 X 0 + nth 1 X 0 * nth 1 X 0)) (nth 2 X 0) (s_H1 s) (s_H2 s) (s_contact s) (s_UN s)) as (A & B & C). rewrite sq_r in A, B, C. rewrite A, B, C.
  split; [|reflexivity]. destruct (negb (Reqb (rr2 X) 0)); cbn [seq map fold_left nth]; unfold Rdiv; (f_equal; [ring|f_equal; [ring|f_equal; ring]]).
Qed.
(** in 2D the singular velocity brings the two contact points together at the speed at which the particles approach *)
Theorem C36_contact_velocity_2d : forall x1 y1 x2 y2 u1 w1 u2 w2 r1 r2 h alpha, [x1; y1] <> [x2; y2] -> 0 < r1 -> 0 < r2 -> 0 < h -> r1 + r2 < distance [x1; y1] [x2; y2] ->
  let s := make_sing 2 [x1; y1] [x2; y2] [u1; w1] [u2; w2] r1 r2 h alpha in
  let p1 := get_pos_from_part_ref s [0; 0] in let p2 := get_pos_from_part_ref s [s_contact s; 0] in
  distance [x1; y1] p1 = r1 /\ distance [x2; y2] p2 = r2 /\
  forall i, (i < 2)%nat -> nth i (get_u_sing s p2) 0 - nth i (get_u_sing s p1) 0 = s_UN s * nth i (nth 0 (s_base s) []) 0.
Proof.
  intros x1 y1 x2 y2 u1 w1 u2 w2 r1 r2 h alpha Hc H1 H2 Hh Hg s p1 p2.
  destruct (base2 x1 y1 x2 y2 u1 w1 u2 w2 r1 r2 h alpha) as (B & O & C & _). fold s in B, O, C.
  destruct (C36_inverse_2d x1 y1 x2 y2 u1 w1 u2 w2 r1 r2 h alpha Hc [0; 0] [0; 0] eq_refl eq_refl) as (_ & I1 & _). fold s p1 in I1.
  destruct (C36_inverse_2d x1 y1 x2 y2 u1 w1 u2 w2 r1 r2 h alpha Hc [s_contact s; 0] [0; 0] eq_refl eq_refl) as (_ & I2 & _). fold s p2 in I2.
  pose proof (unit2 x1 y1 x2 y2 Hc) as Un. destruct (D_pos x1 y1 x2 y2 Hc) as [P E].
  destruct (C36_cutoff 2 [x1; y1] [x2; y2] [u1; w1] [u2; w2] r1 r2 h alpha Hh H1 H2) as (_ & _ & Pp & _). fold s in Pp.
  assert (P1 : p1 = s_origin s). { unfold p1, get_pos_from_part_ref. rewrite B, O. cbn. f_equal; [ring|f_equal; ring]. }
  split; [rewrite P1; apply (C36_origin_2d x1 y1 x2 y2 u1 w1 u2 w2 r1 r2 h alpha Hc H1)|]. split.
  - unfold p2, get_pos_from_part_ref. rewrite B, O, C. set (D := distance [x1; y1] [x2; y2]) in *. unfold distance, position_diff. cbn.
    assert (X : x2 = x1 + D * ((x2 - x1) / D)) by (field; lra). assert (Y : y2 = y1 + D * ((y2 - y1) / D)) by (field; lra). set (a := (x2 - x1) / D) in *. set (b := (y2 - y1) / D) in *. clearbody a b.
    assert (E' : a ^ 2 = 1 - b ^ 2) by (simpl; lra). match goal with |- sqrt ?e = _ => replace e with (r2 * r2); [apply sqrt_square; lra|] end. rewrite X, Y. ring [E'].
  - intros i Hi. unfold get_u_sing. rewrite I1, I2. unfold get_u_sing_ref. rewrite B. cbn [length Nat.eqb seq map fold_left].
    assert (G : 0 < s_contact s) by (rewrite C; lra).
    assert (K : 0 < s_H1 s /\ 0 < s_H2 s) by (split; apply Rdiv_lt_0_compat; lra). destruct K as [K1 K2].
    destruct (C37_contact_2d (s_H1 s) (s_H2 s) (s_contact s) (s_UN s) (s_param s) K1 K2 G Pp) as [U1 U2]. rewrite U1, U2.
    assert (V : forall x, x = 0 \/ x = s_contact s -> uz_sing_normalMvt2D [x; 0] (s_H1 s) (s_H2 s) (s_contact s) (s_UN s) (s_param s) (s_param s) = 0).
    { intros x _. unfold uz_sing_normalMvt2D, uz_sing_normalMvt2D_body. cbn [nth]. cbv zeta. unfold Rdiv. ring. }
    rewrite (V 0), (V (s_contact s)) by auto. destruct i as [|[|i]]; [| |lia]; cbn [nth]; field; lra.
Qed.
(** in 2D the returned gradient is trace free at every point *)
Theorem C36_trace_2d : forall x1 y1 x2 y2 u1 w1 u2 w2 r1 r2 h alpha p, [x1; y1] <> [x2; y2] -> 0 < r1 -> 0 < r2 -> 0 < h -> r1 + r2 < distance [x1; y1] [x2; y2] -> length p = 2%nat ->
  let s := make_sing 2 [x1; y1] [x2; y2] [u1; w1] [u2; w2] r1 r2 h alpha in
  let g := get_grad_u_sing s p in nth 0 (nth 0 g []) 0 + nth 1 (nth 1 g []) 0 = 0.
Proof.
  intros x1 y1 x2 y2 u1 w1 u2 w2 r1 r2 h alpha p Hc H1 H2 Hh Hg Hp s g.
  destruct (base2 x1 y1 x2 y2 u1 w1 u2 w2 r1 r2 h alpha) as (B & O & C & _). fold s in B, O, C. pose proof (unit2 x1 y1 x2 y2 Hc) as Un.
  destruct (C36_cutoff 2 [x1; y1] [x2; y2] [u1; w1] [u2; w2] r1 r2 h alpha Hh H1 H2) as (_ & _ & Pp & _). fold s in Pp.
  assert (G : 0 < s_contact s) by (rewrite C; lra). assert (K : 0 < s_H1 s /\ 0 < s_H2 s) by (split; apply Rdiv_lt_0_compat; lra). destruct K as [K1 K2].
  destruct p as [|p0 [|p1 [|? ?]]]; try discriminate.
  unfold g, get_grad_u_sing. set (X := get_pos_in_part_ref s [p0; p1]). assert (HX : X = [nth 0 X 0; nth 1 X 0]) by (unfold X, get_pos_in_part_ref; rewrite B; reflexivity).
  pose proof (C37_divergence_2d (s_H1 s) (s_H2 s) (s_contact s) (s_UN s) (s_param s) (nth 0 X 0) (nth 1 X 0) K1 K2 G) as Dv. rewrite <- HX in Dv. unfold DIVCART_normalMvt2D in Dv.
  unfold get_grad_u_sing_ref. rewrite B. cbn [length Nat.eqb seq map fold_left nth]. 
  set (a := (x2 - x1) / distance [x1; y1] [x2; y2]) in *. set (b := (y2 - y1) / distance [x1; y1] [x2; y2]) in *. clearbody a b.
  generalize dependent (dxux_sing_normalMvt2D X (s_H1 s) (s_H2 s) (s_contact s) (s_UN s) (s_param s) (s_param s)). generalize dependent (dzuz_sing_normalMvt2D X (s_H1 s) (s_H2 s) (s_contact s) (s_UN s) (s_param s) (s_param s)). intros d1 d2 Dv.
  assert (E : a ^ 2 = 1 - b ^ 2) by (simpl; lra). replace d2 with (- d1) by lra. ring [E].
Qed.
