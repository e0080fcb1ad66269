(** C62: the box of cells of a contact covers the gap. *)
From Coquelicot Require Import Coquelicot.
From Verif Require Import Base M_Geometry S_Geometry M_Particle S_Particle P_Particle S_Fem M_Mesh M_Operator S_Operator M_Shapes M_ParticleOp S_ParticleOp Prop_ParticleOp M_Truncation M_SingNormal M_SingTang M_SingWrap M_Singularity Prop_Singularity M_AddSing S_AddSing Prop_AddSing.
Open Scope R_scope.

Lemma list_min_le l x : In x l -> list_min l <= x.
Proof.
  unfold list_min. destruct l as [|a l]; [intros []|]. cbn [hd tl]. revert a x. induction l as [|b l IH]; intros a x H; cbn [fold_left].
  - destruct H as [->|[]]. lra.
  - assert (M : forall l c, fold_left (fun a0 x0 => if Rltb x0 a0 then x0 else a0) l c <= c). { clear. induction l as [|b l IH]; intros c; cbn [fold_left]; [lra|]. destruct (Rltb_spec b c); eapply Rle_trans; try apply IH; lra. }
    destruct H as [->|[->|H]].
    + destruct (Rltb_spec b x); eapply Rle_trans; try apply M; lra.
    + destruct (Rltb_spec x a); eapply Rle_trans; try apply M; lra.
    + apply IH. right. exact H.
Qed.
Lemma list_max_ge l x : In x l -> x <= list_max l.
Proof.
  unfold list_max. destruct l as [|a l]; [intros []|]. cbn [hd tl]. revert a x. induction l as [|b l IH]; intros a x H; cbn [fold_left].
  - destruct H as [->|[]]. lra.
  - assert (M : forall l c, c <= fold_left (fun a0 x0 => if Rltb a0 x0 then x0 else a0) l c). { clear. induction l as [|b l IH]; intros c; cbn [fold_left]; [lra|]. destruct (Rltb_spec c b); [apply Rle_trans with b; [lra|apply IH]|apply IH]. }
    destruct H as [->|[->|H]].
    + destruct (Rltb_spec x b); [apply Rle_trans with b; [lra|apply M]|apply M].
    + destruct (Rltb_spec a x); [apply M|apply Rle_trans with a; [lra|apply M]].
    + apply IH. right. exact H.
Qed.
(** a linear form on an interval is bounded by its values at the ends *)
Lemma lin_ends al a lo up : lo <= a <= up -> exists a0 a1, (a0 = lo \/ a0 = up) /\ (a1 = lo \/ a1 = up) /\ al * a0 <= al * a <= al * a1.
Proof.
  intros H. destruct (Rle_dec 0 al).
  - exists lo, up. split; [auto|]. split; [auto|]. split; apply Rmult_le_compat_l; lra.
  - exists up, lo. split; [auto|]. split; [auto|]. split; apply Rmult_le_compat_neg_l; lra.
Qed.
(** cells *)
Lemma cell_floor_ceil lo up x h i : 0 < h -> lo <= x <= up -> IZR i * h < x < (IZR i + 1) * h ->
  (Rtrunc (IZR (Int_part (lo / h))) <= i)%Z /\ (i < Rtrunc (IZR (- Int_part (- (up / h)))))%Z.
Proof.
  intros Hh Hx Hi. rewrite !Rtrunc_IZR. assert (Hx1 : lo / h <= x / h) by (apply Rmult_le_compat_r; [left; apply Rinv_0_lt_compat|]; lra). assert (Hx2 : x / h <= up / h) by (apply Rmult_le_compat_r; [left; apply Rinv_0_lt_compat|]; lra).
  assert (E : IZR i < x / h < IZR i + 1). { split; apply Rmult_lt_reg_r with h; try lra; unfold Rdiv; rewrite Rmult_assoc, Rinv_l by lra; lra. }
  destruct (Int_part_bounds (lo / h)) as [A1 A2]. destruct (Int_part_bounds (- (up / h))) as [B1 B2]. split.
  - apply Z.lt_succ_r. apply lt_IZR. rewrite succ_IZR. lra.
  - apply lt_IZR. rewrite opp_IZR. lra.
Qed.
(** abscissa of a point outside a disc and past its centre *)
Lemma past_arc r c b g : 0 < r -> 0 <= c <= r -> Rabs b <= c -> 0 <= g -> r * r <= g * g + b * b -> 1 / (1 / r) * cos (asin (c * (1 / r))) <= g.
Proof.
  intros Hr Hc Hb Hg Ho. assert (Hcr : c * (1 / r) <= 1) by (apply Rmult_le_reg_r with r; [lra|]; field_simplify; lra).
  assert (Hcr0 : 0 <= c * (1 / r)) by (apply Rmult_le_pos; [lra|]; unfold Rdiv; rewrite Rmult_1_l; left; apply Rinv_0_lt_compat; lra).
  rewrite cos_asin by lra. replace (1 / (1 / r)) with r by (field; lra).
  apply Rsqr_incr_0_var; [|exact Hg]. rewrite Rsqr_mult, Rsqr_sqrt; [|unfold Rsqr; nra]. unfold Rsqr.
  assert (Hbb : b * b <= c * c). { rewrite <- (Rabs_pos_eq (b * b)) by nra. rewrite Rabs_mult. apply Rmult_le_compat; try apply Rabs_pos; exact Hb. }
  replace (r * r * (1 - c * (1 / r) * (c * (1 / r)))) with (r * r - c * c) by (field; lra). lra.
Qed.
Lemma arc_sin r c : 0 < r -> 0 <= c <= r -> 1 / (1 / r) * sin (asin (c * (1 / r))) = c.
Proof.
  intros Hr Hc. assert (Hcr : c * (1 / r) <= 1) by (apply Rmult_le_reg_r with r; [lra|]; field_simplify; lra).
  assert (Hcr0 : 0 <= c * (1 / r)) by (apply Rmult_le_pos; [lra|]; unfold Rdiv; rewrite Rmult_1_l; left; apply Rinv_0_lt_compat; lra).
  rewrite sin_asin by lra. field. lra.
Qed.

(** In 2D, X is in the gap: between the lines through the centres orthogonal to the line of centres, at most [cut] away from that line, and in neither disc. *)
Definition in_gap (c1 c2 : R * R) (r1 r2 cut : R) (X : R * R) : Prop :=
  let dx := fst c2 - fst c1 in let dy := snd c2 - snd c1 in let ux := fst X - fst c1 in let uy := snd X - snd c1 in
  let wx := fst X - fst c2 in let wy := snd X - snd c2 in
  0 <= ux * dx + uy * dy <= dx * dx + dy * dy /\ Rabs (uy * dx - ux * dy) <= cut * sqrt (dx * dx + dy * dy) /\
  r1 * r1 <= ux * ux + uy * uy /\ r2 * r2 <= wx * wx + wy * wy.
Definition cell_interior (h0 h1 : R) (i j : Z) (X : R * R) : Prop := IZR i * h0 < fst X < (IZR i + 1) * h0 /\ IZR j * h1 < snd X < (IZR j + 1) * h1.

Theorem C62_box_covers_gap_2d : forall x1 y1 x2 y2 v1 v2 r1 r2 h0 h1 c1 c2 i j X,
  let p1 := mkspart [x1; y1] v1 r1 c1 in let p2 := mkspart [x2; y2] v2 r2 c2 in let s := sing_of 2 [h0; h1] p1 p2 in
  (x1, y1) <> (x2, y2) -> length v1 = 2%nat -> length v2 = 2%nat -> 0 < r1 -> 0 < r2 -> 0 < h0 -> 0 < h1 -> sqrt 2 * h0 <= Rmin r1 r2 ->
  in_gap (x1, y1) (x2, y2) r1 r2 (s_cutoff s) X -> cell_interior h0 h1 i j X -> in_grid_box (get_box 2 s [h0; h1]) [i; j].
Proof.
  intros x1 y1 x2 y2 v1 v2 r1 r2 h0 h1 c1 c2 i j [X0 X1] p1 p2 s Hc Hv1 Hv2 Hr1 Hr2 Hh0 Hh1 Hm HX [Hi Hj]. cbn [fst snd] in Hi, Hj.
  destruct v1 as [|u1 [|w1 [|? ?]]]; try discriminate. destruct v2 as [|u2 [|w2 [|? ?]]]; try discriminate.
  assert (Hc' : [x1; y1] <> [x2; y2]) by (intros E; apply Hc; injection E as -> ->; reflexivity).
  pose proof (base2 x1 y1 x2 y2 u1 w1 u2 w2 r1 r2 h0 4) as (B & O & C & _). pose proof (D_pos x1 y1 x2 y2 Hc') as [DP DD]. pose proof (unit2 x1 y1 x2 y2 Hc') as Un.
  destruct (C36_cutoff 2 [x1; y1] [x2; y2] [u1; w1] [u2; w2] r1 r2 h0 4 Hh0 Hr1 Hr2) as (Cu1 & Cu2 & _).
  change (make_sing 2 [x1; y1] [x2; y2] [u1; w1] [u2; w2] r1 r2 h0 4) with s in *. set (d := distance [x1; y1] [x2; y2]) in *.
  assert (Hcut : 0 <= s_cutoff s <= Rmin r1 r2). { split; [|rewrite Rmax_right in Cu2 by exact Hm; exact Cu2]. apply Rle_trans with (sqrt 2 * h0); [apply Rmult_le_pos; [apply sqrt_pos|lra]|exact Cu1]. }
  assert (Hcut1 : 0 <= s_cutoff s <= r1) by (pose proof (Rmin_l r1 r2); lra). assert (Hcut2 : 0 <= s_cutoff s <= r2) by (pose proof (Rmin_r r1 r2); lra).
  assert (H1 : s_H1 s = 1 / r1) by reflexivity. assert (H2 : s_H2 s = 1 / r2) by reflexivity.
  set (a := (x2 - x1) / d) in *. set (b := (y2 - y1) / d) in *.
  assert (Xx : x2 - x1 = d * a) by (unfold a; field; lra). assert (Xy : y2 - y1 = d * b) by (unfold b; field; lra).
  unfold in_gap in HX. cbn [fst snd] in HX. rewrite Xx, Xy in HX.
  replace (d * a * (d * a) + d * b * (d * b)) with (d * d) in HX by (transitivity (d * d * (a * a + b * b)); [rewrite Un|]; ring). rewrite sqrt_square in HX by lra.
  destruct HX as ((G1 & G2) & G3 & G4 & G5).
  set (al := (X0 - x1) * a + (X1 - y1) * b). set (be := (X1 - y1) * a - (X0 - x1) * b).
  assert (A1 : 0 <= al). { apply Rmult_le_reg_l with d; [exact DP|]. unfold al. lra. }
  assert (A2 : al <= d). { apply Rmult_le_reg_l with d; [exact DP|]. unfold al. lra. }
  assert (A3 : Rabs be <= s_cutoff s). { apply Rmult_le_reg_r with d; [exact DP|]. rewrite <- (Rabs_pos_eq d) at 1 by lra. rewrite <- Rabs_mult. replace (be * d) with ((X1 - y1) * (d * a) - (X0 - x1) * (d * b)) by (unfold be; ring). exact G3. }
  assert (EX0 : X0 = x1 + al * a - be * b). { unfold al, be. transitivity (x1 + (X0 - x1) * (a * a + b * b)); [rewrite Un|]; ring. }
  assert (EX1 : X1 = y1 + al * b + be * a). { unfold al, be. transitivity (y1 + (X1 - y1) * (a * a + b * b)); [rewrite Un|]; ring. }
  clearbody al be. clear G1 G2 G3.
  assert (P1 : 1 / s_H1 s * cos (asin (s_cutoff s * s_H1 s)) <= al). { rewrite H1. apply (past_arc r1 (s_cutoff s) be al); auto. rewrite EX0, EX1 in G4. replace (al * al + be * be) with ((x1 + al * a - be * b - x1) * (x1 + al * a - be * b - x1) + (y1 + al * b + be * a - y1) * (y1 + al * b + be * a - y1)); [exact G4|]. transitivity ((al * al + be * be) * (a * a + b * b)); [ring|rewrite Un; ring]. }
  assert (P2 : 1 / s_H2 s * cos (asin (s_cutoff s * s_H2 s)) <= d - al). { rewrite H2. apply (past_arc r2 (s_cutoff s) be (d - al)); auto; [lra|]. rewrite EX0, EX1 in G5. replace ((d - al) * (d - al) + be * be) with ((x1 + al * a - be * b - x2) * (x1 + al * a - be * b - x2) + (y1 + al * b + be * a - y2) * (y1 + al * b + be * a - y2)); [exact G5|]. replace x2 with (x1 + d * a) by lra. replace y2 with (y1 + d * b) by lra. transitivity (((d - al) * (d - al) + be * be) * (a * a + b * b)); [ring|rewrite Un; ring]. }
  pose proof (arc_sin r1 (s_cutoff s) Hr1 Hcut1) as S1. pose proof (arc_sin r2 (s_cutoff s) Hr2 Hcut2) as S2. rewrite <- H1 in S1. rewrite <- H2 in S2.
  set (t1 := asin (s_cutoff s * s_H1 s)) in *. set (t2 := asin (s_cutoff s * s_H2 s)) in *. set (z1 := 1 / s_H1 s * (-1 + cos t1)). set (z2 := s_contact s + 1 / s_H2 s * (1 - cos t2)).
  set (c := s_cutoff s) in *.
  assert (Q : z1 <= al - r1 <= z2).
  { assert (I1 : 1 / s_H1 s = r1) by (rewrite H1; field; lra). assert (I2 : 1 / s_H2 s = r2) by (rewrite H2; field; lra). unfold z1, z2. rewrite I1 in *. rewrite I2 in *. rewrite C. lra. }
  assert (QB : - c <= be <= c) by (apply Rabs_le_between; exact A3).
  assert (EC : map (corner_pos2 s) (corners2 s) = map (fun q : R * R => [a * fst q + - b * snd q + (x1 + r1 * a); b * fst q + a * snd q + (y1 + r1 * b)]) [(z1, c); (z1, - c); (z2, c); (z2, - c)]).
  { unfold corners2. fold c. fold t1 t2. cbv zeta. replace (- 1 / s_H1 s * sin t1) with (- c) by (rewrite <- S1; field; rewrite H1; apply Rgt_not_eq; unfold Rdiv; rewrite Rmult_1_l; apply Rinv_0_lt_compat; lra).
    replace (- 1 / s_H2 s * sin t2) with (- c) by (rewrite <- S2; field; rewrite H2; apply Rgt_not_eq; unfold Rdiv; rewrite Rmult_1_l; apply Rinv_0_lt_compat; lra).
    rewrite S1, S2. fold z1 z2. unfold corner_pos2, b_. rewrite B, O. reflexivity. }
  assert (BK : forall k, (k < 2)%nat -> let l := map (fun q : vec => nth k q 0) (map (corner_pos2 s) (corners2 s)) in list_min l <= nth k [X0; X1] 0 <= list_max l).
  { intros k Hk l. unfold l. rewrite EC, map_map. set (ca := nth k [a; b] 0). set (cb := nth k [- b; a] 0). set (co' := nth k [x1 + r1 * a; y1 + r1 * b] 0).
    assert (EL : forall q : R * R, nth k [a * fst q + - b * snd q + (x1 + r1 * a); b * fst q + a * snd q + (y1 + r1 * b)] 0 = ca * fst q + cb * snd q + co') by (intros q; destruct k as [|[|]]; [reflexivity|reflexivity|lia]).
    assert (EV : nth k [X0; X1] 0 = ca * (al - r1) + cb * be + co') by (unfold ca, cb, co'; destruct k as [|[|]]; cbn [nth]; [rewrite EX0|rewrite EX1|lia]; ring). rewrite EV.
    destruct (lin_ends ca (al - r1) z1 z2 Q) as (a0 & a1 & Ha0 & Ha1 & La). destruct (lin_ends cb be (- c) c QB) as (b0 & b1 & Hb0 & Hb1 & Lb).
    split.
    - apply Rle_trans with (ca * a0 + cb * b0 + co'); [|lra]. apply list_min_le. apply in_map_iff. exists (a0, b0). split; [apply EL|]. cbn [In]. destruct Ha0 as [->| ->], Hb0 as [->| ->]; auto.
    - apply Rle_trans with (ca * a1 + cb * b1 + co'); [lra|]. apply list_max_ge. apply in_map_iff. exists (a1, b1). split; [apply EL|]. cbn [In]. destruct Ha1 as [->| ->], Hb1 as [->| ->]; auto. }
  unfold in_grid_box, get_box. cbn [Nat.eqb bottom_left upper_right seq map pos_floor pos_ceil nth].
  pose proof (BK 0%nat ltac:(lia)) as B0. pose proof (BK 1%nat ltac:(lia)) as B1. cbv zeta in B0, B1. cbn [nth] in B0, B1.
  destruct (cell_floor_ceil _ _ _ _ _ Hh0 B0 Hi) as [F1 F2]. destruct (cell_floor_ceil _ _ _ _ _ Hh1 B1 Hj) as [F3 F4].
  split; repeat (constructor; [assumption|]); constructor.
Qed.
Print Assumptions C62_box_covers_gap_2d.

(** In 3D, in the frame of the contact (third axis: line of centres): same statement for the points at most the cut-off distance away from the line of centres. *)
Theorem C62_box_covers_gap_3d : forall D s h0 h1 h2 r1 r2 a b g i j k, D = 3%nat ->
  length (s_base s) = 3%nat -> length (s_origin s) = 3%nat -> 0 < r1 -> 0 < r2 -> 0 < h0 -> 0 < h1 -> 0 < h2 -> s_H1 s = 1 / r1 -> s_H2 s = 1 / r2 -> 0 <= s_cutoff s <= Rmin r1 r2 ->
  let X := get_pos_from_part_ref s [a; b; g] in
  a * a + b * b <= s_cutoff s * s_cutoff s -> - r1 <= g <= s_contact s + r2 ->
  r1 * r1 <= a * a + b * b + (g + r1) * (g + r1) -> r2 * r2 <= a * a + b * b + (s_contact s + r2 - g) * (s_contact s + r2 - g) ->
  IZR i * h0 < nth 0 X 0 < (IZR i + 1) * h0 -> IZR j * h1 < nth 1 X 0 < (IZR j + 1) * h1 -> IZR k * h2 < nth 2 X 0 < (IZR k + 1) * h2 ->
  in_grid_box (get_box D s [h0; h1; h2]) [i; j; k].
Proof.
  intros D s h0 h1 h2 r1 r2 a b g i j k -> HB HO Hr1 Hr2 Hh0 Hh1 Hh2 H1 H2 Hcut X Hc Hg G1 G2 Hi Hj Hk.
  assert (Hcut1 : 0 <= s_cutoff s <= r1) by (pose proof (Rmin_l r1 r2); lra). assert (Hcut2 : 0 <= s_cutoff s <= r2) by (pose proof (Rmin_r r1 r2); lra).
  set (c := s_cutoff s) in *. set (be := sqrt (a * a + b * b)). assert (Hbe : be * be = a * a + b * b) by (apply sqrt_sqrt; nra).
  assert (Hbc : Rabs be <= c). { rewrite Rabs_pos_eq by apply sqrt_pos. apply Rsqr_incr_0_var; [|lra]. unfold Rsqr. lra. }
  assert (P1 : 1 / s_H1 s * cos (asin (c * s_H1 s)) <= g + r1) by (rewrite H1; apply (past_arc r1 c be (g + r1)); auto; lra).
  assert (P2 : 1 / s_H2 s * cos (asin (c * s_H2 s)) <= s_contact s + r2 - g) by (rewrite H2; apply (past_arc r2 c be (s_contact s + r2 - g)); auto; lra).
  pose proof (arc_sin r1 c Hr1 Hcut1) as S1. pose proof (arc_sin r2 c Hr2 Hcut2) as S2. rewrite <- H1 in S1. rewrite <- H2 in S2.
  assert (I1 : 1 / s_H1 s = r1) by (rewrite H1; field; lra). assert (I2 : 1 / s_H2 s = r2) by (rewrite H2; field; lra).
  set (t1 := asin (c * s_H1 s)) in *. set (t2 := asin (c * s_H2 s)) in *. set (z1 := 1 / s_H1 s * (-1 + cos t1)). set (z2 := s_contact s + 1 / s_H2 s * (1 - cos t2)).
  assert (Q : z1 <= g <= z2) by (unfold z1, z2; rewrite I1, I2 in *; lra).
  assert (QA : - c <= a <= c). { apply Rabs_le_between. apply Rsqr_incr_0_var; [|lra]. rewrite <- Rsqr_abs. unfold Rsqr. nra. }
  assert (QB : - c <= b <= c). { apply Rabs_le_between. apply Rsqr_incr_0_var; [|lra]. rewrite <- Rsqr_abs. unfold Rsqr. nra. }
  assert (EC : corners3 s = [(c, c, z1); (c, - c, z1); (- c, c, z1); (- c, - c, z1); (c, c, z2); (c, - c, z2); (- c, c, z2); (- c, - c, z2)]).
  { unfold corners3. fold c. fold t1 t2. cbv zeta. fold z1 z2. replace (- 1 / s_H1 s * sin t1) with (- (1 / s_H1 s * sin t1)) by (unfold Rdiv; ring). replace (- 1 / s_H2 s * sin t2) with (- (1 / s_H2 s * sin t2)) by (unfold Rdiv; ring). rewrite S1, S2. reflexivity. }
  assert (BK : forall q, (q < 3)%nat -> let l := map (fun w : vec => nth q w 0) (map (corner_pos3 s) (corners3 s)) in list_min l <= nth q X 0 <= list_max l).
  { intros q Hq l. unfold l. rewrite EC, map_map. set (ca := b_ s 0 q). set (cb := b_ s 1 q). set (cg := b_ s 2 q). set (o := nth q (s_origin s) 0).
    assert (EL : forall w : R * R * R, nth q (corner_pos3 s w) 0 = ca * fst (fst w) + cb * snd (fst w) + cg * snd w + o) by (intros w; unfold corner_pos3; destruct q as [|[|[|]]]; [reflexivity..|lia]).
    assert (EV : nth q X 0 = ca * a + cb * b + cg * g + o).
    { unfold X, get_pos_from_part_ref. rewrite HB. unfold o, ca, cb, cg, b_. destruct (s_origin s) as [|o0 [|o1 [|o2 [|]]]]; try discriminate. destruct q as [|[|[|]]]; [| | |lia]; cbn [seq map fold_left zip_with nth]; ring. }
    rewrite EV. destruct (lin_ends ca a (- c) c QA) as (a0 & a1 & Ha0 & Ha1 & La). destruct (lin_ends cb b (- c) c QB) as (b0 & b1 & Hb0 & Hb1 & Lb). destruct (lin_ends cg g z1 z2 Q) as (g0 & g1 & Hg0 & Hg1 & Lg).
    split.
    - apply Rle_trans with (ca * a0 + cb * b0 + cg * g0 + o); [|lra]. apply list_min_le. apply in_map_iff. exists (a0, b0, g0). split; [apply EL|]. cbn [In]. destruct Ha0 as [->| ->], Hb0 as [->| ->], Hg0 as [->| ->]; tauto.
    - apply Rle_trans with (ca * a1 + cb * b1 + cg * g1 + o); [lra|]. apply list_max_ge. apply in_map_iff. exists (a1, b1, g1). split; [apply EL|]. cbn [In]. destruct Ha1 as [->| ->], Hb1 as [->| ->], Hg1 as [->| ->]; tauto. }
  unfold in_grid_box, get_box. cbn [Nat.eqb bottom_left upper_right seq map pos_floor pos_ceil nth].
  pose proof (BK 0%nat ltac:(lia)) as B0. pose proof (BK 1%nat ltac:(lia)) as B1. pose proof (BK 2%nat ltac:(lia)) as B2. cbv zeta in B0, B1, B2.
  destruct (cell_floor_ceil _ _ _ _ _ Hh0 B0 Hi) as [F1 F2]. destruct (cell_floor_ceil _ _ _ _ _ Hh1 B1 Hj) as [F3 F4]. destruct (cell_floor_ceil _ _ _ _ _ Hh2 B2 Hk) as [F5 F6].
  split; repeat (constructor; [assumption|]); constructor.
Qed.

(** Two discs of radius 1/5 a tenth apart, on the 9 x 9 grid of the unit square shared by two processes: a singular couple, a cell of its box and a point kept. *)
Definition ex_disc (x : R) (v : vec) : spart := mkspart [x; 1 / 2] v (1 / 5) (fun p => contains2 (circle_make (x, 1 / 2) (1 / 5) quat_default) (nth 0 p 0, nth 1 p 0)).
Lemma ex_couple : let p1 := ex_disc (1 / 4) [1; 0] in let p2 := ex_disc (3 / 4) [0; 0] in let s := sing_of 2 [1 / 8; 1 / 8] p1 p2 in
  s_contact s = 1 / 10 /\ s_is s = true /\ s_base s = [[1; 0]; [0; 1]] /\ s_origin s = [9 / 20; 1 / 2] /\ sqrt 2 * (1 / 8) <= s_cutoff s <= 1 / 5 /\ sqrt 2 * (1 / 8) <= Rmin (1 / 5) (1 / 5) /\ 1 / 10 <= sqrt 2 * (1 / 8).
Proof.
  intros p1 p2 s. assert (Dd : distance [1 / 4; 1 / 2] [3 / 4; 1 / 2] = 1 / 2).
  { unfold distance, position_diff. cbn [zip_with fold_left]. replace (_ + _) with (1 / 2 * (1 / 2)) by field. apply sqrt_square. lra. }
  pose proof (base2 (1 / 4) (1 / 2) (3 / 4) (1 / 2) 1 0 0 0 (1 / 5) (1 / 5) (1 / 8) 4) as (B & O & C & _). rewrite Dd in *.
  destruct (C36_cutoff 2 [1 / 4; 1 / 2] [3 / 4; 1 / 2] [1; 0] [0; 0] (1 / 5) (1 / 5) (1 / 8) 4) as (Cu1 & Cu2 & _); [lra..|].
  change (make_sing 2 [1 / 4; 1 / 2] [3 / 4; 1 / 2] [1; 0] [0; 0] (1 / 5) (1 / 5) (1 / 8) 4) with s in *.
  assert (S2 : 1 < sqrt 2 < 3 / 2). { split; [rewrite <- sqrt_1 at 1; apply sqrt_lt_1; lra|]. rewrite <- (sqrt_square (3 / 2)) by lra. apply sqrt_lt_1; lra. }
  assert (M : Rmin (1 / 5) (1 / 5) = 1 / 5) by (apply Rmin_left; lra). assert (H2 : sqrt 2 * (1 / 8) <= 1 / 5) by lra. rewrite M in *. rewrite Rmax_right in Cu2 by exact H2.
  split; [rewrite C; field|]. split; [|split; [rewrite B|split; [rewrite O|]]].
  - change (s_is s) with (Rltb (s_contact s) 1). rewrite C. destruct (Rltb_spec (1 / 2 - 1 / 5 - 1 / 5) 1); [reflexivity|lra].
  - apply f_equal2; [|apply f_equal2; [|reflexivity]]; (apply f_equal2; [|apply f_equal2; [|reflexivity]]; lra).
  - apply f_equal2; [|apply f_equal2; [|reflexivity]]; lra.
  - repeat split; lra.
Qed.
Example C62_example : let p1 := ex_disc (1 / 4) [1; 0] in let p2 := ex_disc (3 / 4) [0; 0] in let s := sing_of 2 [1 / 8; 1 / 8] p1 p2 in
  s_is s = true /\ in_gap (1 / 4, 1 / 2) (3 / 4, 1 / 2) (1 / 5) (1 / 5) (s_cutoff s) (47 / 100, 51 / 100) /\ cell_interior (1 / 8) (1 / 8) 3 4 (47 / 100, 51 / 100) /\
  in_grid_box (get_box 2 s [1 / 8; 1 / 8]) [3; 4]%Z /\ kept 2 s p1 p2 (position_in [1 / 8; 1 / 8] [3; 4]%Z (sub_offset [1 / 8; 1 / 8] sing_scale [7; 0]%Z)) = true.
Proof.
  intros p1 p2 s. pose proof ex_couple as H. cbv zeta in H. fold p1 p2 in H. fold s in H. destruct H as (C & I & B & O & Cu & M & L).
  assert (G : in_gap (1 / 4, 1 / 2) (3 / 4, 1 / 2) (1 / 5) (1 / 5) (s_cutoff s) (47 / 100, 51 / 100)).
  { unfold in_gap. cbn [fst snd]. replace ((3 / 4 - 1 / 4) * (3 / 4 - 1 / 4) + (1 / 2 - 1 / 2) * (1 / 2 - 1 / 2)) with (1 / 2 * (1 / 2)) by field. rewrite sqrt_square by lra. rewrite Rabs_pos_eq by lra. repeat split; lra. }
  assert (K : cell_interior (1 / 8) (1 / 8) 3 4 (47 / 100, 51 / 100)) by (unfold cell_interior; cbn [fst snd]; repeat split; lra).
  split; [exact I|]. split; [exact G|]. split; [exact K|]. split.
  - apply (C62_box_covers_gap_2d (1 / 4) (1 / 2) (3 / 4) (1 / 2) [1; 0] [0; 0] (1 / 5) (1 / 5) (1 / 8) (1 / 8) (sp_contains p1) (sp_contains p2) 3 4 (47 / 100, 51 / 100)); try reflexivity; try lra; try assumption. intros E. injection E. intros. lra.
  - apply C51_points_kept. unfold position_in, sub_offset, grid_point, sing_scale. cbn [zip_with]. unfold p1, p2, ex_disc. cbn [sp_contains nth].
    split; [|split].
    + apply not_true_iff_false. rewrite circle_contains by lra. cbn [fst snd]. lra.
    + apply not_true_iff_false. rewrite circle_contains by lra. cbn [fst snd]. lra.
    + intros _. match goal with |- Rabs ?t <= _ => replace t with 0; [rewrite Rabs_R0; lra|] end. unfold get_pos_in_part_ref. rewrite B, O. unfold inner_product. cbn. field.
Qed.
Example C51_example : distributes ex2_m ex2_per 2 ex2_dms /\ steps_ok ex2_h ex2_m /\ couples [ex_disc (1 / 4) [1; 0]; ex_disc (3 / 4) [0; 0]] = [(ex_disc (1 / 4) [1; 0], ex_disc (3 / 4) [0; 0])] /\ in_grid_box (cells_box ex2_m ex2_per) [3; 4]%Z.
Proof.
  destruct ex2_grid as (E & _ & _ & HD & HS & _). repeat (split; [assumption || reflexivity|]). split; repeat constructor; cbn; lia.
Qed.
