(** A circle strictly inside the domain: what create_Mat_and_Vec stores of its surface. *)
From Verif Require Import Base M_Geometry S_Geometry P_Geometry M_Shapes S_Shapes P_Pow P_Shapes P_Sampling Prop_Shapes M_Particle S_Particle P_Particle M_Quadrature S_Fem M_MatElem P_Energy M_Mesh M_Operator S_Operator P_Mesh P_Operator M_Bc M_ParticleOp S_ParticleOp P_ParticleOp.
From Coq Require Import Permutation.
Open Scope R_scope.

Definition turned (q : quat) (p : R * R) : R * R := if is_rotate q then rotate2 q p else p.
Lemma turned_norm q p : (q = quat_default \/ exists t, q = quat_angle t) -> fst (turned q p) * fst (turned q p) + snd (turned q p) * snd (turned q p) = fst p * fst p + snd p * snd p.
Proof.
  intros [->|[t ->]]; unfold turned; [rewrite is_rotate_default; reflexivity|]. rewrite is_rotate_angle, rotate2_angle.
  exact (planar_rotation_dot t p p).
Qed.
Lemma turned_sum q l : (q = quat_default \/ exists t, q = quat_angle t) -> sumR (map fst l) = 0 -> sumR (map snd l) = 0 ->
  sumR (map fst (map (turned q) l)) = 0 /\ sumR (map snd (map (turned q) l)) = 0.
Proof.
  intros [->|[t ->]] H0 H1; unfold turned; [rewrite is_rotate_default, map_id; auto|]. rewrite is_rotate_angle. cbv iota. change (fun p : R * R => rotate2 (quat_angle t) p) with (rotate2 (quat_angle t)).
  assert (E : forall l, sumR (map fst (map (rotate2 (quat_angle t)) l)) = cos t * sumR (map fst l) - sin t * sumR (map snd l) /\ sumR (map snd (map (rotate2 (quat_angle t)) l)) = sin t * sumR (map fst l) + cos t * sumR (map snd l)).
  { clear. induction l as [|p l [I1 I2]]; [unfold sumR; simpl; split; ring|]. cbn [map]. unfold sumR in *. cbn [fold_right]. rewrite I1, I2, rotate2_angle. unfold planar_rotation; cbn [fst snd]. split; ring. }
  destruct (E l) as [-> ->]. rewrite H0, H1. split; ring.
Qed.
Lemma circle_level c r t s p : 0 < r -> 0 <= s < 1 -> (fst p - fst c) * (fst p - fst c) + (snd p - snd c) * (snd p - snd c) = s * s * (r * r) -> super_ellipse_level c r r 2 t p < 1.
Proof.
  intros Hr Hs H. unfold super_ellipse_level.
  assert (HP : let w := planar_rotation (- t) (fst p - fst c, snd p - snd c) in fst w * fst w + snd w * snd w = s * s * (r * r)).
  { intros w. unfold w. rewrite <- H. exact (planar_rotation_dot (- t) (fst p - fst c, snd p - snd c) (fst p - fst c, snd p - snd c)). }
  cbv zeta in HP. destruct (planar_rotation (- t) (fst p - fst c, snd p - snd c)) as [a b]. cbn [fst snd] in HP |- *.
  rewrite !cpow_2_r by apply Rabs_pos. rewrite <- !Rabs_mult, !Rabs_pos_eq by apply Rle_0_sqr.
  assert (E : (a / r) * (a / r) + (b / r) * (b / r) = s * s). { transitivity ((a * a + b * b) / (r * r)); [field; lra|]. rewrite HP. field. lra. }
  rewrite E. nra.
Qed.

(** the sampled points of a circle: at distance r of the centre, balanced, in its box *)
Lemma circle_points fuel c r q k tol l : 0 < r -> 0 < k -> 0 < tol -> (q = quat_default \/ exists t, q = quat_angle t) ->
  surface2 fuel (circle_make c r q) k tol = Ok l ->
  l <> [] /\ sumR (map (fun p => fst p - fst c) l) = 0 /\ sumR (map (fun p => snd p - snd c) l) = 0 /\
  forall p, In p l -> (fst p - fst c) * (fst p - fst c) + (snd p - snd c) * (snd p - snd c) = r * r.
Proof.
  intros Hr Hk Ht Hq H. unfold surface2, circle_make in H. cbn [s2 n2_ q2 c2 se2_make] in H.
  destruct (uniform_sampling2 fuel (r, r) (2 / 2) k tol) as [l0| | |] eqn:E; simpl in H; try discriminate.
  injection H as H. assert (EL : l = map (fun p => add2 p c) (map (turned q) l0)).
  { rewrite <- H. f_equal. unfold turned. destruct (is_rotate q); [reflexivity|]. symmetry. apply map_id. }
  destruct (C11_sample_on_curve_symmetric_distinct fuel r r 2 k tol l0 Hr Hr ltac:(lra) Hk Ht E) as (_ & _ & _ & _ & S0 & S1 & m & Hm & HL).
  replace (2 / 2) with 1 in E by field. destruct (C11_circle_sample_is_equally_spaced fuel r k tol l0 Hr Hk Ht E) as (_ & _ & _ & _ & HN & _).
  destruct (turned_sum q l0 Hq S0 S1) as [T0 T1].
  assert (N0 : l0 <> []) by (intros ->; simpl in HL; lia). clear H E HL S0 S1.
  subst l. split; [destruct l0; [congruence|discriminate]|]. rewrite !map_map. unfold add2. cbn [fst snd].
  rewrite map_map in T0, T1. split; [|split].
  - rewrite <- T0. f_equal. apply map_ext. intros p. ring.
  - rewrite <- T1. f_equal. apply map_ext. intros p. ring.
  - intros p Hp. apply in_map_iff in Hp as [p0 [<- Hp]]. cbn [fst snd]. rewrite <- (HN p0 Hp), <- (turned_norm q p0 Hq). ring.
Qed.
Lemma squeeze a b u : (forall s, 0 <= s < 1 -> a <= b + s * (u - b)) -> a <= u.
Proof.
  intros H. destruct (Rle_dec a u) as [|N]; [assumption|exfalso]. assert (a <= b) by (specialize (H 0); lra).
  set (s := 1 - (a - u) / (2 * (b - u))). assert (HB : 0 < b - u) by lra.
  assert (S1 : (a - u) / (2 * (b - u)) * (2 * (b - u)) = a - u) by (field; lra).
  assert (S2 : 0 < (a - u) / (2 * (b - u))) by (apply Rdiv_lt_0_compat; lra).
  assert (S3 : (a - u) / (2 * (b - u)) <= 1 / 2). { apply (Rmult_le_reg_r (2 * (b - u))); [lra|]. rewrite S1. lra. }
  specialize (H s). unfold s in *. assert (E : b + (1 - (a - u) / (2 * (b - u))) * (u - b) = u + (a - u) / 2) by (field; lra).
  rewrite E in H. lra.
Qed.
Lemma circle_box c r q p : 0 < r -> (q = quat_default \/ exists t, q = quat_angle t) ->
  (fst p - fst c) * (fst p - fst c) + (snd p - snd c) * (snd p - snd c) = r * r -> in_closed Rle (bounding_box2 (circle_make c r q)) [fst p; snd p].
Proof.
  intros Hr Hq HP.
  assert (HB : forall s, 0 <= s < 1 -> in_closed Rle (bounding_box2 (circle_make c r q)) [fst c + s * (fst p - fst c); snd c + s * (snd p - snd c)]).
  { intros s Hs. apply (C09_bounding_box_2d c r r 2 q (fst c + s * (fst p - fst c), snd c + s * (snd p - snd c))); try lra; auto.
    assert (LV : forall t, super_ellipse_level c r r 2 t (fst c + s * (fst p - fst c), snd c + s * (snd p - snd c)) < 1).
    { intros t. apply (circle_level c r t s); auto. cbn [fst snd]. rewrite <- HP. ring. }
    destruct Hq as [->|[t ->]]; apply (C09_contains_2d_is_the_turned_super_ellipse c r r 2); auto; lra. }
  destruct (bounding_box2 (circle_make c r q)) as [bl ur]. unfold in_closed in *. cbn [bottom_left upper_right] in *.
  destruct (HB 0 ltac:(lra)) as [H1 H2]. destruct bl as [|b0 [|b1 [|]]]; inversion H1 as [|? ? ? ? X1 X2]; subst; inversion X2 as [|? ? ? ? X3 X4]; subst; try (inversion X4; fail).
  destruct ur as [|u0 [|u1 [|]]]; inversion H2 as [|? ? ? ? Y1 Y2]; subst; inversion Y2 as [|? ? ? ? Y3 Y4]; subst; try (inversion Y4; fail).
  assert (HB' : forall s, 0 <= s < 1 -> b0 <= fst c + s * (fst p - fst c) <= u0 /\ b1 <= snd c + s * (snd p - snd c) <= u1).
  { intros s Hs. destruct (HB s Hs) as [A B]. inversion A as [|? ? ? ? A1 A2]; subst. inversion A2; subst. inversion B as [|? ? ? ? B1 B2]; subst. inversion B2; subst. lra. }
  assert (G0 : b0 <= fst p) by (apply (squeeze _ (fst c)); intros s Hs; apply HB', Hs).
  assert (G1 : b1 <= snd p) by (apply (squeeze _ (snd c)); intros s Hs; apply HB', Hs).
  assert (G2 : - u0 <= - fst p). { apply (squeeze _ (- fst c)). intros s Hs. destruct (HB' s Hs). nra. }
  assert (G3 : - u1 <= - snd p). { apply (squeeze _ (- snd c)). intros s Hs. destruct (HB' s Hs). nra. }
  split; (apply Forall2_cons; [lra|]; apply Forall2_cons; [lra|]; apply Forall2_nil).
Qed.
Lemma cell_in_pbox x u y : 0 <= y -> x <= y <= u -> (Rtrunc (x - 1) <= Rtrunc y < Rtrunc (u + 1))%Z.
Proof.
  intros H0 [H1 H2]. rewrite (Rtrunc_nonneg y) by exact H0. rewrite (Rtrunc_nonneg (u + 1)) by lra.
  pose proof (Int_part_bounds y) as [B1 B2]. pose proof (Int_part_bounds (u + 1)) as [B3 B4].
  assert (Z0 : (0 <= Int_part y)%Z). { assert (-1 < Int_part y)%Z by (apply lt_IZR; lra). lia. }
  split; [|apply lt_IZR; lra]. unfold Rtrunc. destruct (Rle_dec 0 (x - 1)) as [HX|HX].
  - pose proof (Int_part_bounds (x - 1)). assert (Int_part (x - 1) < Int_part y + 1)%Z by (apply lt_IZR; rewrite plus_IZR; lra). lia.
  - pose proof (Int_part_bounds (- (x - 1))) as [B5 B6]. assert (-1 < Int_part (- (x - 1)))%Z by (apply lt_IZR; lra). lia.
Qed.
Lemma cell_in_cells y n : 0 <= y < IZR n -> (0 <= Rtrunc y < n)%Z.
Proof.
  intros [H0 H1]. rewrite Rtrunc_nonneg by exact H0. pose proof (Int_part_bounds y) as [B1 B2].
  assert (-1 < Int_part y)%Z by (apply lt_IZR; lra). split; [lia|]. apply lt_IZR; lra.
Qed.
Lemma div_le a b h : 0 < h -> a <= b -> a / h <= b / h.
Proof. intros Hh H. unfold Rdiv. apply Rmult_le_compat_r; [|exact H]. left. apply Rinv_0_lt_compat, Hh. Qed.
Lemma circle_cells c r q p m0 m1 per0 per1 h0 h1 : 0 < r -> 0 < h0 -> 0 < h1 -> (q = quat_default \/ exists t, q = quat_angle t) ->
  r <= fst c -> fst c + r < IZR (if (per0 : bool) then m0 else m0 - 1) * h0 -> r <= snd c -> snd c + r < IZR (if (per1 : bool) then m1 else m1 - 1) * h1 ->
  (fst p - fst c) * (fst p - fst c) + (snd p - snd c) * (snd p - snd c) = r * r ->
  in_grid_box (bounding_box2_h (circle_make c r q) [h0; h1]) (cell_of [h0; h1] (vec2 p)) /\ in_grid_box (cells_box [m0; m1] [per0; per1]) (cell_of [h0; h1] (vec2 p)).
Proof.
  intros Hr H0 H1 Hq A0 A1 B0 B1 HP. pose proof (circle_box c r q p Hr Hq HP) as HB.
  assert (AB : forall a b, a * a + b * b = r * r -> - r <= a <= r). { clear - Hr. intros a b H. split; nra. }
  pose proof (AB _ _ HP) as X0. assert (X1 : - r <= snd p - snd c <= r) by (apply (AB _ (fst p - fst c)); lra).
  assert (D0 : 0 <= fst p / h0) by (apply Rle_mult_inv_pos; lra). assert (D1 : 0 <= snd p / h1) by (apply Rle_mult_inv_pos; lra).
  unfold cell_of, vec2, pos_to_int, pos_div, pos_div_assign. cbn [zip_with map].
  unfold bounding_box2_h, int_bounding_box. destruct (bounding_box2 (circle_make c r q)) as [bl ur]. destruct HB as [L U]. cbn [bottom_left upper_right] in L, U.
  destruct bl as [|b0 [|b1 [|]]]; inversion L as [|? ? ? ? L1 L2]; subst; inversion L2 as [|? ? ? ? L3 L4]; subst; try (inversion L4; fail).
  destruct ur as [|u0 [|u1 [|]]]; inversion U as [|? ? ? ? Y1 Y2]; subst; inversion Y2 as [|? ? ? ? Y3 Y4]; subst; try (inversion Y4; fail).
  unfold in_grid_box, cells_box. cbn [bottom_left upper_right map zip_with pos_to_int pos_minus_scalar pos_sub_assign_scalar pos_plus_scalar pos_add_assign_scalar pos_div pos_div_assign].
  destruct (cell_in_pbox (b0 / h0) (u0 / h0) (fst p / h0) D0) as [P0 P1]; [split; apply div_le; assumption|].
  destruct (cell_in_pbox (b1 / h1) (u1 / h1) (snd p / h1) D1) as [P2 P3]; [split; apply div_le; assumption|].
  destruct (cell_in_cells (fst p / h0) (if per0 then m0 else m0 - 1)%Z) as [C0 C1].
  { split; [exact D0|]. apply (Rmult_lt_reg_r h0); [exact H0|]. unfold Rdiv. rewrite Rmult_assoc, Rinv_l by lra. lra. }
  destruct (cell_in_cells (snd p / h1) (if per1 then m1 else m1 - 1)%Z) as [C2 C3].
  { split; [exact D1|]. apply (Rmult_lt_reg_r h1); [exact H1|]. unfold Rdiv. rewrite Rmult_assoc, Rinv_l by lra. lra. }
  split; split; (apply Forall2_cons; [assumption|]; apply Forall2_cons; [assumption|]; apply Forall2_nil).
Qed.

(** The circle lies inside the domain, away from its upper ends. *)
Definition circle_inside (c : R * R) (r : R) (m : list Z) (per : list bool) (h : vec) : Prop :=
  r <= fst c /\ r <= snd c /\
  fst c + r < IZR (nth 0 (upper_right (cells_box m per)) 0%Z) * co 0 h /\
  snd c + r < IZR (nth 1 (upper_right (cells_box m per)) 0%Z) * co 1 h.
Lemma len2Z {A} (l : list A) : length l = 2%nat -> exists a b, l = [a; b].
Proof. destruct l as [|a [|b [|]]]; simpl; intros; try lia. eauto. Qed.
Lemma circle_ctx fuel tol ctr r q vel w rho f m per h parts dms bc k scale i l :
  0 < r -> 0 < k -> 0 < tol -> (q = quat_default \/ exists t, q = quat_angle t) ->
  surface2 fuel (circle_make ctr r q) k tol = Ok l ->
  grid_ok m per -> length m = 2%nat -> distributes m per 2 dms -> steps_ok h m ->
  nth_error parts i = Some (circle_gpart fuel tol ctr r q vel w rho f) -> circle_inside ctr r m per h ->
  let c := create_Mat_and_Vec 2 h parts dms bc k scale in
  Permutation (gathered dms i (x_radial c)) (map (fun p => [fst p - fst ctr; snd p - snd ctr]) l) /\
  x_nb c i = Z.of_nat (length (gathered dms i (x_radial c))).
Proof.
  intros Hr Hk Ht Hq HS HG Hm HD [Lh Ph] Hi HI c.
  assert (Hi' : (i < length parts)%nat) by (apply nth_error_Some; congruence).
  assert (EN : nth i parts gpart0 = circle_gpart fuel tol ctr r q vel w rho f) by (apply nth_error_nth, Hi).
  assert (Lp : length per = 2%nat) by (rewrite <- Hm; apply HG).
  destruct (len2Z m Hm) as [m0 [m1 ->]]. destruct (len2Z per Lp) as [p0 [p1 ->]]. destruct (len2Z h) as [h0 [h1 ->]]; [exact Lh|].
  inversion Ph as [|? ? P0 Ph']; subst. inversion Ph' as [|? ? P1 _]; subst.
  destruct (circle_points fuel ctr r q k tol l Hr Hk Ht Hq HS) as (_ & _ & _ & HC).
  destruct HI as (I1 & I2 & I3 & I4). cbn in I3, I4.
  assert (Hpb : has_dim 2 (p_bbox (gp (nth i parts gpart0)) [h0; h1])).
  { rewrite EN. cbn [circle_gpart gp p_bbox]. unfold bounding_box2_h, int_bounding_box. unfold bounding_box2, circle_make, se2_make. cbn [c2 s2 q2].
    destruct ctr as [cx cy]. destruct (is_rotate q); cbn; split; reflexivity. }
  assert (Hsf : p_surface (gp (nth i parts gpart0)) k = map vec2 l) by (rewrite EN; cbn [circle_gpart gp p_surface]; rewrite HS; reflexivity).
  assert (Hal : all_len 2 (p_surface (gp (nth i parts gpart0)) k)).
  { rewrite Hsf. apply Forall_forall. intros v Hv. apply in_map_iff in Hv as [p [<- _]]. reflexivity. }
  split.
  - unfold c. rewrite (radial_perm 2 [m0; m1] [p0; p1] [h0; h1] parts dms bc k scale i HG HD Hm Lh Hi' Hpb Hal).
    + rewrite Hsf, EN, map_map. reflexivity.
    + rewrite Hsf, EN. intros v Hv. apply in_map_iff in Hv as [p [<- Hp]]. cbn [circle_gpart gp p_bbox].
      apply circle_cells; auto.
  - apply (x_nb_spec 2 [m0; m1] [p0; p1]); assumption.
Qed.
