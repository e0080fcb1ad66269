(** Properties C08-C13, C54: statements only. *)
From Verif Require Import Base M_Geometry S_Geometry M_Shapes S_Shapes P_Geometry P_Pow P_Shapes P_Sampling.
Open Scope R_scope.

(** C08 *)
Theorem C08_unit_axis_quaternion_is_rodrigues_rotation : forall angle axis v,
  dot3 axis axis = 1 -> rotate3 (quat_make angle axis) v = rodrigues angle axis v.
Proof. exact rotate3_rodrigues. Qed.
Print Assumptions C08_unit_axis_quaternion_is_rodrigues_rotation.
Theorem C08_rotation_preserves_scalar_products_and_conj_inverts : forall angle axis u v,
  dot3 axis axis = 1 ->
  let q := quat_make angle axis in
  dot3 (rotate3 q u) (rotate3 q v) = dot3 u v /\
  rotate3 (quat_conj q) (rotate3 q v) = v /\ rotate3 q (rotate3 (quat_conj q) v) = v /\
  is_rotate q = true.
Proof.
  intros angle axis u v H q. pose proof (quat_make_unit_quat angle axis H) as Hq.
  exact (conj (rotate3_dot q u v Hq) (conj (proj1 (rotate3_conj q v Hq)) (conj (proj2 (rotate3_conj q v Hq)) (is_rotate_unit q Hq)))).
Qed.
Print Assumptions C08_rotation_preserves_scalar_products_and_conj_inverts.
Theorem C08_planar_quaternion_is_planar_rotation : forall angle p q,
  rotate2 (quat_angle angle) p = planar_rotation angle p /\
  rotate2 (quat_conj (quat_angle angle)) p = planar_rotation (- angle) p /\
  dot2 (rotate2 (quat_angle angle) p) (rotate2 (quat_angle angle) q) = dot2 p q /\
  rotate2 (quat_conj (quat_angle angle)) (rotate2 (quat_angle angle) p) = p /\
  is_rotate (quat_angle angle) = true.
Proof.
  intros a p q. rewrite rotate2_conj_angle, !rotate2_angle, rotate2_conj_angle.
  exact (conj eq_refl (conj eq_refl (conj (planar_rotation_dot a p q) (conj (proj2 (planar_rotation_inv a p)) (is_rotate_angle a))))).
Qed.
Print Assumptions C08_planar_quaternion_is_planar_rotation.
Theorem C08_no_rotation_only_for_default : forall q, is_rotate q = false <-> q = quat_default.
Proof.
  intros q. split.
  - intros H. destruct q as [x y z w]. unfold is_rotate in H. simpl in H.
    destruct (Reqb_spec x 0), (Reqb_spec y 0), (Reqb_spec z 0), (Reqb_spec w 0); simpl in H; try discriminate. subst. reflexivity.
  - intros ->. exact is_rotate_default.
Qed.
Print Assumptions C08_no_rotation_only_for_default.
(** [normalize] divides by the squared norm, so a non-unit axis does not give a rotation. *)
Theorem C08_non_unit_axis_refuted :
  exists angle axis v, dot3 axis axis = 4 /\ dot3 v v = 1 /\
    dot3 (rotate3 (quat_make angle axis) v) (rotate3 (quat_make angle axis) v) = 1 / 4.
Proof.
  exists PI, (0, 0, 2), (1, 0, 0). rewrite quat_non_unit_witness. unfold dot3. repeat split; field.
Qed.
Print Assumptions C08_non_unit_axis_refuted.
Example C08_example : dot3 (2/3, 2/3, 1/3) (2/3, 2/3, 1/3) = 1.
Proof. unfold dot3; field. Qed.

(** C09 *)
Theorem C09_bounding_box_2d : forall c a b n q p, 0 < a -> 0 < b -> 0 < n ->
  (q = quat_default \/ exists t, q = quat_angle t) ->
  contains2 (se2_make c (a, b) n q) p = true ->
  in_closed Rle (bounding_box2 (se2_make c (a, b) n q)) [fst p; snd p].
Proof.
  intros c a b n q p Ha Hb Hn [->|[t ->]]; [apply bounding_box2_default_spec|apply bounding_box2_rotated_spec]; assumption.
Qed.
Print Assumptions C09_bounding_box_2d.
(** what [contains] means: the level function of the super-ellipse turned by the angle *)
Theorem C09_contains_2d_is_the_turned_super_ellipse : forall c a b n t p, 0 < n ->
  (contains2 (se2_make c (a, b) n (quat_angle t)) p = true <-> super_ellipse_level c a b n t p < 1) /\
  (contains2 (se2_make c (a, b) n quat_default) p = true <-> super_ellipse_level c a b n 0 p < 1).
Proof.
  intros c a b n t p Hn. unfold contains2. rewrite implicit2_level, implicit2_level_default by exact Hn.
  split.
  - destruct (Rltb_spec (super_ellipse_level c a b n t p) 1); split; intros; try discriminate; auto; contradiction.
  - destruct (Rltb_spec (super_ellipse_level c a b n 0 p) 1); split; intros; try discriminate; auto; contradiction.
Qed.
Print Assumptions C09_contains_2d_is_the_turned_super_ellipse.
Theorem C09_bounding_box_3d_unrotated : forall cx cy cz a b d n e x y z,
  0 < a -> 0 < b -> 0 < d -> 0 < n -> 0 < e ->
  contains3 (se3_make (cx, cy, cz) (a, b, d) n e quat_default) (x, y, z) = true ->
  in_closed Rle (bounding_box3 (se3_make (cx, cy, cz) (a, b, d) n e quat_default)) [x; y; z].
Proof. exact bounding_box3_default_spec. Qed.
Print Assumptions C09_bounding_box_3d_unrotated.
Theorem C09_bounding_box_sphere_any_orientation : forall cx cy cz r angle axis x y z,
  0 < r -> dot3 axis axis = 1 ->
  contains3 (sphere_make (cx, cy, cz) r (quat_make angle axis)) (x, y, z) = true ->
  in_closed Rle (bounding_box3 (sphere_make (cx, cy, cz) r (quat_make angle axis))) [x; y; z].
Proof. intros cx cy cz r angle axis x y z Hr Hu. apply sphere_bounding_box; [exact Hr|]. apply quat_make_unit_quat, Hu. Qed.
Print Assumptions C09_bounding_box_sphere_any_orientation.
Theorem C09_bounding_box_3d_rotated_refuted :
  let s := se3_make (0, 0, 0) (2, 1, 1) 2 2 (quat_make (PI / 2) (0, 0, 1)) in
  contains3 s (3/2, 0, 0) = true /\ ~ in_closed Rle (bounding_box3 s) [3/2; 0; 0].
Proof. exact bounding_box3_rotated_witness. Qed.
Print Assumptions C09_bounding_box_3d_rotated_refuted.
Theorem C09_bounding_box_2d_tilted_refuted :
  let s := se2_make (0, 0) (1, 1) 2 (quat_make (PI / 2) (1, 0, 0)) in
  contains2 s (0, 5) = true /\ ~ in_closed Rle (bounding_box2 s) [0; 5].
Proof. exact bounding_box2_tilted_witness. Qed.
Print Assumptions C09_bounding_box_2d_tilted_refuted.
Example C09_example : contains2 (se2_make (1, 2) (3, 1) 2 (quat_angle (PI/3))) (1, 2) = true.
Proof.
  apply (proj1 (C09_contains_2d_is_the_turned_super_ellipse (1,2) 3 1 2 (PI/3) (1,2) ltac:(lra))).
  unfold super_ellipse_level, planar_rotation; cbn [fst snd].
  replace (1 - 1) with 0 by ring. replace (2 - 2) with 0 by ring. rewrite !Rmult_0_r, Rminus_0_r, Rplus_0_r.
  unfold Rdiv. rewrite !Rmult_0_l, Rabs_R0, cpow_0_l by lra. lra.
Qed.

(** C10 *)
Theorem C10_grid_points_of_particle_in_index_box_2d : forall c a b n q h0 h1 i j,
  0 < a -> 0 < b -> 0 < n -> 0 < h0 -> 0 < h1 ->
  (q = quat_default \/ exists t, q = quat_angle t) ->
  contains2 (se2_make c (a, b) n q) (IZR i * h0, IZR j * h1) = true ->
  in_grid_box (bounding_box2_h (se2_make c (a, b) n q) [h0; h1]) [i; j].
Proof.
  intros c a b n q h0 h1 i j Ha Hb Hn H0 H1 Hq H.
  pose proof (C09_bounding_box_2d c a b n q _ Ha Hb Hn Hq H) as HB. cbn [fst snd] in HB.
  apply int_bounding_box_covers; try reflexivity.
  - destruct HB as [HB _]. apply Forall2_len in HB. simpl in HB. exact HB.
  - destruct HB as [_ HB]. apply Forall2_len in HB. simpl in HB. symmetry; exact HB.
  - repeat (apply Forall_cons; [assumption|]); apply Forall_nil.
  - exact HB.
Qed.
Print Assumptions C10_grid_points_of_particle_in_index_box_2d.
Theorem C10_grid_points_of_particle_in_index_box_3d : forall cx cy cz a b d n e h0 h1 h2 i j k,
  0 < a -> 0 < b -> 0 < d -> 0 < n -> 0 < e -> 0 < h0 -> 0 < h1 -> 0 < h2 ->
  contains3 (se3_make (cx, cy, cz) (a, b, d) n e quat_default) (IZR i * h0, IZR j * h1, IZR k * h2) = true ->
  in_grid_box (bounding_box3_h (se3_make (cx, cy, cz) (a, b, d) n e quat_default) [h0; h1; h2]) [i; j; k].
Proof.
  intros cx cy cz a b d n e h0 h1 h2 i j k Ha Hb Hd Hn He H0 H1 H2 H.
  pose proof (bounding_box3_default_spec cx cy cz a b d n e _ _ _ Ha Hb Hd Hn He H) as HB.
  apply int_bounding_box_covers; try reflexivity.
  - destruct HB as [HB _]. apply Forall2_len in HB. simpl in HB. exact HB.
  - destruct HB as [_ HB]. apply Forall2_len in HB. simpl in HB. symmetry; exact HB.
  - repeat (apply Forall_cons; [assumption|]); apply Forall_nil.
  - exact HB.
Qed.
Print Assumptions C10_grid_points_of_particle_in_index_box_3d.
(** the conversion itself, for any real box, any dimension, any sign *)
Theorem C10_index_box_covers_real_box : forall b h p,
  length (bottom_left b) = length h -> length (upper_right b) = length h -> length p = length h ->
  Forall (fun x => 0 < x) h ->
  in_closed Rle b (zip_with (fun i hi => IZR i * hi) p h) ->
  in_grid_box (int_bounding_box b h) p.
Proof. exact int_bounding_box_covers. Qed.
Print Assumptions C10_index_box_covers_real_box.
Example C10_example : contains2 (circle_make (0, 0) 1 quat_default) (IZR (-1) * (1/2), IZR 1 * (1/2)) = true.
Proof.
  unfold contains2, circle_make. rewrite implicit2_level_default by lra. unfold super_ellipse_level, planar_rotation; cbn [fst snd].
  rewrite Ropp_0, cos_0, sin_0. rewrite !cpow_2_r by apply Rabs_pos. rewrite <- !Rabs_mult, !Rabs_right by nra.
  match goal with |- Rltb ?a ?b = true => destruct (Rltb_spec a b); [reflexivity|exfalso; lra] end.
Qed.

(** C11 *)
Theorem C11_sample_on_curve_symmetric_distinct : forall fuel a b n k tol l,
  0 < a -> 0 < b -> 0 < n -> 0 < k -> 0 < tol ->
  uniform_sampling2 fuel (a, b) (2 / n) k tol = Ok l ->
  (forall p, In p l -> super_ellipse_level (0, 0) a b n 0 p = 1) /\
  NoDup l /\
  invariant_under (fun p => (- fst p, snd p)) l /\ invariant_under (fun p => (fst p, - snd p)) l /\
  sumR (map fst l) = 0 /\ sumR (map snd l) = 0 /\
  (exists m, (1 <= m)%nat /\ length l = (8 * m - 4)%nat).
Proof.
  intros fuel a b n k tol l Ha Hb Hn Hk Ht H.
  assert (Hm : 0 < 2 / n) by (apply Rdiv_lt_0_compat; lra).
  destruct (uniform_sampling2_props fuel a b (2 / n) k tol l Ha Hb Hm Hk Ht H) as [H1 H2]. split; [|exact H2].
  intros p Hp. apply H1 in Hp. replace (2 / (2 / n)) with n in Hp by (field; lra).
  unfold super_ellipse_level, planar_rotation; cbn [fst snd]. rewrite Ropp_0, cos_0, sin_0.
  replace (1 * (fst p - 0) - 0 * (snd p - 0)) with (fst p) by ring.
  replace (0 * (fst p - 0) + 1 * (snd p - 0)) with (snd p) by ring. exact Hp.
Qed.
Print Assumptions C11_sample_on_curve_symmetric_distinct.
Theorem C11_circle_sample_is_equally_spaced : forall fuel r k tol l,
  0 < r -> 0 < k -> 0 < tol ->
  uniform_sampling2 fuel (r, r) 1 k tol = Ok l ->
  exists m, (1 <= m)%nat /\ length l = (8 * m - 4)%nat /\
    INR (m - 1) * k < PI / 4 <= INR m * k /\
    (forall p, In p l -> fst p * fst p + snd p * snd p = r * r) /\
    (forall i, (i < m)%nat -> In (r * cos (INR i * k), r * sin (INR i * k)) l).
Proof. exact uniform_sampling2_circle. Qed.
Print Assumptions C11_circle_sample_is_equally_spaced.

(** C12 *)
Theorem C12_sampling_terminates : forall a b n k tol, 0 < n -> 0 < k -> 0 < tol ->
  exists N l, forall fuel, (N <= fuel)%nat -> uniform_sampling2 fuel (a, b) (2 / n) k tol = Ok l.
Proof. intros a b n k tol Hn. apply uniform_sampling2_terminates. apply Rdiv_lt_0_compat; lra. Qed.
Print Assumptions C12_sampling_terminates.
Theorem C12_zero_step_never_terminates : forall r n tol, 0 < n -> 0 < tol ->
  forall fuel, uniform_sampling2 fuel r (2 / n) 0 tol = OutOfFuel.
Proof. intros r n tol Hn. apply uniform_sampling2_zero_step. apply Rdiv_lt_0_compat; lra. Qed.
Print Assumptions C12_zero_step_never_terminates.

(** C13 *)
Theorem C13_surface_2d_on_boundary : forall fuel c a b n q k tol l,
  0 < a -> 0 < b -> 0 < n -> 0 < k -> 0 < tol ->
  (q = quat_default \/ exists t, q = quat_angle t) ->
  surface2 fuel (se2_make c (a, b) n q) k tol = Ok l ->
  forall p, In p l -> implicit2 (se2_make c (a, b) n q) p = 1 /\ contains2 (se2_make c (a, b) n q) p = false.
Proof.
  intros fuel c a b n q k tol l Ha Hb Hn Hk Ht Hq H p Hp.
  pose proof (surface2_on_boundary fuel c a b n q k tol l Ha Hb Hn Hk Ht Hq H p Hp) as E.
  split; [exact E|]. unfold contains2. rewrite E. destruct (Rltb_spec 1 1); [lra|reflexivity].
Qed.
Print Assumptions C13_surface_2d_on_boundary.
Theorem C13_surface_2d_terminates : forall c a b n q k tol, 0 < n -> 0 < k -> 0 < tol ->
  exists N l, forall fuel, (N <= fuel)%nat -> surface2 fuel (se2_make c (a, b) n q) k tol = Ok l.
Proof. exact surface2_terminates. Qed.
Print Assumptions C13_surface_2d_terminates.
Theorem C13_sampled_points_on_boundary : forall c a b n u, 0 < a -> 0 < b -> 0 < n ->
  implicit2 (se2_make c (a, b) n quat_default) (at2 (se2_make c (a, b) n quat_default) u) = 1.
Proof. exact at2_on_surface. Qed.
Print Assumptions C13_sampled_points_on_boundary.
Theorem C13_sampled_points_on_boundary_3d : forall c a b d n e q u v,
  0 < a -> 0 < b -> 0 < d -> 0 < n -> 0 < e ->
  implicit3 (se3_make c (a, b, d) n e q) (at3 (se3_make c (a, b, d) n e q) u v) = 1.
Proof. exact at3_on_surface. Qed.
Print Assumptions C13_sampled_points_on_boundary_3d.
Theorem C13_radial_vectors_are_points_minus_centre : forall s2' s3' us vs,
  map (fun p => sub2 p (c2 s2')) (surface2_samples s2' us) = radial2_samples s2' us /\
  (length us = length vs ->
   exists pts, surface3_samples s3' us vs = Ok pts /\ length pts = length us /\
     radial3_samples s3' us vs = Ok (map (fun p => sub3 p (c3 s3')) pts)).
Proof.
  intros s s' us vs. split.
  - unfold surface2_samples, radial2_samples. rewrite map_map. apply map_ext. intros u. apply at2_radial.
  - intros H. unfold surface3_samples, radial3_samples. rewrite H, Nat.eqb_refl. eexists. split; [reflexivity|].
    split; [|f_equal]; revert vs H; induction us as [|u us IH]; intros [|v vs] H; simpl in *; try reflexivity; try discriminate.
    + f_equal. injection H as H. rewrite (IH vs H). auto.
    + rewrite at3_radial. f_equal. apply IH. injection H as H; exact H.
Qed.
Print Assumptions C13_radial_vectors_are_points_minus_centre.
(** the point follows its parameter: the sign of each offset from the centre is that of the cosine (sine) of the angle and
    its size is the half-axis times |cos u|^(2/n) (|sin u|^(2/n)); in 3D u is the longitude and v the latitude *)
Lemma copysign_val x y : 0 <= x -> (y = 0 -> x = 0) -> (0 < y -> copysign x y = x) /\ (y < 0 -> copysign x y = - x) /\ (y = 0 -> copysign x y = 0).
Proof.
  intros Hx H0. unfold copysign. rewrite Rabs_pos_eq by exact Hx.
  split; [|split]; intros H; destruct (Rltb_spec y 0); try lra; apply H0, H.
Qed.
Lemma se_c_val w m : 0 < m -> (0 < cos w -> se_c w m = Rpower (cos w) m) /\ (cos w < 0 -> se_c w m = - Rpower (- cos w) m) /\ (cos w = 0 -> se_c w m = 0).
Proof.
  intros Hm. unfold se_c. destruct (copysign_val (cpow (Rabs (cos w)) m) (cos w)) as (A & B & C).
  - apply cpow_nonneg; [apply Rabs_pos|exact Hm].
  - intros ->. rewrite Rabs_R0. apply cpow_0_l. lra.
  - split; [|split]; intros H.
    + rewrite A by exact H. rewrite Rabs_pos_eq by lra. apply cpow_pos_eq, H.
    + rewrite B by exact H. rewrite Rabs_left by exact H. rewrite cpow_pos_eq by lra. reflexivity.
    + apply C, H.
Qed.
Lemma se_s_val w m : 0 < m -> (0 < sin w -> se_s w m = Rpower (sin w) m) /\ (sin w < 0 -> se_s w m = - Rpower (- sin w) m) /\ (sin w = 0 -> se_s w m = 0).
Proof.
  intros Hm. unfold se_s. destruct (copysign_val (cpow (Rabs (sin w)) m) (sin w)) as (A & B & C).
  - apply cpow_nonneg; [apply Rabs_pos|exact Hm].
  - intros ->. rewrite Rabs_R0. apply cpow_0_l. lra.
  - split; [|split]; intros H.
    + rewrite A by exact H. rewrite Rabs_pos_eq by lra. apply cpow_pos_eq, H.
    + rewrite B by exact H. rewrite Rabs_left by exact H. rewrite cpow_pos_eq by lra. reflexivity.
    + apply C, H.
Qed.
Definition signed_power (y m v : R) : Prop := (0 < y -> v = Rpower y m) /\ (y < 0 -> v = - Rpower (- y) m) /\ (y = 0 -> v = 0).
Theorem C13_sampled_points_follow_parameters : forall cx cy a b n q u, 0 < n ->
  exists X Y, at2 (se2_make (cx, cy) (a, b) n q) u = (cx + a * X, cy + b * Y) /\ signed_power (cos u) (2 / n) X /\ signed_power (sin u) (2 / n) Y.
Proof.
  intros cx cy a b n q u Hn. assert (0 < 2 / n) by (apply Rdiv_lt_0_compat; lra). exists (se_c u (2 / n)), (se_s u (2 / n)).
  split; [unfold at2, se2_make; cbn [c2 s2 n2_ fst snd]; f_equal; ring|]. split; [apply se_c_val|apply se_s_val]; assumption.
Qed.
Print Assumptions C13_sampled_points_follow_parameters.
Theorem C13_sampled_points_follow_parameters_3d : forall cx cy cz a b d n e q u v, 0 < n -> 0 < e ->
  exists X Y S W, at3 (se3_make (cx, cy, cz) (a, b, d) n e q) u v = (cx + a * (W * X), cy + b * (W * Y), cz + d * S) /\
    signed_power (cos u) (2 / e) X /\ signed_power (sin u) (2 / e) Y /\ signed_power (cos v) (2 / n) W /\ signed_power (sin v) (2 / n) S.
Proof.
  intros cx cy cz a b d n e q u v Hn He. assert (0 < 2 / n) by (apply Rdiv_lt_0_compat; lra). assert (0 < 2 / e) by (apply Rdiv_lt_0_compat; lra).
  exists (se_c u (2 / e)), (se_s u (2 / e)), (se_s v (2 / n)), (se_c v (2 / n)).
  split; [unfold at3, se3_make; cbn [c3 s3 n3_ e3_]; apply f_equal2; [apply f_equal2|]; ring|].
  repeat split; try apply se_c_val; try apply se_s_val; assumption.
Qed.
Print Assumptions C13_sampled_points_follow_parameters_3d.
(** [at(u)] ignores the orientation: for a rotated particle the point is not on its surface *)
Theorem C13_sampled_points_rotated_refuted :
  let s := se2_make (0, 0) (2, 1) 2 (quat_angle (PI / 2)) in implicit2 s (at2 s 0) = 4.
Proof. exact at2_rotated_witness. Qed.
Print Assumptions C13_sampled_points_rotated_refuted.
(** 3D [surface(k)] appends to the vector it is iterating over: never a defined result *)
Theorem C13_surface_3d_refuted : forall fuel fuel2 s k0 k1 tol l, surface3 fuel fuel2 s k0 k1 tol <> Ok l.
Proof. exact surface3_never_ok. Qed.
Print Assumptions C13_surface_3d_refuted.

(** C54 *)
Theorem C54_circle_constants : forall c r q, 0 < r ->
  let s := circle_make c r q in
  circle_surface_area s = 2 * PI * r /\ circle_volume s = PI * r ^ 2 /\
  0 < circle_volume s /\ 0 < circle_surface_area s /\
  2 * circle_volume s = r * circle_surface_area s /\
  circle_Cd_R s = 1 / r ^ 2 /\ circle_Ci_R s = 2 / r ^ 2 /\
  (forall r' c' q', r < r' -> circle_volume s < circle_volume (circle_make c' r' q') /\
                              circle_surface_area s < circle_surface_area (circle_make c' r' q')).
Proof.
  intros c r q Hr s. unfold s, circle_make, se2_make, circle_surface_area, circle_volume, circle_Cd_R, circle_Ci_R; cbn [s2 fst].
  pose proof PI_RGT_0 as HP. pose proof (Rmult_lt_0_compat PI r HP Hr) as H1. pose proof (Rmult_lt_0_compat _ r H1 Hr) as H2.
  split; [field|]. split; [field|]. split; [nra|]. split; [nra|]. split; [field|]. split; [field; lra|]. split; [field; lra|].
  intros r' _ _ Hr'. assert (A : r * r < r' * r') by nra. split.
  - rewrite !Rmult_assoc. apply Rmult_lt_compat_l; lra.
  - apply Rmult_lt_compat_l; lra.
Qed.
Print Assumptions C54_circle_constants.
Theorem C54_sphere_constants : forall c r q, 0 < r ->
  let s := sphere_make c r q in
  sphere_surface_area s = 4 * PI * r ^ 2 /\ sphere_volume s = 4 / 3 * PI * r ^ 3 /\
  0 < sphere_volume s /\ 0 < sphere_surface_area s /\
  3 * sphere_volume s = r * sphere_surface_area s /\
  sphere_Cd_R s = 3 / 2 / r ^ 2 /\ sphere_Ci_R s = 5 / 2 / r ^ 2 /\
  (forall r' c' q', r < r' -> sphere_volume s < sphere_volume (sphere_make c' r' q') /\
                              sphere_surface_area s < sphere_surface_area (sphere_make c' r' q')).
Proof.
  intros c r q Hr s. unfold s, sphere_make, se3_make, sphere_surface_area, sphere_volume, sphere_Cd_R, sphere_Ci_R, s30; cbn [s3 fst].
  pose proof PI_RGT_0 as HP. pose proof (Rmult_lt_0_compat PI r HP Hr) as H1. pose proof (Rmult_lt_0_compat _ r H1 Hr) as H2.
  pose proof (Rmult_lt_0_compat _ r H2 Hr) as H3.
  split; [field|]. split; [field|]. split; [nra|]. split; [nra|]. split; [field|]. split; [field; lra|]. split; [field; lra|].
  intros r' _ _ Hr'.
  assert (A : r * r < r' * r') by nra. assert (B : r * r * r < r' * r' * r') by nra.
  split.
  - replace (4 / 3 * PI * r * r * r) with (4 / 3 * PI * (r * r * r)) by ring.
    replace (4 / 3 * PI * r' * r' * r') with (4 / 3 * PI * (r' * r' * r')) by ring. apply Rmult_lt_compat_l; lra.
  - replace (4 * PI * r * r) with (4 * PI * (r * r)) by ring. replace (4 * PI * r' * r') with (4 * PI * (r' * r')) by ring.
    apply Rmult_lt_compat_l; lra.
Qed.
Print Assumptions C54_sphere_constants.
(** a circle contains the open disc, and a sphere the open ball, of its radius, whatever its orientation *)
Lemma ratio_lt_1 u r : 0 < r -> (u / (r * r) < 1 <-> u < r * r).
Proof.
  intros Hr. assert (P : 0 < r * r) by nra. split; intros H.
  - apply (Rmult_lt_compat_r (r * r)) in H; [|exact P]. unfold Rdiv in H. rewrite Rmult_assoc, Rinv_l, Rmult_1_r, Rmult_1_l in H by lra. exact H.
  - apply (Rmult_lt_reg_r (r * r)); [exact P|]. unfold Rdiv. rewrite Rmult_assoc, Rinv_l, Rmult_1_r, Rmult_1_l by lra. exact H.
Qed.
Theorem C54_circle_is_the_disc : forall c r q p, 0 < r -> (q = quat_default \/ exists t, q = quat_angle t) ->
  (contains2 (circle_make c r q) p = true <-> (fst p - fst c) ^ 2 + (snd p - snd c) ^ 2 < r ^ 2).
Proof.
  intros c r q p Hr Hq. unfold circle_make.
  assert (E : exists t, contains2 (se2_make c (r, r) 2 q) p = true <-> super_ellipse_level c r r 2 t p < 1).
  { destruct Hq as [-> | (t & ->)].
    - exists 0. apply (C09_contains_2d_is_the_turned_super_ellipse c r r 2 0 p); lra.
    - exists t. apply (C09_contains_2d_is_the_turned_super_ellipse c r r 2 t p); lra. }
  destruct E as [t ->]. unfold super_ellipse_level, planar_rotation. cbn [fst snd].
  rewrite !cpow_2_r by apply Rabs_pos. rewrite <- !Rabs_mult, !Rabs_pos_eq by apply Rle_0_sqr.
  set (a := fst p - fst c). set (b := snd p - snd c).
  pose proof (sin2_cos2 (- t)) as S. unfold Rsqr in S.
  assert (E : (cos (- t) * a - sin (- t) * b) / r * ((cos (- t) * a - sin (- t) * b) / r) + (sin (- t) * a + cos (- t) * b) / r * ((sin (- t) * a + cos (- t) * b) / r) = (a ^ 2 + b ^ 2) / (r * r)).
  { replace (a ^ 2 + b ^ 2) with ((sin (- t) * sin (- t) + cos (- t) * cos (- t)) * (a ^ 2 + b ^ 2)) by (rewrite S; ring). field; lra. }
  rewrite E, ratio_lt_1 by exact Hr. replace (r ^ 2) with (r * r) by ring. tauto.
Qed.
Print Assumptions C54_circle_is_the_disc.
Theorem C54_sphere_is_the_ball : forall cx cy cz r q x y z, 0 < r ->
  (contains3 (sphere_make (cx, cy, cz) r q) (x, y, z) = true <-> (x - cx) ^ 2 + (y - cy) ^ 2 + (z - cz) ^ 2 < r ^ 2).
Proof.
  intros cx cy cz r q x y z Hr. unfold contains3, sphere_make. rewrite implicit3_level by lra. unfold super_ellipsoid_level.
  replace (2 / 2) with 1 by field. rewrite cpow_1_r.
  2: { rewrite !cpow_2_r by apply Rabs_pos. pose proof (Rabs_pos ((x - cx) / r)). pose proof (Rabs_pos ((y - cy) / r)). nra. }
  rewrite !cpow_2_r by apply Rabs_pos. rewrite <- !Rabs_mult, !Rabs_pos_eq by apply Rle_0_sqr.
  match goal with |- context [Rltb ?a 1] => assert (E : a = ((x - cx) ^ 2 + (y - cy) ^ 2 + (z - cz) ^ 2) / (r * r)) by (field; lra); rewrite E end.
  match goal with |- (Rltb ?a 1 = true <-> _) => assert (B : Rltb a 1 = true <-> a < 1) by (destruct (Rltb_spec a 1); split; intros; try discriminate; auto; contradiction) end.
  rewrite B, ratio_lt_1 by exact Hr. replace (r ^ 2) with (r * r) by ring. tauto.
Qed.
Print Assumptions C54_sphere_is_the_ball.
Example C54_example : circle_volume (circle_make (1, 1) 2 quat_default) = 4 * PI.
Proof. unfold circle_volume, circle_make, se2_make; simpl; ring. Qed.
Close Scope R_scope.
