(** Properties C14-C16, C53: statements only. *)
From Verif Require Import Base M_Geometry S_Geometry P_Geometry M_Particle S_Particle P_Particle.

(** C14 *)
Theorem C14_fluid_points_found_exactly_once : forall D contains b h,
  D = 2 \/ D = 3 -> has_dim D b -> length h = D ->
  Forall is_int (bottom_left b) -> Forall is_int (upper_right b) ->
  Forall (fun z => (0 <= z)%Z) (bottom_left b) -> Forall (fun z => (0 <= z)%Z) (upper_right b) ->
  (forall p, In p (find_fluid_points D contains b h) <-> in_grid_box b p /\ contains (grid_point h p) = true) /\
  NoDup (find_fluid_points D contains b h) /\ strictly_increasing colex_lt (find_fluid_points D contains b h).
Proof.
  exact (fun D c b h HD Hb Hh I1 I2 N1 N2 => find_fluid_points_spec D c b h HD Hb Hh (conj I1 I2) (conj N1 N2)).
Qed.
Print Assumptions C14_fluid_points_found_exactly_once.
(** a box whose lower corner is negative yields nothing, whatever the particle: the
    counters are unsigned *)
Theorem C14_negative_lower_corner_refuted : forall contains a0 a1 c0 c1 h0 h1,
  is_int a0 -> is_int a1 -> is_int c0 -> is_int c1 -> (0 <= c0)%Z -> (0 <= c1)%Z ->
  ((a0 < 0)%Z \/ (a1 < 0)%Z) ->
  find_fluid_points 2 contains (mkbox [a0; a1] [c0; c1]) [h0; h1] = [].
Proof.
  intros contains a0 a1 c0 c1 h0 h1 Ia0 Ia1 Ic0 Ic1 P0 P1 H. simpl. unfold find_fluid_points2; simpl.
  destruct (Z_lt_dec a1 0) as [H1|H1]; [apply for_size_t_neg; assumption|]. destruct H as [H0|H0]; [|contradiction].
  rewrite for_size_t_spec by (try assumption; lia).
  induction (zrange a1 c1) as [|j l IH]; simpl; [reflexivity|]. rewrite IH, for_size_t_neg by assumption. reflexivity.
Qed.
Print Assumptions C14_negative_lower_corner_refuted.
Example C14_example :
  find_fluid_points 2 (fun _ => true) (mkbox [1; 2]%Z [3; 4]%Z) [1; 1]%R = [[1; 2]; [2; 2]; [1; 3]; [2; 3]]%Z.
Proof. reflexivity. Qed.

(** C15 *)
Theorem C15_surface_points_kept_iff_cell_in_box : forall D surf_p b h center,
  has_dim D b -> length h = D -> Forall (fun p => length p = D) surf_p ->
  exists kept,
    (forall p, In p kept <-> In p surf_p /\ in_grid_box b (cell_of h p)) /\
    (exists t, kept = filter t surf_p) /\
    find_surf_points_insides surf_p b h
      = map (fun p => (cell_of h p, pos_minus p (grid_point h (cell_of h p)))) kept /\
    find_radial_surf_points_insides surf_p b h center = map (fun p => pos_minus p center) kept /\
    length (find_surf_points_insides surf_p b h) = length (find_radial_surf_points_insides surf_p b h center).
Proof.
  intros D surf_p b h c Hb Hh HL. exists (filter (fun p => point_inside Z.ltb b (cell_of h p)) surf_p).
  rewrite find_surf_points_filter, find_radial_filter, !map_length. repeat split.
  - apply filter_In in H. apply H.
  - apply filter_In in H as [H1 H2]. rewrite Forall_forall in HL.
    apply (point_inside_grid D) in H2; auto; [apply H2|apply cell_of_length; auto].
  - apply filter_In in H as [H1 H2]. rewrite Forall_forall in HL.
    apply (point_inside_grid D) in H2; auto; [apply H2|apply cell_of_length; auto].
  - intros [H1 H2]. apply filter_In. split; [exact H1|]. rewrite Forall_forall in HL.
    apply (point_inside_grid D); auto. apply cell_of_length; auto.
  - eexists; reflexivity.
  - apply map_ext. intros p. f_equal. f_equal. unfold pos_times, pos_mul_assign, pos_of_int, grid_point.
    generalize (cell_of h p) as c'. clear. revert h; intros h c'. revert h; induction c' as [|z c' IH]; intros [|x h]; simpl; try reflexivity. f_equal; apply IH.
Qed.
Print Assumptions C15_surface_points_kept_iff_cell_in_box.
Theorem C15_offset_in_cell : forall h p i,
  length p = length h -> i < length h -> (0 < nth i h 0)%R ->
  let c := nth i (cell_of h p) 0%Z in
  let e := nth i (pos_minus p (pos_times (pos_of_int (cell_of h p)) h)) 0%R in
  (nth i p 0 = IZR c * nth i h 0 + e)%R /\
  (0 <= nth i p 0 -> 0 <= e < nth i h 0)%R /\ (- nth i h 0 < e < nth i h 0)%R.
Proof. exact surf_offset. Qed.
Print Assumptions C15_offset_in_cell.
(** a point just below the domain is truncated to cell 0 with a negative offset *)
Theorem C15_negative_coordinate_refuted :
  find_surf_points_insides [[-1/2]%R] (mkbox [0%Z] [5%Z]) [1%R] = [([0%Z], [(-1/2 - 0 * 1)%R])].
Proof.
  assert (E : cell_of [1%R] [(-1/2)%R] = [0%Z]).
  { unfold cell_of, pos_to_int, pos_div, pos_div_assign; simpl. f_equal. unfold Rtrunc.
    destruct (Rle_dec 0 (-1/2/1)) as [H|H]; [lra|]. rewrite (Int_part_unique _ 0); [reflexivity|simpl; lra]. }
  unfold find_surf_points_insides. rewrite E. reflexivity.
Qed.
Print Assumptions C15_negative_coordinate_refuted.

(** C16: the reduced counts do not depend on how the domain box is cut. *)
Theorem C16_counts_independent_of_partition : forall D parts bs B h dpart scale i dp,
  D = 2 \/ D = 3 -> length h = D -> tiling bs B -> has_dim D B -> Forall (has_dim D) bs ->
  i < length parts ->
  has_dim D (p_bbox (nth i parts dp) h) ->
  Forall (fun q => length q = D) (p_surface (nth i parts dp) dpart) ->
  let run b := set_materials_local D parts b h dpart scale (repeat mat0 (length parts)) in
  allreduce m_nb (map run bs) i = m_nb (nth i (snd (run B)) mat0) /\
  allreduce m_num (map run bs) i = m_num (nth i (snd (run B)) mat0).
Proof.
  intros D parts bs B h dpart scale i dp HD Hh HT HB Hbs Hi Hpb Hs run. unfold run.
  rewrite !allreduce_bsum, !bsum_map, !(set_materials_nth D parts B h dpart scale i dp Hi). split.
  - rewrite <- (nb_tiling D (nth i parts dp) h dpart scale HD Hh Hpb Hs bs B HT HB Hbs).
    apply bsum_ext. intros b _. rewrite (set_materials_nth D parts b h dpart scale i dp Hi). reflexivity.
  - rewrite <- (num_tiling D (nth i parts dp) h dpart scale HD Hh Hpb bs B HT HB Hbs).
    apply bsum_ext. intros b _. rewrite (set_materials_nth D parts b h dpart scale i dp Hi). reflexivity.
Qed.
Print Assumptions C16_counts_independent_of_partition.
Theorem C16_fluid_points_independent_of_partition : forall D p bs B h dpart scale,
  D = 2 \/ D = 3 -> length h = D -> tiling bs B -> has_dim D B -> Forall (has_dim D) bs ->
  has_dim D (p_bbox p h) -> Forall (fun q => length q = D) (p_surface p dpart) ->
  (forall b, In b (B :: bs) -> let o := box_inside Z.ltb b (p_bbox p h) in
     (Forall is_int (bottom_left o) /\ Forall is_int (upper_right o)) /\
     (Forall (fun z => (0 <= z)%Z) (bottom_left o) /\ Forall (fun z => (0 <= z)%Z) (upper_right o))) ->
  fold_right Z.add 0%Z (map (fun b => Z.of_nat (fst (set_material D p b h dpart scale mat0))) bs)
  = Z.of_nat (fst (set_material D p B h dpart scale mat0)).
Proof.
  intros D p bs B h dpart scale HD Hh HT HB Hbs Hpb Hs Hok.
  rewrite <- (fluid_tiling D p h dpart scale HD Hh Hpb Hs bs B HT HB Hbs Hok). unfold bsum.
  generalize bs at 1 2. intros l. clear. induction l as [|b l IH]; simpl; [reflexivity|]. rewrite IH; reflexivity.
Qed.
Print Assumptions C16_fluid_points_independent_of_partition.
(** [num] is only ever incremented: a second call on the same arrays adds the count again *)
Theorem C16_second_call_accumulates_refuted : forall D p b h dpart scale,
  D = 2 \/ D = 3 -> length h = D -> has_dim D (p_bbox p h) -> has_dim D b ->
  let first := snd (set_material D p b h dpart scale mat0) in
  m_num (snd (set_material D p b h dpart scale first)) = (2 * m_num first)%Z.
Proof.
  intros D p b h dpart scale HD Hh Hpb Hb first. unfold first.
  rewrite !(num_count D p h dpart scale HD Hh Hpb) by exact Hb. cbn [m_num mat0]. lia.
Qed.
Print Assumptions C16_second_call_accumulates_refuted.
Example C16_example : tiling [mkbox [0; 0]%Z [2; 5]%Z; mkbox [2; 0]%Z [4; 5]%Z] (mkbox [0; 0]%Z [4; 5]%Z).
Proof.
  assert (H2 : forall a0 a1 c0 c1 p, in_grid_box (mkbox [a0; a1] [c0; c1]) p <->
     exists x y, p = [x; y] /\ (a0 <= x < c0)%Z /\ (a1 <= y < c1)%Z).
  { intros. unfold in_grid_box; simpl. split.
    - intros [A B]. inversion A as [|? x ? l ? A']; subst. inversion A' as [|? y ? l' ? A'']; subst. inversion A''; subst.
      inversion B as [|? ? ? ? ? B']; subst. inversion B'; subst. exists x, y. split; [reflexivity|lia].
    - intros [x [y [-> [? ?]]]]. split; repeat (apply Forall2_cons; [lia|]); apply Forall2_nil. }
  intros p. split.
  - rewrite H2. intros [x [y [-> [Hx Hy]]]]. destruct (Z_lt_dec x 2) as [Hx2|Hx2].
    + exists 0. split; [simpl; lia|]. split; [apply H2; exists x, y; split; [reflexivity|lia]|].
      intros [|[|j]] Hj H; simpl in *; try lia. apply H2 in H as [x' [y' [E' ?]]]. inversion E'; subst; lia.
    + exists 1. split; [simpl; lia|]. split; [apply H2; exists x, y; split; [reflexivity|lia]|].
      intros [|[|j]] Hj H; simpl in *; try lia. apply H2 in H as [x' [y' [E' ?]]]. inversion E'; subst; lia.
  - intros [|[|k]] Hk H; simpl in *; try lia; apply H2 in H as [x [y [-> ?]]]; apply H2; exists x, y; (split; [reflexivity|lia]).
Qed.

(** C53 *)
Theorem C53_distance_is_a_metric_on_centres : forall c1 c2 c3, length c1 = length c2 -> length c2 = length c3 ->
  (0 <= distance c1 c2)%R /\ distance c1 c2 = distance c2 c1 /\
  (distance c1 c2 = 0%R <-> c1 = c2) /\ (distance c1 c3 <= distance c1 c2 + distance c2 c3)%R.
Proof. exact distance_laws. Qed.
Print Assumptions C53_distance_is_a_metric_on_centres.
Theorem C53_differences_antisymmetric : forall a b i, length a = length b -> i < length a ->
  nth i (position_diff a b) 0%R = (nth i a 0 - nth i b 0)%R /\
  nth i (position_diff b a) 0%R = (- nth i (position_diff a b) 0)%R /\
  nth i (velocity_diff a b) 0%R = (nth i a 0 - nth i b 0)%R /\
  nth i (velocity_diff b a) 0%R = (- nth i (velocity_diff a b) 0)%R.
Proof.
  intros a b i H Hi. unfold position_diff, velocity_diff.
  rewrite (nth_zip_with Rminus a b i 0%R 0%R), (nth_zip_with Rminus b a i 0%R 0%R) by lia. repeat split; ring.
Qed.
Print Assumptions C53_differences_antisymmetric.
Theorem C53_distance_is_euclidean : forall x1 y1 x2 y2 z1 z2 : R,
  distance [x1; y1] [x2; y2] = sqrt ((x1 - x2) ^ 2 + (y1 - y2) ^ 2) /\
  distance [x1; y1; z1] [x2; y2; z2] = sqrt ((x1 - x2) ^ 2 + (y1 - y2) ^ 2 + (z1 - z2) ^ 2).
Proof. intros. unfold distance, position_diff; simpl. split; f_equal; ring. Qed.
Print Assumptions C53_distance_is_euclidean.
Example C53_example : distance [0; 0]%R [3; 4]%R = 5%R.
Proof.
  unfold distance, position_diff; simpl. replace (0 + (0 - 3) * (0 - 3) + (0 - 4) * (0 - 4))%R with (5 * 5)%R by ring.
  apply sqrt_square; lra.
Qed.
