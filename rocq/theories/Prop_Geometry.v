(** Properties C01-C07: statements only. *)
From Verif Require Import Base M_Geometry S_Geometry P_Geometry.

(** C01 *)
Theorem C01_iterate_visits_each_point_once : forall D (b : box Z), has_dim D b ->
  exists l : list (list Z),
    (forall p, In p l <-> in_grid_box b p) /\ NoDup l /\ strictly_increasing colex_lt l /\
    forall St (f : list Z -> St -> St) p0 s, length p0 = D ->
      iterate b f p0 s = Ok (fold_left (fun s p => f p s) l s).
Proof. exact iterate_spec. Qed.
Print Assumptions C01_iterate_visits_each_point_once.
Example C01_example :
  iterate (mkbox [-1; 2]%Z [1; 4]%Z) (fun p s => s ++ [p]) [7; 7]%Z []
  = Ok [[-1; 2]; [0; 2]; [-1; 3]; [0; 3]]%Z /\ has_dim 2 (mkbox [-1; 2]%Z [1; 4]%Z).
Proof. split; [reflexivity|split; reflexivity]. Qed.

(** C02 *)
Theorem C02_overlap_box_is_intersection :
  forall T (le : T -> T -> Prop) ltb, total_order le ltb -> forall D b1 b2 p,
  has_dim D b1 -> has_dim D b2 ->
  (in_closed le (overlap_box ltb b1 b2) p <-> in_closed le b1 p /\ in_closed le b2 p) /\
  (in_halfopen le (overlap_box ltb b1 b2) p <-> in_halfopen le b1 p /\ in_halfopen le b2 p).
Proof. exact (fun T le ltb TO D b1 b2 p H1 H2 =>
  conj (overlap_box_spec le ltb TO D b1 b2 p H1 H2) (overlap_box_halfopen_spec le ltb TO D b1 b2 p H1 H2)). Qed.
Print Assumptions C02_overlap_box_is_intersection.

Theorem C02_intersect_iff_common_point :
  forall T (le : T -> T -> Prop) ltb, total_order le ltb -> forall D b1 b2,
  has_dim D b1 -> has_dim D b2 -> well_formed le b1 -> well_formed le b2 ->
  (intersect ltb b1 b2 = true <-> exists p, in_closed le b1 p /\ in_closed le b2 p).
Proof. exact @intersect_spec. Qed.
Print Assumptions C02_intersect_iff_common_point.

Theorem C02_union_box_is_hull :
  forall T (le : T -> T -> Prop) ltb, total_order le ltb -> forall D b1 b2,
  has_dim D b1 -> has_dim D b2 -> well_formed le b1 -> well_formed le b2 ->
  (forall p, in_closed le b1 p \/ in_closed le b2 p -> in_closed le (union_box ltb b1 b2) p) /\
  (forall b, (forall p, in_closed le b1 p \/ in_closed le b2 p -> in_closed le b p) ->
     forall p, in_closed le (union_box ltb b1 b2) p -> in_closed le b p).
Proof. exact (fun T le ltb TO D b1 b2 H1 H2 W1 W2 =>
  conj (fun p H => match H with
                   | or_introl a => union_box_l le ltb TO D b1 b2 p H1 H2 a
                   | or_intror a => union_box_r le ltb TO D b1 b2 p H1 H2 a end)
       (fun b H p => union_box_least le ltb TO D b1 b2 b H1 H2 W1 W2 H p)). Qed.
Print Assumptions C02_union_box_is_hull.

Theorem C02_box_inside_is_overlap_box :
  forall T (ltb : T -> T -> bool) b1 b2, box_inside ltb b1 b2 = overlap_box ltb b1 b2.
Proof. exact @box_inside_overlap. Qed.
Print Assumptions C02_box_inside_is_overlap_box.
(** both coordinate types used by cafes are instances *)
Example C02_instances : total_order Z.le Z.ltb /\ total_order Rle Rltb.
Proof. exact (conj total_order_Z total_order_R). Qed.
Example C02_example :
  let b1 := mkbox [0; 0]%Z [4; 4]%Z in let b2 := mkbox [3; 1]%Z [6; 9]%Z in
  well_formed Z.le b1 /\ well_formed Z.le b2 /\ intersect Z.ltb b1 b2 = true /\
  overlap_box Z.ltb b1 b2 = mkbox [3; 1]%Z [4; 4]%Z /\ union_box Z.ltb b1 b2 = mkbox [0; 0]%Z [6; 9]%Z.
Proof. repeat split; repeat constructor; lia. Qed.

(** C03: the documented contract fails in both directions. *)
Theorem C03_check_box_inside_refuted :
  (exists b1 b2 : box Z, has_dim 2 b1 /\ has_dim 2 b2 /\ well_formed Z.le b1 /\ well_formed Z.le b2 /\
     (forall p, ~ (in_closed Z.le b1 p /\ in_closed Z.le b2 p)) /\ check_box_inside Z.ltb b1 b2 = true) /\
  (exists b1 b2 : box Z, has_dim 2 b1 /\ has_dim 2 b2 /\ well_formed Z.le b1 /\ well_formed Z.le b2 /\
     (forall p, in_closed Z.le b1 p -> in_closed Z.le b2 p) /\ check_box_inside Z.ltb b1 b2 = false).
Proof. exact check_box_inside_refutation. Qed.
Print Assumptions C03_check_box_inside_refuted.

(** What the function computes: on some axis, one of the two corners of the second box is
    between the corners of the first. *)
Theorem C03_check_box_inside_iff :
  forall T (le : T -> T -> Prop) ltb, total_order le ltb -> forall D b1 b2 (o : T), has_dim D b1 -> has_dim D b2 ->
  (check_box_inside ltb b1 b2 = true <-> exists k x, k < D /\ (x = nth k (bottom_left b2) o \/ x = nth k (upper_right b2) o) /\ le (nth k (bottom_left b1) o) x /\ le x (nth k (upper_right b1) o)).
Proof.
  intros T le ltb (refl & anti & trans & total & ltbF) D [bl1 ur1] [bl2 ur2] o [A1 A2] [B1 B2]. cbn [bottom_left upper_right] in *. unfold check_box_inside. cbn [bottom_left upper_right].
  revert bl1 ur1 bl2 ur2 A1 A2 B1 B2. induction D as [|D IH]; intros bl1 ur1 bl2 ur2 A1 A2 B1 B2.
  - destruct bl1; try discriminate. cbn. split; [discriminate|]. intros (k & x & Hk & _). lia.
  - destruct bl1 as [|a1 bl1], ur1 as [|c1 ur1], bl2 as [|a2 bl2], ur2 as [|c2 ur2]; try discriminate. injection A1 as A1. injection A2 as A2. injection B1 as B1. injection B2 as B2.
    specialize (IH bl1 ur1 bl2 ur2 A1 A2 B1 B2). cbn [check_box_inside_count].
    assert (N : forall a b c, negb (ltb b a) && negb (ltb c b) = true <-> le a b /\ le b c).
    { intros a b c. rewrite andb_true_iff, !negb_true_iff, !ltbF. reflexivity. }
    assert (R : check_box_inside_count ltb bl1 ur1 bl2 ur2 = 0 -> ~ exists k x, k < D /\ (x = nth k bl2 o \/ x = nth k ur2 o) /\ le (nth k bl1 o) x /\ le x (nth k ur1 o)).
    { intros E H. apply IH in H. rewrite E in H. discriminate H. }
    rewrite Nat.ltb_lt in *. split.
    + intros H. destruct (negb (ltb a2 a1) && negb (ltb c1 a2)) eqn:E1; [exists 0, a2; apply N in E1; cbn; repeat split; try tauto; lia|].
      destruct (negb (ltb c2 a1) && negb (ltb c1 c2)) eqn:E2; [exists 0, c2; apply N in E2; cbn; repeat split; try tauto; lia|].
      destruct (proj1 IH) as (k & x & Hk & V); [lia|]. exists (S k), x. split; [lia|exact V].
    + intros ([|k] & x & Hk & Hx & V).
      * cbn in Hx, V. apply N in V. destruct Hx as [-> | ->]; rewrite V; lia.
      * assert (0 < check_box_inside_count ltb bl1 ur1 bl2 ur2); [|lia]. apply IH. exists k, x. split; [lia|]. split; assumption.
Qed.
Print Assumptions C03_check_box_inside_iff.
(** Consequences: nested boxes are recognised; a negative answer excludes both corners. *)
Theorem C03_check_box_inside_consequences :
  forall T (le : T -> T -> Prop) ltb, total_order le ltb -> forall D b1 b2,
  0 < D -> has_dim D b1 -> has_dim D b2 ->
  (well_formed le b2 -> (forall p, in_closed le b2 p -> in_closed le b1 p) -> check_box_inside ltb b1 b2 = true) /\
  (check_box_inside ltb b1 b2 = false ->
     ~ in_closed le b1 (bottom_left b2) /\ ~ in_closed le b1 (upper_right b2)).
Proof. exact (fun T le ltb TO D b1 b2 HD H1 H2 =>
  conj (check_box_inside_sub le ltb TO D b1 b2 HD H1 H2) (check_box_inside_false le ltb TO D b1 b2 HD H1 H2)). Qed.
Print Assumptions C03_check_box_inside_consequences.
Example C03_example : check_box_inside Z.ltb (mkbox [0; 0]%Z [9; 9]%Z) (mkbox [1; 2]%Z [3; 4]%Z) = true
  /\ check_box_inside Z.ltb (mkbox [0; 0]%Z [9; 9]%Z) (mkbox [-1; -2]%Z [10; 14]%Z) = false.
Proof. split; reflexivity. Qed.

(** C04 *)
Theorem C04_point_inside_is_half_open :
  forall T (le : T -> T -> Prop) ltb, total_order le ltb -> forall D b p,
  has_dim D b -> length p = D -> (point_inside ltb b p = true <-> in_halfopen le b p).
Proof. exact @point_inside_spec. Qed.
Print Assumptions C04_point_inside_is_half_open.

Theorem C04_cut_is_a_partition :
  forall T (le : T -> T -> Prop) ltb, total_order le ltb -> forall D b k c p,
  has_dim D b -> k < D -> length p = D ->
  le (nth k (bottom_left b) c) c -> le c (nth k (upper_right b) c) ->
  (in_halfopen le b p <-> in_halfopen le (cut_low k c b) p \/ in_halfopen le (cut_high k c b) p)
  /\ ~ (in_halfopen le (cut_low k c b) p /\ in_halfopen le (cut_high k c b) p).
Proof. exact @cut_spec. Qed.
Print Assumptions C04_cut_is_a_partition.

Theorem C04_box_length_and_corners :
  (forall b, box_length b = fold_right Rmult 1%R (zip_with (fun a c => Rabs (c - a)) (bottom_left b) (upper_right b))) /\
  (forall T (x0 y0 x1 y1 : T),
     (forall x y, In (x, y) (get_box_points2 x0 y0 x1 y1) <-> (x = x0 \/ x = x1) /\ (y = y0 \/ y = y1)) /\
     get_box_points2 x0 y0 x1 y1 = [(x0, y0); (x1, y0); (x0, y1); (x1, y1)]) /\
  (forall T (x0 y0 z0 x1 y1 z1 : T),
     (forall x y z, In (x, y, z) (get_box_points3 x0 y0 z0 x1 y1 z1)
       <-> (x = x0 \/ x = x1) /\ (y = y0 \/ y = y1) /\ (z = z0 \/ z = z1)) /\
     get_box_points3 x0 y0 z0 x1 y1 z1
     = [(x0, y0, z0); (x1, y0, z0); (x0, y1, z0); (x1, y1, z0);
        (x0, y0, z1); (x1, y0, z1); (x0, y1, z1); (x1, y1, z1)]).
Proof. exact (conj box_length_prod (conj (@box_points2) (@box_points3))). Qed.
Print Assumptions C04_box_length_and_corners.
Example C04_example : point_inside Z.ltb (mkbox [0; 0]%Z [2; 3]%Z) [1; 2]%Z = true
  /\ point_inside Z.ltb (mkbox [0; 0]%Z [2; 3]%Z) [2; 2]%Z = false.
Proof. split; reflexivity. Qed.

(** C05: two overloads of vector.hpp break the law ... *)
Theorem C05_vector_plus_assign_velocity_refuted :
  forall v w i, length v = length w -> i < length v ->
  nth i (vec_add_assign_velocity v w) 0%R = (nth i v 0 - nth i w 0)%R /\
  (nth i (vec_add_assign_velocity v w) 0%R = (nth i v 0 + nth i w 0)%R <-> nth i w 0%R = 0%R).
Proof. exact vec_add_assign_velocity_wrong. Qed.
Print Assumptions C05_vector_plus_assign_velocity_refuted.
Theorem C05_velocity_minus_vector_refuted :
  forall v p i, length v = length p -> i < length v ->
  nth i (velocity_minus_vec v p) 0%R = (- (nth i v 0 - nth i p 0))%R.
Proof. exact velocity_minus_vec_wrong. Qed.
Print Assumptions C05_velocity_minus_vector_refuted.
(** ... and all the others satisfy it. *)
Theorem C05_componentwise :
  componentwise2 Rplus pos_plus /\ componentwise2 Rplus pos_plus_velocity /\
  componentwise2 Rminus pos_minus /\ componentwise2 Rmult pos_times /\
  componentwise2 Rdiv pos_div /\ componentwise_scalar Rplus pos_plus_scalar /\
  componentwise_scalar Rminus pos_minus_scalar /\ componentwise_scalar Rdiv pos_div_scalar /\
  componentwise2 Rplus vec_plus /\ componentwise2 Rminus vec_sub_assign /\
  componentwise2 Rminus vec_minus_velocity /\ componentwise_scalar Rmult vec_times_scalar /\
  componentwise_scalar Rdiv vec_div_scalar /\
  componentwise2 Rplus velocity_plus /\ componentwise2 Rplus force_plus /\
  componentwise2 Rminus force_minus /\ componentwise_scalar Rmult force_times_scalar /\
  componentwise_scalar Rplus force_add_assign_scalar.
Proof. exact box_ops_componentwise. Qed.
Print Assumptions C05_componentwise.
Theorem C05_unary_minus : forall v i, i < length v -> nth i (vec_opp v) 0%R = (- nth i v 0)%R.
Proof. exact vec_opp_spec. Qed.
Print Assumptions C05_unary_minus.
Theorem C05_int_conversion_truncates : forall p i, i < length p ->
  let z := nth i (pos_to_int p) 0%Z in let x := nth i p 0%R in
  (Rabs (IZR z) <= Rabs x)%R /\ (Rabs (x - IZR z) < 1)%R /\ (0 <= IZR z * x)%R.
Proof. exact pos_to_int_trunc. Qed.
Print Assumptions C05_int_conversion_truncates.
Theorem C05_ceil_floor : forall p i, i < length p ->
  let x := nth i p 0%R in
  (IZR (nth i (pos_floor p) 0%Z) <= x < IZR (nth i (pos_floor p) 0%Z) + 1)%R /\
  (IZR (nth i (pos_ceil p) 0%Z) - 1 < x <= IZR (nth i (pos_ceil p) 0%Z))%R.
Proof. exact pos_ceil_floor. Qed.
Print Assumptions C05_ceil_floor.
Example C05_example : vec_add_assign_velocity [1; 2]%R [3; 5]%R = [1 - 3; 2 - 5]%R
  /\ velocity_minus_vec [1; 2]%R [3; 5]%R = [3 - 1; 5 - 2]%R.
Proof. split; reflexivity. Qed.

(** C06 *)
Theorem C06_cross_product_3d_laws : forall x y z,
  dot3 (cross33 x y) x = 0%R /\ dot3 (cross33 x y) y = 0%R /\
  cross33 y x = opp3 (cross33 x y) /\
  dot3 (cross33 x y) (cross33 x y) = (dot3 x x * dot3 y y - dot3 x y * dot3 x y)%R /\
  add3 (cross33 x (cross33 y z)) (add3 (cross33 y (cross33 z x)) (cross33 z (cross33 x y))) = (0, 0, 0)%R /\
  dot3 (cross33 x y) z = dot3 x (cross33 y z).
Proof. exact cross33_laws. Qed.
Print Assumptions C06_cross_product_3d_laws.
Theorem C06_cross_product_2d_is_planar_restriction : forall x y rz,
  cross33 (embed x) (embed y) = spin (cross22 x y) /\
  cross33 (spin rz) (embed x) = embed (cross12 rz x) /\
  cross33 (embed x) (spin rz) = embed (cross21 x rz).
Proof. exact cross_planar. Qed.
Print Assumptions C06_cross_product_2d_is_planar_restriction.
(** orientation: e_x x e_y = e_z *)
Example C06_example : cross33 (1, 0, 0)%R (0, 1, 0)%R = (0, 0, 1)%R.
Proof. unfold cross33. pair_eq; ring. Qed.

(** C07 *)
Theorem C07_linspace_closed : forall (beg en : R) (num : Z),
  (beg <= en)%R -> (2 <= num)%Z ->
  exists l, linspace beg en num true = Ok (map Some l) /\ length l = Z.to_nat num /\
    nth 0 l 0%R = beg /\ nth (length l - 1) l 0%R = en /\
    (forall i, S i < length l -> (nth (S i) l 0 - nth i l 0)%R = ((en - beg) / IZR (num - 1))%R) /\
    (forall x, In x l -> (beg <= x <= en)%R).
Proof. exact linspace_spec. Qed.
Print Assumptions C07_linspace_closed.
Theorem C07_linspace_half_open : forall (beg en : R) (num : Z),
  (beg <= en)%R -> (1 <= num)%Z ->
  exists l, linspace beg en num false = Ok (map Some l) /\ length l = Z.to_nat num /\
    nth 0 l 0%R = beg /\
    (forall i, S i < length l -> (nth (S i) l 0 - nth i l 0)%R = ((en - beg) / IZR num)%R) /\
    (nth (length l - 1) l 0 + (en - beg) / IZR num = en)%R /\
    (forall x, In x l -> (beg <= x)%R /\ (beg < en -> x < en)%R).
Proof. exact linspace_open_spec. Qed.
Print Assumptions C07_linspace_half_open.
(** the remaining counts: one closed point is a non-finite value (0*(x/0)), zero points is the
    empty list, a negative count throws. *)
Theorem C07_linspace_degenerate_refuted : forall beg en,
  (beg <= en)%R ->
  linspace beg en 1 true = Ok [None] /\
  (forall ie, linspace beg en 0 ie = Ok []) /\
  (forall ie num, (num < 0)%Z -> linspace beg en num ie = Abort).
Proof. exact linspace_degenerate. Qed.
Print Assumptions C07_linspace_degenerate_refuted.
Example C07_example : (0 <= 1)%R /\ (2 <= 5)%Z. Proof. split; [lra|lia]. Qed.
