From Verif Require Import Base M_Geometry S_Geometry M_Shapes S_Shapes P_Geometry P_Pow.
Open Scope R_scope.

Ltac f2 := repeat first [apply Forall2_cons | apply Forall2_nil].

(** ** Quaternions *)
Definition unit3 (k : R * R * R) : Prop := dot3 k k = 1.

Lemma sin2_cos2' a : sin a * sin a + cos a * cos a = 1.
Proof. generalize (sin2_cos2 a); unfold Rsqr; auto. Qed.

Lemma quat_make_unit a k0 k1 k2 :
  unit3 (k0, k1, k2) ->
  quat_make a (k0, k1, k2) =
  mkquat (sin (a/2) * k0) (sin (a/2) * k1) (sin (a/2) * k2) (cos (a/2)).
Proof.
  intros H. unfold unit3, dot3 in H. unfold quat_make, quat_normalize; simpl.
  set (n := _ + cos (a/2) * cos (a/2)).
  assert (En : n = 1).
  { unfold n. generalize (sin2_cos2' (a/2)); intros E.
    transitivity (sin (a/2) * sin (a/2) * (k0*k0 + k1*k1 + k2*k2) + cos (a/2) * cos (a/2)); [ring|].
    rewrite H. lra. }
  rewrite En. f_equal; field.
Qed.

Lemma half_angle a : cos a = cos (a/2) * cos (a/2) - sin (a/2) * sin (a/2) /\ sin a = 2 * sin (a/2) * cos (a/2).
Proof.
  assert (E : a = 2 * (a/2)) by field.
  split; rewrite E at 1; [apply cos_2a|apply sin_2a].
Qed.

Lemma rotate3_rodrigues a k v : unit3 k -> rotate3 (quat_make a k) v = rodrigues a k v.
Proof.
  destruct k as [[k0 k1] k2], v as [[v0 v1] v2]. intros H. rewrite quat_make_unit by exact H.
  unfold unit3, dot3 in H.
  destruct (half_angle a) as [Ec Es]. generalize (sin2_cos2' (a/2)).
  unfold rodrigues, rotate3, cross33, dot3; simpl. rewrite Ec, Es.
  set (s := sin (a/2)). set (c := cos (a/2)). intros Hsc.
  assert (Hc : c * c = 1 - s * s) by lra. clearbody s c.
  assert (K0 : k0 * k0 = 1 - k1 * k1 - k2 * k2) by lra.
  pair_eq.
  - transitivity ((1 - 2*(s*s)*(k1*k1) - 2*(s*s)*(k2*k2)) * v0 + (2*(s*s)*(k0*k1) - 2*s*k2*c)*v1 + (2*(s*s)*(k0*k2) + 2*s*k1*c)*v2); [ring|].
    transitivity ((c*c - s*s)*v0 + 2*s*c*(k1*v2-k2*v1) + (1 - (c*c - s*s))*((k0*k0)*v0 + k0*k1*v1 + k0*k2*v2)); [|ring].
    rewrite Hc, K0. ring.
  - transitivity ((2*(s*s)*(k0*k1) + 2*s*k2*c)*v0 + (1 - 2*(s*s)*(k0*k0) - 2*(s*s)*(k2*k2)) * v1 + (2*(s*s)*(k1*k2) - 2*s*k0*c)*v2); [ring|].
    transitivity ((c*c - s*s)*v1 + 2*s*c*(k2*v0-k0*v2) + (1 - (c*c - s*s))*(k1*k0*v0 + k1*k1*v1 + k1*k2*v2)); [|ring].
    rewrite Hc, K0. ring.
  - transitivity ((2*(s*s)*(k0*k2) - 2*s*k1*c)*v0 + (2*(s*s)*(k1*k2) + 2*s*k0*c)*v1 + (1 - 2*(s*s)*(k0*k0) - 2*(s*s)*(k1*k1)) * v2); [ring|].
    transitivity ((c*c - s*s)*v2 + 2*s*c*(k0*v1-k1*v0) + (1 - (c*c - s*s))*(k2*k0*v0 + k2*k1*v1 + k2*k2*v2)); [|ring].
    rewrite Hc, K0. ring.
Qed.

Definition unit_quat (q : quat) : Prop := qx q * qx q + qy q * qy q + qz q * qz q + qw q * qw q = 1.
Lemma quat_make_unit_quat a k : unit3 k -> unit_quat (quat_make a k).
Proof.
  destruct k as [[k0 k1] k2]. intros H. rewrite quat_make_unit by exact H.
  unfold unit_quat; simpl. unfold unit3, dot3 in H. generalize (sin2_cos2' (a/2)); intros E.
  transitivity (sin (a/2) * sin (a/2) * (k0*k0 + k1*k1 + k2*k2) + cos (a/2) * cos (a/2)); [ring|].
  rewrite H. lra.
Qed.

Ltac unfold_quat q H :=
  unfold unit_quat in H; destruct q as [x y z w]; simpl in *;
  let E := fresh "E" in assert (E : w * w = 1 - x*x - y*y - z*z) by lra; clear H.

Lemma rotate3_dot q u v : unit_quat q -> dot3 (rotate3 q u) (rotate3 q v) = dot3 u v.
Proof.
  intros H. unfold_quat q H. destruct u as [[u0 u1] u2], v as [[v0 v1] v2]. unfold dot3, rotate3; simpl.
  ring_simplify. 
  replace (w ^ 2) with (1 - x*x - y*y - z*z) by (rewrite <- E; ring).
  ring.
Qed.

Lemma rotate3_conj q v : unit_quat q -> rotate3 (quat_conj q) (rotate3 q v) = v /\ rotate3 q (rotate3 (quat_conj q) v) = v.
Proof.
  intros H. unfold_quat q H. destruct v as [[v0 v1] v2]. unfold quat_conj, rotate3; simpl.
  split; pair_eq; ring_simplify; replace (w ^ 2) with (1 - x*x - y*y - z*z) by (rewrite <- E; ring); ring.
Qed.

Lemma quat_angle_eq a : quat_angle a = mkquat 0 0 (sin (a/2)) (cos (a/2)).
Proof.
  unfold quat_angle. rewrite quat_make_unit by (unfold unit3, dot3; ring). f_equal; ring.
Qed.
Lemma rotate2_angle a p : rotate2 (quat_angle a) p = planar_rotation a p.
Proof.
  rewrite quat_angle_eq. destruct (half_angle a) as [Ec Es]. generalize (sin2_cos2' (a/2)); intros H.
  unfold rotate2, planar_rotation; simpl. rewrite Ec, Es. assert (Hc : cos (a/2) * cos (a/2) = 1 - sin (a/2) * sin (a/2)) by lra.
  rewrite Hc. pair_eq; ring.
Qed.
Lemma rotate2_conj_angle a p : rotate2 (quat_conj (quat_angle a)) p = planar_rotation (- a) p.
Proof.
  rewrite quat_angle_eq. destruct (half_angle a) as [Ec Es]. generalize (sin2_cos2' (a/2)); intros H.
  unfold rotate2, planar_rotation, quat_conj; simpl. rewrite cos_neg, sin_neg, Ec, Es.
  assert (Hc : cos (a/2) * cos (a/2) = 1 - sin (a/2) * sin (a/2)) by lra.
  rewrite Hc. pair_eq; ring.
Qed.
Lemma planar_rotation_inv a p : planar_rotation a (planar_rotation (- a) p) = p /\ planar_rotation (- a) (planar_rotation a p) = p.
Proof.
  generalize (sin2_cos2' a); intros H. destruct p as [x y]. unfold planar_rotation; simpl. rewrite cos_neg, sin_neg.
  assert (Hc : cos a * cos a = 1 - sin a * sin a) by lra.
  split; pair_eq; ring_simplify; replace (cos a ^ 2) with (1 - sin a * sin a) by (rewrite <- Hc; ring); ring.
Qed.
Lemma planar_rotation_dot a p q : dot2 (planar_rotation a p) (planar_rotation a q) = dot2 p q.
Proof.
  generalize (sin2_cos2' a); intros H. destruct p as [x y], q as [u v]. unfold planar_rotation, dot2; simpl.
  assert (Hc : cos a * cos a = 1 - sin a * sin a) by lra.
  ring_simplify; replace (cos a ^ 2) with (1 - sin a * sin a) by (rewrite <- Hc; ring); ring.
Qed.

Lemma is_rotate_default : is_rotate quat_default = false.
Proof. unfold is_rotate, quat_default; simpl. destruct (Reqb_spec 0 0); [reflexivity|congruence]. Qed.
Lemma is_rotate_true q : is_rotate q = true <-> q <> quat_default.
Proof.
  destruct q as [x y z w]; unfold is_rotate, quat_default; simpl.
  destruct (Reqb_spec x 0) as [->|Hx]; [|split; [intros _ E; inversion E; auto|reflexivity]].
  destruct (Reqb_spec y 0) as [->|Hy]; [|split; [intros _ E; inversion E; auto|reflexivity]].
  destruct (Reqb_spec z 0) as [->|Hz]; [|split; [intros _ E; inversion E; auto|reflexivity]].
  destruct (Reqb_spec w 0) as [->|Hw]; [|split; [intros _ E; inversion E; auto|reflexivity]].
  simpl; split; [discriminate|congruence].
Qed.
Lemma is_rotate_unit q : unit_quat q -> is_rotate q = true.
Proof.
  intros H; apply is_rotate_true; intros ->. unfold unit_quat, quat_default in H; simpl in H. lra.
Qed.
Lemma is_rotate_angle a : is_rotate (quat_angle a) = true.
Proof. apply is_rotate_unit, quat_make_unit_quat. unfold unit3, dot3; ring. Qed.

(** The non-unit axis: [quaternion(PI, {0,0,2})] halves every vector of the first axis. *)
Lemma quat_non_unit_witness :
  rotate3 (quat_make PI (0, 0, 2)) (1, 0, 0) = (1/2, 0, 0).
Proof.
  unfold quat_make, quat_normalize, rotate3; simpl. rewrite sin_PI2, cos_PI2.
  pair_eq; field.
Qed.

(** ** Level functions *)
Lemma implicit2_level c a b n t p :
  0 < n -> implicit2 (se2_make c (a, b) n (quat_angle t)) p = super_ellipse_level c a b n t p.
Proof.
  intros Hn. unfold implicit2, super_ellipse_level, se2_make; cbn [q2 n2_ s2 c2 fst snd].
  rewrite is_rotate_angle, rotate2_conj_angle.
  replace (2 / (2 / n)) with n by (field; lra). reflexivity.
Qed.
Lemma implicit2_level_default c a b n p :
  0 < n -> implicit2 (se2_make c (a, b) n quat_default) p = super_ellipse_level c a b n 0 p.
Proof.
  intros Hn. unfold implicit2, super_ellipse_level, se2_make, planar_rotation; cbn [q2 n2_ s2 c2 fst snd].
  rewrite is_rotate_default. replace (2 / (2 / n)) with n by (field; lra).
  unfold sub2; simpl. rewrite Ropp_0, sin_0, cos_0.
  f_equal; f_equal; f_equal; f_equal; ring.
Qed.
Lemma implicit3_level c s n e q p :
  0 < n -> 0 < e -> implicit3 (se3_make c s n e q) p = super_ellipsoid_level c s n e p.
Proof.
  intros Hn He. unfold implicit3, super_ellipsoid_level, se3_make; cbn [c3 s3 e3_ n3_].
  destruct c as [[cx cy] cz], s as [[a b] d], p as [[x y] z].
  replace (2 / (2 / n)) with n by (field; lra). replace (2 / (2 / e)) with e by (field; lra).
  replace (2 / e / (2 / n)) with (n / e) by (field; lra). reflexivity.
Qed.

Lemma abs_div_lt x a n s : 0 < a -> 0 < n -> 0 <= s -> cpow (Rabs (x / a)) n + s < 1 -> - a <= x <= a.
Proof.
  intros Ha Hn Hs H.
  assert (H1 : Rabs (x / a) < 1) by (apply (cpow_lt_1 _ n); [apply Rabs_pos|exact Hn|lra]).
  assert (H2 : Rabs x < a).
  { unfold Rdiv in H1. rewrite Rabs_mult, Rabs_inv, (Rabs_right a) in H1 by lra.
    apply (Rmult_lt_compat_r a) in H1; [|exact Ha]. rewrite Rmult_assoc, Rinv_l, Rmult_1_r, Rmult_1_l in H1 by lra. exact H1. }
  apply Rabs_def2 in H2. lra.
Qed.

Lemma level_bounds2 a b n x y : 0 < a -> 0 < b -> 0 < n ->
  cpow (Rabs (x / a)) n + cpow (Rabs (y / b)) n < 1 -> (- a <= x <= a) /\ (- b <= y <= b).
Proof.
  intros Ha Hb Hn H. split.
  - apply (abs_div_lt x a n (cpow (Rabs (y / b)) n)); auto. apply cpow_nonneg; [apply Rabs_pos|exact Hn].
  - apply (abs_div_lt y b n (cpow (Rabs (x / a)) n)); auto. apply cpow_nonneg; [apply Rabs_pos|exact Hn]. lra.
Qed.

(** ** Running minimum / maximum *)
Lemma run_min_le first rest : run_min first rest <= first /\ forall x, In x rest -> run_min first rest <= x.
Proof.
  unfold run_min. revert first; induction rest as [|y rest IH]; intros first; simpl.
  - split; [lra|tauto].
  - destruct (IH (if Rltb y first then y else first)) as [H1 H2].
    destruct (Rltb_spec y first) as [H|H].
    + split; [lra|]. intros x [<-|Hx]; auto.
    + split; [lra|]. intros x [<-|Hx]; [lra|auto].
Qed.
Lemma run_max_ge first rest : first <= run_max first rest /\ forall x, In x rest -> x <= run_max first rest.
Proof.
  unfold run_max. revert first; induction rest as [|y rest IH]; intros first; simpl.
  - split; [lra|tauto].
  - destruct (IH (if Rltb first y then y else first)) as [H1 H2].
    destruct (Rltb_spec first y) as [H|H].
    + split; [lra|]. intros x [<-|Hx]; auto.
    + split; [lra|]. intros x [<-|Hx]; [lra|auto].
Qed.

Lemma Rabs_le_inv x a : Rabs x <= a -> - a <= x <= a.
Proof. unfold Rabs; destruct (Rcase_abs x); lra. Qed.

(** A linear form on a rectangle / a box is bounded by its values at the corners. *)
Lemma linear_on_rect m M u v a b x y :
  0 <= a -> 0 <= b -> - a <= x <= a -> - b <= y <= b ->
  m <= u * - a + v * - b -> m <= u * a + v * - b -> m <= u * - a + v * b -> m <= u * a + v * b ->
  u * - a + v * - b <= M -> u * a + v * - b <= M -> u * - a + v * b <= M -> u * a + v * b <= M ->
  m <= u * x + v * y <= M.
Proof.
  intros Ha Hb Hx Hy. intros.
  assert (U : - (Rabs u * a) <= u * x <= Rabs u * a).
  { apply Rabs_le_inv. rewrite Rabs_mult. apply Rmult_le_compat_l; [apply Rabs_pos|]. apply Rabs_le; lra. }
  assert (V : - (Rabs v * b) <= v * y <= Rabs v * b).
  { apply Rabs_le_inv. rewrite Rabs_mult. apply Rmult_le_compat_l; [apply Rabs_pos|]. apply Rabs_le; lra. }
  unfold Rabs in U, V. destruct (Rcase_abs u), (Rcase_abs v); lra.
Qed.

(** ** Bounding boxes *)
Lemma bounding_box2_default_spec c a b n p :
  0 < a -> 0 < b -> 0 < n ->
  contains2 (se2_make c (a, b) n quat_default) p = true ->
  in_closed Rle (bounding_box2 (se2_make c (a, b) n quat_default)) [fst p; snd p].
Proof.
  intros Ha Hb Hn. unfold contains2. destruct (Rltb_spec (implicit2 (se2_make c (a, b) n quat_default) p) 1) as [H|]; [|discriminate].
  intros _. unfold implicit2, se2_make in H; cbn [q2 n2_ s2 c2 fst snd] in H. rewrite is_rotate_default in H.
  replace (2 / (2 / n)) with n in H by (field; lra).
  apply level_bounds2 in H as [H1 H2]; auto. unfold sub2 in *; simpl in *.
  unfold bounding_box2, se2_make; cbn [q2 n2_ s2 c2 fst snd]. destruct c as [cx cy]; rewrite is_rotate_default; simpl in *.
  split; simpl; f2; lra.
Qed.

Lemma bounding_box2_rotated_spec c a b n t p :
  0 < a -> 0 < b -> 0 < n ->
  contains2 (se2_make c (a, b) n (quat_angle t)) p = true ->
  in_closed Rle (bounding_box2 (se2_make c (a, b) n (quat_angle t))) [fst p; snd p].
Proof.
  intros Ha Hb Hn. unfold contains2. destruct (Rltb_spec (implicit2 (se2_make c (a, b) n (quat_angle t)) p) 1) as [H|]; [|discriminate].
  intros _. rewrite implicit2_level in H by exact Hn. unfold super_ellipse_level in H.
  apply level_bounds2 in H as [H1 H2]; auto.
  set (d := (fst p - fst c, snd p - snd c)) in *.
  set (d' := planar_rotation (- t) d) in *.
  assert (Ed : planar_rotation t d' = d) by (apply planar_rotation_inv).
  unfold bounding_box2, se2_make; cbn [q2 n2_ s2 c2 fst snd]. destruct c as [cx cy]; rewrite is_rotate_angle.
  cbn [map get_box_points2 flat_map app].
  rewrite !rotate2_angle.
  repeat match goal with |- context [run_min ?f ?r] => destruct (run_min_le f r) as [? ?]; set (run_min f r) in * end.
  repeat match goal with |- context [run_max ?f ?r] => destruct (run_max_ge f r) as [? ?]; set (run_max f r) in * end.
  clearbody d'.
  assert (E1 : fst p = cx + (cos t * fst d' - sin t * snd d')).
  { change (fst p = cx + fst (planar_rotation t d')). rewrite Ed. unfold d; cbn [fst snd]. ring. }
  assert (E2 : snd p = cy + (sin t * fst d' + cos t * snd d')).
  { change (snd p = cy + snd (planar_rotation t d')). rewrite Ed. unfold d; cbn [fst snd]. ring. }
  clear Ed; clearbody d. destruct d' as [x y]; simpl fst in *; simpl snd in *. rewrite E1, E2.
  simpl in *.
  repeat match goal with H : forall x, _ \/ _ -> _ |- _ =>
    pose proof (H _ (or_introl eq_refl)); pose proof (H _ (or_intror (or_introl eq_refl)));
    pose proof (H _ (or_intror (or_intror (or_introl eq_refl)))); clear H end.
  assert (B1 : r - cx <= cos t * x + - sin t * y <= r1 - cx).
  { apply (linear_on_rect _ _ _ _ a b); try lra. }
  assert (B2 : r0 - cy <= sin t * x + cos t * y <= r2 - cy).
  { apply (linear_on_rect _ _ _ _ a b); try lra. }
  split; simpl; f2; lra.
Qed.

Lemma super_ellipsoid_bounds c s n e p :
  let '(cx, cy, cz) := c in let '(a, b, d) := s in let '(x, y, z) := p in
  0 < a -> 0 < b -> 0 < d -> 0 < n -> 0 < e ->
  super_ellipsoid_level c s n e p < 1 ->
  (cx - a <= x <= cx + a) /\ (cy - b <= y <= cy + b) /\ (cz - d <= z <= cz + d).
Proof.
  destruct c as [[cx cy] cz], s as [[a b] d], p as [[x y] z].
  intros Ha Hb Hd Hn He H. unfold super_ellipsoid_level in H.
  assert (Hne : 0 < n / e) by (apply Rdiv_lt_0_compat; assumption).
  set (A := cpow (Rabs ((x - cx) / a)) e) in *. set (B := cpow (Rabs ((y - cy) / b)) e) in *.
  set (C := cpow (Rabs ((z - cz) / d)) n) in *.
  assert (HA : 0 <= A) by (apply cpow_nonneg; [apply Rabs_pos|exact He]).
  assert (HB : 0 <= B) by (apply cpow_nonneg; [apply Rabs_pos|exact He]).
  assert (HC : 0 <= C) by (apply cpow_nonneg; [apply Rabs_pos|exact Hn]).
  assert (HAB : A + B < 1) by (apply (cpow_lt_1 _ (n / e)); lra).
  assert (HP : 0 <= cpow (A + B) (n / e)) by (apply cpow_nonneg; lra).
  destruct (abs_div_lt (x - cx) a e B) as [X1 X2]; auto.
  destruct (abs_div_lt (y - cy) b e A) as [Y1 Y2]; auto; [fold B; lra|].
  destruct (abs_div_lt (z - cz) d n (cpow (A + B) (n / e))) as [Z1 Z2]; auto; [fold C; lra|].
  lra.
Qed.

Lemma bounding_box3_default_spec cx cy cz a b d n e x y z :
  0 < a -> 0 < b -> 0 < d -> 0 < n -> 0 < e ->
  contains3 (se3_make (cx, cy, cz) (a, b, d) n e quat_default) (x, y, z) = true ->
  in_closed Rle (bounding_box3 (se3_make (cx, cy, cz) (a, b, d) n e quat_default)) [x; y; z].
Proof.
  intros Ha Hb Hd Hn He. unfold contains3.
  destruct (Rltb_spec (implicit3 (se3_make (cx, cy, cz) (a, b, d) n e quat_default) (x, y, z)) 1) as [H|]; [|discriminate].
  intros _. rewrite implicit3_level in H by assumption.
  pose proof (super_ellipsoid_bounds (cx, cy, cz) (a, b, d) n e (x, y, z) Ha Hb Hd Hn He H) as [H1 [H2 H3]].
  unfold bounding_box3, se3_make; cbn [q3 s3 c3]. rewrite is_rotate_default.
  split; simpl; f2; lra.
Qed.

(** a sphere under any unit quaternion *)
Lemma row_bound u v w r : 0 < r -> u*u + v*v + w*w = 1 -> r <= Rabs u * r + Rabs v * r + Rabs w * r.
Proof.
  intros Hr H.
  assert (1 <= Rabs u + Rabs v + Rabs w).
  { assert (E : forall t, t * t = Rabs t * Rabs t).
    { intros t. rewrite <- Rabs_mult, Rabs_right; [reflexivity|nra]. }
    rewrite (E u), (E v), (E w) in H.
    generalize (Rabs_pos u), (Rabs_pos v), (Rabs_pos w). nra. }
  nra.
Qed.

Lemma sphere_coord_bound x a n : 0 < a -> 0 < n -> forall s, 0 <= s -> cpow (Rabs (x / a)) n + s < 1 -> - a <= x <= a.
Proof. intros; eapply abs_div_lt; eauto. Qed.

Lemma rot_row_extent u v w r c m M :
  0 < r -> u*u + v*v + w*w = 1 ->
  (forall sx sy sz, In sx [-r; r] -> In sy [-r; r] -> In sz [-r; r] ->
      m <= u * sx + v * sy + w * sz + c <= M) ->
  m <= c - r /\ c + r <= M.
Proof.
  intros Hr Hu H.
  pose proof (row_bound u v w r Hr Hu) as HB.
  assert (S : forall t, exists s, In s [-r; r] /\ t * s = Rabs t * r).
  { intros t. unfold Rabs; destruct (Rcase_abs t); [exists (-r)|exists r]; simpl; split; auto; ring. }
  assert (S' : forall t, exists s, In s [-r; r] /\ t * s = - (Rabs t * r)).
  { intros t. unfold Rabs; destruct (Rcase_abs t); [exists r|exists (-r)]; simpl; split; auto; ring. }
  destruct (S u) as [s1 [I1 E1]], (S v) as [s2 [I2 E2]], (S w) as [s3 [I3 E3]].
  destruct (S' u) as [t1 [J1 F1]], (S' v) as [t2 [J2 F2]], (S' w) as [t3 [J3 F3]].
  pose proof (H s1 s2 s3 I1 I2 I3). pose proof (H t1 t2 t3 J1 J2 J3). lra.
Qed.

Lemma run_bounds3 (f : R * R * R -> R) p0 rest m M :
  m = run_min (f p0) (map f rest) -> M = run_max (f p0) (map f rest) ->
  forall p, In p (p0 :: rest) -> m <= f p <= M.
Proof.
  intros -> -> p [<-|H].
  - split; [apply (proj1 (run_min_le _ _))|apply (proj1 (run_max_ge _ _))].
  - split; [apply (proj2 (run_min_le _ _))|apply (proj2 (run_max_ge _ _))]; apply in_map; exact H.
Qed.

Lemma sphere_bounding_box cx cy cz r q x y z :
  0 < r -> unit_quat q ->
  contains3 (sphere_make (cx, cy, cz) r q) (x, y, z) = true ->
  in_closed Rle (bounding_box3 (sphere_make (cx, cy, cz) r q)) [x; y; z].
Proof.
  intros Hr Hq. unfold contains3.
  destruct (Rltb_spec (implicit3 (sphere_make (cx, cy, cz) r q) (x, y, z)) 1) as [H|]; [|discriminate].
  intros _. unfold sphere_make in H. rewrite implicit3_level in H by lra.
  pose proof (super_ellipsoid_bounds (cx, cy, cz) (r, r, r) 2 2 (x, y, z) Hr Hr Hr Rlt_0_2 Rlt_0_2 H) as [H1 [H2 H3]].
  unfold bounding_box3, sphere_make, se3_make; cbn [q3 s3 c3]. rewrite is_rotate_unit by exact Hq.
  cbn [map get_box_points3 flat_map app].
  set (P := fun sx sy sz => add3p (rotate3 q (sub3 (cx + sx, cy + sy, cz + sz) (cx, cy, cz))) (cx, cy, cz)).
  change (cx - r) with (cx + - r). change (cy - r) with (cy + - r). change (cz - r) with (cz + - r).
  change (add3p (rotate3 q (sub3 (cx + - r, cy + - r, cz + - r) (cx, cy, cz))) (cx, cy, cz)) with (P (-r) (-r) (-r)).
  change (add3p (rotate3 q (sub3 (cx + r, cy + - r, cz + - r) (cx, cy, cz))) (cx, cy, cz)) with (P r (-r) (-r)).
  change (add3p (rotate3 q (sub3 (cx + - r, cy + r, cz + - r) (cx, cy, cz))) (cx, cy, cz)) with (P (-r) r (-r)).
  change (add3p (rotate3 q (sub3 (cx + r, cy + r, cz + - r) (cx, cy, cz))) (cx, cy, cz)) with (P r r (-r)).
  change (add3p (rotate3 q (sub3 (cx + - r, cy + - r, cz + r) (cx, cy, cz))) (cx, cy, cz)) with (P (-r) (-r) r).
  change (add3p (rotate3 q (sub3 (cx + r, cy + - r, cz + r) (cx, cy, cz))) (cx, cy, cz)) with (P r (-r) r).
  change (add3p (rotate3 q (sub3 (cx + - r, cy + r, cz + r) (cx, cy, cz))) (cx, cy, cz)) with (P (-r) r r).
  change (add3p (rotate3 q (sub3 (cx + r, cy + r, cz + r) (cx, cy, cz))) (cx, cy, cz)) with (P r r r).
  set (rest := [P r (-r) (-r); P (-r) r (-r); P r r (-r); P (-r) (-r) r; P r (-r) r; P (-r) r r; P r r r]).
  change [p30 (P r (-r) (-r)); p30 (P (-r) r (-r)); p30 (P r r (-r)); p30 (P (-r) (-r) r); p30 (P r (-r) r); p30 (P (-r) r r); p30 (P r r r)] with (map p30 rest).
  change [p31 (P r (-r) (-r)); p31 (P (-r) r (-r)); p31 (P r r (-r)); p31 (P (-r) (-r) r); p31 (P r (-r) r); p31 (P (-r) r r); p31 (P r r r)] with (map p31 rest).
  change [p32 (P r (-r) (-r)); p32 (P (-r) r (-r)); p32 (P r r (-r)); p32 (P (-r) (-r) r); p32 (P r (-r) r); p32 (P (-r) r r); p32 (P r r r)] with (map p32 rest).
  assert (HP : forall sx sy sz, In sx [-r; r] -> In sy [-r; r] -> In sz [-r; r] -> In (P sx sy sz) (P (-r) (-r) (-r) :: rest)).
  { intros sx sy sz Hx Hy Hz. unfold rest.
    destruct Hx as [<-|[<-|[]]], Hy as [<-|[<-|[]]], Hz as [<-|[<-|[]]]; simpl; tauto. }
  pose proof (run_bounds3 p30 (P (-r) (-r) (-r)) rest _ _ eq_refl eq_refl) as B0.
  pose proof (run_bounds3 p31 (P (-r) (-r) (-r)) rest _ _ eq_refl eq_refl) as B1.
  pose proof (run_bounds3 p32 (P (-r) (-r) (-r)) rest _ _ eq_refl eq_refl) as B2.
  clearbody rest.
  destruct q as [qx0 qy0 qz0 qw0]. unfold unit_quat in Hq; cbn [qx qy qz qw] in Hq.
  assert (EX : forall sx sy sz, p30 (P sx sy sz) = (1 - 2*qy0*qy0 - 2*qz0*qz0) * sx + (2*qx0*qy0 - 2*qz0*qw0) * sy + (2*qx0*qz0 + 2*qy0*qw0) * sz + cx).
  { intros. unfold P, add3p, rotate3, sub3, p30; cbn [qx qy qz qw fst snd]. ring. }
  assert (EY : forall sx sy sz, p31 (P sx sy sz) = (2*qx0*qy0 + 2*qz0*qw0) * sx + (1 - 2*qx0*qx0 - 2*qz0*qz0) * sy + (2*qy0*qz0 - 2*qx0*qw0) * sz + cy).
  { intros. unfold P, add3p, rotate3, sub3, p31; cbn [qx qy qz qw fst snd]. ring. }
  assert (EZ : forall sx sy sz, p32 (P sx sy sz) = (2*qx0*qz0 - 2*qy0*qw0) * sx + (2*qy0*qz0 + 2*qx0*qw0) * sy + (1 - 2*qx0*qx0 - 2*qy0*qy0) * sz + cz).
  { intros. unfold P, add3p, rotate3, sub3, p32; cbn [qx qy qz qw fst snd]. ring. }
  clearbody P.
  assert (Hw : qw0 * qw0 = 1 - qx0*qx0 - qy0*qy0 - qz0*qz0) by lra.
  assert (X : run_min (p30 (P (-r) (-r) (-r))) (map p30 rest) <= cx - r /\ cx + r <= run_max (p30 (P (-r) (-r) (-r))) (map p30 rest)).
  { apply (rot_row_extent (1 - 2*qy0*qy0 - 2*qz0*qz0) (2*qx0*qy0 - 2*qz0*qw0) (2*qx0*qz0 + 2*qy0*qw0)).
    - exact Hr.
    - ring_simplify. replace (qw0 ^ 2) with (1 - qx0*qx0 - qy0*qy0 - qz0*qz0) by (rewrite <- Hw; ring). ring.
    - intros sx sy sz I1 I2 I3. rewrite <- EX. apply B0, HP; assumption. }
  assert (Y : run_min (p31 (P (-r) (-r) (-r))) (map p31 rest) <= cy - r /\ cy + r <= run_max (p31 (P (-r) (-r) (-r))) (map p31 rest)).
  { apply (rot_row_extent (2*qx0*qy0 + 2*qz0*qw0) (1 - 2*qx0*qx0 - 2*qz0*qz0) (2*qy0*qz0 - 2*qx0*qw0)).
    - exact Hr.
    - ring_simplify. replace (qw0 ^ 2) with (1 - qx0*qx0 - qy0*qy0 - qz0*qz0) by (rewrite <- Hw; ring). ring.
    - intros sx sy sz I1 I2 I3. rewrite <- EY. apply B1, HP; assumption. }
  assert (Z : run_min (p32 (P (-r) (-r) (-r))) (map p32 rest) <= cz - r /\ cz + r <= run_max (p32 (P (-r) (-r) (-r))) (map p32 rest)).
  { apply (rot_row_extent (2*qx0*qz0 - 2*qy0*qw0) (2*qy0*qz0 + 2*qx0*qw0) (1 - 2*qx0*qx0 - 2*qy0*qy0)).
    - exact Hr.
    - ring_simplify. replace (qw0 ^ 2) with (1 - qx0*qx0 - qy0*qy0 - qz0*qz0) by (rewrite <- Hw; ring). ring.
    - intros sx sy sz I1 I2 I3. rewrite <- EZ. apply B2, HP; assumption. }
  split; cbn [bottom_left upper_right]; f2; lra.
Qed.

(** 3D, rotated, unequal radii: a contained point outside the bounding box *)
Lemma bounding_box3_rotated_witness :
  let s := se3_make (0, 0, 0) (2, 1, 1) 2 2 (quat_make (PI / 2) (0, 0, 1)) in
  contains3 s (3/2, 0, 0) = true /\ ~ in_closed Rle (bounding_box3 s) [3/2; 0; 0].
Proof.
  intros s. split.
  - unfold contains3. destruct (Rltb_spec (implicit3 s (3/2, 0, 0)) 1) as [|H]; [reflexivity|].
    exfalso; apply H. unfold s. rewrite implicit3_level by lra. unfold super_ellipsoid_level.
    replace (2 / 2) with 1 by field. rewrite !cpow_2_r by apply Rabs_pos.
    replace ((3 / 2 - 0) / 2) with (3/4) by field. replace ((0 - 0) / 1) with 0 by field.
    rewrite Rabs_R0, Rabs_right by lra. rewrite cpow_1_r by lra. lra.
  - unfold bounding_box3, s, se3_make; cbn [q3 s3 c3].
    rewrite is_rotate_unit by (apply quat_make_unit_quat; unfold unit3, dot3; ring).
    cbn [map get_box_points3 flat_map app].
    assert (E : forall x y z, add3p (rotate3 (quat_make (PI / 2) (0, 0, 1)) (sub3 (x, y, z) (0, 0, 0))) (0, 0, 0) = (- y, x, z)).
    { intros x y z. rewrite rotate3_rodrigues by (unfold unit3, dot3; ring).
      unfold rodrigues, sub3, cross33, dot3, add3p. rewrite cos_PI2, sin_PI2. pair_eq; ring. }
    rewrite !E. unfold p30; cbn [fst snd]. intros [_ H]. cbn [upper_right] in H.
    inversion H as [|? ? ? ? H1 _]; subst. clear H.
    revert H1. unfold run_max; cbn [fold_left]. 
    repeat match goal with |- context [Rltb ?a ?b] => destruct (Rltb_spec a b) end; lra.
Qed.

(** 2D rotated about a tilted axis: [rotate] is then not invertible *)
Lemma bounding_box2_tilted_witness :
  let s := se2_make (0, 0) (1, 1) 2 (quat_make (PI / 2) (1, 0, 0)) in
  contains2 s (0, 5) = true /\ ~ in_closed Rle (bounding_box2 s) [0; 5].
Proof.
  assert (Eq : quat_make (PI / 2) (1, 0, 0) = mkquat (sin (PI/4)) 0 0 (cos (PI/4))).
  { rewrite quat_make_unit by (unfold unit3, dot3; ring). replace (PI / 2 / 2) with (PI / 4) by field. f_equal; ring. }
  assert (Hs : 2 * sin (PI/4) * sin (PI/4) = 1).
  { pose proof (sin2_cos2' (PI/4)) as H. rewrite <- sin_cos_PI4 in H. lra. }
  intros s. unfold s; rewrite Eq. clear s Eq. 
  assert (Er : is_rotate (mkquat (sin (PI / 4)) 0 0 (cos (PI / 4))) = true).
  { apply is_rotate_true. unfold quat_default. intros H; inversion H as [[H0 H1]]. rewrite H0 in Hs. lra. }
  split.
  - unfold contains2, implicit2, se2_make; cbn [q2 n2_ s2 c2 fst snd]. rewrite Er.
    unfold quat_conj, rotate2, sub2; cbn [qx qy qz qw fst snd].
    destruct (Rltb_spec (cpow (Rabs (((1 - 2 * - 0 * - 0 - 2 * - 0 * - 0) * (0 - 0) + (2 * - sin (PI / 4) * - 0 - 2 * - 0 * cos (PI / 4)) * (5 - 0)) / 1)) (2 / (2 / 2)) +
      cpow (Rabs (((2 * - sin (PI / 4) * - 0 + 2 * - 0 * cos (PI / 4)) * (0 - 0) + (1 - 2 * - sin (PI / 4) * - sin (PI / 4) - 2 * - 0 * - 0) * (5 - 0)) / 1)) (2 / (2 / 2))) 1) as [|H]; [reflexivity|].
    exfalso; apply H. replace (2 / (2 / 2)) with 2 by field. rewrite !cpow_2_r by apply Rabs_pos.
    match goal with |- context [Rabs ?a * Rabs ?a + Rabs ?b * Rabs ?b] => replace a with 0 by field; replace b with 0 end.
    + rewrite Rabs_R0. lra.
    + replace ((2 * - sin (PI / 4) * - 0 + 2 * - 0 * cos (PI / 4)) * (0 - 0) + (1 - 2 * - sin (PI / 4) * - sin (PI / 4) - 2 * - 0 * - 0) * (5 - 0)) with ((1 - 2 * sin (PI/4) * sin (PI/4)) * 5) by ring.
      rewrite Hs. field.
  - unfold bounding_box2, se2_make; cbn [q2 n2_ s2 c2 fst snd]. rewrite Er.
    cbn [map get_box_points2 flat_map app]. unfold rotate2, add2, sub2; cbn [qx qy qz qw fst snd].
    intros [_ H]. cbn [upper_right] in H.
    inversion H as [|? ? ? ? _ H1]; subst. inversion H1 as [|? ? ? ? H2 _]; subst. clear H H1.
    revert H2. generalize (sin (PI/4)) (cos (PI/4)) Hs. intros u v Hu.
    assert (Ec : forall a b, (2 * u * 0 + 2 * 0 * v) * a + (1 - 2 * u * u - 2 * 0 * 0) * b + 0 = 0).
    { intros a b. replace (1 - 2 * u * u - 2 * 0 * 0) with 0 by lra. ring. }
    rewrite !Ec. unfold run_max; cbn [fold_left].
    assert (Z0 : Rltb 0 0 = false) by (destruct (Rltb_spec 0 0); [lra|reflexivity]).
    rewrite !Z0. intros H2; lra.
Qed.

(** ** Index boxes (C10) *)
Lemma int_bounding_box_covers b h p :
  length (bottom_left b) = length h -> length (upper_right b) = length h -> length p = length h ->
  Forall (fun x => 0 < x) h ->
  in_closed Rle b (zip_with (fun i hi => IZR i * hi) p h) ->
  in_grid_box (int_bounding_box b h) p.
Proof.
  destruct b as [bl ur]. unfold in_closed, in_grid_box, int_bounding_box; cbn [bottom_left upper_right].
  unfold pos_to_int, pos_minus_scalar, pos_sub_assign_scalar, pos_plus_scalar, pos_add_assign_scalar, pos_div, pos_div_assign.
  intros L1 L2 L3 Hh [H1 H2]. revert bl ur h L1 L2 L3 Hh H1 H2.
  induction p as [|i p IH]; intros [|x bl] [|y ur] [|hi h] L1 L2 L3 Hh H1 H2; simpl in *; try lia; [split; constructor|].
  inversion Hh; subst. inversion H1; subst. inversion H2; subst.
  destruct (IH bl ur h) as [I1 I2]; auto.
  assert (A1 : x / hi <= IZR i).
  { apply (Rmult_le_reg_r hi); [assumption|]. unfold Rdiv. rewrite Rmult_assoc, Rinv_l by lra. lra. }
  assert (A2 : IZR i <= y / hi).
  { apply (Rmult_le_reg_r hi); [assumption|]. unfold Rdiv. rewrite Rmult_assoc, Rinv_l by lra. lra. }
  split; constructor; auto.
  - destruct (Rtrunc_bounds (x / hi - 1)). assert (Rtrunc (x / hi - 1) < i)%Z by (apply lt_IZR; lra). lia.
  - destruct (Rtrunc_bounds (y / hi + 1)). apply lt_IZR; lra.
Qed.

(** ** Parametric points *)
Lemma Rabs_copysign x y : Rabs (copysign x y) = Rabs x.
Proof. unfold copysign; destruct (Rltb y 0); rewrite ?Rabs_Ropp, Rabs_Rabsolu; reflexivity. Qed.
Lemma cpow_abs_sq t m n : 0 < m -> 0 < n -> m * n = 2 -> cpow (cpow (Rabs t) m) n = t * t.
Proof.
  intros Hm Hn E. rewrite cpow_mult by (try apply Rabs_pos; assumption). rewrite E, cpow_2_r by apply Rabs_pos.
  rewrite <- Rabs_mult, Rabs_right; [reflexivity|nra].
Qed.
Lemma Rabs_se_c w m : 0 < m -> Rabs (se_c w m) = cpow (Rabs (cos w)) m.
Proof. intros Hm. unfold se_c. rewrite Rabs_copysign, Rabs_right; [reflexivity|]. apply Rle_ge, cpow_nonneg; [apply Rabs_pos|exact Hm]. Qed.
Lemma Rabs_se_s w m : 0 < m -> Rabs (se_s w m) = cpow (Rabs (sin w)) m.
Proof. intros Hm. unfold se_s. rewrite Rabs_copysign, Rabs_right; [reflexivity|]. apply Rle_ge, cpow_nonneg; [apply Rabs_pos|exact Hm]. Qed.

Lemma at2_on_surface c a b n u :
  0 < a -> 0 < b -> 0 < n -> implicit2 (se2_make c (a, b) n quat_default) (at2 (se2_make c (a, b) n quat_default) u) = 1.
Proof.
  intros Ha Hb Hn. unfold implicit2, at2, se2_make, sub2; cbn [q2 n2_ s2 c2 fst snd]. rewrite is_rotate_default; cbn [fst snd].
  replace (2 / (2 / n)) with n by (field; lra).
  assert (Hm : 0 < 2 / n) by (apply Rdiv_lt_0_compat; lra).
  replace ((a * se_c u (2 / n) + fst c - fst c) / a) with (se_c u (2/n)) by (field; lra).
  replace ((b * se_s u (2 / n) + snd c - snd c) / b) with (se_s u (2/n)) by (field; lra).
  rewrite Rabs_se_c, Rabs_se_s by exact Hm. rewrite !cpow_abs_sq; try assumption; try (field; lra).
  pose proof (sin2_cos2' u). lra.
Qed.
Lemma at2_radial s u : sub2 (at2 s u) (c2 s) = radial2 s u.
Proof. unfold at2, radial2, sub2; cbn [fst snd]. pair_eq; ring. Qed.
Lemma at3_radial s u v : sub3 (at3 s u v) (c3 s) = radial3 s u v.
Proof. unfold at3, radial3, sub3. destruct (s3 s) as [[a b] d], (c3 s) as [[cx cy] cz]. pair_eq; ring. Qed.

Lemma at3_on_surface c a b d n e q u v :
  0 < a -> 0 < b -> 0 < d -> 0 < n -> 0 < e ->
  implicit3 (se3_make c (a, b, d) n e q) (at3 (se3_make c (a, b, d) n e q) u v) = 1.
Proof.
  intros Ha Hb Hd Hn He. rewrite implicit3_level by assumption.
  destruct c as [[cx cy] cz]. unfold super_ellipsoid_level, at3, se3_make; cbn [s3 c3 n3_ e3_].
  assert (Hm : 0 < 2 / n) by (apply Rdiv_lt_0_compat; lra).
  assert (Hme : 0 < 2 / e) by (apply Rdiv_lt_0_compat; lra).
  assert (Hne : 0 < n / e) by (apply Rdiv_lt_0_compat; lra).
  replace ((a * se_c v (2 / n) * se_c u (2 / e) + cx - cx) / a) with (se_c v (2/n) * se_c u (2/e)) by (field; lra).
  replace ((b * se_c v (2 / n) * se_s u (2 / e) + cy - cy) / b) with (se_c v (2/n) * se_s u (2/e)) by (field; lra).
  replace ((d * se_s v (2 / n) + cz - cz) / d) with (se_s v (2/n)) by (field; lra).
  rewrite !Rabs_mult, !Rabs_se_c, !Rabs_se_s by assumption.
  rewrite !cpow_mul_base by (try apply cpow_nonneg; try apply Rabs_pos; assumption).
  assert (E2e : 2 / e * e = 2) by (field; lra). assert (E2n : 2 / n * n = 2) by (field; lra).
  rewrite (cpow_abs_sq (cos u) _ _ Hme He E2e), (cpow_abs_sq (sin u) _ _ Hme He E2e), (cpow_abs_sq (sin v) _ _ Hm Hn E2n).
  set (C := cpow (cpow (Rabs (cos v)) (2 / n)) e).
  assert (EC : C * (cos u * cos u) + C * (sin u * sin u) = C).
  { transitivity (C * (sin u * sin u + cos u * cos u)); [ring|]. rewrite sin2_cos2'; ring. }
  rewrite EC.
  unfold C. rewrite (cpow_mult (cpow (Rabs (cos v)) (2 / n))) by (try (apply cpow_nonneg; [apply Rabs_pos|]); assumption).
  assert (E3 : e * (n / e) = n) by (field; lra). rewrite E3.
  rewrite (cpow_abs_sq (cos v) _ _ Hm Hn E2n).
  pose proof (sin2_cos2' v). lra.
Qed.

(** the parametrisation forgets the orientation in 2D *)
Lemma at2_rotated_witness :
  let s := se2_make (0, 0) (2, 1) 2 (quat_angle (PI / 2)) in
  implicit2 s (at2 s 0) = 4.
Proof.
  intros s. unfold s. rewrite implicit2_level by lra. unfold super_ellipse_level, at2, se2_make, planar_rotation; cbn [s2 c2 n2_ fst snd].
  rewrite cos_neg, sin_neg, cos_PI2, sin_PI2. unfold se_c, se_s. rewrite cos_0, sin_0. replace (2 / 2) with 1 by field.
  rewrite Rabs_R0, Rabs_R1, cpow_1_l, (cpow_0_l 1) by lra. unfold copysign.
  destruct (Rltb_spec 1 0); [lra|]. destruct (Rltb_spec 0 0); [lra|]. rewrite Rabs_R0, Rabs_R1.
  rewrite !cpow_2_r by apply Rabs_pos.
  rewrite <- !Rabs_mult. rewrite !Rabs_right; [field| |]; nra.
Qed.
Close Scope R_scope.
