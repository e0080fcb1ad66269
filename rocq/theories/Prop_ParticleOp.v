(** C39-C42: forces on particles, simple layer, spreading / interpolation, rigid motion. *)
From Coquelicot Require Import Coquelicot.
From Verif Require Import Base M_Geometry S_Geometry P_Geometry P_Pow M_Shapes S_Shapes P_Shapes M_Particle S_Particle P_Particle M_Quadrature S_Fem M_MatElem P_Energy M_Mesh M_Operator S_Operator P_Mesh P_Operator M_Bc S_Bc M_ParticleOp S_ParticleOp P_ParticleOp P_Circle P_Forces P_Forces2 Prop_Shapes Prop_Operator Prop_Operator2.
From Coq Require Import Permutation.
Open Scope R_scope.

(** ** C40: the simple layer *)
Theorem C40_force_and_torque_free_2d : forall c (g : dmda -> list (list vec)) i Rr, x_D c = 2%nat ->
  matching (x_dms c) i (x_radial c) g -> all_len 2 (gathered (x_dms c) i g) ->
  let rs := gathered (x_dms c) i (x_radial c) in
  balanced2 rs Rr -> x_nb c i = Z.of_nat (length rs) -> gp_Cd_R (nth i (x_parts c) gpart0) = 1 / (Rr * Rr) ->
  let g' := fst (fst (simple_layer c g)) in
  total 0 (gathered (x_dms c) i g') = 0 /\ total 1 (gathered (x_dms c) i g') = 0 /\
  Lsum (fun p => moment2 (fst p) (snd p)) (combine rs (gathered (x_dms c) i g')) = 0.
Proof. intros c g i Rr HD HM Hg rs (B1 & B2 & B3 & B4 & B5 & B6) Hn HC. apply sl2 with (Rr := Rr); auto. Qed.
Print Assumptions C40_force_and_torque_free_2d.
Theorem C40_force_and_torque_free_3d : forall c (g : dmda -> list (list vec)) i C, x_D c = 3%nat ->
  matching (x_dms c) i (x_radial c) g -> all_len 3 (gathered (x_dms c) i g) ->
  let rs := gathered (x_dms c) i (x_radial c) in
  balanced3 rs C -> x_nb c i = Z.of_nat (length rs) -> gp_Cd_R (nth i (x_parts c) gpart0) = C ->
  let g' := fst (fst (simple_layer c g)) in
  (forall k, (k < 3)%nat -> total k (gathered (x_dms c) i g') = 0) /\
  (forall k, (k < 3)%nat -> Lsum (fun p => moment3 k (fst p) (snd p)) (combine rs (gathered (x_dms c) i g')) = 0).
Proof. intros c g i C HD HM Hg rs (B1 & B2 & B3 & B4 & B5) Hn HC. apply sl3 with (C := C); auto. Qed.
Print Assumptions C40_force_and_torque_free_3d.

Lemma sumR_Lsum {A} (f : A -> R) l : sumR (map f l) = Lsum f l.
Proof. induction l; [reflexivity|]. rewrite Lsum_cons, <- IHl. reflexivity. Qed.
Lemma circle_balanced fuel tol ctr r q vel w rho f m per h parts dms bc k scale i l :
  0 < r -> 0 < k -> 0 < tol -> (q = quat_default \/ exists t, q = quat_angle t) ->
  surface2 fuel (circle_make ctr r q) k tol = Ok l ->
  grid_ok m per -> length m = 2%nat -> distributes m per 2 dms -> steps_ok h m ->
  nth_error parts i = Some (circle_gpart fuel tol ctr r q vel w rho f) -> circle_inside ctr r m per h ->
  let c := create_Mat_and_Vec 2 h parts dms bc k scale in
  balanced2 (gathered dms i (x_radial c)) r /\ x_nb c i = Z.of_nat (length (gathered dms i (x_radial c))) /\ gp_Cd_R (nth i (x_parts c) gpart0) = 1 / (r * r).
Proof.
  intros Hr Hk Ht Hq HS HG Hm HD Hh Hi HI c.
  destruct (circle_ctx fuel tol ctr r q vel w rho f m per h parts dms bc k scale i l Hr Hk Ht Hq HS HG Hm HD Hh Hi HI) as [HP HN]. fold c in HP, HN.
  destruct (circle_points fuel ctr r q k tol l Hr Hk Ht Hq HS) as (N1 & S0 & S1 & SR). rewrite sumR_Lsum in S0, S1.
  split; [|split; [exact HN|]].
  - split; [|split; [|split; [|split; [|split; [lra|]]]]].
    + intros E. rewrite E in HP. apply Permutation_nil in HP. destruct l; [congruence|discriminate].
    + apply Forall_forall. intros v Hv. apply (Permutation_in _ HP) in Hv. apply in_map_iff in Hv as [p [<- _]]. reflexivity.
    + unfold total. rewrite (Lsum_perm _ _ _ HP), Lsum_map. exact S0.
    + unfold total. rewrite (Lsum_perm _ _ _ HP), Lsum_map. exact S1.
    + rewrite (Lsum_perm _ _ _ HP), Lsum_map, (Permutation_length HP), map_length.
      rewrite <- Lsum_const. apply Lsum_ext. intros p Hp. exact (SR p Hp).
  - change (x_parts c) with parts. rewrite (nth_error_nth _ _ gpart0 Hi). reflexivity.
Qed.
(** every circle that lies in the domain, sampled and distributed by the code itself *)
Theorem C40_circles_are_force_and_torque_free : forall fuel tol ctr r q vel w rho f m per h parts dms bc k scale i l (g : dmda -> list (list vec)),
  0 < r -> 0 < k -> 0 < tol -> (q = quat_default \/ exists t, q = quat_angle t) ->
  surface2 fuel (circle_make ctr r q) k tol = Ok l ->
  grid_ok m per -> length m = 2%nat -> distributes m per 2 dms -> steps_ok h m ->
  nth_error parts i = Some (circle_gpart fuel tol ctr r q vel w rho f) -> circle_inside ctr r m per h ->
  let c := create_Mat_and_Vec 2 h parts dms bc k scale in
  matching dms i (x_radial c) g -> all_len 2 (gathered dms i g) ->
  let g' := fst (fst (simple_layer c g)) in
  total 0 (gathered dms i g') = 0 /\ total 1 (gathered dms i g') = 0 /\
  Lsum (fun p => moment2 (fst p) (snd p)) (combine (gathered dms i (x_radial c)) (gathered dms i g')) = 0.
Proof.
  intros fuel tol ctr r q vel w rho f m per h parts dms bc k scale i l g Hr Hk Ht Hq HS HG Hm HD Hh Hi HI c HM Hg g'.
  destruct (circle_balanced fuel tol ctr r q vel w rho f m per h parts dms bc k scale i l Hr Hk Ht Hq HS HG Hm HD Hh Hi HI) as (H1 & H2 & H3).
  exact (C40_force_and_torque_free_2d c g i r eq_refl HM Hg H1 H2 H3).
Qed.
Print Assumptions C40_circles_are_force_and_torque_free.

(** a rigid density is recognised and removed entirely *)
Theorem C40_rigid_density_removed_2d : forall c (g : dmda -> list (list vec)) i Rr v w, x_D c = 2%nat ->
  (forall dm, In dm (x_dms c) -> (i < length (g dm))%nat /\ nth i (g dm) [] = map (rigid2 v w) (nth i (x_radial c dm) [])) -> length v = 2%nat ->
  let rs := gathered (x_dms c) i (x_radial c) in
  balanced2 rs Rr -> x_nb c i = Z.of_nat (length rs) -> gp_Cd_R (nth i (x_parts c) gpart0) = 1 / (Rr * Rr) ->
  let '(g', mean, cross) := simple_layer c g in
  mean i = v /\ cross i = [w] /\ Forall (eq [0; 0]) (gathered (x_dms c) i g').
Proof. intros c g i Rr v w HD HM Hg rs (B1 & B2 & B3 & B4 & B5 & B6) Hn HC. apply (rigid_removed2 c g i Rr); auto. Qed.
Print Assumptions C40_rigid_density_removed_2d.
Theorem C40_rigid_density_removed_3d : forall c (g : dmda -> list (list vec)) i C v w, x_D c = 3%nat ->
  (forall dm, In dm (x_dms c) -> (i < length (g dm))%nat /\ nth i (g dm) [] = map (rigid3 v w) (nth i (x_radial c dm) [])) -> length v = 3%nat -> length w = 3%nat ->
  let rs := gathered (x_dms c) i (x_radial c) in
  balanced3 rs C -> x_nb c i = Z.of_nat (length rs) -> gp_Cd_R (nth i (x_parts c) gpart0) = C ->
  let '(g', mean, cross) := simple_layer c g in
  mean i = v /\ cross i = w /\ Forall (eq [0; 0; 0]) (gathered (x_dms c) i g').
Proof. intros c g i C v w HD HM Hg Hw rs (B1 & B2 & B3 & B4 & B5) Hn HC. apply (rigid_removed3 c g i C); auto. Qed.
Print Assumptions C40_rigid_density_removed_3d.

(** without the balance the claim fails: two samples a quarter turn apart *)
Theorem C40_unbalanced_refuted : exists c (g : dmda -> list (list vec)) dm, x_D c = 2%nat /\ x_dms c = [dm] /\ matching [dm] 0 (x_radial c) g /\
  x_radial c dm = [[[1; 0]; [0; 1]]] /\ x_nb c 0%nat = 2%Z /\ gp_Cd_R (nth 0 (x_parts c) gpart0) = 1 /\
  total 0 (gathered [dm] 0 (fst (fst (simple_layer c g)))) = 1 / 2.
Proof.
  set (dm := mkdmda [3; 3]%Z [false; false] (mkbox [0; 0]%Z [3; 3]%Z) (mkbox [0; 0]%Z [3; 3]%Z) 2).
  exists (mkpctx 2 [1; 1] [mkgpart (gp gpart0) [] [] 0 [] 0 0 1 0] [dm] (fun _ => []) (fun _ => [[[1; 0]; [0; 1]]]) (fun _ => 2%Z) (fun _ => 1%Z) 1 []), (fun _ => [[[0; 1]; [0; 0]]]), dm.
  split; [reflexivity|]. split; [reflexivity|]. split; [|split; [reflexivity|split; [reflexivity|split; [reflexivity|]]]].
  - intros d [<-|[]]. simpl. split; [lia|reflexivity].
  - unfold total, gathered, simple_layer, sl_mean, sl_cross, local_mean, local_cross, allsum, vzero. cbn. unfold co, Lsum. cbn. unfold cross22. cbn. field.
Qed.
Print Assumptions C40_unbalanced_refuted.

(** examples for C40: a circle of radius 1/4 in the unit square, two processes *)
Definition ex2_per : list bool := [false; false].
Definition ex2_mesh := createMesh [5; 5]%Z ex2_per [[3; 2]; [5]]%Z.
Definition ex2_m : list Z := refined_size [5; 5]%Z ex2_per.
Definition ex2_dms : list dmda := map fst ex2_mesh.
Definition ex2_h : vec := [1 / 8; 1 / 8].
Example ex2_grid : ex2_m = [9; 9]%Z /\ grid_ok ex2_m ex2_per /\ length ex2_m = 2%nat /\ distributes ex2_m ex2_per 2 ex2_dms /\ steps_ok ex2_h ex2_m /\ length ex2_dms = 2%nat /\ nonempty_views ex2_dms.
Proof.
  split; [reflexivity|]. split; [repeat split; simpl; auto; repeat constructor; lia|]. split; [reflexivity|].
  assert (RO : ranges_ok (mesh_pres [5; 5]%Z ex2_per) [[3; 2]; [5]]%Z) by (repeat constructor; simpl; try lia; try discriminate).
  destruct (C28_createMesh_layout [5; 5]%Z ex2_per [[3; 2]; [5]]%Z eq_refl RO) as (A & _). split; [exact A|].
  split; [|split; [reflexivity|repeat constructor; simpl; lia]]. split; [reflexivity|]. constructor; [lra|]. constructor; [lra|constructor].
Qed.
Definition ex2_circle (fuel : nat) : gpart := circle_gpart fuel (1 / 1000) (1 / 2, 1 / 2) (1 / 4) quat_default [0; 0] [0] 1 [0; -1].
Example ex2_sampled : exists fuel l, surface2 fuel (circle_make (1 / 2, 1 / 2) (1 / 4) quat_default) (1 / 10) (1 / 1000) = Ok l /\ l <> [].
Proof.
  destruct (C13_surface_2d_terminates (1 / 2, 1 / 2) (1 / 4) (1 / 4) 2 quat_default (1 / 10) (1 / 1000)) as (N & l & H); try lra.
  exists N, l. split; [apply H; lia|]. apply (circle_points N (1 / 2, 1 / 2) (1 / 4) quat_default (1 / 10) (1 / 1000) l); try lra; auto.
Qed.
Example ex2_circle_inside : circle_inside (1 / 2, 1 / 2) (1 / 4) ex2_m ex2_per ex2_h.
Proof. unfold circle_inside. cbn. lra. Qed.
Lemma nth_mapmap {A B} (f : A -> B) i l : nth i (map (map f) l) [] = map f (nth i l []).
Proof. exact (map_nth (map f) l [] i). Qed.
(** all the hypotheses of C40_circles_are_force_and_torque_free hold together, with densities (1,0) *)
Example ex2_densities : forall fuel scale, let c := create_Mat_and_Vec 2 ex2_h [ex2_circle fuel] ex2_dms [] (1 / 10) scale in
  let g := fun dm => map (map (fun _ : vec => [1; 0])) (x_radial c dm) in
  matching ex2_dms 0 (x_radial c) g /\ all_len 2 (gathered ex2_dms 0 g).
Proof.
  intros fuel scale c g. split.
  - intros dm _. unfold g. rewrite map_length. rewrite nth_mapmap, map_length. split; [|reflexivity].
    unfold c. cbn [x_radial create_Mat_and_Vec]. rewrite map_length, mats_length. simpl. lia.
  - apply Forall_forall. intros v Hv. apply in_flat_map in Hv as [dm [_ Hv]]. unfold g in Hv. rewrite nth_mapmap in Hv. apply in_map_iff in Hv as [r [<- _]]. reflexivity.
Qed.
(** balanced vectors in the plane and in space *)
Example ex_balanced2 : balanced2 [[2; 0]; [0; 2]; [-2; 0]; [0; -2]] 2.
Proof. unfold balanced2, total, Lsum, co, all_len. cbn. repeat split; try lra; try congruence; repeat constructor. Qed.
Example ex_balanced3 : balanced3 [[1; 0; 0]; [-1; 0; 0]; [0; 1; 0]; [0; -1; 0]; [0; 0; 1]; [0; 0; -1]] (3 / 2).
Proof.
  unfold balanced3, total, Lsum, co, all_len. split; [congruence|]. split; [repeat constructor|]. split; [|split; [lra|]].
  - intros [|[|[|k]]] Hk; cbn; try lra; lia.
  - intros [|[|[|a]]] [|[|[|b]]] Ha Hb; cbn; try lra; lia.
Qed.

(** ** C54: the constants a circular particle is used with are those of its circle *)
Theorem C54_circle_particle : forall fuel tol ctr r q vel w rho f, 0 < r -> let p := circle_gpart fuel tol ctr r q vel w rho f in
  gp_surface_area p = 2 * PI * r /\ gp_volume p = PI * r ^ 2 /\ gp_Cd_R p = 1 / r ^ 2 /\ gp_Ci_R p = 2 / r ^ 2 /\
  gp_velocity p = vel /\ gp_angular p = w /\ gp_rho p = rho /\ gp_force p = f /\ p_center (gp p) = [fst ctr; snd ctr].
Proof.
  intros fuel tol ctr r q vel w rho f Hr p. unfold p, circle_gpart. cbn [gp gp_surface_area gp_volume gp_Cd_R gp_Ci_R gp_velocity gp_angular gp_rho gp_force p_center].
  unfold circle_surface_area, circle_volume, circle_Cd_R, circle_Ci_R, circle_make, se2_make. cbn [s2 fst].
  split; [ring|]. split; [ring|]. split; [field; lra|]. split; [field; lra|]. repeat split.
Qed.
(** ** C40: velocities given back to the particles *)
Lemma circle_well_formed fuel tol ctr r q vel w rho f h k : length h = 2%nat -> well_formed 2 h k (gp (circle_gpart fuel tol ctr r q vel w rho f)).
Proof.
  intros Hh. destruct h as [|h0 [|h1 [|]]]; simpl in Hh; try lia. unfold well_formed. cbn [circle_gpart gp p_bbox p_surface p_center]. split; [|split; [|reflexivity]].
  - unfold bounding_box2_h, int_bounding_box, bounding_box2, circle_make, se2_make. cbn [c2 s2 q2]. destruct ctr as [cx cy]. destruct (is_rotate q); cbn; split; reflexivity.
  - destruct (surface2 _ _ _ _) as [l| | |]; try constructor. apply Forall_forall. intros v Hv. apply in_map_iff in Hv as [p [<- _]]. reflexivity.
Qed.
Lemma field_at_ext m per h u u' e x d : (forall k, (k < 2 ^ length m)%nat -> gv m per u e k d = gv m per u' e k d) -> field_at m per h u e x d = field_at m per h u' e x d.
Proof. intros H. unfold field_at. apply Rsum_ext. intros k Hk. rewrite H by exact Hk. reflexivity. Qed.
Lemma rigid_at m0 m1 h0 h1 u v w ctr e0 e1 x0 x1 d : 0 < h0 -> 0 < h1 -> moves_rigidly2 [h0; h1] u v w ctr -> (d < 2)%nat ->
  field_at [m0; m1] [false; false] [h0; h1] u [e0; e1] [x0; x1] d = co d (rigid2 v w [IZR e0 * h0 + x0 - fst ctr; IZR e1 * h1 + x1 - snd ctr]).
Proof.
  intros P0 P1 HU Hd.
  set (a := fun d => match d with 0%nat => co 0 v + w * snd ctr | _ => co 1 v - w * fst ctr end).
  set (b := fun d j : nat => match d, j with 0%nat, 1%nat => - w | 1%nat, 0%nat => w | _, _ => 0 end).
  rewrite (field_at_ext _ _ _ u (affine_field [h0; h1] a b)).
  - rewrite field_at_affine; try (left; reflexivity); try reflexivity; [|repeat constructor; assumption].
    unfold rigid2, a, b, co. destruct d as [|[|]]; [| |lia]; cbn; ring.
  - intros k Hk. unfold gv, corner. cbn [length seq zip_with wrap].
    match goal with |- u [?z0; ?z1] d = _ => generalize z0, z1 end. intros z0 z1. rewrite (HU z0 z1 d Hd).
    unfold affine_field, rigid2, a, b, co. destruct d as [|[|]]; [| |lia]; cbn; ring.
Qed.
Theorem C40_rigid_fluid_gives_its_velocity : forall fuel tol ctr r q vel w0 rho f m per h parts dms bc k scale i l sol v w,
  0 < r -> 0 < k -> 0 < tol -> (q = quat_default \/ exists t, q = quat_angle t) ->
  surface2 fuel (circle_make ctr r q) k tol = Ok l ->
  grid_ok m per -> length m = 2%nat -> per = [false; false] -> distributes m per 2 dms -> steps_ok h m ->
  Forall (fun p => well_formed 2 h k (gp p)) parts ->
  nth_error parts i = Some (circle_gpart fuel tol ctr r q vel w0 rho f) -> circle_inside ctr r m per h ->
  length v = 2%nat -> moves_rigidly2 h sol v w ctr ->
  exists vs, get_new_velocities (create_Mat_and_Vec 2 h parts dms bc k scale) sol = Ok vs /\ nth_error vs i = Some v.
Proof.
  intros fuel tol ctr r q vel w0 rho f m per h parts dms bc k scale i l sol v w Hr Hk Ht Hq HS HG Hm HP HD Hh HW Hi HI Lv HR.
  destruct (circle_balanced fuel tol ctr r q vel w0 rho f m per h parts dms bc k scale i l Hr Hk Ht Hq HS HG Hm HD Hh Hi HI) as (BB & HN & HC).
  set (c := create_Mat_and_Vec 2 h parts dms bc k scale) in *.
  assert (Hi' : (i < length parts)%nat) by (apply nth_error_Some; congruence).
  assert (HWf : forall p, In p parts -> has_dim 2 (p_bbox (gp p) h) /\ all_len 2 (p_surface (gp p) k) /\ length (p_center (gp p)) = 2%nat).
  { rewrite Forall_forall in HW. exact HW. }
  destruct (create_ctx_ok 2 m per h parts dms bc k scale HG Hm HD Hh HWf) as [OK SH]. fold c in OK, SH.
  assert (IO : forall dm, In dm (x_dms c) -> interp_fluid_to_surf c false sol dm = Ok (map (map (fun sp => map (field_at m per (x_h c) sol (fst sp) (snd sp)) (seq 0 (x_D c)))) (x_surf c dm))) by (intros dm Hin; apply (interp_ok m per c sol dm OK Hin)).
  unfold get_new_velocities, interp_all. rewrite (on_all_map _ _ _ IO). cbn [bind]. eexists. split; [reflexivity|].
  change (length (x_parts c)) with (length parts). rewrite (nth_error_map _ i).
  assert (Es : nth_error (seq 0 (length parts)) i = Some i). { rewrite nth_error_nth' with (d := 0%nat) by (rewrite seq_length; exact Hi'). rewrite seq_nth by exact Hi'. reflexivity. }
  rewrite Es. cbn [option_map]. f_equal. cbn [simple_layer fst snd].
  set (g := fun dm => match interp_fluid_to_surf c false sol dm with Ok g => g | _ => [] end).
  destruct BB as (B1 & B2 & B3 & B4 & B5 & B6).
  apply (rigid_removed2 c g i r v w); auto.
  intros dm Hin. unfold g. rewrite (IO dm Hin), map_length. destruct (SH dm Hin) as (_ & LS & _). rewrite LS. split; [exact Hi'|].
  rewrite nth_mapmap.
  destruct (HWf _ (nth_In _ gpart0 Hi')) as (W1 & W2 & W3). destruct Hh as [Lh Ph]. rewrite Hm in Lh.
  unfold c. rewrite (x_surf_nth 2 m per h parts dms bc k scale i HG HD Hm Lh Hi' W1 W2 dm Hin), (x_radial_nth 2 m per h parts dms bc k scale i HG HD Hm Lh Hi' W1 W2 dm Hin), !map_map.
  apply map_ext_in. intros pt Hpt. apply filter_In in Hpt as [Hpt _]. cbn [fst snd].
  assert (Lpt : length pt = 2%nat). { unfold all_len in W2. rewrite Forall_forall in W2. apply W2, Hpt. }
  assert (EC : p_center (gp (nth i parts gpart0)) = vec2 ctr) by (rewrite (nth_error_nth _ _ gpart0 Hi); reflexivity). rewrite EC.
  subst per. destruct m as [|m0 [|m1 [|]]]; simpl in Hm; try lia. destruct h as [|h0 [|h1 [|]]]; simpl in Lh; try lia. destruct pt as [|p0 [|p1 [|]]]; simpl in Lpt; try lia.
  inversion Ph as [|? ? P0 Ph']; subst. inversion Ph' as [|? ? P1 _]; subst.
  change (x_h (create_Mat_and_Vec 2 [h0; h1] parts dms bc k scale)) with [h0; h1]. change (x_D (create_Mat_and_Vec 2 [h0; h1] parts dms bc k scale)) with 2%nat. cbn [seq map].
  unfold cell_of, pos_to_int, pos_div, pos_div_assign, pos_minus, pos_sub_assign, pos_times, pos_mul_assign, pos_of_int, vec2. cbn [zip_with map].
  rewrite !(rigid_at m0 m1 h0 h1 sol v w ctr) by (auto; lia). unfold rigid2, co. cbn [nth]. apply f_equal2; [|apply f_equal2; [|reflexivity]]; ring.
Qed.
Print Assumptions C40_rigid_fluid_gives_its_velocity.
Example ex2_rigid : moves_rigidly2 ex2_h (fun n d => co d (rigid2 [3; 1] 2 [IZR (nth 0 n 0%Z) / 8 - 1 / 2; IZR (nth 1 n 0%Z) / 8 - 1 / 2])) [3; 1] 2 (1 / 2, 1 / 2) /\
  forall fuel, Forall (fun p => well_formed 2 ex2_h (1 / 10) (gp p)) [ex2_circle fuel].
Proof.
  split; [|intros fuel; constructor; [apply circle_well_formed; reflexivity|constructor]].
  intros n0 n1 d Hd. unfold rigid2, co, ex2_h. cbn [nth fst snd]. destruct d as [|[|]]; cbn [nth]; [field|field|lia].
Qed.

(** ** C41: interpolation and spreading *)
(** what the code builds always satisfies the hypotheses below *)
Theorem C41_context_is_well_formed : forall D m per h parts dms bc k scale, grid_ok m per -> length m = D -> distributes m per D dms -> steps_ok h m ->
  Forall (fun p => well_formed D h k (gp p)) parts ->
  let c := create_Mat_and_Vec D h parts dms bc k scale in
  ctx_ok m per c /\ forall dm, In dm dms -> same_shape (x_surf c dm) (x_radial c dm) /\ length (x_surf c dm) = length parts /\ Forall (all_len D) (x_radial c dm).
Proof. intros D m per h parts dms bc k scale HG Hm HD HS HW. apply create_ctx_ok; auto. rewrite Forall_forall in HW. exact HW. Qed.
Print Assumptions C41_context_is_well_formed.
Theorem C41_interpolation_is_Q1 : forall m per c u dm, ctx_ok m per c -> In dm (x_dms c) ->
  interp_fluid_to_surf c false u dm = Ok (map (map (fun sp => map (field_at m per (x_h c) u (fst sp) (snd sp)) (seq 0 (x_D c)))) (x_surf c dm)).
Proof. intros. apply interp_ok; assumption. Qed.
Print Assumptions C41_interpolation_is_Q1.
(** <S g, u> = sum over the particles of (area / number of samples) * sum over the samples of
    g . (interpolated u) *)
Theorem C41_spreading_is_adjoint_of_interpolation : forall m per c (g : dmda -> list (list vec)), ctx_ok m per c ->
  (forall dm, In dm (x_dms c) -> length (g dm) = length (x_parts c) /\ same_shape (x_surf c dm) (g dm) /\ Forall (all_len (x_D c)) (g dm)) ->
  exists y, SL_to_Rhs_raw c g = Ok y /\
  forall u N, enumerates N (nodes_box m) -> exists I, interp_all c false u = Ok I /\
    inner N (x_D c) y u = Rsum (length (x_parts c)) (fun i => gp_surface_area (nth i (x_parts c) gpart0) / IZR (x_nb c i) *
      Lsum (fun gI => dotp (fst gI) (snd gI)) (combine (gathered (x_dms c) i g) (gathered (x_dms c) i I))).
Proof.
  intros m per c g OK Hg. destruct (SL_raw_ok m per c g OK) as (y & E & V). { intros dm Hin. split; apply (Hg dm Hin). }
  exists y. split; [exact E|]. intros u N HN.
  assert (IO : forall dm, In dm (x_dms c) -> interp_fluid_to_surf c false u dm = Ok (map (map (fun sp => map (field_at m per (x_h c) u (fst sp) (snd sp)) (seq 0 (x_D c)))) (x_surf c dm))) by (intros dm Hin; apply (interp_ok m per c u dm OK Hin)).
  unfold interp_all. rewrite (on_all_map _ _ _ IO). cbn [bind]. eexists. split; [reflexivity|]. rewrite (V u N HN).
  set (I := fun dm => match interp_fluid_to_surf c false u dm with Ok g => g | _ => [] end).
  rewrite (Lsum_ext _ (fun dm => Lsum (fun i => gamma c i * Lsum (fun gI => dotp (fst gI) (snd gI)) (combine (nth i (g dm) []) (nth i (I dm) []))) (seq 0 (length (x_parts c))))).
  2:{ intros dm Hin. destruct (Hg dm Hin) as (L1 & _). rewrite L1. apply Lsum_ext. intros i _. unfold I. rewrite (IO dm Hin). reflexivity. }
  rewrite Lsum_swap, Lsum_seq. apply Rsum_ext. intros i Hi. rewrite Lsum_scal. unfold gamma. f_equal. unfold gathered. rewrite combine_flat, Lsum_flat_map; [reflexivity|].
  intros dm Hin. destruct (Hg dm Hin) as (L1 & SS & _). unfold I. rewrite (IO dm Hin). rewrite nth_mapmap, map_length.
  clear - SS. revert i. induction SS as [|a b l l' H SS IH]; intros [|i]; simpl; auto.
Qed.
Print Assumptions C41_spreading_is_adjoint_of_interpolation.
Lemma dotp_unit D d (g : vec) I : length g = D -> (d < D)%nat -> length I = D -> (forall k, (k < D)%nat -> co k I = if Nat.eqb k d then 1 else 0) -> dotp g I = co d g.
Proof.
  unfold dotp, co. revert D d I. induction g as [|a g IH]; intros D d [|b I] L1 Hd L2 H; simpl in *; try lia.
  destruct D as [|D]; [lia|]. pose proof (H 0%nat ltac:(lia)) as H0. simpl in H0. destruct d as [|d]; simpl in *.
  - rewrite H0. assert (Z0 : fold_right Rplus 0 (zip_with Rmult g I) = 0).
    { assert (HI : forall k, nth k I 0 = 0). { intros k. destruct (Nat.lt_ge_cases k (length I)); [|apply nth_overflow; assumption]. apply (H (S k)). lia. }
      clear - HI. revert I HI. induction g as [|c g IH]; intros [|e I] HI; simpl; auto. rewrite IH by (intros k; apply (HI (S k))). pose proof (HI 0%nat) as E. simpl in E. rewrite E. ring. }
    rewrite Z0. ring.
  - rewrite H0. rewrite (IH D d I); try lia. { ring. } intros k Hk. apply (H (S k)). lia.
Qed.
(** the total force put on the grid is the weighted total of the densities *)
Theorem C41_total_force_is_conserved : forall m per c (g : dmda -> list (list vec)), ctx_ok m per c ->
  (forall dm, In dm (x_dms c) -> length (g dm) = length (x_parts c) /\ same_shape (x_surf c dm) (g dm) /\ Forall (all_len (x_D c)) (g dm)) ->
  exists y, SL_to_Rhs_raw c g = Ok y /\
  forall d N, (d < x_D c)%nat -> enumerates N (nodes_box m) ->
    Lsum (fun n => y n d) N = Rsum (length (x_parts c)) (fun i => gp_surface_area (nth i (x_parts c) gpart0) / IZR (x_nb c i) * total d (gathered (x_dms c) i g)).
Proof.
  intros m per c g OK Hg. destruct (C41_spreading_is_adjoint_of_interpolation m per c g OK Hg) as (y & E & V). exists y. split; [exact E|].
  intros d N Hd HN. destruct (V (unit_field d) N HN) as (I & EI & VI).
  pose proof OK as (HG & HDm & HD & HS & HCT).
  assert (E1 : Lsum (fun n => y n d) N = inner N (x_D c) y (unit_field d)).
  { unfold inner, unit_field. apply Lsum_ext. intros n _. rewrite <- (Rsum_pick (x_D c) d (fun d' => y n d')) by exact Hd. apply Rsum_ext. intros d' _. rewrite (Nat.eqb_sym d d'); destruct (Nat.eqb d' d); ring. }
  rewrite E1, VI. apply Rsum_ext. intros i Hi. f_equal.
  assert (IO : forall dm, In dm (x_dms c) -> interp_fluid_to_surf c false (unit_field d) dm = Ok (map (map (fun sp => map (field_at m per (x_h c) (unit_field d) (fst sp) (snd sp)) (seq 0 (x_D c)))) (x_surf c dm))) by (intros dm Hin; apply (interp_ok m per c (unit_field d) dm OK Hin)).
  unfold interp_all in EI. rewrite (on_all_map _ _ _ IO) in EI. cbn [bind] in EI. injection EI as EI.
  transitivity (Lsum (fun gI : vec * vec => co d (fst gI)) (combine (gathered (x_dms c) i g) (gathered (x_dms c) i I))).
  - apply Lsum_ext. intros [v J] Hv. cbn [fst snd]. pose proof (in_combine_l _ _ _ _ Hv) as Hv1. pose proof (in_combine_r _ _ _ _ Hv) as Hv2. 
    apply in_flat_map in Hv1 as [dm [Hin Hv1]]. apply in_flat_map in Hv2 as [dm2 [Hin2 Hv2]].
    destruct (Hg dm Hin) as (L1 & _ & AL). rewrite Forall_forall in AL. assert (Lv : length v = x_D c). { specialize (AL (nth i (g dm) []) ltac:(apply nth_In; lia)). unfold all_len in AL. rewrite Forall_forall in AL. apply AL, Hv1. }
    rewrite <- EI, (IO dm2 Hin2), nth_mapmap in Hv2. apply in_map_iff in Hv2 as [sp [<- Hsp]].
    apply (dotp_unit (x_D c)); auto; [rewrite map_length, seq_length; reflexivity|]. intros k Hk. rewrite co_map_seq by exact Hk.
    assert (Hs : In (nth i (x_surf c dm2) []) (x_surf c dm2)). { destruct (nth_in_or_default i (x_surf c dm2) []) as [H|H]; [exact H|]. rewrite H in Hsp. destruct Hsp. }
    destruct (HCT dm2 _ sp Hin2 Hs Hsp) as [_ Lx]. destruct HS as [Lh _].
    exact (field_at_const m per (x_h c) (fst sp) (snd sp) (fun d' => if Nat.eqb d' d then 1 else 0) k (proj1 HG) ltac:(lia) ltac:(lia)).
  - unfold total. rewrite <- (Lsum_fst (co d) (gathered (x_dms c) i g) (gathered (x_dms c) i I)); [reflexivity|].
    unfold gathered. clear Hi VI E1 V E. subst I. assert (HX : forall dm, In dm (x_dms c) -> length (nth i (g dm) []) = length (nth i (match interp_fluid_to_surf c false (unit_field d) dm with Ok g0 => g0 | _ => [] end) [])).
    { intros dm Hin. rewrite (IO dm Hin), nth_mapmap, map_length. destruct (Hg dm Hin) as (_ & SS & _). clear - SS. revert i. induction SS as [|a b l l' H SS IH]; intros [|i]; simpl; auto. }
    clear - HX. induction (x_dms c) as [|dm l IH]; [reflexivity|]. cbn [flat_map]. rewrite !app_length, (HX dm (or_introl eq_refl)), IH by (intros; apply HX; right; auto). reflexivity.
Qed.
Print Assumptions C41_total_force_is_conserved.
(** SL_to_Rhs is that vector, with 0 at the constrained components *)
Theorem C41_spreading_with_boundary_conditions : forall m per c bc (g : dmda -> list (list vec)), ctx_ok m per c ->
  (forall dm, In dm (x_dms c) -> length (g dm) = length (x_parts c) /\ same_shape (x_surf c dm) (g dm) /\ Forall (all_len (x_D c)) (g dm)) ->
  nonempty_views (x_dms c) -> table_ok (x_D c) (x_D c) bc -> x_bc c = map Some bc ->
  exists y y', SL_to_Rhs_raw c g = Ok y /\ SL_to_Rhs c g = Ok y' /\
  forall n d, in_grid_box (nodes_box m) n -> (d < x_D c)%nat ->
    y' n d = match prescribed (x_D c) m per bc n d with Some _ => 0 | None => y n d end.
Proof.
  intros m per c bc g OK Hg HN HT HB. pose proof OK as (HG & HDm & HD & HS & HCT). destruct (SL_raw_ok m per c g OK) as (y & E & _). { intros dm Hin. split; apply (Hg dm Hin). }
  rewrite <- HDm in HT at 1. destruct (C30_null_on_rhs m per (x_D c) bc (x_dms c) y HG HD HN HT) as (y' & E' & V). rewrite HDm in E', V.
  exists y, y'. split; [exact E|]. split; [|exact V]. unfold SL_to_Rhs. rewrite E. cbn [bind]. rewrite HB. exact E'.
Qed.
Print Assumptions C41_spreading_with_boundary_conditions.

(** ** C42: the rigid motion *)
Lemma minus2 g v x : length g = length v -> length g = length x -> forall k, co k (vec_sub_assign g (velocity_minus_vec v x)) = co k g + co k v - co k x.
Proof. intros H1 H2 k. unfold velocity_minus_vec. rewrite co_sub, co_sub; [ring|congruence|]. rewrite len_sub; congruence. Qed.
Theorem C42_rigid_motion_2d : forall p r g w, length (gp_velocity p) = 2%nat -> gp_angular p = [w] -> length r = 2%nat -> length g = 2%nat ->
  rigid_motion_point p r g = [co 0 g + co 0 (gp_velocity p) + w * co 1 r; co 1 g + co 1 (gp_velocity p) - w * co 0 r].
Proof.
  intros p r g w Hv Hw Hr Hg. unfold rigid_motion_point. rewrite Hw, cross_sv2 by exact Hr.
  rewrite (list2 (vec_sub_assign _ _)). { rewrite !minus2 by (simpl; congruence). unfold co. cbn [nth]. apply f_equal2; [ring|]. apply f_equal2; [ring|reflexivity]. }
  unfold velocity_minus_vec. rewrite !len_sub; simpl; try congruence. rewrite len_sub; simpl; congruence.
Qed.
Theorem C42_rigid_motion_3d : forall p r g, length (gp_velocity p) = 3%nat -> length (gp_angular p) = 3%nat -> length r = 3%nat -> length g = 3%nat ->
  forall k, (k < 3)%nat -> co k (rigid_motion_point p r g) = co k g + co k (gp_velocity p) - moment3 k (gp_angular p) r.
Proof.
  intros p r g Hv Hw Hr Hg k Hk. unfold rigid_motion_point. rewrite cross_sv3 by assumption. rewrite minus2 by (simpl; congruence).
  destruct k as [|[|[|k]]]; try lia; reflexivity.
Qed.
(** the rigid velocity v + w x r is not what is subtracted, unless v = 0 *)
Theorem C42_rigid_motion_sign_refuted : forall p r g w, length (gp_velocity p) = 2%nat -> gp_angular p = [w] -> length r = 2%nat -> length g = 2%nat ->
  (rigid_motion_point p r g = zip_with Rminus g (rigid2 (gp_velocity p) w r) <-> gp_velocity p = [0; 0]).
Proof.
  intros p r g w Hv Hw Hr Hg. rewrite (C42_rigid_motion_2d p r g w Hv Hw Hr Hg), (list2 g Hg), (list2 _ Hv). unfold rigid2. cbn [zip_with].
  split; intros H.
  - injection H as H1 H2. apply f_equal2; [|apply f_equal2; [|reflexivity]]; unfold co in *; cbn in *; lra.
  - injection H as H1 H2. unfold co in *. cbn in *. rewrite H1, H2. apply f_equal2; [ring|]. apply f_equal2; [ring|reflexivity].
Qed.
Print Assumptions C42_rigid_motion_2d. Print Assumptions C42_rigid_motion_3d. Print Assumptions C42_rigid_motion_sign_refuted.
Example ex_rigid_motion : let p := mkgpart (gp gpart0) [1; 0] [2] 0 [] 0 0 0 0 in
  rigid_motion_point p [0; 3] [5; 5] = [12; 5] /\ zip_with Rminus [5; 5] (rigid2 [1; 0] 2 [0; 3]) = [10; 5].
Proof. cbv zeta. split; [rewrite (C42_rigid_motion_2d _ _ _ 2) by reflexivity|]; unfold rigid2, co; cbn; apply f_equal2; try lra; apply f_equal2; try lra; reflexivity. Qed.

(** ** C39: forces and torques *)
Definition node_at (h ctr : vec) (q : list Z) : vec := zip_with Rminus (zip_with (fun z s => IZR z * s) q h) ctr.
Lemma list_sum_map_length {A} (f : A -> nat) l : list_sum (map f l) = fold_right (fun a s => (f a + s)%nat) 0%nat l.
Proof. induction l; simpl; auto. Qed.
Section C39.
  Variables (D : nat) (m : list Z) (per : list bool) (h : vec) (parts : list gpart) (dms : list dmda) (bc : list (option bc_row)) (k : R) (scale : Z).
  Hypothesis HG : grid_ok m per.
  Hypothesis Hm : length m = D.
  Hypothesis HD : distributes m per D dms.
  Hypothesis Hh : length h = D.
  Hypothesis HS : small_grid m.
  Hypothesis HW : Forall (fun p => well_formed D h k (gp p)) parts.
  Let c := create_Mat_and_Vec D h parts dms bc k scale.
  Definition the_pts (dm : dmda) (i : nat) : list (list Z) := inside_pts h (nth i parts gpart0) dm.
  Lemma wf i : (i < length parts)%nat -> well_formed D h k (gp (nth i parts gpart0)).
  Proof. intros Hi. rewrite Forall_forall in HW. apply HW, nth_In, Hi. Qed.
  Lemma the_pts_spec dm i : In dm dms -> (i < length parts)%nat -> control_points h dm (gp (nth i parts gpart0)) (the_pts dm i).
  Proof.
    intros Hin Hi. destruct (wf i Hi) as (W1 & _). unfold control_points, the_pts. split.
    - unfold inside_pts. apply strictly_increasing_filter. apply (grid_pts_spec D). apply overlap_dim; [|exact W1]. apply (view_dim' D m per dms HG HD Hm dm Hin).
    - apply (inside_pts_spec D m per h dms _ HG HD Hm W1 dm Hin).
  Qed.
  Lemma ctl_is dm i : In dm dms -> (i < length parts)%nat -> ctl_pts c dm i = the_pts dm i.
  Proof. intros Hin Hi. unfold ctl_pts, c. cbn [x_D x_h x_parts create_Mat_and_Vec]. apply (fluid_pts_eq D m per h dms); auto. apply (wf i Hi). Qed.
  Lemma size_is dm : In dm dms -> control_size D h parts k scale dm = (D * list_sum (map (fun i => length (the_pts dm i)) (seq 0 (length parts))))%nat.
  Proof.
    intros Hin. unfold control_size. rewrite Nat.mul_comm. f_equal.
    assert (E : forall l, (forall p, In p l -> In p parts) -> fst (set_materials_local D (map gp l) (get_DM_bounds dm true) h k scale (repeat mat0 (length l))) = list_sum (map (fun p => length (inside_pts h p dm)) l)).
    { induction l as [|p l IH]; intros Hl; [reflexivity|]. cbn [map length repeat set_materials_local].
      specialize (IH (fun q Hq => Hl q (or_intror Hq))). destruct (set_material D (gp p) (get_DM_bounds dm true) h k scale mat0) as [n mm] eqn:E1.
      destruct (set_materials_local D (map gp l) (get_DM_bounds dm true) h k scale (repeat mat0 (length l))) as [n' ms]. cbn [fst] in *. rewrite IH. cbn [list_sum fold_right]. f_equal.
      rewrite <- (fluid_pts_eq D m per h dms p HG HD Hm) with (cut := box_inside Z.ltb); auto.
      - unfold fluid_pts. unfold set_material in E1. destruct (intersect Z.ltb (get_DM_bounds dm true) (p_bbox (gp p) h)); injection E1 as E1 _; rewrite <- E1; reflexivity.
      - rewrite Forall_forall in HW. apply (HW p (Hl p (or_introl eq_refl))). }
    unfold local_materials. rewrite E by auto. f_equal. unfold the_pts.
    clear. induction parts as [|p l IH]; [reflexivity|]. cbn [map length seq nth]. f_equal. rewrite IH. rewrite <- seq_shift, map_map. reflexivity.
  Qed.
  Lemma C39_main : forall ctl : dmda -> list (list vec),
     (forall dm, In dm dms -> length (ctl dm) = length parts /\ forall i, (i < length parts)%nat -> length (nth i (ctl dm) []) = length (the_pts dm i) /\ all_len D (nth i (ctl dm) [])) ->
     exists res, forces_torques c (fun dm => concat (map (@concat R) (ctl dm))) = Ok res /\ length res = length parts /\
       forall i, (i < length parts)%nat ->
         let F := fst (nth i res ([], [])) in let T := snd (nth i res ([], [])) in
         let w := gp_volume (nth i parts gpart0) / IZR (x_num c i) in
         let arms := flat_map (fun dm => map (node_at h (p_center (gp (nth i parts gpart0)))) (the_pts dm i)) dms in
         length F = D /\ (forall d, (d < D)%nat -> co d F = w * total d (gathered dms i ctl)) /\
         (D = 2%nat -> T = [w * Lsum (fun p => moment2 (fst p) (snd p)) (combine arms (gathered dms i ctl))]) /\
         (D = 3%nat -> length T = 3%nat /\ forall d, (d < 3)%nat -> co d T = w * Lsum (fun p => moment3 d (fst p) (snd p)) (combine arms (gathered dms i ctl))).
  Proof.
    intros ctl Hc. assert (D23 : D = 2%nat \/ D = 3%nat) by (rewrite <- Hm; apply HG).
    assert (RL : forall dm i q, In dm dms -> (i < length parts)%nat -> In q (the_pts dm i) -> length (node_at h (p_center (gp (nth i parts gpart0))) q) = D).
    { intros dm i q Hin Hi Hq. destruct (wf i Hi) as (W1 & _ & W3). destruct (inside_pts_spec D m per h dms (nth i parts gpart0) HG HD Hm W1 dm Hin) as [_ I2]. apply I2 in Hq as (Q1 & Q2 & _).
      apply in_grid_box_len in Q2. unfold node_at. rewrite zip_length; rewrite zip_length; destruct W1; lia. }
    destruct (forces_ok c ctl) as (res & E & L & V).
    - exact D23.
    - intros dm Hin. destruct (Hc dm Hin) as [H1 H2]. split; [exact H1|]. split.
      + apply Forall_forall. intros l Hl. destruct (In_nth _ _ [] Hl) as (i & Hi & <-). apply H2. rewrite <- H1. exact Hi.
      + intros i Hi. rewrite ctl_is by assumption. apply H2, Hi.
    - intros dm i q Hin Hi Hq. change (x_parts c) with parts in *. change (x_h c) with h. change (x_D c) with D.
      rewrite ctl_is in Hq by assumption. apply (RL dm i q Hin Hi Hq).
    - exists res. split; [exact E|]. split; [exact L|]. intros i Hi F T w arms'. destruct (V i Hi) as (V1 & V2 & V3 & V4). fold F in V1, V3. fold T in V2, V4.
      change (x_D c) with D in *. change (x_dms c) with dms in *.
      assert (EW : weight c i = w) by reflexivity. rewrite EW in *.
      assert (EA : arms c i = arms'). { unfold arms, arms'. change (x_dms c) with dms. apply flat_map_ext_in. intros dm Hin. rewrite ctl_is by assumption. reflexivity. }
      rewrite EA in V4.
      assert (PL : forall p : vec * vec, In p (combine arms' (gathered dms i ctl)) -> length (fst p) = D /\ length (snd p) = D).
      { intros [r v] Hp. pose proof (in_combine_l _ _ _ _ Hp) as Hp1. pose proof (in_combine_r _ _ _ _ Hp) as Hp2. cbn [fst snd]. split.
        - apply in_flat_map in Hp1 as [dm [Hin Hp1]]. apply in_map_iff in Hp1 as [q [<- Hq]]. apply (RL dm i q Hin Hi Hq).
        - apply in_flat_map in Hp2 as [dm [Hin Hp2]]. destruct (Hc dm Hin) as [_ H2]. destruct (H2 i Hi) as [_ H3]. unfold all_len in H3. rewrite Forall_forall in H3. apply H3, Hp2. }
      split; [exact V1|]. split; [intros d _; apply V3|]. split; intros E2.
      + rewrite E2 in V2. rewrite (list1 T V2). apply f_equal2; [|reflexivity]. rewrite V4. f_equal. apply Lsum_ext. intros p Hp. destruct (PL p Hp) as [P1 P2]. rewrite E2 in P1, P2. rewrite cross_vv2 by assumption. reflexivity.
      + rewrite E2 in V2. split; [exact V2|]. intros d Hd. rewrite V4. f_equal. apply Lsum_ext. intros p Hp. destruct (PL p Hp) as [P1 P2]. rewrite E2 in P1, P2. rewrite cross_vv3 by assumption. destruct d as [|[|[|]]]; try lia; reflexivity.
  Qed.
End C39.
Theorem C39_forces_and_torques : forall D m per h parts dms bc k scale, grid_ok m per -> length m = D -> distributes m per D dms -> length h = D -> small_grid m ->
  Forall (fun p => well_formed D h k (gp p)) parts ->
  let c := create_Mat_and_Vec D h parts dms bc k scale in
  exists pts : dmda -> nat -> list (list Z),
    (forall dm i, In dm dms -> (i < length parts)%nat -> control_points h dm (gp (nth i parts gpart0)) (pts dm i)) /\
    (forall dm, In dm dms -> control_size D h parts k scale dm = (D * list_sum (map (fun i => length (pts dm i)) (seq 0 (length parts))))%nat) /\
    (forall i, (i < length parts)%nat -> let n := Z.of_nat (length (flat_map (fun dm => pts dm i) dms)) in
       ((1 <= scale)%Z -> (n <= x_num c i)%Z) /\ (scale = 1%Z -> x_num c i = n)) /\
    forall ctl : dmda -> list (list vec),
     (forall dm, In dm dms -> length (ctl dm) = length parts /\ forall i, (i < length parts)%nat -> length (nth i (ctl dm) []) = length (pts dm i) /\ all_len D (nth i (ctl dm) [])) ->
     exists res, forces_torques c (fun dm => concat (map (@concat R) (ctl dm))) = Ok res /\ length res = length parts /\
       forall i, (i < length parts)%nat ->
         let F := fst (nth i res ([], [])) in let T := snd (nth i res ([], [])) in
         let w := gp_volume (nth i parts gpart0) / IZR (x_num c i) in
         let arms := flat_map (fun dm => map (node_at h (p_center (gp (nth i parts gpart0)))) (pts dm i)) dms in
         length F = D /\ (forall d, (d < D)%nat -> co d F = w * total d (gathered dms i ctl)) /\
         (D = 2%nat -> T = [w * Lsum (fun p => moment2 (fst p) (snd p)) (combine arms (gathered dms i ctl))]) /\
         (D = 3%nat -> length T = 3%nat /\ forall d, (d < 3)%nat -> co d T = w * Lsum (fun p => moment3 d (fst p) (snd p)) (combine arms (gathered dms i ctl))).
Proof.
  intros D m per h parts dms bc k scale HG Hm HD Hh HS HW c. exists (the_pts h parts). split; [|split; [|split]].
  - apply (the_pts_spec D m per h parts dms k HG Hm HD HW).
  - apply (size_is D m per h parts dms k scale HG Hm HD Hh HS HW).
  - intros i Hi n. rewrite Forall_forall in HW. destruct (HW _ (nth_In _ gpart0 Hi)) as (W1 & _). split; intros Hs; unfold c, n, the_pts.
    + apply (num_ge D m per h parts dms bc k scale i HG HD Hm Hh Hi W1 Hs).
    + apply (num_scale1 D m per h parts dms bc k scale i HG HD Hm Hh Hi W1 Hs).
  - apply (C39_main D m per h parts dms bc k scale HG Hm HD Hh HS HW).
Qed.
Print Assumptions C39_forces_and_torques.

(** a constant control g: force g * volume * (number of control points) / num; that is
    g * volume for a sub-grid of scale 1 *)
Lemma total_const d (g : vec) l : (forall v, In v l -> v = g) -> total d l = INR (length l) * co d g.
Proof. intros H. unfold total. rewrite (Lsum_ext _ (fun _ => co d g)) by (intros v Hv; rewrite (H v Hv); reflexivity). apply Lsum_const. Qed.
Lemma gathered_len (ctl : dmda -> list (list vec)) (pts : dmda -> list (list Z)) dms i : (forall dm, In dm dms -> length (nth i (ctl dm) []) = length (pts dm)) ->
  length (gathered dms i ctl) = length (flat_map pts dms).
Proof. unfold gathered. induction dms as [|dm l IH]; intros H; [reflexivity|]. cbn [flat_map]. rewrite !app_length, (H dm (or_introl eq_refl)), IH by (intros; apply H; right; auto). reflexivity. Qed.
Theorem C39_constant_field : forall D m per h parts dms bc k scale, grid_ok m per -> length m = D -> distributes m per D dms -> length h = D -> small_grid m ->
  Forall (fun p => well_formed D h k (gp p)) parts ->
  let c := create_Mat_and_Vec D h parts dms bc k scale in
  exists pts : dmda -> nat -> list (list Z),
    (forall dm i, In dm dms -> (i < length parts)%nat -> control_points h dm (gp (nth i parts gpart0)) (pts dm i)) /\
    forall (ctl : dmda -> list (list vec)) (g : nat -> vec),
     (forall dm, In dm dms -> length (ctl dm) = length parts /\ forall i, (i < length parts)%nat -> nth i (ctl dm) [] = repeat (g i) (length (pts dm i)) /\ length (g i) = D) ->
     exists res, forces_torques c (fun dm => concat (map (@concat R) (ctl dm))) = Ok res /\
       forall i, (i < length parts)%nat -> let n := length (flat_map (fun dm => pts dm i) dms) in
         forall d, (d < D)%nat ->
         co d (fst (nth i res ([], []))) = co d (g i) * gp_volume (nth i parts gpart0) * (INR n / IZR (x_num c i)) /\
         (scale = 1%Z -> (0 < n)%nat -> co d (fst (nth i res ([], []))) = co d (g i) * gp_volume (nth i parts gpart0)).
Proof.
  intros D m per h parts dms bc k scale HG Hm HD Hh HS HW c.
  destruct (C39_forces_and_torques D m per h parts dms bc k scale HG Hm HD Hh HS HW) as (pts & P1 & _ & P3 & P4). fold c in P3, P4.
  exists pts. split; [exact P1|]. intros ctl g Hc. destruct (P4 ctl) as (res & E & L & V).
  { intros dm Hin. destruct (Hc dm Hin) as [H1 H2]. split; [exact H1|]. intros i Hi. destruct (H2 i Hi) as [-> H3]. rewrite repeat_length. split; [reflexivity|]. apply Forall_forall. intros v Hv. apply repeat_spec in Hv. subst v. exact H3. }
  exists res. split; [exact E|]. intros i Hi n d Hd. destruct (V i Hi) as (_ & V2 & _).
  assert (ET : total d (gathered dms i ctl) = INR n * co d (g i)).
  { rewrite (total_const d (g i)).
    - f_equal. f_equal. apply gathered_len. intros dm Hin. destruct (Hc dm Hin) as [_ H2]. rewrite (proj1 (H2 i Hi)). apply repeat_length.
    - intros v Hv. apply in_flat_map in Hv as [dm [Hin Hv]]. destruct (Hc dm Hin) as [_ H2]. rewrite (proj1 (H2 i Hi)) in Hv. apply repeat_spec in Hv. exact Hv. }
  assert (EF : co d (fst (nth i res ([], []))) = co d (g i) * gp_volume (nth i parts gpart0) * (INR n / IZR (x_num c i))) by (rewrite (V2 d Hd), ET; unfold Rdiv; ring).
  split; [exact EF|]. intros Hs Hn. rewrite EF. destruct (P3 i Hi) as [_ P5]. rewrite (P5 Hs). fold n. rewrite <- INR_IZR_INZ. field. apply not_0_INR. lia.
Qed.
Print Assumptions C39_constant_field.
(** with a sub-grid of [scale] points per axis, a particle that consists of whole cells of
    sub-points gets g * volume / scale^D: the sum runs over the nodes, [num] counts sub-points *)
Theorem C39_scaled_sub_grid_refuted : forall D m per h parts dms bc k scale i, grid_ok m per -> length m = D -> distributes m per D dms -> length h = D -> small_grid m ->
  Forall (fun p => well_formed D h k (gp p)) parts -> (i < length parts)%nat -> (1 <= scale)%Z ->
  let p := gp (nth i parts gpart0) in
  (forall q s, in_grid_box (p_bbox p h) q -> in_grid_box (mkbox (repeat 0%Z D) (repeat scale D)) s ->
     p_contains p (zip_with (fun z x => z * x) (zip_with (fun a b => IZR a + IZR b / IZR scale) q s) h) = p_contains p (zip_with (fun z x => IZR z * x) q h)) ->
  (exists dm q, In dm dms /\ in_grid_box (get_DM_bounds dm true) q /\ in_grid_box (p_bbox p h) q /\ p_contains p (zip_with (fun z x => IZR z * x) q h) = true) ->
  let c := create_Mat_and_Vec D h parts dms bc k scale in
  exists pts : dmda -> nat -> list (list Z),
    (forall dm i, In dm dms -> (i < length parts)%nat -> control_points h dm (gp (nth i parts gpart0)) (pts dm i)) /\
    forall (ctl : dmda -> list (list vec)) (g : nat -> vec),
     (forall dm, In dm dms -> length (ctl dm) = length parts /\ forall i, (i < length parts)%nat -> nth i (ctl dm) [] = repeat (g i) (length (pts dm i)) /\ length (g i) = D) ->
     exists res, forces_torques c (fun dm => concat (map (@concat R) (ctl dm))) = Ok res /\
       forall d, (d < D)%nat -> co d (fst (nth i res ([], []))) = co d (g i) * gp_volume (nth i parts gpart0) / IZR (scale ^ Z.of_nat D).
Proof.
  intros D m per h parts dms bc k scale i HG Hm HD Hh HS HW Hi Hs p Hsub Hne c.
  assert (W : well_formed D h k p) by (rewrite Forall_forall in HW; apply HW, nth_In, Hi). destruct W as (W1 & _ & _).
  assert (HN : x_num c i = (scale ^ Z.of_nat D * Z.of_nat (length (flat_map (fun dm => the_pts h parts dm i) dms)))%Z).
  { apply (num_cells D m per h parts dms bc k scale i HG HD Hm Hh Hi W1 Hs). intros q s Hq Hq'. change (gp (nth i parts gpart0)) with p.
    unfold grid_point. rewrite <- (Hsub q s Hq Hq'). f_equal. apply in_grid_box_len in Hq. apply in_grid_box_len in Hq'. cbn [bottom_left] in Hq'. rewrite repeat_length in Hq'. destruct W1 as [B1 _]. unfold p in B1. assert (HqD : length q = D) by congruence. clear Hq. rename HqD into Hq.
    unfold pos_plus, pos_add_assign, pos_times, pos_mul_assign, pos_of_int.
    assert (HR : IZR scale <> 0) by (apply IZR_neq; lia). clear - Hh Hq Hq' HR. revert q s h Hh Hq Hq'. induction D as [|n IH]; intros [|a q] [|b s] [|x h] Hh Hq Hq'; simpl in *; try lia; [reflexivity|].
    apply f_equal2; [field; exact HR|]. apply IH; lia. }
  destruct (C39_constant_field D m per h parts dms bc k scale HG Hm HD Hh HS HW) as (pts & P1 & P2). fold c in P2.
  exists pts. split; [exact P1|]. intros ctl g Hc. destruct (P2 ctl g Hc) as (res & E & V). exists res. split; [exact E|]. intros d Hd.
  destruct (V i Hi d Hd) as [-> _].
  assert (EP : forall dm, In dm dms -> length (pts dm i) = length (the_pts h parts dm i)).
  { intros dm Hin. destruct (P1 dm i Hin Hi) as [Q1 Q2]. destruct (the_pts_spec D m per h parts dms k HG Hm HD HW dm i Hin Hi) as [Q3 Q4].
    apply Permutation_length. apply NoDup_Permutation; [apply (strictly_increasing_NoDup colex_lt); [apply colex_irrefl|exact Q1]|apply (strictly_increasing_NoDup colex_lt); [apply colex_irrefl|exact Q3]|]. intros q. rewrite Q2, Q4. tauto. }
  assert (EL : length (flat_map (fun dm => pts dm i) dms) = length (flat_map (fun dm => the_pts h parts dm i) dms)).
  { clear - EP. induction dms as [|dm l IH]; [reflexivity|]. cbn [flat_map]. rewrite !app_length, (EP dm (or_introl eq_refl)), IH by (intros; apply EP; right; auto). reflexivity. }
  assert (NZ : (0 < length (flat_map (fun dm => the_pts h parts dm i) dms))%nat).
  { destruct Hne as (dm & q & Hin & N1 & N2 & N3). destruct (the_pts_spec D m per h parts dms k HG Hm HD HW dm i Hin Hi) as [_ Q4].
    assert (Hq : In q (flat_map (fun dm => the_pts h parts dm i) dms)) by (apply in_flat_map; exists dm; split; [exact Hin|apply Q4; auto]).
    destruct (flat_map (fun dm => the_pts h parts dm i) dms); [destruct Hq|simpl; lia]. }
  rewrite EL, HN, mult_IZR, <- INR_IZR_INZ. field. assert (NI : INR (length (flat_map (fun dm => the_pts h parts dm i) dms)) <> 0) by (apply not_0_INR; lia). assert (NP : IZR (scale ^ Z.of_nat D) <> 0) by (apply IZR_neq; pose proof (Z.pow_pos_nonneg scale (Z.of_nat D)); lia). auto.
Qed.
Print Assumptions C39_scaled_sub_grid_refuted.

(** a circle of the code for which this happens with the default scale 4: one grid node and
    the 16 sub-points of its cell are inside *)
Lemma circle_contains ctr r p : 0 < r -> (contains2 (circle_make ctr r quat_default) p = true <-> (fst p - fst ctr) * (fst p - fst ctr) + (snd p - snd ctr) * (snd p - snd ctr) < r * r).
Proof.
  intros Hr. unfold circle_make. rewrite (proj2 (C09_contains_2d_is_the_turned_super_ellipse ctr r r 2 0 p ltac:(lra))).
  unfold super_ellipse_level, planar_rotation. cbn [fst snd]. rewrite Ropp_0, cos_0, sin_0.
  replace (1 * (fst p - fst ctr) - 0 * (snd p - snd ctr)) with (fst p - fst ctr) by ring. replace (0 * (fst p - fst ctr) + 1 * (snd p - snd ctr)) with (snd p - snd ctr) by ring.
  rewrite !cpow_2_r by apply Rabs_pos. rewrite <- !Rabs_mult, !Rabs_pos_eq by apply Rle_0_sqr.
  set (a := fst p - fst ctr). set (b := snd p - snd ctr).
  assert (E : (a / r) * (a / r) + (b / r) * (b / r) = (a * a + b * b) / (r * r)) by (field; lra). rewrite E.
  assert (P : 0 < r * r) by nra. split; intros H.
  - apply (Rmult_lt_compat_r (r * r)) in H; [|exact P]. unfold Rdiv in H. rewrite Rmult_assoc, Rinv_l, Rmult_1_r, Rmult_1_l in H by lra. exact H.
  - apply (Rmult_lt_reg_r (r * r)); [exact P|]. unfold Rdiv. rewrite Rmult_assoc, Rinv_l, Rmult_1_r, Rmult_1_l by lra. exact H.
Qed.
Definition ex3_circle (fuel : nat) : gpart := circle_gpart fuel (1 / 1000) (11 / 8, 11 / 8) (29 / 50) quat_default [0; 0] [0] 1 [0; -1].
Definition ex3_h : vec := [1; 1].
Lemma ex3_in fuel (a b : Z) : p_contains (gp (ex3_circle fuel)) [IZR a / 4; IZR b / 4] = true <-> (4 <= a <= 7 /\ 4 <= b <= 7)%Z.
Proof.
  cbn [ex3_circle circle_gpart gp p_contains nth]. rewrite circle_contains by lra. cbn [fst snd].
  assert (E : (IZR a / 4 - 11 / 8) * (IZR a / 4 - 11 / 8) + (IZR b / 4 - 11 / 8) * (IZR b / 4 - 11 / 8) = IZR ((2 * a - 11) * (2 * a - 11) + (2 * b - 11) * (2 * b - 11)) / 64).
  { rewrite plus_IZR, !mult_IZR, !minus_IZR, !mult_IZR. field. }
  assert (SQ : forall x y : Z, (x * x + y * y < 22 -> -5 < x < 5)%Z) by (intros x y HX; assert (0 <= y * y)%Z by apply Z.square_nonneg; split; nia).
  assert (SB : forall x : Z, (-3 <= x <= 3 -> x * x <= 9)%Z) by (intros; nia).
  rewrite E. split; intros H.
  - assert (HZ : ((2 * a - 11) * (2 * a - 11) + (2 * b - 11) * (2 * b - 11) < 22)%Z) by (apply lt_IZR; lra).
    pose proof (SQ _ _ HZ). rewrite Z.add_comm in HZ. pose proof (SQ _ _ HZ). lia.
  - assert (HZ : ((2 * a - 11) * (2 * a - 11) + (2 * b - 11) * (2 * b - 11) <= 18)%Z) by (pose proof (SB (2 * a - 11)%Z); pose proof (SB (2 * b - 11)%Z); lia). apply IZR_le in HZ. lra.
Qed.
Example ex3_force_is_a_sixteenth : forall fuel bc k, let c := create_Mat_and_Vec 2 ex3_h [ex3_circle fuel] ex2_dms bc k 4 in
  exists pts : dmda -> nat -> list (list Z),
    (forall dm i, In dm ex2_dms -> (i < 1)%nat -> control_points ex3_h dm (gp (nth i [ex3_circle fuel] gpart0)) (pts dm i)) /\
    forall (ctl : dmda -> list (list vec)) (g : nat -> vec),
     (forall dm, In dm ex2_dms -> length (ctl dm) = 1%nat /\ forall i, (i < 1)%nat -> nth i (ctl dm) [] = repeat (g i) (length (pts dm i)) /\ length (g i) = 2%nat) ->
     exists res, forces_torques c (fun dm => concat (map (@concat R) (ctl dm))) = Ok res /\
       forall d, (d < 2)%nat -> co d (fst (nth 0 res ([], []))) = co d (g 0%nat) * gp_volume (ex3_circle fuel) / 16.
Proof.
  intros fuel bc k c. destruct ex2_grid as (_ & HG & Hm & HD & _).
  assert (SG : small_grid ex2_m) by (repeat constructor; simpl; lia).
  assert (WF : Forall (fun p => well_formed 2 ex3_h k (gp p)) [ex3_circle fuel]) by (constructor; [apply circle_well_formed; reflexivity|constructor]).
  apply (C39_scaled_sub_grid_refuted 2 ex2_m ex2_per ex3_h [ex3_circle fuel] ex2_dms bc k 4 0 HG Hm HD eq_refl SG WF); [simpl; lia|lia| |].
  - intros q s Hq Hs. cbn [nth]. pose proof (in_grid_box_len _ _ Hs) as Ls. pose proof (in_grid_box_len _ _ Hq) as Lq.
    assert (WB := Forall_inv WF). destruct WB as ([WB _] & _). cbn [nth] in Lq. rewrite WB in Lq. cbn in Ls.
    destruct q as [|q0 [|q1 [|]]]; simpl in Lq; try lia. destruct s as [|s0 [|s1 [|]]]; simpl in Ls; try lia.
    destruct Hs as [S1 S2]. cbn [bottom_left upper_right repeat] in S1, S2. inversion S1 as [|? ? ? ? A1 A2]; subst. inversion A2; subst. inversion S2 as [|? ? ? ? A3 A4]; subst. inversion A4; subst.
    unfold ex3_h. cbn [zip_with].
    assert (E1 : forall a b, (IZR a + IZR b / 4) * 1 = IZR (4 * a + b) / 4) by (intros; rewrite plus_IZR, mult_IZR; field).
    assert (E2 : forall a, IZR a * 1 = IZR (4 * a) / 4) by (intros; rewrite mult_IZR; field). rewrite !E1, !E2.
    pose proof (ex3_in fuel (4 * q0 + s0) (4 * q1 + s1)) as X. pose proof (ex3_in fuel (4 * q0) (4 * q1)) as Y.
    apply Bool.eq_iff_eq_true. rewrite X, Y. lia.
  - exists (nth 0 ex2_dms (mkdmda [] [] (mkbox [] []) (mkbox [] []) 0)), [1; 1]%Z. split; [left; reflexivity|].
    assert (IN : p_contains (gp (ex3_circle fuel)) [1; 1] = true). { replace 1 with (IZR 4 / 4) by field. apply ex3_in. lia. }
    split; [|split].
    + vm_compute. split; repeat (constructor; [try discriminate; reflexivity|]); constructor.
    + cbn [nth]. change (p_bbox (gp (ex3_circle fuel)) ex3_h) with (bounding_box2_h (se2_make (11 / 8, 11 / 8) (29 / 50, 29 / 50) 2 quat_default) [1; 1]).
      apply C10_grid_points_of_particle_in_index_box_2d; try lra; auto. rewrite !Rmult_1_l. exact IN.
    + cbn [nth zip_with ex3_h]. rewrite !Rmult_1_l. exact IN.
Qed.

(** the singular forces are added at index ipart * D of an array of one entry per particle *)
Theorem C39_singular_forces_one_particle : forall D (s f : vec), (D = 2 \/ D = 3)%nat -> length s = D -> length f = D ->
  add_singular_forces D [s] [f] = Ok [zip_with Rplus f s].
Proof.
  intros D s f [->| ->] Hs Hf.
  - destruct s as [|s0 [|s1 [|]]]; simpl in Hs; try lia. destruct f as [|f0 [|f1 [|]]]; simpl in Hf; try lia. reflexivity.
  - destruct s as [|s0 [|s1 [|s2 [|]]]]; simpl in Hs; try lia. destruct f as [|f0 [|f1 [|f2 [|]]]]; simpl in Hf; try lia. reflexivity.
Qed.
Lemma for_last {S} n (B : nat -> S -> outcome S) s : for_ (Datatypes.S n) B s = bind (for_ n B s) (B n).
Proof. unfold for_. rewrite seq_S, fold_left_app. reflexivity. Qed.
Theorem C39_singular_forces_two_particles_refuted : forall D (sing forces : list vec), (D = 2 \/ D = 3)%nat -> (2 <= length sing)%nat -> length forces = length sing ->
  add_singular_forces D sing forces = UB.
Proof.
  intros D sing forces HD HL HF. unfold add_singular_forces.
  match goal with |- for_ _ ?b _ = _ => set (B := b) end.
  assert (ST : forall i f, (i < length sing)%nat -> length f = length sing -> (exists f', B i f = Ok f' /\ length f' = length sing) \/ B i f = UB).
  { intros i f Hi Hf. destruct (nth_error f (i * D)) as [v|] eqn:E.
    - left. assert (HX : (i * D < length f)%nat) by (apply nth_error_Some; congruence).
      unfold B. apply (for_inv D _ (fun _ f' => length f' = length sing)).
      + exact Hf.
      + intros d f' Hd Hf'. assert (HY : nth_error f' (i * D) <> None) by (apply nth_error_Some; lia). destruct (nth_error f' (i * D)); [|congruence]. eexists. split; [reflexivity|]. rewrite len_set_nth. exact Hf'.
    - right. unfold B. destruct D as [|D]; [lia|]. unfold for_. cbn [seq fold_left bind]. rewrite E. clear. induction (seq 1 D); simpl; auto. }
  assert (LU : forall f, length f = length sing -> B (length sing - 1)%nat f = UB).
  { intros f Hf. assert (E : nth_error f ((length sing - 1) * D) = None) by (apply nth_error_None; destruct HD as [->| ->]; lia).
    unfold B. destruct D as [|D]; [lia|]. unfold for_. cbn [seq fold_left bind]. rewrite E. clear. induction (seq 1 D); simpl; auto. }
  assert (MAIN : forall n, (n <= length sing)%nat -> (exists f', for_ n B forces = Ok f' /\ length f' = length sing) \/ for_ n B forces = UB).
  { induction n as [|n IH]; intros Hn; [left; exists forces; auto|]. rewrite for_last. destruct (IH ltac:(lia)) as [(f' & -> & Hf')| ->]; [|right; reflexivity].
    cbn [bind]. apply ST; [lia|exact Hf']. }
  replace (length sing) with (S (length sing - 1)) at 1 by lia. rewrite for_last. destruct (MAIN (length sing - 1)%nat ltac:(lia)) as [(f' & -> & Hf')| ->]; [|reflexivity]. apply LU, Hf'.
Qed.
Print Assumptions C39_singular_forces_one_particle. Print Assumptions C39_singular_forces_two_particles_refuted.
