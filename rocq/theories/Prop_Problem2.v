(** C43, C44, C58: a concrete problem (a circle of radius 1/4 in the unit square, 9 x 9 velocity nodes on two
    processes, no Dirichlet condition) on which the operators and the singular contribution do not vanish. *)
From Coquelicot Require Import Coquelicot.
From Verif Require Import Base M_Geometry S_Geometry P_Geometry M_Shapes S_Shapes M_Particle S_Particle P_Particle M_Quadrature S_Fem M_MatElem P_Energy M_Mesh M_Operator S_Operator P_Mesh P_Operator P_Operator2 P_Operator3 P_Global M_Bc S_Bc P_Bc P_Diag Prop_Particle Prop_Shapes Prop_Operator Prop_Operator2 M_ParticleOp S_ParticleOp P_ParticleOp P_Circle P_Forces P_Forces2 Prop_ParticleOp M_Problem S_Problem P_Problem P_Problem2 Prop_Problem.
From Coq Require Import Permutation FunctionalExtensionality Classical.
Open Scope R_scope.

(** a neutrally buoyant circle at rest *)
Definition exc (fuel : nat) : gpart := circle_gpart fuel (1 / 1000) (1 / 2, 1 / 2) (1 / 4) quat_default [0; 0] [0] 1 [0; 0].
Definition exb : list bc_row := repeat [None; None] 4.
(** the field that stretches the plane from the centre of the circle *)
Definition exw : field := affine_field ex2_h (fun _ => - (1 / 2)) (fun d j => if Nat.eqb d j then 1 else 0).
Definition exN : list (list Z) := N0 ex2_m.
(** a solver of rank one *)
Definition exL (t : R) (n0 : list Z) (d0 : nat) (f : field) : R := inner exN 2 f exw + t * f n0 d0.
Definition ex_solve (t : R) (n0 : list Z) (d0 : nat) (f : field) : field := fun n d => exL t n0 d0 f * exw n d.
Lemma ex_linear t n0 d0 : in_grid_box (nodes_box ex2_m) n0 -> (d0 < 2)%nat -> linear_solver ex2_m 2 (ex_solve t n0 d0).
Proof.
  intros Hn Hd a b f1 f2 f3 H n d _ _. unfold ex_solve.
  assert (E : exL t n0 d0 f3 = a * exL t n0 d0 f1 + b * exL t n0 d0 f2).
  { unfold exL. rewrite (H n0 d0 Hn Hd). assert (EI : inner exN 2 f3 exw = a * inner exN 2 f1 exw + b * inner exN 2 f2 exw).
    { unfold inner. rewrite <- !Lsum_scal, <- Lsum_plus. apply Lsum_ext. intros q Hq. rewrite <- !Rsum_scal, <- Rsum_plus. apply Rsum_ext. intros e He. rewrite (H q e); [ring| |exact He]. apply (proj2 (N0_enum ex2_m)), Hq. }
    rewrite EI. ring. }
  rewrite E. ring.
Qed.
Lemma ex_rows k d : nth d (nth k exb []) None = None.
Proof. unfold exb. destruct k as [|[|[|[|[|k]]]]]; cbn [repeat nth]; destruct d as [|[|[|d]]]; reflexivity. Qed.
Lemma ex_free n d : prescribed 2 ex2_m ex2_per exb n d = None.
Proof.
  unfold prescribed. generalize (sides 2). intros L. assert (K : forall o, o = None -> fold_left (fun acc s => if on_side ex2_m ex2_per n s then match nth d (nth (side_index s) exb []) None with Some f => Some f | None => acc end else acc) L o = None).
  { induction L as [|s L IH]; intros o Ho; [exact Ho|]. cbn [fold_left]. apply IH. rewrite ex_rows. destruct (on_side _ _ _ _); exact Ho. }
  apply K. reflexivity.
Qed.
Lemma combine_same {A} (l : list A) : combine l l = map (fun a => (a, a)) l.
Proof. induction l as [|a l IH]; [reflexivity|]. cbn [combine map]. rewrite IH. reflexivity. Qed.
Lemma dotp_scale al (r v : vec) : dotp (map (Rmult al) r) v = al * dotp r v.
Proof. unfold dotp. revert v. induction r as [|a r IH]; intros [|b v]; cbn [map zip_with fold_right]; try ring. rewrite IH. ring. Qed.

Lemma flat_scale al (rs L : list vec) : Lsum (fun gI => dotp (fst gI) (snd gI)) (combine (map (map (Rmult al)) rs) L) = al * Lsum (fun gI => dotp (fst gI) (snd gI)) (combine rs L).
Proof.
  revert L. induction rs as [|r rs IH]; intros [|v L]; cbn [map combine]; try (cbn; ring). rewrite !Lsum_cons, IH. cbn [fst snd]. rewrite dotp_scale. ring.
Qed.

Lemma ex_34 : in_grid_box (nodes_box ex2_m) [3; 4]%Z.
Proof. vm_compute. split; repeat (constructor; [try discriminate; reflexivity|]); constructor. Qed.
Lemma ex_cells : has_cells ex2_m ex2_per.
Proof. change ex2_m with [9; 9]%Z. change ex2_per with [false; false]. constructor; [right; lia|]. constructor; [right; lia|constructor]. Qed.

Section Ex.
  Variables (fuel : nat) (l : list (R * R)).
  Hypothesis HSf : surface2 fuel (circle_make (1 / 2, 1 / 2) (1 / 4) quat_default) (1 / 10) (1 / 1000) = Ok l.
  Let parts := [exc fuel].
  Let c := create_Mat_and_Vec 2 ex2_h parts ex2_dms (map Some exb) (1 / 10) 2.
  Lemma ex_setting : setting 2 ex2_m ex2_per ex2_h parts ex2_dms exb (1 / 10).
  Proof.
    destruct ex2_grid as (_ & HG & Hm & HD & HSt & _ & HN). split; [exact HG|]. split; [exact Hm|]. split; [exact HD|]. split; [exact HSt|].
    split; [repeat constructor; simpl; lia|]. split; [constructor; [apply circle_well_formed; reflexivity|constructor]|]. split; [exact HN|]. split; [reflexivity|repeat constructor].
  Qed.
  Let HG := proj1 ex_setting.
  Let Hm : length ex2_m = 2%nat := eq_refl.
  Let HD : distributes ex2_m ex2_per 2 ex2_dms. Proof. apply ex_setting. Qed.
  Let HSt : steps_ok ex2_h ex2_m. Proof. apply ex_setting. Qed.
  Let HSm : small_grid ex2_m. Proof. apply ex_setting. Qed.
  Let HW : Forall (fun p => well_formed 2 ex2_h (1 / 10) (gp p)) parts. Proof. apply ex_setting. Qed.
  Let HN : nonempty_views ex2_dms. Proof. apply ex_setting. Qed.
  Let HT : table_ok 2 2 exb. Proof. apply ex_setting. Qed.
  Let OKS := C41_context_is_well_formed 2 ex2_m ex2_per ex2_h parts ex2_dms (map Some exb) (1 / 10) 2 HG Hm HD HSt HW.
  Let OK : ctx_ok ex2_m ex2_per c. Proof. apply OKS. Qed.
  Let BAL := circle_balanced fuel (1 / 1000) (1 / 2, 1 / 2) (1 / 4) quat_default [0; 0] [0] 1 [0; 0] ex2_m ex2_per ex2_h parts ex2_dms (map Some exb) (1 / 10) 2 0 l
    ltac:(lra) ltac:(lra) ltac:(lra) (or_introl eq_refl) HSf HG Hm HD HSt eq_refl ex2_circle_inside.
  Definition rad (dm : dmda) : list vec := nth 0 (x_radial c dm) [].
  (** the interpolated stretching field is the radial vector *)
  Lemma ex_interp al u : (forall n d, u n d = al * exw n d) -> forall dm, In dm ex2_dms -> interp_fluid_to_surf c false u dm = Ok [map (map (Rmult al)) (rad dm)].
  Proof.
    intros Hu dm Hin. rewrite (interp_ok ex2_m ex2_per c u dm OK Hin). destruct (proj2 OKS dm Hin) as (_ & L1 & _). cbv zeta in L1. fold c in L1. cbn [length parts] in L1.
    pose proof (wf 2 ex2_h parts (1 / 10) HW 0 ltac:(simpl; lia)) as (W1 & W2 & W3).
    pose proof (x_surf_nth 2 ex2_m ex2_per ex2_h parts ex2_dms (map Some exb) (1 / 10) 2 0 HG HD Hm eq_refl ltac:(simpl; lia) W1 W2 dm Hin) as ES.
    pose proof (x_radial_nth 2 ex2_m ex2_per ex2_h parts ex2_dms (map Some exb) (1 / 10) 2 0 HG HD Hm eq_refl ltac:(simpl; lia) W1 W2 dm Hin) as ER. fold c in ES, ER.
    destruct (x_surf c dm) as [|s0 [|]]; simpl in L1; try lia. cbn [map nth] in *. f_equal. f_equal. unfold rad. rewrite ES, ER, !map_map. apply map_ext_in. intros q Hq. apply filter_In in Hq as [Hq _].
    assert (Lq : length q = 2%nat). { unfold all_len in W2. rewrite Forall_forall in W2. apply W2, Hq. } cbn [fst snd]. change (x_h c) with ex2_h. change (x_D c) with 2%nat.
    destruct q as [|q0 [|q1 [|]]]; simpl in Lq; try lia. cbn [seq map].
    assert (EF : forall d e x, field_at ex2_m ex2_per ex2_h u e x d = al * field_at ex2_m ex2_per ex2_h exw e x d). { intros d e x. unfold field_at. rewrite <- Rsum_scal. apply Rsum_ext. intros j _. unfold gv. rewrite Hu. ring. }
    rewrite !EF. unfold exw. rewrite !field_at_affine; auto; try (repeat constructor; unfold ex2_h; lra); try (unfold ex2_h; apply HSt).
    unfold cell_of, pos_to_int, pos_div, pos_div_assign, pos_minus, pos_sub_assign, pos_times, pos_mul_assign, pos_of_int, ex2_h. change (length ex2_m) with 2%nat. cbn [zip_with map]. cbn [Rsum co nth Nat.eqb]. unfold co. cbn [nth zip_with map]. cbn [parts exc circle_gpart gp p_center vec2 nth fst snd zip_with map].
    apply f_equal2; [field|]. apply f_equal2; [field|reflexivity].
  Qed.
  Lemma ex_rad_len dm r : In dm ex2_dms -> In r (rad dm) -> length r = 2%nat.
  Proof. intros Hin Hr. destruct BAL as ((_ & B2 & _) & _). unfold all_len in B2. rewrite Forall_forall in B2. apply B2. apply in_flat_map. exists dm. auto. Qed.
  (** densities proportional to the radial vector *)
  Definition radial_density (al : R) (g : dmda -> list (list vec)) : Prop := forall dm, In dm ex2_dms -> g dm = [map (map (Rmult al)) (rad dm)].
  Lemma ex_shape al g : radial_density al g -> forall dm, In dm (x_dms c) -> length (g dm) = length (x_parts c) /\ same_shape (x_surf c dm) (g dm) /\ Forall (all_len (x_D c)) (g dm).
  Proof.
    intros Hg dm Hin. rewrite (Hg dm Hin). split; [reflexivity|]. destruct (proj2 OKS dm Hin) as (S1 & L1 & _). cbv zeta in S1, L1. fold c in S1, L1. split.
    - unfold rad. destruct (x_surf c dm) as [|s0 [|]]; simpl in L1; try lia. destruct (x_radial c dm) as [|r0 [|]]; [inversion S1| |inversion S1 as [|? ? ? ? _ E2]; inversion E2]. inversion S1 as [|? ? ? ? E1 _]. constructor; [|constructor]. cbn [nth]. rewrite map_length. exact E1.
    - constructor; [|constructor]. apply Forall_forall. intros v Hv. apply in_map_iff in Hv as [r [<- Hr]]. rewrite map_length. apply (ex_rad_len dm r Hin Hr).
  Qed.
  Lemma ex_gathered al g : radial_density al g -> gathered ex2_dms 0 g = map (map (Rmult al)) (gathered ex2_dms 0 (x_radial c)).
  Proof. intros Hg. apply (gathered_map ex2_dms 0 (x_radial c) g). intros dm Hin. rewrite (Hg dm Hin). cbn [length nth]. split; [lia|reflexivity]. Qed.
  (** the simple layer leaves them as they are *)
  Lemma ex_simple al g : radial_density al g -> radial_density al (fst (fst (simple_layer c g))).
  Proof.
    intros Hg. pose proof (ex_gathered al g Hg) as EG. destruct BAL as ((B1 & B2 & B3 & B4 & B5 & B6) & _ & _). fold c in B1, B2, B3, B4, B6.
    set (rs := gathered ex2_dms 0 (x_radial c)) in *.
    assert (HM : matching (x_dms c) 0 (x_radial c) g). { intros dm Hin. rewrite (Hg dm Hin). cbn [length nth]. rewrite map_length. split; [lia|reflexivity]. }
    assert (HL : all_len 2 (gathered (x_dms c) 0 g)). { change (x_dms c) with ex2_dms. rewrite EG. apply Forall_forall. intros v Hv. apply in_map_iff in Hv as [r [<- Hr]]. rewrite map_length. unfold all_len in B2. rewrite Forall_forall in B2. apply B2, Hr. }
    destruct (sl_mean_spec c g 0 2 eq_refl HL) as [Lm Cm]. destruct (sl_cross_spec c g 0 2 eq_refl HM B2 HL (or_introl eq_refl)) as [Lc Cc].
    change (x_dms c) with ex2_dms in Cm, Cc. rewrite EG in Cm, Cc. fold rs in Cc.
    assert (EM : sl_mean c g 0 = [0; 0]).
    { rewrite (list2 _ Lm), !Cm. unfold total in *. rewrite !Lsum_map. assert (K : forall j, (j < 2)%nat -> Lsum (fun a => co j (map (Rmult al) a)) rs = al * Lsum (co j) rs).
      { intros j Hj. rewrite <- Lsum_scal. apply Lsum_ext. intros r Hr. unfold all_len in B2. rewrite Forall_forall in B2. pose proof (B2 r Hr) as Lr. destruct r as [|r0 [|r1 [|]]]; simpl in Lr; try lia. destruct j as [|[|]]; try lia; reflexivity. }
      rewrite !K, B3, B4 by lia. unfold Rdiv. apply f_equal2; [ring|]. apply f_equal2; [ring|reflexivity]. }
    assert (EC : sl_cross c g 0 = [0]).
    { rewrite (list1 _ Lc), Cc. rewrite combine_map_r, Lsum_map. apply f_equal2; [|reflexivity]. cbn [fst snd]. rewrite (Lsum_ext _ (fun _ => 0)); [rewrite Lsum_const; ring|].
      intros r Hr. unfold all_len in B2. rewrite Forall_forall in B2. pose proof (B2 r Hr) as Lr. destruct r as [|r0 [|r1 [|]]]; simpl in Lr; try lia. unfold co. cbn. unfold cross22. cbn. ring. }
    intros dm Hin. unfold simple_layer. cbn [fst]. rewrite (Hg dm Hin). cbn [length seq map nth]. rewrite EM, EC. f_equal. fold (rad dm).
    assert (LR : forall r, In r (rad dm) -> length r = 2%nat) by (intros; apply (ex_rad_len dm); auto). revert LR. generalize (rad dm). intros L LR. induction L as [|r L IH]; [reflexivity|]. cbn [map zip_with]. rewrite IH by (intros; apply LR; right; auto). f_equal.
    pose proof (LR r (or_introl eq_refl)) as Lr. destruct r as [|r0 [|r1 [|]]]; simpl in Lr; try lia. cbn. unfold cross12. cbn. apply f_equal2; [ring|]. apply f_equal2; [ring|reflexivity].
  Qed.
  (** and they spread to a right-hand side that works on the stretching field *)
  Definition exK : R := 2 * PI * (1 / 4) * (1 / 4 * (1 / 4)).
  Lemma exK_pos : 0 < exK.
  Proof. unfold exK. pose proof PI_RGT_0. nra. Qed.
  Lemma ex_spread : forall n0 d0, in_grid_box (nodes_box ex2_m) n0 -> (d0 < 2)%nat -> exists e, forall al g, radial_density al g -> exists y, SL_to_Rhs c g = Ok y /\ inner exN 2 y exw = al * exK /\ y n0 d0 = al * e.
  Proof.
    intros n0 d0 Hn0 Hd0. destruct BAL as ((B1 & B2 & B3 & B4 & B5 & B6) & B7 & _). fold c in B1, B2, B3, B4, B6, B7. set (rs := gathered ex2_dms 0 (x_radial c)) in *.
    assert (NR : INR (length rs) <> 0). { apply not_0_INR. destruct rs; [congruence|simpl; lia]. }
    set (uf := S_Bc.unit_field n0 d0).
    exists (2 * PI * (1 / 4) / INR (length rs) * Lsum (fun gI => dotp (fst gI) (snd gI)) (combine rs (gathered ex2_dms 0 (interp_of 2 ex2_h parts ex2_dms exb (1 / 10) 2 uf)))).
    intros al g Hg. destruct (C41_spreading_with_boundary_conditions ex2_m ex2_per c exb g OK (ex_shape al g Hg) HN HT eq_refl) as (y & y' & E & E' & V).
    assert (VE : forall n d, in_grid_box (nodes_box ex2_m) n -> (d < 2)%nat -> y' n d = y n d) by (intros n d Hn Hd; rewrite (V n d Hn Hd); change (x_D c) with 2%nat; rewrite ex_free; reflexivity).
    destruct (C41_spreading_is_adjoint_of_interpolation ex2_m ex2_per c g OK (ex_shape al g Hg)) as (y2 & E2 & A). rewrite E in E2. injection E2 as <-.
    assert (INN : forall u, inner exN 2 y' u = al * (2 * PI * (1 / 4) / INR (length rs) * Lsum (fun gI => dotp (fst gI) (snd gI)) (combine rs (gathered ex2_dms 0 (interp_of 2 ex2_h parts ex2_dms exb (1 / 10) 2 u))))).
    { intros u. destruct (A u exN (N0_enum ex2_m)) as (I & EI & VI). change (x_D c) with 2%nat in VI. change (length (x_parts c)) with 1%nat in VI. change (x_dms c) with ex2_dms in VI.
      pose proof (interp_all_is 2 ex2_m ex2_per ex2_h parts ex2_dms exb (1 / 10) 2 HG Hm HD HSt HW u) as EI'. fold c in EI'. rewrite EI' in EI. injection EI as <-.
      transitivity (inner exN 2 y u). { unfold inner. apply Lsum_ext. intros n Hn. apply Rsum_ext. intros d Hd. rewrite VE; auto. apply (proj2 (N0_enum ex2_m)), Hn. }
      rewrite VI. cbn [Rsum]. rewrite (ex_gathered al g Hg). fold rs. rewrite B7. fold c. rewrite <- INR_IZR_INZ. fold rs. change (gp_surface_area (nth 0 (x_parts c) gpart0)) with (2 * PI * (1 / 4)).
      rewrite (flat_scale al rs). ring. }
    exists y'. split; [exact E'|]. split.
    - rewrite INN. unfold exK. f_equal.
      assert (GI : gathered ex2_dms 0 (interp_of 2 ex2_h parts ex2_dms exb (1 / 10) 2 exw) = rs).
      { unfold rs, gathered. rewrite !flat_map_concat_map. f_equal. apply map_ext_in. intros dm Hin. unfold interp_of. fold c. rewrite (ex_interp 1 exw ltac:(intros; ring) dm Hin). cbn [nth]. unfold rad. rewrite <- (map_id (nth 0 (x_radial c dm) [])) at 2. apply map_ext. intros r. rewrite <- (map_id r) at 2. apply map_ext. intros x. ring. }
      rewrite GI, combine_same, Lsum_map. cbn [fst snd]. rewrite (Lsum_ext _ (fun r => co 0 r * co 0 r + co 1 r * co 1 r)); [rewrite B6; field; exact NR|].
      intros r Hr. unfold all_len in B2. rewrite Forall_forall in B2. pose proof (B2 r Hr) as Lr. destruct r as [|r0 [|r1 [|]]]; simpl in Lr; try lia. unfold dotp, co. cbn. ring.
    - rewrite <- INN. unfold inner, uf, S_Bc.unit_field. symmetry. rewrite (Lsum_ext _ (fun n => if list_eq_dec Z.eq_dec n0 n then y' n d0 else 0)).
      + apply (Lsum_pick (list_eq_dec Z.eq_dec) n0 (fun n => y' n d0)); [apply (proj1 (N0_enum ex2_m))|apply (proj2 (N0_enum ex2_m)), Hn0].
      + intros n _. unfold same_node. destruct (list_eq_dec Z.eq_dec n0 n) as [->|]; cbn [andb].
        * rewrite <- (Rsum_pick 2 d0 (fun d => y' n d)) by exact Hd0. apply Rsum_ext. intros d _. rewrite (Nat.eqb_sym d0 d). destruct (Nat.eqb d d0); ring.
        * cbn [Rsum]. ring.
  Qed.

  Let pts := the_pts ex2_h parts.
  Let np := length parts.
  Definition dm0 : dmda := nth 0 ex2_dms (mkdmda [] [] (mkbox [] []) (mkbox [] []) 0).
  Lemma dm0_in : In dm0 ex2_dms. Proof. left. reflexivity. Qed.
  Lemma ex_node z : (z = 3 \/ z = 4)%Z -> In [z; 4]%Z (pts dm0 0).
  Proof.
    intros Hz. destruct (the_pts_spec 2 ex2_m ex2_per ex2_h parts ex2_dms (1 / 10) HG Hm HD HW dm0 0 dm0_in ltac:(simpl; lia)) as [_ Q]. apply Q. cbn [nth parts].
    assert (IN : p_contains (gp (exc fuel)) [IZR z * (1 / 8); IZR 4 * (1 / 8)] = true).
    { cbn [exc circle_gpart gp p_contains nth]. apply circle_contains; [lra|]. cbn [fst snd]. destruct Hz as [-> | ->]; lra. }
    split; [|split].
    - destruct Hz as [-> | ->]; vm_compute; split; repeat (constructor; [try discriminate; reflexivity|]); constructor.
    - change (p_bbox (gp (exc fuel)) ex2_h) with (bounding_box2_h (se2_make (1 / 2, 1 / 2) (1 / 4, 1 / 4) 2 quat_default) [1 / 8; 1 / 8]).
      apply C10_grid_points_of_particle_in_index_box_2d; try lra; auto. cbn [nth]. exact IN.
  Qed.
  Lemma ex_entry F z d : (z = 3 \/ z = 4)%Z -> (d < 2)%nat -> exists j, nth j (laid_out 2 np (pts dm0) F) 0 = F 0%nat [z; 4]%Z d.
  Proof.
    intros Hz Hd. destruct (In_nth_error _ _ (ex_node z Hz)) as [i Hi]. pose proof (laid_out_read 2 np (pts dm0) F 0 i [z; 4]%Z d ltac:(unfold np; simpl; lia) Hi Hd) as E.
    eexists. apply nth_error_nth. exact E.
  Qed.
  Lemma exL_grid t n0 d0 f f' : in_grid_box (nodes_box ex2_m) n0 -> (d0 < 2)%nat -> (forall n d, in_grid_box (nodes_box ex2_m) n -> (d < 2)%nat -> f n d = f' n d) -> exL t n0 d0 f = exL t n0 d0 f'.
  Proof.
    intros Hn Hd H. unfold exL. rewrite (H n0 d0 Hn Hd). f_equal. unfold inner. apply Lsum_ext. intros n Hq. apply Rsum_ext. intros d Hd'. rewrite H; auto. apply (proj2 (N0_enum ex2_m)), Hq.
  Qed.
  Lemma ex_interp_rigid al u dm : (forall n d, u n d = al * exw n d) -> In dm ex2_dms -> interp_fluid_to_surf c true u dm = Ok [map (map (Rmult al)) (rad dm)].
  Proof.
    intros Hu Hin. pose proof (ex_interp al u Hu dm Hin) as E. unfold interp_fluid_to_surf in *. destruct (on_all _ _) as [g| | |]; cbn [bind] in *; try discriminate. injection E as ->. f_equal.
    destruct (proj2 OKS dm Hin) as (S1 & L1 & _). cbv zeta in S1, L1. fold c in S1, L1. change (x_parts c) with [exc fuel]. pose proof (ex_rad_len dm) as LR. unfold rad in *.
    destruct (x_surf c dm) as [|s0 [|]]; simpl in L1; try lia. destruct (x_radial c dm) as [|r0 [|]]; [inversion S1| |inversion S1 as [|? ? ? ? _ E2]; inversion E2]. cbn [nth] in *.
    unfold interp_rigid_motion. cbn [combine zip_with fst snd]. f_equal. assert (LL : forall r, In r r0 -> length r = 2%nat) by (intros; apply LR; auto). clear - LL. induction r0 as [|r r0 IH]; [reflexivity|]. cbn [map zip_with]. rewrite IH by (intros; apply LL; right; auto). f_equal.
    pose proof (LL r (or_introl eq_refl)) as Lr. destruct r as [|a [|b [|]]]; simpl in Lr; try lia. cbn. apply f_equal2; [ring|]. apply f_equal2; [ring|reflexivity].
  Qed.
  Lemma ex_interp_all rg al u : (forall n d, u n d = al * exw n d) -> exists g, interp_all c rg u = Ok g /\ radial_density al g.
  Proof.
    intros Hu. assert (E : forall dm, In dm ex2_dms -> interp_fluid_to_surf c rg u dm = Ok [map (map (Rmult al)) (rad dm)]) by (intros dm Hin; destruct rg; [apply ex_interp_rigid|apply ex_interp]; auto).
    unfold interp_all. change (x_dms c) with ex2_dms. rewrite (on_all_map _ (fun dm => [map (map (Rmult al)) (rad dm)])) by exact E. eexists. split; [reflexivity|]. intros dm Hin. cbv beta. rewrite (E dm Hin). reflexivity.
  Qed.
  Definition ex_pb (t : R) (n0 : list Z) (d0 : nat) (sing : field) : fluid := mkfluid [None; None] (ex_solve t n0 d0) sing.
  Lemma ex_fluid t n0 d0 sing : in_grid_box (nodes_box ex2_m) n0 -> (d0 < 2)%nat -> fluid_ok ex2_m 2 (ex_pb t n0 d0 sing).
  Proof. intros Hn Hd. split; [apply ex_linear; auto|reflexivity]. Qed.
  Lemma ex_rigid : rigid_data 2 parts.
  Proof. constructor; [split; reflexivity|constructor]. Qed.
  (** the first half of an application: the right-hand side handed to the solver; the data bring nothing *)
  Lemma ex_no_force x rhs : set_rhs_problem c x true rhs = set_rhs_problem c x false rhs.
  Proof.
    unfold set_rhs_problem. assert (E : forall dm f, set_rhs_problem_impl c (x dm) true dm f = set_rhs_problem_impl c (x dm) false dm f).
    { intros dm f. unfold set_rhs_problem_impl. change (x_parts c) with [exc fuel]. cbn [fold_left bind]. f_equal. generalize (Ok (0%nat, f)). generalize (fluid_pts (overlap_box Z.ltb) (x_D c) (x_h c) dm (exc fuel)). intros L. induction L as [|q L IH]; intros o; [reflexivity|]. cbn [fold_left]. rewrite IH. f_equal. destruct o as [s| | |]; cbn [bind]; try reflexivity.
      match goal with |- for_ _ ?a _ = for_ _ ?b _ => replace a with b; [reflexivity|] end. apply functional_extensionality. intros i. apply functional_extensionality. intros [num f']. f_equal. apply functional_extensionality. intros v.
      replace (v + gp_rho (exc fuel) * nth i (gp_force (exc fuel)) 0) with v; [reflexivity|]. cbn [exc circle_gpart gp_rho gp_force]. destruct i as [|[|[|i]]]; cbn [nth]; ring. }
    assert (EL : forall L o, fold_left (fun o dm => bind o (set_rhs_problem_impl c (x dm) true dm)) L o = fold_left (fun o dm => bind o (set_rhs_problem_impl c (x dm) false dm)) L o).
    { induction L as [|dm L IH]; intros o; [reflexivity|]. cbn [fold_left]. rewrite IH. f_equal. destruct o; cbn [bind]; auto. }
    rewrite EL. reflexivity.
  Qed.
  Lemma ex_init pb fl x af added : fl_conds pb = [None; None] -> (forall rhs, set_rhs_problem c x false rhs = Ok (fun n d => rhs n d + added n d)) ->
    exists y, init_problem c pb fl x af zeros = Ok y /\ forall n d, in_grid_box (nodes_box ex2_m) n -> (d < 2)%nat -> y n d = (if f_sing fl then fl_sing pb n d else 0) + added n d.
  Proof.
    intros Hc Ha. destruct (setup_load 2 ex2_m ex2_per ex2_h parts ex2_dms exb (1 / 10) (fl_conds pb) ex_setting ltac:(rewrite Hc; reflexivity)) as (load & LF & Hl).
    destruct LF as [_ LF]. rewrite Hc in LF. specialize (LF ltac:(intros [|[|[|q]]]; reflexivity)).
    destruct (init_is 2 ex2_m ex2_per ex2_h parts ex2_dms exb (1 / 10) 2 HG Hm HD HN HT pb fl x af added ltac:(rewrite Hc; reflexivity)) with (load := load) (rhs := zeros) as (y & E & V).
    - intros rhs. fold c. destruct af; [rewrite ex_no_force|]; apply Ha.
    - exact Hl.
    - fold c in E. exists y. split; [exact E|]. intros n d Hn Hd. rewrite (V n d Hn Hd). unfold init_value. rewrite ex_free, LF. unfold zeros. destruct (f_rhs fl); ring.
  Qed.
  Lemma ex_on_control f y0 F : (forall dm, In dm ex2_dms -> f dm (y0 dm) = Ok (F dm)) -> exists y, on_control c f y0 = Ok y /\ forall dm, In dm ex2_dms -> y dm = F dm.
  Proof.
    intros H. unfold on_control. change (x_dms c) with ex2_dms. rewrite (on_all_map _ F) by exact H. eexists. split; [reflexivity|]. intros dm Hin. cbv beta. rewrite (H dm Hin). reflexivity.
  Qed.
  (** a solver, a control and what they give *)
  Lemma ex_choice : exists t n0 d0 x mm ka, in_grid_box (nodes_box ex2_m) n0 /\ (d0 < 2)%nat /\ control_vector 2 ex2_h parts ex2_dms (1 / 10) 2 x /\
    (forall rhs, set_rhs_problem c x false rhs = Ok (fun n d => rhs n d + mm n d)) /\ exL t n0 d0 mm <> 0 /\ ka <> 0 /\
    forall al g, radial_density al g -> exists y, SL_to_Rhs c g = Ok y /\ exL t n0 d0 y = al * ka.
  Proof.
    destruct (C59_control_layout 2 ex2_m ex2_per ex2_h parts ex2_dms exb (1 / 10) 2 ex_setting) as (ps & PS & _ & MK & RD & _).
    set (x := fun dm => laid_out 2 np (ps dm) (fun _ _ _ => 1)). assert (HX : control_vector 2 ex2_h parts ex2_dms (1 / 10) 2 x) by (apply (MK x (fun _ _ _ _ => 1)); intros; reflexivity).
    destruct (RD x (fun _ _ _ _ => 1) false ltac:(intros; reflexivity)) as (forces & mm & EM & AD & FO & _). fold c in AD.
    assert (GQ := ex_34).
    assert (F1 : forces [3; 4]%Z 0%nat = 1).
    { rewrite (FO dm0 0%nat [3; 4]%Z 0%nat dm0_in); [ring|simpl; lia| |intros j Hj; simpl in Hj; lia|lia].
      destruct (PS dm0 0%nat dm0_in ltac:(simpl; lia)) as [_ Q]. apply Q. destruct (the_pts_spec 2 ex2_m ex2_per ex2_h parts ex2_dms (1 / 10) HG Hm HD HW dm0 0 dm0_in ltac:(simpl; lia)) as [_ Q']. apply Q'. apply (ex_node 3). left. reflexivity. }
    assert (HC := ex_cells).
    assert (NZ : exists n d, in_grid_box (nodes_box ex2_m) n /\ (d < 2)%nat /\ mm n d <> 0).
    { apply NNPP. intros NN. destruct (C24_mass_positive_definite ex2_h ex2_m ex2_per 2 ex2_dms forces mm exN HG HSt HD EM (N0_enum ex2_m)) as [_ P].
      assert (Z0 : inner exN 2 mm forces = 0). { unfold inner. rewrite (Lsum_ext _ (fun _ => 0)); [rewrite Lsum_const; ring|]. intros n Hn. rewrite (Rsum_ext _ _ (fun _ => 0)); [apply Rsum_zero|]. intros d Hd.
        destruct (Req_dec (mm n d) 0) as [->|NE]; [ring|]. exfalso. apply NN. exists n, d. split; [apply (proj2 (N0_enum ex2_m)), Hn|]. auto. }
      specialize (P HC Z0 [3; 4]%Z 0%nat GQ ltac:(lia)). lra. }
    destruct NZ as (n0 & d0 & Hn0 & Hd0 & NB). set (B := mm n0 d0) in *. set (A := inner exN 2 mm exw). destruct (ex_spread n0 d0 Hn0 Hd0) as (e & SP). pose proof exK_pos as KP.
    assert (T : exists t, A + t * B <> 0 /\ exK + t * e <> 0).
    { destruct (Req_dec (A + 1 * B) 0) as [a1|]; [|destruct (Req_dec (exK + 1 * e) 0) as [e1|]; [|exists 1; auto]].
      - destruct (Req_dec (exK + 2 * e) 0) as [e2|]; [exists 3|exists 2]; split; try assumption; intro X; apply NB; lra.
      - destruct (Req_dec (A + 2 * B) 0) as [a2|]; [exists 3|exists 2]; split; try assumption; try (intro X; apply NB; lra); intro X; lra. }
    destruct T as (t & T1 & T2). exists t, n0, d0, x, mm, (exK + t * e). split; [exact Hn0|]. split; [exact Hd0|]. split; [exact HX|]. split; [exact AD|]. split; [exact T1|]. split; [exact T2|].
    intros al g Hg. destruct (SP al g Hg) as (y & E & I & V). exists y. split; [exact E|]. unfold exL. rewrite I, V. ring.
  Qed.
  Section Chosen.
    Variables (t : R) (n0 : list Z) (d0 : nat) (ka : R) (sing : field).
    Hypothesis (Hn0 : in_grid_box (nodes_box ex2_m) n0) (Hd0 : (d0 < 2)%nat).
    Hypothesis SP : forall al g, radial_density al g -> exists y, SL_to_Rhs c g = Ok y /\ exL t n0 d0 y = al * ka.
    Let pb := ex_pb t n0 d0 sing.
    Lemma ex_solved fl x af mm : (forall rhs, set_rhs_problem c x false rhs = Ok (fun n d => rhs n d + mm n d)) ->
      exists y, init_problem c pb fl x af zeros = Ok y /\ forall n d, fl_solve pb y n d = (exL t n0 d0 mm + (if f_sing fl then exL t n0 d0 sing else 0)) * exw n d.
    Proof.
      intros Ha. destruct (ex_init pb fl x af mm eq_refl Ha) as (y & E & V). exists y. split; [exact E|]. intros n d. cbn [fl_solve pb ex_pb]. unfold ex_solve. f_equal.
      rewrite (exL_grid t n0 d0 y _ Hn0 Hd0 V). unfold exL. cbn [fl_sing pb ex_pb]. assert (EI : inner exN 2 (fun n d => (if f_sing fl then sing n d else 0) + mm n d) exw = (if f_sing fl then inner exN 2 sing exw else 0) + inner exN 2 mm exw).
      { unfold inner. destruct (f_sing fl); [rewrite <- Lsum_plus|rewrite Rplus_0_l]; apply Lsum_ext; intros q _; [rewrite <- Rsum_plus|]; apply Rsum_ext; intros; ring. }
      rewrite EI. destruct (f_sing fl); ring.
    Qed.
    Lemma ex_dton_value fl x mm y st : (forall rhs, set_rhs_problem c x false rhs = Ok (fun n d => rhs n d + mm n d)) -> control_vector 2 ex2_h parts ex2_dms (1 / 10) 2 y ->
      exists r, DtoN_matrix c pb fl x y st = Ok r /\ forall dm, In dm ex2_dms -> fst r dm = laid_out 2 np (pts dm) (fun _ q d => (exL t n0 d0 mm + (if f_sing fl then exL t n0 d0 sing else 0)) * ka * exw q d).
    Proof.
      intros Ha HY. destruct (ex_solved fl x false mm Ha) as (r1 & E1 & V1). unfold DtoN_matrix. rewrite E1. cbn [bind]. set (al := exL t n0 d0 mm + _) in *.
      destruct (ex_interp_all (f_rigid fl) al (fl_solve pb r1) V1) as (g & Eg & Hg). rewrite Eg. cbn [bind]. destruct (SP al g Hg) as (r2 & E2 & I2). rewrite E2. cbn [bind]. set (sol := fl_solve pb r2).
      assert (S2 : forall n d, sol n d = al * ka * exw n d) by (intros n d; unfold sol; cbn [fl_solve pb ex_pb]; unfold ex_solve; rewrite I2; ring).
      destruct (ex_on_control (compute_y c sol) y (fun dm => laid_out 2 np (pts dm) (fun _ q d => al * ka * exw q d))) as (yy & Ey & Vy).
      { intros dm Hin. unfold compute_y. apply (y_loop_value 2 ex2_m ex2_per ex2_h parts ex2_dms exb (1 / 10) 2 HG Hm HD HSt HSm HW _ (fun _ q d => al * ka * exw q d) dm (y dm) Hin (HY dm Hin)). intros i q d Hi Hq Hd.
        destruct (pts_own 2 ex2_m ex2_per ex2_h parts ex2_dms (1 / 10) HG Hm HD HSt HW dm i q Hin Hi Hq) as (Po & _ & _). unfold get_g. rewrite Po, S2. reflexivity. }
      rewrite Ey. cbn [bind]. eexists. split; [reflexivity|exact Vy].
    Qed.
    (** the data change nothing *)
    Lemma ex_sem_data x mm y st : (forall rhs, set_rhs_problem c x false rhs = Ok (fun n d => rhs n d + mm n d)) -> sem_matrix c pb true x y st = sem_matrix c pb false x y st.
    Proof.
      intros Ha. destruct (ex_solved (mkflags true false false) x true mm Ha) as (r1 & E1 & V1). destruct (ex_solved (mkflags false false false) x false mm Ha) as (r2 & E2 & V2). unfold sem_matrix. rewrite E1, E2. cbn [bind].
      assert (E : fl_solve pb r1 = fl_solve pb r2) by (apply functional_extensionality; intros n; apply functional_extensionality; intros d; rewrite V1, V2; reflexivity). rewrite E. reflexivity.
    Qed.
    Lemma ex_sem_nonzero x mm y st : (forall rhs, set_rhs_problem c x false rhs = Ok (fun n d => rhs n d + mm n d)) -> control_vector 2 ex2_h parts ex2_dms (1 / 10) 2 y -> exL t n0 d0 mm <> 0 -> ka <> 0 ->
      exists r, sem_matrix c pb false x y st = Ok r /\ exists dm j, In dm ex2_dms /\ nth j (fst r dm) 0 <> 0.
    Proof.
      intros Ha HY NL NK. destruct (ex_solved (mkflags false false false) x false mm Ha) as (r1 & E1 & V1). cbn [f_sing] in V1. set (al := exL t n0 d0 mm + 0) in *. unfold sem_matrix. rewrite E1. cbn [bind].
      destruct (ex_interp_all false al (fl_solve pb r1) V1) as (g & Eg & Hg). rewrite Eg. cbn [bind]. destruct (SP al _ (ex_simple al g Hg)) as (r2 & E2 & I2). rewrite E2. cbn [bind]. set (sol := fl_solve pb r2). set (be := al * ka).
      assert (S2 : forall n d, sol n d = be * exw n d) by (intros n d; unfold sol, be; cbn [fl_solve pb ex_pb]; unfold ex_solve; rewrite I2; ring).
      destruct (projection_all_rel 2 ex2_m ex2_per ex2_h parts ex2_dms exb (1 / 10) 2 HG Hm HD HSt HW 1 0 sol sol sol ltac:(intros n d _ _; ring)) as (mc & mc2 & mc3 & EP & _ & _ & VP). fold c in EP. rewrite EP. cbn [bind].
      destruct (VP 0%nat ltac:(simpl; lia)) as ((LM & _) & (LC & _)).
      set (F := fun i q d => sol q d - nth d (vec_plus (fst mc i) (scalar_times_vec (gp_Ci_R (nth i parts gpart0)) (cross_sv (snd mc i) (zip_with Rminus (pos_times (pos_of_int q) ex2_h) (p_center (gp (nth i parts gpart0))))))) 0).
      destruct (ex_on_control (compute_y_rigid c sol (fst mc) (snd mc)) y (fun dm => laid_out 2 np (pts dm) F)) as (yy & Ey & Vy).
      { intros dm Hin. unfold compute_y_rigid. apply (y_loop_value 2 ex2_m ex2_per ex2_h parts ex2_dms exb (1 / 10) 2 HG Hm HD HSt HSm HW _ F dm (y dm) Hin (HY dm Hin)). intros i q d Hi Hq Hd.
        destruct (pts_own 2 ex2_m ex2_per ex2_h parts ex2_dms (1 / 10) HG Hm HD HSt HW dm i q Hin Hi Hq) as (Po & _ & _). unfold get_g. rewrite Po. reflexivity. }
      rewrite Ey. cbn [bind]. eexists. split; [reflexivity|]. cbn [fst].
      assert (DF : F 0%nat [4; 4]%Z 0%nat - F 0%nat [3; 4]%Z 0%nat = be / 8).
      { unfold F. rewrite !S2. destruct (fst mc 0%nat) as [|mu0 [|mu1 [|]]]; simpl in LM; try lia. destruct (snd mc 0%nat) as [|om [|]]; simpl in LC; try lia.
        unfold exw, affine_field. cbn. unfold co. cbn. field. }
      assert (BE : be <> 0) by (unfold be, al; rewrite Rplus_0_r; apply Rmult_integral_contrapositive; auto).
      destruct (ex_entry F 3 0 (or_introl eq_refl) ltac:(lia)) as [j3 H3]. destruct (ex_entry F 4 0 (or_intror eq_refl) ltac:(lia)) as [j4 H4].
      destruct (Req_dec (F 0%nat [3; 4]%Z 0%nat) 0) as [Z3|NZ3].
      - exists dm0, j4. split; [apply dm0_in|]. rewrite (Vy dm0 dm0_in), H4. lra.
      - exists dm0, j3. split; [apply dm0_in|]. rewrite (Vy dm0 dm0_in), H3. exact NZ3.
    Qed.
  End Chosen.
  Lemma ex_scaled a x mm : control_vector 2 ex2_h parts ex2_dms (1 / 10) 2 x -> (forall rhs, set_rhs_problem c x false rhs = Ok (fun n d => rhs n d + mm n d)) ->
    let x' := fun dm => map (Rmult a) (x dm) in exists mm', control_vector 2 ex2_h parts ex2_dms (1 / 10) 2 x' /\ control_combination ex2_dms a 0 x x x' /\
      (forall rhs, set_rhs_problem c x' false rhs = Ok (fun n d => rhs n d + mm' n d)) /\ forall t n0 d0, in_grid_box (nodes_box ex2_m) n0 -> (d0 < 2)%nat -> exL t n0 d0 mm' = a * exL t n0 d0 mm.
  Proof.
    intros HX Ha x'. assert (HX' : control_vector 2 ex2_h parts ex2_dms (1 / 10) 2 x') by (intros dm Hin; unfold x'; rewrite map_length; apply HX, Hin).
    assert (CB : control_combination ex2_dms a 0 x x x').
    { intros dm Hin. unfold x'. rewrite map_length. split; [reflexivity|]. split; [reflexivity|]. intros j. rewrite <- (Rmult_0_r a) at 1. rewrite map_nth. ring. }
    destruct (rhs_added 2 ex2_m ex2_per ex2_h parts ex2_dms exb (1 / 10) 2 HG Hm HD HSt HSm HW a 0 false false false ltac:(cbn; ring) x x x' HX HX HX' (comb_crel _ _ _ _ _ _ CB)) as (m1 & m2 & m3 & F & A1 & _ & A3). fold c in A1, A3.
    exists m3. split; [exact HX'|]. split; [exact CB|]. split; [exact A3|]. intros t n0 d0 Hn Hd. pose proof (A1 zeros) as B1. rewrite (Ha zeros) in B1. injection B1 as B1.
    assert (EM : forall n d, mm n d = m1 n d). { intros n d. pose proof (f_equal (fun f : field => f n d) B1) as Q. cbv beta in Q. lra. }
    rewrite (exL_grid t n0 d0 m3 (fun n d => a * mm n d) Hn Hd); [|intros n d H1 H2; rewrite (F n d H1 H2), EM; ring]. unfold exL. assert (EI : inner exN 2 (fun n d => a * mm n d) exw = a * inner exN 2 mm exw).
    { unfold inner. rewrite <- Lsum_scal. apply Lsum_ext. intros q _. rewrite <- Rsum_scal. apply Rsum_ext. intros; ring. }
    rewrite EI. ring.
  Qed.
  Lemma ex_dton : exists pb x z : _, fluid_ok ex2_m 2 pb /\ control_vector 2 ex2_h parts ex2_dms (1 / 10) 2 x /\ control_vector 2 ex2_h parts ex2_dms (1 / 10) 2 z /\ zero_control z /\
    forall y st, control_vector 2 ex2_h parts ex2_dms (1 / 10) 2 y ->
      (exists r, DtoN_matrix c pb (dton_flags true) z y st = Ok r /\ exists dm j, In dm ex2_dms /\ nth j (fst r dm) 0 <> 0) /\
      (* x solves the linear system *)
      forall y0 st0, control_vector 2 ex2_h parts ex2_dms (1 / 10) 2 y0 -> exists b Ax, dton_setup_RHS c pb true z y0 st0 = Ok b /\ DtoN_matrix c pb (dton_flags true) x y st = Ok Ax /\ forall dm, In dm ex2_dms -> fst Ax dm = fst b dm.
  Proof.
    destruct ex_choice as (t & n0 & d0 & x1 & mm & ka & Hn0 & Hd0 & HX & Ha & NL & NK & SP).
    destruct (SP 1 (fun dm => [map (map (Rmult 1)) (rad dm)])) as (sing & _ & LS); [intros dm _; reflexivity|]. rewrite Rmult_1_l in LS.
    destruct (ex_scaled 0 x1 mm HX Ha) as (mz & HZ & _ & Az & Lz). destruct (ex_scaled (- (2 * ka) / exL t n0 d0 mm) x1 mm HX Ha) as (mx & HX' & _ & Ax & Lx).
    exists (ex_pb t n0 d0 sing). eexists. eexists. split; [apply ex_fluid; auto|]. split; [exact HX'|]. split; [exact HZ|]. split; [intros dm v Hv; apply in_map_iff in Hv as (w & <- & _); ring|].
    intros y st HY. split.
    - destruct (ex_dton_value t n0 d0 ka sing Hn0 Hd0 SP (dton_flags true) _ mz y st Az HY) as (r & E & V). exists r. split; [exact E|].
      destruct (ex_entry (fun _ q d => (exL t n0 d0 mz + (if f_sing (dton_flags true) then exL t n0 d0 sing else 0)) * ka * exw q d) 3 0 (or_introl eq_refl) ltac:(lia)) as [j Hj]. exists dm0, j. split; [apply dm0_in|]. rewrite (V dm0 dm0_in), Hj. cbn [f_sing dton_flags]. rewrite (Lz t n0 d0 Hn0 Hd0), LS.
      unfold exw, affine_field. cbn [length seq zip_with fold_right Nat.eqb co nth ex2_h]. unfold co. cbn [nth]. intros Z0. assert (ka * ka = 0) by lra. apply NK. nra.
    - intros y0 st0 HY0. destruct (ex_dton_value t n0 d0 ka sing Hn0 Hd0 SP (mkflags true true true) _ mz y0 st0 Az HY0) as (r & E & V). destruct (ex_dton_value t n0 d0 ka sing Hn0 Hd0 SP (dton_flags true) _ mx y st Ax HY) as (r' & E' & V').
      unfold dton_setup_RHS. rewrite E. cbn [bind]. eexists. exists r'. split; [reflexivity|]. split; [exact E'|]. intros dm Hin. cbn [fst]. rewrite (V dm Hin), (V' dm Hin). cbn [f_sing dton_flags].
      rewrite (Lz t n0 d0 Hn0 Hd0), (Lx t n0 d0 Hn0 Hd0), LS. unfold laid_out. rewrite !flat_map_concat_map, concat_map, !map_map. f_equal. apply map_ext. intros i. rewrite !flat_map_concat_map, concat_map, !map_map. f_equal. apply map_ext. intros q. rewrite map_map. apply map_ext. intros d. field. exact NL.
  Qed.
  Lemma ex_sem : exists pb x0 x, fluid_ok ex2_m 2 pb /\ control_vector 2 ex2_h parts ex2_dms (1 / 10) 2 x0 /\ control_vector 2 ex2_h parts ex2_dms (1 / 10) 2 x /\
    forall y st, control_vector 2 ex2_h parts ex2_dms (1 / 10) 2 y ->
      (exists r, sem_matrix c pb false x0 y st = Ok r /\ exists dm j, In dm ex2_dms /\ nth j (fst r dm) 0 <> 0) /\
      forall y0 st0, control_vector 2 ex2_h parts ex2_dms (1 / 10) 2 y0 -> exists b Ax, sem_setup_RHS c pb x0 y0 st0 = Ok b /\ sem_matrix c pb false x y st = Ok Ax /\ forall dm, In dm ex2_dms -> fst Ax dm = fst b dm.
  Proof.
    destruct ex_choice as (t & n0 & d0 & x1 & mm & ka & Hn0 & Hd0 & HX & Ha & NL & NK & SP). set (pb := ex_pb t n0 d0 zeros).
    destruct (ex_scaled (-1) x1 mm HX Ha) as (mx & HX' & CB & Ax & Lx). assert (HF : fluid_ok ex2_m 2 pb) by (apply ex_fluid; auto).
    exists pb, x1. eexists. split; [exact HF|]. split; [exact HX|]. split; [exact HX'|]. intros y st HY. split.
    - apply (ex_sem_nonzero t n0 d0 ka zeros Hn0 Hd0 SP x1 mm y st Ha HY NL NK).
    - intros y0 st0 HY0. unfold sem_setup_RHS, pb. rewrite (ex_sem_data t n0 d0 zeros Hn0 Hd0 x1 mm y0 st0 Ha).
      destruct (C43_sem_linear 2 ex2_m ex2_per ex2_h parts ex2_dms exb (1 / 10) 2 pb ex_setting HF (-1) 0 _ _ _ HX HX HX' CB y0 y0 y HY0 HY0 HY st0 st0 st) as (r1 & r2 & r3 & E1 & E2 & E3 & R). fold c in E1, E2, E3.
      fold pb. rewrite E1. cbn [bind]. eexists. exists r3. split; [reflexivity|]. split; [exact E3|]. cbn [fst]. intros dm Hin. destruct (R dm Hin) as (_ & L & V). apply (nth_ext _ _ 0 0); [rewrite map_length; exact L|]. intros j _. rewrite V, opp_nth. ring.
  Qed.
End Ex.

(** With a singular field the DtoN operator is not linear: it does not vanish at the zero control; and the control x that solves
    the linear system (there is one) does not solve the full equation. *)
Theorem C58_dton_singular_refuted : exists D m per h parts dms bc k scale pb x z, setting D m per h parts dms bc k /\ fluid_ok m D pb /\ rigid_data D parts /\
  control_vector D h parts dms k scale x /\ control_vector D h parts dms k scale z /\ zero_control z /\
  let c := create_Mat_and_Vec D h parts dms (map Some bc) k scale in
  forall y0 y y1 st st1 st2, control_vector D h parts dms k scale y0 -> control_vector D h parts dms k scale y -> control_vector D h parts dms k scale y1 ->
  (exists b Ax, dton_setup_RHS c pb true z y0 st = Ok b /\ DtoN_matrix c pb (dton_flags true) x y st1 = Ok Ax /\ forall dm, In dm dms -> fst Ax dm = fst b dm) /\
  exists r dm j, DtoN_matrix c pb (mkflags true true true) x y1 st2 = Ok r /\ In dm dms /\ nth j (fst r dm) 0 <> 0.
Proof.
  destruct ex2_sampled as (fuel & l & HS & _). destruct (ex_dton fuel l HS) as (pb & x & z & HF & HX & HZ & ZZ & K).
  exists 2%nat, ex2_m, ex2_per, ex2_h, [exc fuel], ex2_dms, exb, (1 / 10), 2%Z, pb, x, z. pose proof (ex_setting fuel) as H. pose proof (ex_rigid fuel) as HR.
  split; [exact H|]. split; [exact HF|]. split; [exact HR|]. split; [exact HX|]. split; [exact HZ|]. split; [exact ZZ|]. intros c y0 y y1 st st1 st2 Y0 Y Y1.
  destruct (K y st1 Y) as ((S' & ES' & dm & j & Hin & NZ) & SOL). destruct (SOL y0 st Y0) as (b & Ax & EB & EA & EQ). split; [exists b, Ax; auto|].
  destruct (C58_dton_singular_residual 2 ex2_m ex2_per ex2_h [exc fuel] ex2_dms exb (1 / 10) 2 pb H HF HR z x y0 y y1 y st st1 st2 st1 b Ax HZ ZZ HX Y0 Y Y1 Y EB EA EQ) as (r & S & ER & ES & V).
  rewrite ES in ES'. injection ES' as <-. exists r, dm, j. split; [exact ER|]. split; [exact Hin|]. rewrite (V dm j Hin). lra.
Qed.
Print Assumptions C58_dton_singular_refuted.
Theorem C43_dton_singular_refuted : exists D m per h parts dms bc k scale pb z, setting D m per h parts dms bc k /\ fluid_ok m D pb /\ rigid_data D parts /\ control_vector D h parts dms k scale z /\ zero_control z /\
  let c := create_Mat_and_Vec D h parts dms (map Some bc) k scale in
  forall y st, control_vector D h parts dms k scale y -> exists r, DtoN_matrix c pb (dton_flags true) z y st = Ok r /\ exists dm j, In dm dms /\ nth j (fst r dm) 0 <> 0.
Proof.
  destruct ex2_sampled as (fuel & l & HS & _). destruct (ex_dton fuel l HS) as (pb & x & z & HF & HX & HZ & ZZ & K).
  exists 2%nat, ex2_m, ex2_per, ex2_h, [exc fuel], ex2_dms, exb, (1 / 10), 2%Z, pb, z.
  split; [apply ex_setting|]. split; [exact HF|]. split; [apply ex_rigid|]. split; [exact HZ|]. split; [exact ZZ|]. intros c y st Y. apply (K y st Y).
Qed.
Print Assumptions C43_dton_singular_refuted.
(** SEM: the hypotheses of C44_sem_last_solve_history_refuted hold together *)
Theorem C44_sem_last_solve_refuted : exists D m per h parts dms bc k scale pb x, setting D m per h parts dms bc k /\ fluid_ok m D pb /\ control_vector D h parts dms k scale x /\
  let c := create_Mat_and_Vec D h parts dms (map Some bc) k scale in
  forall y st sol, control_vector D h parts dms k scale y -> control_vector D h parts dms k scale sol ->
  exists st1 st2, sem_solve c pb [] sol (mkpstate zeros zeros) = Ok st1 /\ sem_solve c pb [(x, y)] sol st = Ok st2 /\
    exists n d, in_grid_box (nodes_box m) n /\ (d < D)%nat /\ s_rhs st2 n d <> s_rhs st1 n d.
Proof.
  destruct ex2_sampled as (fuel & l & HS & _). destruct (ex_sem fuel l HS) as (pb & x & xx & HF & HX & _ & K).
  exists 2%nat, ex2_m, ex2_per, ex2_h, [exc fuel], ex2_dms, exb, (1 / 10), 2%Z, pb, x.
  split; [apply ex_setting|]. split; [exact HF|]. split; [exact HX|]. intros c y st sol HY Hs.
  destruct (C44_sem_last_solve_history_refuted 2 ex2_m ex2_per ex2_h [exc fuel] ex2_dms exb (1 / 10) 2 pb (ex_setting fuel) HF sol Hs [] x y st) as (st1 & st2 & E1 & E2 & V & _).
  - constructor; [split; assumption|constructor].
  - intros r Er. destruct (K y st HY) as ((r' & Er' & V) & _). rewrite Er in Er'. injection Er' as <-. exact V.
  - exists st1, st2. auto.
Qed.
Print Assumptions C44_sem_last_solve_refuted.
(** SEM from a control x0 <> 0: x solves the linear system but not the full equation *)
Theorem C58_sem_restart_refuted : exists D m per h parts dms bc k scale pb x0 x, setting D m per h parts dms bc k /\ fluid_ok m D pb /\ control_vector D h parts dms k scale x0 /\ control_vector D h parts dms k scale x /\
  let c := create_Mat_and_Vec D h parts dms (map Some bc) k scale in
  forall y0 y y1 st st1 st2, control_vector D h parts dms k scale y0 -> control_vector D h parts dms k scale y -> control_vector D h parts dms k scale y1 ->
  (exists b Ax, sem_setup_RHS c pb x0 y0 st = Ok b /\ sem_matrix c pb false x y st1 = Ok Ax /\ forall dm, In dm dms -> fst Ax dm = fst b dm) /\
  exists r dm j, sem_matrix c pb true x y1 st2 = Ok r /\ In dm dms /\ nth j (fst r dm) 0 <> 0.
Proof.
  destruct ex2_sampled as (fuel & l & HS & _). destruct (ex_sem fuel l HS) as (pb & x0 & x & HF & HX0 & HX & K).
  exists 2%nat, ex2_m, ex2_per, ex2_h, [exc fuel], ex2_dms, exb, (1 / 10), 2%Z, pb, x0, x. pose proof (ex_setting fuel) as H.
  split; [exact H|]. split; [exact HF|]. split; [exact HX0|]. split; [exact HX|]. intros c y0 y y1 st st1 st2 Y0 Y Y1.
  destruct (K y st1 Y) as ((A' & EA' & dm & j & Hin & NZ) & SOL). destruct (SOL y0 st Y0) as (b & Ax & EB & EA & EQ). split; [exists b, Ax; auto|].
  destruct (C58_sem_restart_residual 2 ex2_m ex2_per ex2_h [exc fuel] ex2_dms exb (1 / 10) 2 pb H HF x0 x y0 y y1 y st st1 st2 st1 b Ax HX0 HX Y0 Y Y1 Y EB EA EQ) as (r & A0 & Er & E0 & V).
  rewrite E0 in EA'. injection EA' as <-. exists r, dm, j. split; [exact Er|]. split; [exact Hin|]. rewrite (V dm j Hin). lra.
Qed.
Print Assumptions C58_sem_restart_refuted.
