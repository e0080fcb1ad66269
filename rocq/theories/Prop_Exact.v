(** C69: the Stokes driver reproduces the polynomial Stokes flows exactly. *)
From Coq Require Import FunctionalExtensionality Permutation QArith Qreals.
From Coquelicot Require Import Coquelicot.
From Verif Require Import Base M_Geometry S_Geometry P_Geometry M_Particle S_Particle P_Particle M_Quadrature S_Fem P_Energy M_MatElem P_MatElem M_Mesh M_Operator S_Operator P_Mesh P_Operator P_Operator2 P_Operator3 P_Global P_Stokes M_Bc S_Bc P_Constant Prop_Operator Prop_Operator2 Prop_Assembly Prop_Assembly2 P_CreateMesh P_Diag P_Flux Prop_StokesUnique Prop_Flux.
From Verif Require Import S_Exact P_Gather P_Exact P_Stencil P_Stencil3 P_Flow.
Local Open Scope R_scope.

(** ** what the data of the driver must be for the flow (u, p) under the force f *)
(** on the walls, every condition is the velocity of the flow *)
Definition walls_match (h : list R) (m : list Z) (per : list bool) (bc : list bc_row) (u : nat -> list R -> R) : Prop :=
  forall s c g n, In s (sides (length m)) -> in_grid_box (nodes_box m) n -> on_side m per n s = true -> nth c (nth (side_index s) bc []) None = Some g ->
    g (position h n) = u c (position h n).
(** the load is the force: component c is given and takes the value f c at every node, or is absent and f c = 0 *)
Definition load_match (h : list R) (m : list Z) (conds : bc_row) (f : nat -> R) : Prop :=
  forall c n, (c < length m)%nat -> in_grid_box (nodes_box m) n -> match nth c conds None with Some g => g (position h n) = f c | None => f c = 0 end.
(** the values of the flow at the nodes; the steps of the pressure grid are 2 h *)
Definition nodal_velocity (h : list R) (u : nat -> list R -> R) : field := fun n c => u c (position h n).
Definition nodal_pressure (h : list R) (p : list R -> R) : field := fun n _ => p (position (map (Rmult 2) h) n).

Lemma prescribed_from D m per bc n c g : prescribed D m per bc n c = Some g -> exists s, In s (sides D) /\ on_side m per n s = true /\ nth c (nth (side_index s) bc []) None = Some g.
Proof.
  unfold prescribed. enough (G : forall l acc, fold_left (fun acc s => if on_side m per n s then match nth c (nth (side_index s) bc []) None with Some f => Some f | None => acc end else acc) l acc = Some g ->
    acc = Some g \/ exists s, In s l /\ on_side m per n s = true /\ nth c (nth (side_index s) bc []) None = Some g).
  { intros H. destruct (G _ _ H) as [E|E]; [discriminate|exact E]. }
  induction l as [|s l IH]; intros acc H; cbn [fold_left] in H; [left; exact H|]. destruct (IH _ H) as [E|(s' & H1 & H2 & H3)]; [|right; exists s'; cbn; auto].
  destruct (on_side m per n s) eqn:O; [|left; exact E]. destruct (nth c (nth (side_index s) bc []) None) eqn:N; [|left; exact E]. right. exists s. injection E as ->. cbn; auto.
Qed.
Lemma free_inside D m per bc n c : length m = D -> length per = D -> in_grid_box (nodes_box m) n -> (c < D)%nat -> all_conditions D D per bc -> prescribed D m per bc n c = None -> inside m per n.
Proof.
  intros Lm Lp Hn Hc HA HP.
  assert (B : forall d, (d < length m)%nat -> (0 <= nth d n 0 < nth d m 0)%Z). { destruct Hn as [H1 H2]. intros d Hd. cbn [nodes_box bottom_left upper_right] in H1, H2. pose proof (Forall2_len _ _ _ H1) as L1. rewrite map_length in L1.
    assert (F : forall l l' : list Z, Forall2 Z.lt l l' -> forall k, (k < length l)%nat -> (nth k l 0 < nth k l' 0)%Z) by (induction 1; intros k Hk; cbn in Hk; [lia|]; destruct k; cbn; auto; apply IHForall2; lia).
    assert (F' : forall l l' : list Z, Forall2 Z.le l l' -> forall k, (k < length l)%nat -> (nth k l 0 <= nth k l' 0)%Z) by (induction 1; intros k Hk; cbn in Hk; [lia|]; destruct k; cbn; auto; apply IHForall2; lia).
    split; [|apply F; auto; lia]. assert (Z : nth d (map (fun _ : Z => 0%Z) m) 0%Z = 0%Z) by (rewrite (map_nth (fun _ : Z => 0%Z) m 0%Z d); reflexivity). rewrite <- Z at 1. apply F'; auto. rewrite map_length. exact Hd. }
  split; [destruct Hn as [H1 _]; apply Forall2_len in H1; cbn [nodes_box bottom_left] in H1; rewrite map_length in H1; lia|].
  intros d Hd. specialize (B d Hd). destruct (nth d per false) eqn:P; [exact B|].
  assert (NE : forall up : bool, nth d n 0%Z <> (if up then nth d m 0 - 1 else 0)%Z).
  { intros up E. apply (proj2 (C30_constrained_iff D m per bc n c)); [|exact HP]. exists d, up. split; [lia|]. split; [exact P|]. split; [exact E|]. apply (HA (d, up) c); auto. apply in_sides. cbn. lia. }
  pose proof (NE true). pose proof (NE false). cbn in *. lia.
Qed.
Section Exact.
  Variables (strain : bool) (h : list R) (mp : list Z) (per : list bool) (bc : list bc_row) (conds : bc_row) (dms : list (dmda * dmda)) (u : nat -> list R -> R) (p : list R -> R) (f : nat -> R).
  Let D := length mp. Let mv := refined_size mp per.
  Hypothesis HG : grid_ok mp per.
  Hypothesis HS : steps_ok h mp.
  Hypothesis HL : stokes_layout mp per D dms.
  Hypothesis HN : nonempty_views (map fst dms).
  Hypothesis HT : table_ok D D bc.
  Hypothesis HA : all_conditions D D per bc.
  Hypothesis HC : length conds = D.
  Hypothesis HF : stokes_flow D u p f.
  Hypothesis HP : forall c, (c < D)%nat -> periodic_ok D per (u c).
  Hypothesis HPp : periodic_ok D per p.
  Hypothesis HW : walls_match h mv per bc u.
  Hypothesis HQ : load_match h mv conds f.
  Lemma mv_len : length mv = D. Proof. unfold mv, refined_size. rewrite length_zip_with; auto. symmetry. apply HG. Qed.
  Lemma rhs_rows : exists bv, setup_RHS D conds (map Some bc) h (map fst dms) zero_field = Ok bv /\
    forall n c, in_grid_box (nodes_box mv) n -> (c < D)%nat -> bv n c = match prescribed D mv per bc n c with Some g => g (position h n) | None => volume h * f c end.
  Proof.
    pose proof (refined_grid mp per HG) as HGv. fold mv in HGv. pose proof mv_len as Lm. assert (T' : table_ok (length mv) D bc) by (rewrite Lm; exact HT).
    destruct (loaded_dec conds) as [E|E].
    - destruct (C45_first_call mv per D (map fst dms) conds bc h zero_field HGv (proj1 HL) HN T' HC E) as (y & mf & Ey & Em & V). rewrite Lm in Ey, V. exists y. split; [exact Ey|]. intros n c Hn Hc. rewrite (V n c Hn Hc). destruct (prescribed D mv per bc n c) eqn:P; [reflexivity|].
      destruct (rep_diag mv per D (getMatElemMass h) HGv (map fst dms) (fun n c => match nth c conds None with Some g => g (zip_with (fun (i : Z) (s : R) => IZR i * s) n h) | None => 0 end) (proj1 HL)) as (mf' & Em' & W). unfold mass_mult in Em. rewrite Em' in Em. injection Em as <-.
      rewrite <- (inner_unit mv D mf' n c Hn Hc), (W _ _ (N0_enum mv) (E0_enum mv per (proj1 (proj2 HGv)))). unfold zero_field. rewrite Rplus_0_l.
      apply (load_row h mp per u p f HG HS HF HP HPp); auto. { apply (free_inside D mv per bc n c); auto. apply HG. }
      intros q d Hq Hd. pose proof (HQ d q) as K. rewrite Lm in K. specialize (K Hd Hq). fold (position h q). destruct (nth d conds None); [exact K|symmetry; exact K].
    - destruct (C30_on_rhs mv per D bc h (map fst dms) zero_field HGv (proj1 HL) HN T') as (y & Ey & V). rewrite Lm in Ey, V. exists y. unfold setup_RHS. rewrite (has_condition_unloaded _ E). split; [exact Ey|]. intros n c Hn Hc. rewrite (V n c Hn Hc). destruct (prescribed D mv per bc n c); [reflexivity|].
      pose proof (HQ c n) as K. rewrite Lm in K. specialize (K Hc Hn). rewrite (E c) in K. rewrite K. unfold zero_field. ring.
  Qed.
  Lemma nodal_rows : exists bv yv yp, setup_RHS D conds (map Some bc) h (map fst dms) zero_field = Ok bv /\
    stokes_matrix (viscous strain h) h D (Some (map Some bc)) dms (nodal_velocity h u) (nodal_pressure h p) = Ok (yv, yp) /\ same_field mv D yv bv /\ same_field mp 1 yp zero_field.
  Proof.
    destruct rhs_rows as (bv & Eb & Vb). destruct (facts strain h mp per bc dms HG HL HN HT (nodal_velocity h u) (nodal_pressure h p)) as (rv & rp & yv & _ & E & V & W & Q). fold D mv in E, V, W, Q. exists bv, yv, rp. split; [exact Eb|]. split; [exact E|]. split.
    - intros n c Hn Hc. rewrite (V n c Hn Hc), (Vb n c Hn Hc). destruct (prescribed D mv per bc n c) as [g|] eqn:P.
      + destruct (prescribed_from _ _ _ _ _ _ _ P) as (s & Hs & Ho & Hg). symmetry. apply (HW s c g n); auto. rewrite mv_len. exact Hs.
      + rewrite <- (inner_unit mv D rv n c Hn Hc), W. unfold aform. apply (viscous_row h mp per u p f HG HS HF HP HPp strain n c); auto. apply (free_inside D mv per bc n c); auto; [apply mv_len|apply HG].
    - intros n c Hn Hc. rewrite <- (inner_unit mp 1 rp n c Hn Hc), Q. unfold zero_field. apply (continuity h mp per u p f HG HS HF HP HPp).
  Qed.
End Exact.

(** the nodal values of the flow solve the system that the driver sets up *)
Theorem C69_nodal_values_solve : forall (strain : bool) h mp per bc conds dms u p f, let D := length mp in let mv := refined_size mp per in
  grid_ok mp per -> steps_ok h mp -> stokes_layout mp per D dms -> nonempty_views (map fst dms) -> table_ok D D bc -> all_conditions D D per bc -> length conds = D ->
  stokes_flow D u p f -> (forall c, (c < D)%nat -> periodic_ok D per (u c)) -> periodic_ok D per p -> walls_match h mv per bc u -> load_match h mv conds f ->
  exists bv yv yp, setup_RHS D conds (map Some bc) h (map fst dms) zero_field = Ok bv /\
    stokes_matrix (if strain then strain_tensor_mult h else laplacian_mult h) h D (Some (map Some bc)) dms (nodal_velocity h u) (nodal_pressure h p) = Ok (yv, yp) /\
    same_field mv D yv bv /\ same_field mp 1 yp zero_field.
Proof. intros strain h mp per bc conds dms u p f D mv HG HS HL HN HT HA HC HF HP HPp HW HQ. exact (nodal_rows strain h mp per bc conds dms u p f HG HS HL HN HT HA HC HF HP HPp HW HQ). Qed.
(** whatever the solver returns is the flow: velocity exact at every node, pressure exact up to a constant *)
Theorem C69_solution_is_exact : forall (strain : bool) h mp per bc conds dms u p f bv xv xp yv yp, let D := length mp in let mv := refined_size mp per in
  grid_ok mp per -> has_cells mp per -> at_most_one_thin mp per -> steps_ok h mp -> stokes_layout mp per D dms -> nonempty_views (map fst dms) -> table_ok D D bc -> all_conditions D D per bc ->
  (exists d, (d < D)%nat /\ nth d per false = false) -> length conds = D ->
  stokes_flow D u p f -> (forall c, (c < D)%nat -> periodic_ok D per (u c)) -> periodic_ok D per p -> walls_match h mv per bc u -> load_match h mv conds f ->
  setup_RHS D conds (map Some bc) h (map fst dms) zero_field = Ok bv ->
  stokes_matrix (if strain then strain_tensor_mult h else laplacian_mult h) h D (Some (map Some bc)) dms xv xp = Ok (yv, yp) -> same_field mv D yv bv -> same_field mp 1 yp zero_field ->
  same_field mv D xv (nodal_velocity h u) /\ exists c, forall n, in_grid_box (nodes_box mp) n -> xp n 0%nat = nodal_pressure h p n 0%nat + c.
Proof.
  intros strain h mp per bc conds dms u p f bv xv xp yv yp D mv HG HCe H1 HS HL HN HT HA (d & Hd & Pd) HC HF HP HPp HW HQ Eb E Sv Sp.
  destruct (C69_nodal_values_solve strain h mp per bc conds dms u p f HG HS HL HN HT HA HC HF HP HPp HW HQ) as (bv' & yv' & yp' & Eb' & E' & Sv' & Sp'). fold D mv in Eb', E', Sv', Sp'. rewrite Eb in Eb'. injection Eb' as <-.
  apply (C66_unique strain h mp per bc dms xv xp yv yp (nodal_velocity h u) (nodal_pressure h p) yv' yp'); auto.
  - fold D mv. unfold held. destruct strain.
    + exists (d, false). split; [apply in_sides; exact Hd|]. split; [exact Pd|]. intros c Hc. apply (HA (d, false) c); auto. apply in_sides. exact Hd.
    + intros c Hc. exists (map (fun _ => 0%Z) mv). split; [apply origin_node, (refined_grid mp per HG)|]. apply C30_constrained_iff. exists d, false. split; [exact Hd|]. split; [exact Pd|]. split; [rewrite (map_nth (fun _ : Z => 0%Z) mv 0%Z d); reflexivity|]. apply (HA (d, false) c); auto. apply in_sides. exact Hd.
  - intros n c Hn Hc. rewrite (Sv n c Hn Hc), (Sv' n c Hn Hc). reflexivity.
  - intros n c Hn Hc. rewrite (Sp n c Hn Hc), (Sp' n c Hn Hc). reflexivity.
Qed.

(** ** flows given by their coefficients *)
Lemma flow_of_coeffs D a b q pa pb f : D = 2%nat \/ D = 3%nat -> (forall c, (c < D)%nat -> q c c c = 0) -> (forall c, (c < D)%nat -> - Rsum D (fun i => 2 * q c i i) + pb c = f c) ->
  Rsum D (fun c => b c c) = 0 -> (forall i, (i < D)%nat -> Rsum D (fun c => q c c i + q c i c) = 0) ->
  stokes_flow D (fun c => poly2 D (a c) (b c) (q c)) (poly1 D pa pb) f.
Proof.
  intros HD Hq Hm Hb Hdv. split; [intros c _; exists (a c), (b c), (q c); reflexivity|]. split; [exists pa, pb; reflexivity|]. split; [|split].
  - intros c x Hc L. rewrite second_poly2 by auto. rewrite (Hq c Hc). ring.
  - intros c x Hc L. rewrite <- (Hm c Hc). rewrite partial_poly1 by auto. f_equal. f_equal. apply Rsum_ext. intros i Hi. apply second_poly2; auto.
  - intros x L. transitivity (Rsum D (fun c => slope D (b c) (q c) c x)); [apply Rsum_ext; intros c Hc; apply partial_poly2; auto|]. unfold slope. rewrite Rsum_plus, Hb, Rsum_swap.
    rewrite (Rsum_ext D _ (fun _ => 0)); [rewrite Rsum_zero; ring|]. intros j Hj. rewrite Rsum_scal_r, Hdv by auto. ring.
Qed.
Lemma moved_nth D k t x j : (k < D)%nat -> length x = D -> j <> k -> nth j (moved k t x) 0 = nth j x 0.
Proof.
  intros Hk L Ne. unfold moved. revert k x D Hk L Ne. induction j as [|j IH]; intros k x D Hk L Ne; destruct x as [|a x]; cbn [length] in L; try lia; destruct k as [|k]; try lia; cbn [firstn skipn app nth]; try reflexivity.
  apply (IH k x (D - 1)%nat); lia.
Qed.
Lemma poly1_periodic D per pa pb : (forall k, (k < D)%nat -> nth k per false = true -> pb k = 0) -> periodic_ok D per (poly1 D pa pb).
Proof. intros H k t x Hk L P. unfold poly1. f_equal. apply Rsum_ext. intros i Hi. destruct (Nat.eq_dec i k) as [->|Ne]; [rewrite (H k Hk P); ring|rewrite (moved_nth D) by auto; reflexivity]. Qed.
Lemma poly2_periodic D per a b q : (forall k, (k < D)%nat -> nth k per false = true -> b k = 0 /\ forall j, q k j = 0 /\ q j k = 0) -> periodic_ok D per (poly2 D a b q).
Proof.
  intros H k t x Hk L P. destruct (H k Hk P) as [H1 H2]. unfold poly2. f_equal; [f_equal|]; apply Rsum_ext; intros i Hi; [|apply Rsum_ext; intros j Hj].
  - destruct (Nat.eq_dec i k) as [->|Ne]; [rewrite H1; ring|rewrite (moved_nth D) by auto; reflexivity].
  - destruct (Nat.eq_dec i k) as [->|Ne]; [rewrite (proj1 (H2 j)); ring|]. destruct (Nat.eq_dec j k) as [->|Ne']; [rewrite (proj2 (H2 i)); ring|]. rewrite !(moved_nth D) by auto. reflexivity.
Qed.
(** still walls and a uniform force: the fluid stays at rest, the pressure is hydrostatic *)
Theorem C69_hydrostatic : forall (strain : bool) h mp per bc conds dms f bv xv xp yv yp, let D := length mp in let mv := refined_size mp per in
  grid_ok mp per -> has_cells mp per -> at_most_one_thin mp per -> steps_ok h mp -> stokes_layout mp per D dms -> nonempty_views (map fst dms) -> table_ok D D bc -> all_conditions D D per bc ->
  (exists d, (d < D)%nat /\ nth d per false = false) -> length conds = D ->
  (forall d, (d < D)%nat -> nth d per false = true -> f d = 0) -> walls_match h mv per bc (fun _ _ => 0) -> load_match h mv conds f ->
  setup_RHS D conds (map Some bc) h (map fst dms) zero_field = Ok bv ->
  stokes_matrix (if strain then strain_tensor_mult h else laplacian_mult h) h D (Some (map Some bc)) dms xv xp = Ok (yv, yp) -> same_field mv D yv bv -> same_field mp 1 yp zero_field ->
  same_field mv D xv zero_field /\ exists c, forall n, in_grid_box (nodes_box mp) n -> xp n 0%nat = Rsum D (fun i => f i * (IZR (nth i n 0%Z) * (2 * nth i h 0))) + c.
Proof.
  intros strain h mp per bc conds dms f bv xv xp yv yp D mv HG HCe H1 HS HL HN HT HA Hw HC Hf HW HQ Eb E Sv Sp.
  assert (F : stokes_flow D (fun _ => poly2 D 0 (fun _ => 0) (fun _ _ => 0)) (poly1 D 0 f) f).
  { apply (flow_of_coeffs D (fun _ => 0) (fun _ _ => 0) (fun _ _ _ => 0)); [apply HG|reflexivity| | |]; intros; try (rewrite (Rsum_ext D _ (fun _ => 0)) by (intros; ring)); rewrite ?Rsum_zero; ring. }
  assert (Z0 : forall x, poly2 D 0 (fun _ => 0) (fun _ _ => 0) x = 0). { intros x. unfold poly2. rewrite (Rsum_ext D _ (fun _ => 0)) by (intros; ring). rewrite Rsum_zero, (Rsum_ext D _ (fun _ => 0)); [rewrite Rsum_zero; ring|]. intros i _. rewrite (Rsum_ext D _ (fun _ => 0)) by (intros; ring). apply Rsum_zero. }
  destruct (C69_solution_is_exact strain h mp per bc conds dms (fun _ => poly2 D 0 (fun _ => 0) (fun _ _ => 0)) (poly1 D 0 f) f bv xv xp yv yp HG HCe H1 HS HL HN HT HA Hw HC F) as [V (c & P)]; auto.
  - intros c _ k t x _ _ _. rewrite !Z0. reflexivity.
  - apply poly1_periodic. exact Hf.
  - intros s c g n Hs Hn Ho Hg. rewrite Z0. exact (HW s c g n Hs Hn Ho Hg).
  - split; [intros n d Hn Hd; rewrite (V n d Hn Hd); apply Z0|]. exists c. intros n Hn. rewrite (P n Hn). f_equal. unfold nodal_pressure, poly1. rewrite Rplus_0_l. apply Rsum_ext. intros i Hi. f_equal.
    assert (Ln : length n = D). { destruct Hn as [Hn1 _]. apply Forall2_len in Hn1. cbn [nodes_box bottom_left] in Hn1. rewrite map_length in Hn1. unfold D. lia. }
    unfold position. rewrite (nth_zip_with _ _ _ i 0%Z 0 0); [|rewrite map_length; rewrite (proj1 HS); exact Ln|lia]. f_equal. rewrite (nth_indep _ 0 (2 * 0)); [apply (map_nth (Rmult 2))|rewrite map_length, (proj1 HS); exact Hi].
Qed.
(** walls that move with an affine velocity of zero divergence (translation, rotation, shear, strain): so does the whole fluid *)
Theorem C69_affine_flow : forall (strain : bool) h mp per bc conds dms (a : nat -> R) (G : nat -> nat -> R) bv xv xp yv yp, let D := length mp in let mv := refined_size mp per in
  let u := fun c x => a c + Rsum D (fun j => G c j * nth j x 0) in
  grid_ok mp per -> has_cells mp per -> at_most_one_thin mp per -> steps_ok h mp -> stokes_layout mp per D dms -> nonempty_views (map fst dms) -> table_ok D D bc -> all_conditions D D per bc ->
  (exists d, (d < D)%nat /\ nth d per false = false) -> length conds = D ->
  Rsum D (fun c => G c c) = 0 -> (forall c d, (c < D)%nat -> (d < D)%nat -> nth d per false = true -> G c d = 0) -> walls_match h mv per bc u -> load_match h mv conds (fun _ => 0) ->
  setup_RHS D conds (map Some bc) h (map fst dms) zero_field = Ok bv ->
  stokes_matrix (if strain then strain_tensor_mult h else laplacian_mult h) h D (Some (map Some bc)) dms xv xp = Ok (yv, yp) -> same_field mv D yv bv -> same_field mp 1 yp zero_field ->
  same_field mv D xv (nodal_velocity h u) /\ exists c, same_field mp 1 xp (constant c).
Proof.
  intros strain h mp per bc conds dms a G bv xv xp yv yp D mv u HG HCe H1 HS HL HN HT HA Hw HC Htr Hper HW HQ Eb E Sv Sp.
  assert (F : stokes_flow D (fun c => poly2 D (a c) (G c) (fun _ _ => 0)) (poly1 D 0 (fun _ => 0)) (fun _ => 0)).
  { apply (flow_of_coeffs D a G (fun _ _ _ => 0)); [apply HG|reflexivity| |exact Htr|]; intros; (rewrite (Rsum_ext D _ (fun _ => 0)) by (intros; ring)); rewrite Rsum_zero; ring. }
  assert (Z0 : forall c x, poly2 D (a c) (G c) (fun _ _ => 0) x = u c x). { intros c x. unfold poly2, u. rewrite (Rsum_ext D (fun i => Rsum D _) (fun _ => 0)); [rewrite Rsum_zero; ring|]. intros i _. rewrite (Rsum_ext D _ (fun _ => 0)) by (intros; ring). apply Rsum_zero. }
  assert (Z1 : forall x, poly1 D 0 (fun _ => 0) x = 0) by (intros x; unfold poly1; rewrite (Rsum_ext D _ (fun _ => 0)) by (intros; ring); rewrite Rsum_zero; ring).
  destruct (C69_solution_is_exact strain h mp per bc conds dms (fun c => poly2 D (a c) (G c) (fun _ _ => 0)) (poly1 D 0 (fun _ => 0)) (fun _ => 0) bv xv xp yv yp HG HCe H1 HS HL HN HT HA Hw HC F) as [V (c & P)]; auto.
  - intros c Hc. apply poly2_periodic. intros k Hk Pk. split; [apply Hper; auto|]. intros; split; reflexivity.
  - apply poly1_periodic. reflexivity.
  - intros s c g n Hs Hn Ho Hg. rewrite Z0. exact (HW s c g n Hs Hn Ho Hg).
  - split; [intros n d Hn Hd; rewrite (V n d Hn Hd); apply Z0|]. exists c. intros n d Hn Hd. assert (d = 0%nat) by lia. subst d. rewrite (P n Hn). unfold nodal_pressure, constant. rewrite Z1. ring.
Qed.
(** a channel between still walls along axis d, driven by a uniform force along another axis c: the parabolic profile *)
Theorem C69_channel_flow : forall (strain : bool) h mp per bc conds dms (c d : nat) (F L : R) bv xv xp yv yp, let D := length mp in let mv := refined_size mp per in
  let u := fun e x => if Nat.eqb e c then F / 2 * nth d x 0 * (L - nth d x 0) else 0 in
  grid_ok mp per -> has_cells mp per -> at_most_one_thin mp per -> steps_ok h mp -> stokes_layout mp per D dms -> nonempty_views (map fst dms) -> table_ok D D bc -> all_conditions D D per bc ->
  (c < D)%nat -> (d < D)%nat -> c <> d -> nth d per false = false -> length conds = D ->
  walls_match h mv per bc u -> load_match h mv conds (fun e => if Nat.eqb e c then F else 0) ->
  setup_RHS D conds (map Some bc) h (map fst dms) zero_field = Ok bv ->
  stokes_matrix (if strain then strain_tensor_mult h else laplacian_mult h) h D (Some (map Some bc)) dms xv xp = Ok (yv, yp) -> same_field mv D yv bv -> same_field mp 1 yp zero_field ->
  same_field mv D xv (nodal_velocity h u) /\ exists k, same_field mp 1 xp (constant k).
Proof.
  intros strain h mp per bc conds dms c d F L bv xv xp yv yp D mv u HG HCe H1 HS HL HN HT HA Hc Hd Ne Pd HC HW HQ Eb E Sv Sp.
  set (b := fun e i => if Nat.eqb e c && Nat.eqb i d then F / 2 * L else 0). set (q := fun e i j => if Nat.eqb e c && Nat.eqb i d && Nat.eqb j d then - F / 2 else 0).
  assert (NEB : Nat.eqb c d = false) by (apply Nat.eqb_neq; exact Ne). assert (NEB' : Nat.eqb d c = false) by (apply Nat.eqb_neq; auto).
  assert (FL : stokes_flow D (fun e => poly2 D 0 (b e) (q e)) (poly1 D 0 (fun _ => 0)) (fun e => if Nat.eqb e c then F else 0)).
  { apply (flow_of_coeffs D (fun _ => 0) b q); [apply HG| | | |].
    - intros e He. unfold q. destruct (Nat.eqb_spec e c) as [->|]; cbn [andb]; [|reflexivity]. rewrite NEB. reflexivity.
    - intros e He. rewrite (Rsum_single D d _ Hd).
      + unfold q. rewrite !Nat.eqb_refl. destruct (Nat.eqb e c); cbn [andb]; field.
      + intros i Hi Ni. unfold q. rewrite (proj2 (Nat.eqb_neq i d) Ni). rewrite !andb_false_r. cbn. ring.
    - rewrite (Rsum_ext D _ (fun _ => 0)); [apply Rsum_zero|]. intros e _. unfold b. destruct (Nat.eqb_spec e c) as [->|]; cbn [andb]; [rewrite NEB|]; reflexivity.
    - intros i Hi. rewrite (Rsum_ext D _ (fun _ => 0)); [apply Rsum_zero|]. intros e _. unfold q. destruct (Nat.eqb_spec e c) as [->|]; cbn [andb]; [rewrite NEB, andb_false_r; cbn; ring|ring]. }
  assert (Z0 : forall e x, poly2 D 0 (b e) (q e) x = u e x).
  { intros e x. unfold poly2, u. rewrite (Rsum_single D d _ Hd), (Rsum_single D d (fun i => Rsum D _) Hd), (Rsum_single D d _ Hd).
    - unfold b, q. rewrite !Nat.eqb_refl. destruct (Nat.eqb e c); cbn [andb]; field.
    - intros j Hj Nj. unfold q. rewrite (proj2 (Nat.eqb_neq j d) Nj), !andb_false_r. ring.
    - intros i Hi Ni. rewrite (Rsum_ext D _ (fun _ => 0)); [apply Rsum_zero|]. intros j _. unfold q. rewrite (proj2 (Nat.eqb_neq i d) Ni), !andb_false_r. cbn. ring.
    - intros i Hi Ni. unfold b. rewrite (proj2 (Nat.eqb_neq i d) Ni), !andb_false_r. ring. }
  assert (Z1 : forall x, poly1 D 0 (fun _ => 0) x = 0) by (intros x; unfold poly1; rewrite (Rsum_ext D _ (fun _ => 0)) by (intros; ring); rewrite Rsum_zero; ring).
  destruct (C69_solution_is_exact strain h mp per bc conds dms (fun e => poly2 D 0 (b e) (q e)) (poly1 D 0 (fun _ => 0)) (fun e => if Nat.eqb e c then F else 0) bv xv xp yv yp HG HCe H1 HS HL HN HT HA (ex_intro _ d (conj Hd Pd)) HC FL) as [V (k & P)]; auto.
  - intros e He. apply poly2_periodic. intros k Hk Pk. assert (Nk : Nat.eqb k d = false) by (apply Nat.eqb_neq; intros ->; congruence). unfold b, q. rewrite Nk. rewrite !andb_false_r. split; [reflexivity|]. intros j. rewrite !andb_false_r. split; reflexivity.
  - apply poly1_periodic. reflexivity.
  - intros s e g n Hs Hn Ho Hg. rewrite Z0. exact (HW s e g n Hs Hn Ho Hg).
  - split; [intros n e Hn He; rewrite (V n e Hn He); apply Z0|]. exists k. intros n e Hn He. assert (e = 0%nat) by lia. subst e. rewrite (P n Hn). unfold nodal_pressure, constant. rewrite Z1. ring.
Qed.

(** ** the hypotheses hold: a periodic channel on two processes, 3 cells across, driven along the periodic axis *)
Definition ch_walls : list bc_row := [[Some (fun _ => 0); Some (fun _ => 0)]; [Some (fun _ => 0); Some (fun _ => 0)]; [None; None]; [None; None]].
Definition ch_load (F : R) : bc_row := [None; Some (fun _ => F)].
Definition ch_flow (F : R) : nat -> list R -> R := fun e x => if Nat.eqb e 1 then F / 2 * nth 0 x 0 * (6 / 7 - nth 0 x 0) else 0.
Example ch_data F : grid_ok ex_mp ex_per /\ has_cells ex_mp ex_per /\ at_most_one_thin ex_mp ex_per /\ steps_ok [1/7; 1/3] ex_mp /\ stokes_layout ex_mp ex_per 2 ex_dms /\ nonempty_views (map fst ex_dms) /\
  table_ok 2 2 ch_walls /\ all_conditions 2 2 ex_per ch_walls /\ length (ch_load F) = 2%nat /\ walls_match [1/7; 1/3] (refined_size ex_mp ex_per) ex_per ch_walls (ch_flow F) /\
  load_match [1/7; 1/3] (refined_size ex_mp ex_per) (ch_load F) (fun e => if Nat.eqb e 1 then F else 0).
Proof.
  pose proof (ex_well_posed true) as (A1 & A2 & A3 & A4 & A5 & A6 & _). do 6 (split; [assumption|]). split; [split; [reflexivity|repeat constructor]|].
  split; [intros s c Hs P Hc; cbn in Hs; destruct c as [|[|]]; [| |lia]; destruct Hs as [<-|[<-|[<-|[<-|[]]]]]; try discriminate P; cbn; discriminate|]. split; [reflexivity|]. split.
  - intros s c g n Hs Hn Ho Hg. change (length (refined_size ex_mp ex_per)) with 2%nat in Hs. cbn in Hs.
    destruct c as [|[|c]]; cbn in Hs; [| |exfalso; destruct Hs as [<-|[<-|[<-|[<-|[]]]]]; cbn in Hg; destruct c; discriminate Hg].
    + assert (g = fun _ => 0) by (destruct Hs as [<-|[<-|[<-|[<-|[]]]]]; cbn in Hg; congruence). subst g. reflexivity.
    + assert (g = fun _ => 0) by (destruct Hs as [<-|[<-|[<-|[<-|[]]]]]; cbn in Hg; congruence). subst g.
      assert (B : nth 0 n 0%Z = 0%Z \/ nth 0 n 0%Z = 6%Z). { unfold on_side in Ho. destruct Hs as [<-|[<-|[<-|[<-|[]]]]]; cbn in Hg; try discriminate Hg; cbn [fst snd nth ex_per negb andb] in Ho; apply Z.eqb_eq in Ho; [left|right]; exact Ho. }
      assert (L : length n = 2%nat) by (destruct Hn as [H _]; apply Forall2_len in H; cbn in H; auto). destruct n as [|n0 [|n1 [|]]]; try discriminate L. cbn [nth] in B. unfold ch_flow, position. cbn [zip_with nth Nat.eqb]. destruct B as [-> | ->]; field.
  - intros c n Hc Hn. change (length (refined_size ex_mp ex_per)) with 2%nat in Hc. destruct c as [|[|c]]; [reflexivity|reflexivity|lia].
Qed.
Example ch_solution : forall (strain : bool) F, exists bv yv yp, setup_RHS 2 (ch_load F) (map Some ch_walls) [1/7; 1/3] (map fst ex_dms) zero_field = Ok bv /\
  stokes_matrix (if strain then strain_tensor_mult [1/7; 1/3] else laplacian_mult [1/7; 1/3]) [1/7; 1/3] 2 (Some (map Some ch_walls)) ex_dms (nodal_velocity [1/7; 1/3] (ch_flow F)) zero_field = Ok (yv, yp) /\
  same_field (refined_size ex_mp ex_per) 2 yv bv /\ same_field ex_mp 1 yp zero_field.
Proof.
  intros strain F. destruct (ch_data F) as (A1 & A2 & A3 & A4 & A5 & A6 & A7 & A8 & A9 & A10 & A11).
  apply (C69_nodal_values_solve strain [1/7; 1/3] ex_mp ex_per ch_walls (ch_load F) ex_dms (ch_flow F) (fun _ => 0) (fun e => if Nat.eqb e 1 then F else 0)); auto.
  - assert (K : stokes_flow 2 (fun e => poly2 2 0 (fun i => if Nat.eqb e 1 && Nat.eqb i 0 then F / 2 * (6 / 7) else 0) (fun i j => if Nat.eqb e 1 && Nat.eqb i 0 && Nat.eqb j 0 then - F / 2 else 0)) (poly1 2 0 (fun _ => 0)) (fun e => if Nat.eqb e 1 then F else 0)).
    { apply (flow_of_coeffs 2 (fun _ => 0) (fun e i => if Nat.eqb e 1 && Nat.eqb i 0 then F / 2 * (6 / 7) else 0) (fun e i j => if Nat.eqb e 1 && Nat.eqb i 0 && Nat.eqb j 0 then - F / 2 else 0)); [left; reflexivity| | | |]; [intros c Hc|intros c Hc| |intros i Hi]; try (destruct c as [|[|c]]; [| |lia]); try (destruct i as [|[|i]]; [| |lia]); cbn; field. }
    replace (ch_flow F) with (fun e => poly2 2 0 (fun i => if Nat.eqb e 1 && Nat.eqb i 0 then F / 2 * (6 / 7) else 0) (fun i j => if Nat.eqb e 1 && Nat.eqb i 0 && Nat.eqb j 0 then - F / 2 else 0)).
    + replace (fun _ : list R => 0) with (poly1 2 0 (fun _ => 0)); [exact K|]. apply functional_extensionality. intros x. unfold poly1. cbn [Rsum]. ring.
    + apply functional_extensionality. intros e. apply functional_extensionality. intros x. unfold poly2, ch_flow. cbn [Rsum]. destruct e as [|[|e]]; cbn [Nat.eqb andb]; field.
  - intros c Hc k t x Hk L P. destruct k as [|[|k]]; [discriminate P| |change (length ex_mp) with 2%nat in Hk; lia]. change (length ex_mp) with 2%nat in L. destruct x as [|x0 [|x1 [|]]]; try discriminate L. reflexivity.
  - intros k t x _ _ _. reflexivity.
Qed.
(** ** a Stokes flow whose first component is quadratic along its own axis: u = (x^2, - 2 x y), p = 2 x, without force.
    The nodal values do not satisfy the discrete continuity equation at the corner of the domain: no solution has them *)
Definition own_axis : nat -> list R -> R := fun c x => if Nat.eqb c 0 then nth 0 x 0 * nth 0 x 0 else - 2 * nth 0 x 0 * nth 1 x 0.
Theorem C69_own_axis_refuted : forall (strain : bool) h0 h1 bc xv xp yv yp, 0 < h0 -> 0 < h1 ->
  (forall x, length x = 2%nat -> partial 0 (own_axis 0) x + partial 1 (own_axis 1) x = 0) /\
  (forall c x, (c < 2)%nat -> length x = 2%nat -> - (partial 0 (partial 0 (own_axis c)) x + partial 1 (partial 1 (own_axis c)) x) + partial c (fun x => 2 * nth 0 x 0) x = 0) /\
  (table_ok 2 2 bc -> stokes_matrix (if strain then strain_tensor_mult [h0; h1] else laplacian_mult [h0; h1]) [h0; h1] 2 (Some (map Some bc)) lid_dms xv xp = Ok (yv, yp) ->
   same_field (refined_size [3; 3]%Z [false; false]) 2 xv (nodal_velocity [h0; h1] own_axis) -> yp [0; 0]%Z 0%nat <> 0).
Proof.
  intros strain h0 h1 bc xv xp yv yp P0 P1.
  set (q := fun c i j : nat => if Nat.eqb c 0 then (if Nat.eqb i 0 && Nat.eqb j 0 then 1 else 0) else if Nat.eqb i 0 && Nat.eqb j 1 then -2 else 0).
  assert (EQ : forall c x, (c < 2)%nat -> length x = 2%nat -> own_axis c x = poly2 2 0 (fun _ => 0) (q c) x). { intros c x Hc _. unfold own_axis, poly2, q. cbn [Rsum]. destruct c as [|[|c]]; [| |lia]; cbn [Nat.eqb andb]; ring. }
  split; [|split].
  - intros x L. rewrite !(partial_ext 2 _ (own_axis _) (poly2 2 0 (fun _ => 0) (q _))) by (auto; intros; apply EQ; auto). rewrite !partial_poly2 by auto. unfold slope, q. cbn [Rsum Nat.eqb andb]. ring.
  - intros c x Hc L. rewrite (partial_ext 2 c (fun x => 2 * nth 0 x 0) (poly1 2 0 (fun i => if Nat.eqb i 0 then 2 else 0))) by (auto; intros; unfold poly1; cbn [Rsum Nat.eqb]; ring). rewrite partial_poly1 by auto.
    assert (S2 : forall k, (k < 2)%nat -> partial k (partial k (own_axis c)) x = 2 * q c k k). { intros k Hk. rewrite <- (second_poly2 2 0 (fun _ => 0) (q c) k x) by auto. apply (partial_ext 2 k); auto. intros y Ly. apply (partial_ext 2 k); auto. }
    rewrite !S2 by lia. unfold q. destruct c as [|[|c]]; [| |lia]; cbn [Nat.eqb andb]; ring.
  - intros HT E SX. assert (HN : nonempty_views (map fst lid_dms)) by (unfold lid_dms; vm_compute; repeat constructor). assert (HG : grid_ok [3; 3]%Z [false; false]) by (repeat split; auto; repeat constructor; lia).
    destruct (facts strain [h0; h1] [3; 3]%Z [false; false] bc lid_dms HG lid_layout HN HT xv xp) as (rv & rp & yv' & _ & E' & _ & _ & Q). unfold viscous in E'. change (length [3; 3]%Z) with 2%nat in E'. rewrite E in E'. injection E' as <- <-.
    assert (Hn : in_grid_box (nodes_box [3; 3]%Z) [0; 0]%Z) by (split; repeat constructor; lia).
    rewrite <- (inner_unit [3; 3]%Z 1 yp [0; 0]%Z 0 Hn ltac:(lia)), Q.
    assert (HE : enumerates (E0 [3; 3]%Z [false; false]) (cells_box [3; 3]%Z [false; false])) by (apply E0_enum; reflexivity). destruct HE as [ND IN].
    unfold div_form. rewrite (Lsum_at _ [0; 0]%Z _ ND).
    + assert (GV : forall kv d, (d < 2)%nat -> gv3 (refined_size [3; 3]%Z [false; false]) [false; false] xv [0; 0]%Z kv d = poly2 2 0 (fun _ => 0) (q d) (position [h0; h1] (digits 2 kv))).
      { intros kv d Hd. unfold gv3. rewrite SX; auto; [|apply gv3_node; [exact HG|split; repeat constructor; lia]]. unfold nodal_velocity. rewrite EQ; auto. }
      change (2 ^ length [3; 3]%Z)%nat with 4%nat. change (3 ^ length [3; 3]%Z)%nat with 9%nat. change (length [3; 3]%Z) with 2%nat.
      assert (K : forall kp, (kp < 4)%nat -> Rsum 9 (fun kv => Rsum 2 (fun d => gv [3; 3]%Z [false; false] (unit_field [0; 0]%Z 0) [0; 0]%Z kp 0 * getMatElemPressure [h0; h1] kp kv d * gv3 (refined_size [3; 3]%Z [false; false]) [false; false] xv [0; 0]%Z kv d))
        = (if Nat.eqb kp 0 then 1 else 0) * Rsum 9 (fun kv => Rsum 2 (fun d => getMatElemPressure [h0; h1] kp kv d * tay 2 0 (fun _ => 0) (vcurv [h0; h1] (q d)) (digits 2 kv)))).
      { intros kp Hkp. rewrite <- Rsum_scal. apply Rsum_ext. intros kv _. rewrite <- Rsum_scal. apply Rsum_ext. intros d Hd. rewrite GV by auto.
        replace (gv [3; 3]%Z [false; false] (unit_field [0; 0]%Z 0) [0; 0]%Z kp 0) with (if Nat.eqb kp 0 then 1 else 0) by (destruct kp as [|[|[|[|kp]]]]; [| | | |lia]; reflexivity).
        rewrite <- Rmult_assoc. f_equal. unfold poly2, tay, vcurv, position, digits. cbn [map seq zip_with nth Rsum]. ring. }
      rewrite (Rsum_single 4 0%nat) by (try lia; intros kp Hkp Nk; rewrite K by auto; rewrite (proj2 (Nat.eqb_neq kp 0) Nk); ring). rewrite K by lia. cbn [Nat.eqb].
      match goal with |- ?t <> 0 => assert (T : t = h0 * h0 * h1 / 6) end.
      { unfold vcurv, q. cbn [Nat.eqb]. stencil. cbv [andb]. cbn [Nat.eqb andb]. field. }
      rewrite T. assert (0 < h0 * h0 * h1) by (repeat apply Rmult_lt_0_compat; assumption). lra.
    + apply IN. split; repeat constructor; lia.
    + intros e He Ne. apply IN in He. destruct He as [H1 H2]. cbn [cells_box bottom_left upper_right map zip_with] in H1, H2. inversion H1 as [|? i ? e' I1 H1']; subst. inversion H1' as [|? j ? e'' J1 H1'']; subst. inversion H1''; subst. inversion H2 as [|? ? ? ? I2 H2']; subst. inversion H2' as [|? ? ? ? J2 _]; subst.
      rewrite (Rsum_ext _ _ (fun _ => 0)); [apply Rsum_zero|]. intros kp Hkp. rewrite (Rsum_ext _ _ (fun _ => 0)); [apply Rsum_zero|]. intros kv _. rewrite (Rsum_ext _ _ (fun _ => 0)); [apply Rsum_zero|]. intros d _.
      replace (gv [3; 3]%Z [false; false] (unit_field [0; 0]%Z 0) [i; j]%Z kp 0) with 0; [ring|]. unfold gv, unit_field. destruct (same_node_spec [0; 0]%Z (wrap [3; 3]%Z [false; false] (corner [i; j]%Z kp))) as [C|]; [|reflexivity].
      exfalso. unfold corner in C. cbn [length seq zip_with wrap] in C. injection C as C0 C1. apply Ne. f_equal; [lia|f_equal; lia].
Qed.
