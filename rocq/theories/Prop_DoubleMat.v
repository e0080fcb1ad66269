(** C78: counting surface points and sub-grid points of the particles, in doubles. *)
From Coq Require Import Permutation FunctionalExtensionality.
From Flocq Require Import Core BinarySingleNaN.
From Verif Require Import Base M_Geometry S_Geometry P_Geometry M_Particle S_Particle P_Particle.
From Verif Require Import M_Double S_Double P_Double P_Double6 Prop_Double.
From Verif Require Import M_DoubleMat P_DoubleMat.
Open Scope R_scope.
(** Particles whose box is defined and whose surface points have coordinates in range. *)
Definition usable (D : nat) (h : list double) (dpart : double) (p : dparticle) : Prop :=
  (exists pb, dp_bbox p h = Ok pb /\ has_dim D pb) /\
  Forall (fun q => length q = D /\ forall a, (a < D)%nat -> surface_coordinate (nth a h dzero) (nth a q dzero)) (dp_surface p dpart).
Theorem C78_counts_independent_of_partition : forall D parts bs B h dpart scale,
  (D = 2 \/ D = 3)%nat -> length h = D -> tiling bs B -> has_dim D B -> Forall (has_dim D) bs -> (forall p, In p parts -> usable D h dpart p) ->
  exists locals whole, dset_materials_all D parts bs h dpart scale = Ok locals /\
    dset_materials_local D parts B h dpart scale (repeat dmat0 (length parts)) = Ok whole /\
    forall i, (i < length parts)%nat ->
      dallreduce dm_nb locals i = dm_nb (nth i (snd whole) dmat0) /\ dallreduce dm_num locals i = dm_num (nth i (snd whole) dmat0) /\
      Permutation (concat (map (fun r => dm_surf (nth i (snd r) dmat0)) locals)) (dm_surf (nth i (snd whole) dmat0)) /\
      Permutation (concat (map (fun r => dm_radial (nth i (snd r) dmat0)) locals)) (dm_radial (nth i (snd whole) dmat0)).
Proof.
  intros D parts bs B h dpart scale HD Hh HT HB Hbs HU.
  assert (OK : forall b, has_dim D b -> forall p, In p parts -> exists nm, dset_material D p b h dpart scale dmat0 = Ok nm).
  { intros b Hb p Hp. destruct (HU p Hp) as ((pb & E & Hpb) & HS). destruct (dset_material_ok D p h dpart scale pb HD Hh E Hpb HS b Hb) as [n En]. eexists; exact En. }
  destruct (dset_materials_all_ok D parts bs h dpart scale) as (locals & El & Fl). { intros b Hb. apply OK. rewrite Forall_forall in Hbs. apply Hbs, Hb. }
  destruct (dset_materials_local_ok D parts B h dpart scale (OK B HB)) as (whole & Ew & _ & Nw). exists locals, whole. split; [exact El|]. split; [exact Ew|].
  intros i Hi. set (p := nth i parts (mkdparticle (fun _ => false) (fun _ => UB) (fun _ => []) [])). assert (Hp : In p parts) by (apply nth_In, Hi).
  destruct (HU p Hp) as ((pb & E & Hpb) & HS). pose proof (dset_material_ok D p h dpart scale pb HD Hh E Hpb HS) as SM.
  assert (LB : forall b (r : nat * list dmat), has_dim D b -> (forall i d, (i < length parts)%nat -> exists n, dset_material D (nth i parts d) b h dpart scale dmat0 = Ok (n, nth i (snd r) dmat0)) ->
    nth i (snd r) dmat0 = mkdmat (map (stored h) (kept p h dpart pb b)) (map (fun q => zip_with dminus q (dp_center p)) (kept p h dpart pb b)) (Z.of_nat (length (kept p h dpart pb b)))
        (bsum (fun q => if inb b q then dsub_count D p h scale q else 0%Z) (grid_pts pb))).
  { intros b r Hb K. destruct (K i (mkdparticle (fun _ => false) (fun _ => UB) (fun _ => []) []) Hi) as [n En]. fold p in En. destruct (SM b Hb) as [n' En']. rewrite En' in En. injection En as _ <-. reflexivity. }
  assert (HbI : forall b, In b bs -> has_dim D b) by (rewrite Forall_forall in Hbs; exact Hbs).
  rewrite (LB B whole HB Nw). cbn [dm_nb dm_num dm_surf dm_radial]. pose proof (kept_perm D p h dpart pb bs B Hh HS HT HB Hbs) as KP.
  split; [|split; [|split]].
  - rewrite dallreduce_bsum. rewrite (Forall2_bsum _ (fun b => Z.of_nat (length (kept p h dpart pb b))) _ _ _ Fl); [|intros b r Hb K; rewrite (LB b r (HbI b Hb) K); reflexivity]. rewrite length_concat_bsum. rewrite (Permutation_length KP). reflexivity.
  - rewrite dallreduce_bsum. rewrite (Forall2_bsum _ (fun b => bsum (fun q => if inb b q then dsub_count D p h scale q else 0%Z) (grid_pts pb)) _ _ _ Fl); [|intros b r Hb K; rewrite (LB b r (HbI b Hb) K); reflexivity]. apply (sum_over_tiling' D (dsub_count D p h scale) (fun q => q) bs B); auto. apply pbox_len'. exact Hpb.
  - rewrite (Forall2_concat _ (fun b => map (stored h) (kept p h dpart pb b)) _ _ _ Fl); [|intros b r Hb K; rewrite (LB b r (HbI b Hb) K); reflexivity]. rewrite concat_map_map. apply Permutation_map, KP.
  - rewrite (Forall2_concat _ (fun b => map (fun q => zip_with dminus q (dp_center p)) (kept p h dpart pb b)) _ _ _ Fl); [|intros b r Hb K; rewrite (LB b r (HbI b Hb) K); reflexivity]. rewrite concat_map_map. apply Permutation_map, KP.
Qed.
Print Assumptions C78_counts_independent_of_partition.
(** what is counted: the pairs (cell, sub-cell) whose tested point is inside the particle *)
Theorem C78_number_of_subgrid_points : forall D p pb b h dpart scale old,
  (D = 2 \/ D = 3)%nat -> length h = D -> has_dim D b -> dp_bbox p h = Ok pb -> usable D h dpart p -> has_dim D pb ->
  exists n m L, dset_material D p b h dpart scale old = Ok (n, m) /\ dm_num m = (dm_num old + Z.of_nat (length L))%Z /\ NoDup L /\
    forall q s, In (q, s) L <-> in_grid_box b q /\ in_grid_box pb q /\ in_grid_box (mkbox (repeat 0%Z D) (repeat scale D)) s /\ dp_contains p (dsub_point h (dsub_step h scale) q s) = true.
Proof.
  intros D p pb b h dpart scale old HD Hh Hb E (_ & HS) Hpb. destruct (dset_material_num D p h dpart scale pb HD Hh E Hpb HS old b Hb) as (n & m & En & Em). exists n, m, (flat_map (fun q => map (pair q) (filter (fun s => dp_contains p (dsub_point h (dsub_step h scale) q s)) (grid_pts (mkbox (repeat 0%Z D) (repeat scale D))))) (filter (inb b) (grid_pts pb))).
  split; [exact En|]. rewrite Em. assert (HB : has_dim D (mkbox (repeat 0%Z D) (repeat scale D))) by (split; simpl; apply repeat_length). destruct (grid_pts_spec D _ HB) as [G1 [G2 _]]. destruct (grid_pts_spec D _ Hpb) as [G3 [G4 _]].
  split; [|split].
  - f_equal. rewrite flat_map_filter_length, bsum_filter. reflexivity.
  - apply NoDup_pairs; [apply NoDup_filter, G4|exact G2].
  - intros q s. rewrite in_flat_map. split.
    + intros (q' & Hq' & H). apply in_map_iff in H as (s' & Es & Hs'). injection Es as -> ->. apply filter_In in Hq' as [Hq' Iq']. apply filter_In in Hs' as [Hs' Is']. apply G3 in Hq'. apply G1 in Hs'. repeat split; try (apply Hq' || apply Hs'); [| |exact Is']; (eapply (point_inside_grid D b); [exact Hb| |exact Iq']); rewrite (in_grid_box_len _ _ Hq'); apply Hpb.
    + intros (Q1 & Q2 & Q3 & Q4). exists q. split; [apply filter_In; split; [apply G3, Q2|]; apply (point_inside_grid D b); [exact Hb|rewrite (in_grid_box_len _ _ Q1); apply Hb|exact Q1]|]. apply in_map. apply filter_In. split; [apply G1, Q3|exact Q4].
Qed.
Print Assumptions C78_number_of_subgrid_points.
(** the tested point of a sub-cell: within 4 roundings of its true position *)
Theorem C78_subgrid_point_error : forall h scale q s a, length q = length h -> length s = length h -> (a < length h)%nat -> (1 <= scale <= 2 ^ 31)%Z ->
  let ha := nth a h dzero in let i := nth a q 0%Z in let k := nth a s 0%Z in
  finite ha -> / 2 ^ 900 <= dval ha <= 2 ^ 900 -> (0 <= i <= 2 ^ 31)%Z -> (0 <= k < scale)%Z ->
  let x := nth a (dsub_point h (dsub_step h scale) q s) dzero in
  finite x /\ Rabs (dval x - (IZR i + IZR k / IZR scale) * dval ha) <= 4 * u64 * ((IZR i + IZR k / IZR scale) * dval ha).
Proof.
  intros h scale q s a Lq Ls Ha Hsc ha i k Fh Hh Hi Hk x.
  assert (E : x = dplus (dmult (dint i) ha) (dmult (dint k) (ddiv ha (dint scale)))).
  { unfold x, i, k, ha, dsub_point, dsub_step. clear - Lq Ls Ha. revert h s a Lq Ls Ha. induction q as [|i q IH]; intros [|hh h] [|k s] a Lq Ls Ha; simpl in *; try lia. destruct a as [|a]; [reflexivity|]. apply IH; lia. }
  rewrite E. apply sub_coordinate; assumption.
Qed.
Print Assumptions C78_subgrid_point_error.
(** The number of grid nodes inside the particle, summed over the processes, does depend on the partition: for the disc of centre (1/2,1/2) and radius 1/2 on the grid of step 0.1 (C74), one process and the two processes that share the nodes at x = 1 do not find the same number. *)
Definition disc_particle (pow : double -> double -> double) : dparticle :=
  mkdparticle (dcircle_contains pow (dhalf, dhalf) dhalf) (fun h => dbounding_box2 (dhalf, dhalf) (dhalf, dhalf) (nth 0 h dzero, nth 1 h dzero)) (fun _ => []) [dhalf; dhalf].
Theorem C78_fluid_points_depend_on_partition_refuted : forall pow : double -> double -> double, (forall x, pow x (dint 2) = dmult x x) ->
  exists locals whole, let bs := [mkbox [0; 0]%Z [10; 20]%Z; mkbox [10; 0]%Z [20; 20]%Z] in let B := mkbox [0; 0]%Z [20; 20]%Z in
    tiling bs B /\ dset_materials_all 2 [disc_particle pow] bs [d01; d01] dhalf 2 = Ok locals /\
    dset_materials_local 2 [disc_particle pow] B [d01; d01] dhalf 2 [dmat0] = Ok whole /\
    fst whole = 75%nat /\ map fst locals = [74; 0]%nat.
Proof.
  intros pow HP. set (sq := fun x _ : double => dmult x x). assert (E : disc_particle pow = disc_particle sq).
  { unfold disc_particle. f_equal. apply functional_extensionality. intros p. unfold dcircle_contains, dcontains2, dimplicit2. cbn [fst snd]. replace (ddiv (dint 2) (ddiv (dint 2) (dint 2))) with (dint 2) by dcomp. rewrite !HP. reflexivity. }
  rewrite E. clear E HP. exists [(74%nat, [mkdmat [] [] 0 305]); (0%nat, [mkdmat [] [] 0 0])], (75%nat, [mkdmat [] [] 0 305]). cbv zeta. split.
  - assert (H2 : forall a0 a1 c0 c1 p, in_grid_box (mkbox [a0; a1] [c0; c1]) p <-> exists x y, p = [x; y] /\ (a0 <= x < c0)%Z /\ (a1 <= y < c1)%Z).
    { intros. unfold in_grid_box; simpl. split.
      - intros [A B]. inversion A as [|? x ? l ? A']; subst. inversion A' as [|? y ? l' ? A'']; subst. inversion A''; subst.
        inversion B as [|? ? ? ? ? B']; subst. inversion B'; subst. exists x, y. split; [reflexivity|lia].
      - intros [x [y [-> [? ?]]]]. split; repeat (apply Forall2_cons; [lia|]); apply Forall2_nil. }
    intros p. split.
    + rewrite H2. intros [x [y [-> [Hx Hy]]]]. destruct (Z_lt_dec x 10) as [Hx2|Hx2].
      * exists 0%nat. split; [simpl; lia|]. split; [apply H2; exists x, y; split; [reflexivity|lia]|].
        intros [|[|j]] Hj H; simpl in *; try lia. apply H2 in H as [x' [y' [E' ?]]]. inversion E'; subst; lia.
      * exists 1%nat. split; [simpl; lia|]. split; [apply H2; exists x, y; split; [reflexivity|lia]|].
        intros [|[|j]] Hj H; simpl in *; try lia. apply H2 in H as [x' [y' [E' ?]]]. inversion E'; subst; lia.
    + intros [|[|k]] Hk H; simpl in *; try lia; apply H2 in H as [x [y [-> ?]]]; apply H2; exists x, y; (split; [reflexivity|lia]).
  - unfold sq. split; [|split; [|split; reflexivity]].
    + exact (eq_refl (Ok [(74%nat, [mkdmat [] [] 0 305]); (0%nat, [mkdmat [] [] 0 0])]) <: dset_materials_all 2 [disc_particle (fun x _ : double => dmult x x)] [mkbox [0; 0]%Z [10; 20]%Z; mkbox [10; 0]%Z [20; 20]%Z] [d01; d01] dhalf 2 = Ok [(74%nat, [mkdmat [] [] 0 305]); (0%nat, [mkdmat [] [] 0 0])]).
    + exact (eq_refl (Ok (75%nat, [mkdmat [] [] 0 305])) <: dset_materials_local 2 [disc_particle (fun x _ : double => dmult x x)] (mkbox [0; 0]%Z [20; 20]%Z) [d01; d01] dhalf 2 [dmat0] = Ok (75%nat, [mkdmat [] [] 0 305])).
Qed.
Print Assumptions C78_fluid_points_depend_on_partition_refuted.
(** a concrete case of the hypotheses: the same disc with the four surface points it has on its axes *)
Example C78_example : usable 2 [d01; d01] dhalf (mkdparticle (fun _ => true) (fun h => dbounding_box2 (dhalf, dhalf) (dhalf, dhalf) (nth 0 h dzero, nth 1 h dzero)) (fun _ => [[dint 1; dhalf]; [dhalf; dint 1]; [dzero; dhalf]; [dhalf; dzero]]) [dhalf; dhalf]).
Proof.
  split; [eexists; split; [vm_compute; reflexivity|split; reflexivity]|]. assert (L1 : / 2 ^ 1022 <= / 16). { apply Rinv_le_contravar; [lra|]. apply Rle_trans with (2 ^ 4); [lra|apply P_Double4.pow_le_1; lia]. } assert (L2 : 1 <= 2 ^ 900) by (apply pow_R1_Rle; lra).
  assert (E2 : dval d01 = IZR 7205759403792794 * / 2 ^ 56). { unfold dval. replace (B2R d01) with (F2R (Float radix2 7205759403792794 (-56))) by (vm_compute; reflexivity). unfold F2R; cbn [Fnum Fexp]. change (-56)%Z with (- Z.of_nat 56)%Z. rewrite pow2n. reflexivity. }
  destruct (dint_ok 1 ltac:(lia)) as [F1 V1]. destruct (dint_ok 0 ltac:(lia)) as [F0 V0]. destruct P_Double5.dhalf_ok as [Fh Vh].
  assert (S : forall x, finite x -> 0 <= dval x <= 1 -> surface_coordinate d01 x). { intros x Fx Hx. unfold surface_coordinate. rewrite E2. split; [reflexivity|]. split; [exact Fx|]. lra. }
  assert (A1 : surface_coordinate d01 (dint 1)) by (apply S; [exact F1|lra]). assert (A0 : surface_coordinate d01 dzero) by (apply S; [exact F0|unfold dzero; lra]). assert (Ah : surface_coordinate d01 dhalf) by (apply S; [exact Fh|lra]).
  cbn [dp_surface]. repeat (apply Forall_cons; [split; [reflexivity|intros [|[|a]] Ha; [assumption|assumption|lia]]|]). apply Forall_nil.
Qed.
Close Scope R_scope.
