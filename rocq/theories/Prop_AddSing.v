(** C51: what [add_singularity_in_fluid] adds to the right-hand side. *)
From Coq Require Import Permutation.
From Coquelicot Require Import Coquelicot.
From Verif Require Import Base M_Geometry S_Geometry P_Geometry M_Particle S_Particle P_Particle M_Quadrature S_Fem M_MatElem P_MatElem P_Energy M_Mesh M_Operator S_Operator P_Mesh P_Operator P_Operator3 P_Global M_Bc M_Shapes S_Shapes P_Shapes M_ParticleOp S_ParticleOp P_ParticleOp P_Forces Prop_ParticleOp M_Vec M_Truncation M_SingNormal M_SingTang M_SingWrap M_Singularity Prop_Singularity M_AddSing S_AddSing P_AddSing.
Open Scope R_scope.

(** The points kept: in the fluid (outside both particles) and, in 2D, at most the cut-off distance away from the line of centres. *)
Theorem C51_points_kept : forall D s p1 p2 x, kept D s p1 p2 x = true <->
  sp_contains p1 x = false /\ sp_contains p2 x = false /\ (D = 2%nat -> Rabs (nth 1 (get_pos_in_part_ref s x) 0) <= s_cutoff s).
Proof.
  intros D s p1 p2 x. unfold kept. rewrite !andb_true_iff, !negb_true_iff. destruct (Nat.eqb_spec D 2) as [->|Hne].
  - destruct (Rleb_spec (Rabs (nth 1 (get_pos_in_part_ref s x) 0)) (s_cutoff s)); (split; [intros [[A B] C]; repeat split; auto; try discriminate; intros; lra|intros (A & B & C); specialize (C eq_refl); repeat split; auto; lra]).
  - intuition congruence.
Qed.

(** The 10^D points of a cell have weights that sum to the volume of the cell. *)
Lemma sub_count D S : (D = 2 \/ D = 3)%nat -> enumerates S (sub_box D sing_scale) -> INR (length S) = 10 ^ D.
Proof.
  intros H23 HS. assert (HB : has_dim D (sub_box D sing_scale)) by (split; apply repeat_length). rewrite (Permutation_length (enum_perm _ _ _ HS (grid_pts_enum D _ HB))).
  assert (L : length (grid_pts (sub_box D sing_scale)) = (10 ^ D)%nat) by (destruct H23 as [->| ->]; vm_compute; reflexivity). rewrite L, pow_INR. f_equal. simpl. lra.
Qed.
Theorem C51_weights : forall D h S, (D = 2 \/ D = 3)%nat -> enumerates S (sub_box D sing_scale) -> Lsum (fun _ => cell_volume h / 10 ^ D) S = cell_volume h.
Proof.
  intros D h S H23 HS. rewrite Lsum_const, (sub_count D) by assumption. field. apply pow_nonzero. lra.
Qed.

(** Sum over the couples, the cells of the contact box and the points kept in the cell of [g s cell offset point]. *)
Definition singular_sum (D : nat) (h : vec) (parts : list spart) (E S : list (list Z)) (g : sing -> list Z -> vec -> vec -> R) : R :=
  Lsum (fun p : spart * spart => let s := sing_of D h (fst p) (snd p) in
    when (s_is s) (Lsum (fun e => when (in_box (get_box D s h) e) (Lsum (fun sub => let x := sub_offset h sing_scale sub in
      when (kept D s (fst p) (snd p) (position_in h e x)) (g s e x (position_in h e x))) S)) E)) (couples parts).

Lemma Lsum_opp {A} (f : A -> R) l : - Lsum f l = Lsum (fun a => - f a) l.
Proof. induction l as [|a l IH]; [unfold Lsum; cbn; ring|]. rewrite !Lsum_cons, <- IH. ring. Qed.
Section Run.
  Variables (D : nat) (m : list Z) (per : list bool) (h : vec) (dms : list dmda) (parts : list spart) (rhs : field).
  Hypothesis HG : grid_ok m per.
  Hypothesis HD : distributes m per D dms.
  Hypothesis HDm : length m = D.
  Hypothesis HS : steps_ok h m.
  Hypothesis Hne : parts <> [].
  Let Cst (p1 p2 : spart) : list Z -> list contrib := let s := sing_of D h p1 p2 in
    cellc D sing_scale (kept D s p1 p2) h (stc D sing_scale (get_grad_u_sing s) (get_p_sing s) h).
  Let H23 : (D = 2 \/ D = 3)%nat. Proof. rewrite <- HDm. apply HG. Qed.
  Let Hh : length h = D. Proof. rewrite <- HDm. apply HS. Qed.
  Lemma run_weak : exists rhs', add_singularity_in_fluid D h parts dms rhs = Ok rhs' /\
    forall v N E S, enumerates N (nodes_box m) -> enumerates E (cells_box m per) -> enumerates S (sub_box D sing_scale) ->
    inner N D rhs' v = inner N D rhs v - singular_sum D h parts E S (fun s e x X =>
      cell_volume h / 10 ^ D * pseudo_stress D (get_grad_u_sing s X) (get_p_sing s X) (dfield_at m per h v e x)).
  Proof.
    set (CS := fun dm => flat_map (fun p : spart * spart => pairc D h Cst dm (fst p) (snd p)) (couples parts)).
    destruct (spread_weak D m per dms HG HD (fun dm => over_pairs D h parts dm (fun s p1 p2 b y => computesingularST D sing_scale (kept D s p1 p2) (get_grad_u_sing s) (get_p_sing s) b h y) (fill0 dm)) CS rhs) as (ys & Ey & _ & W).
    { intros dm Hin. apply (over_pairs_runs D m per h dms parts HG HD HDm Cst dm); [exact Hin|exact Hne|]. intros p1 p2 b y Hb. apply computesingularST_runs, Hb. }
    { intros dm ct Hin Hct. destruct (pairs_cells D m per h dms parts HG HD HDm Cst dm ct Hin Hct) as (p1 & p2 & e & He & H). exists e. split; [exact He|].
      unfold Cst, cellc in H. apply in_flat_map in H as [sub [Hs H]]. destruct (kept _ _ _ _ _); [|destruct H]. apply in_sub_len in Hs.
      rewrite loc_offset in H by lia. eapply stc_near; [exact H23|exact Hh| | |exact H].
      - rewrite sub_offset_len; lia.
      - destruct (bounds_dim D m per dms HG HD HDm dm Hin) as [Hb _]. destruct He as [He _]. apply Forall2_len in He. lia. }
    eexists. split. { unfold add_singularity_in_fluid. rewrite Ey. reflexivity. }
    intros v N E S HN HE HSS. rewrite (W v N HN). unfold Rminus. f_equal. unfold CS. rewrite (pairs_sum D m per h dms parts HG HD HDm Cst (work m per v) E HE).
    unfold singular_sum. rewrite Lsum_opp. apply Lsum_ext. intros [p1 p2] _. cbn [fst snd]. cbv zeta. set (s := sing_of D h p1 p2).
    unfold when at 1 3. destruct (s_is s); [|ring]. rewrite Lsum_opp. apply Lsum_ext. intros e He. unfold when at 1 2. destruct (in_box (get_box D s h) e); [|ring].
    assert (Le : length e = D). { apply HE in He as [He _]. apply Forall2_len in He. unfold cells_box in He. cbn [bottom_left] in He. rewrite map_length in He. lia. }
    unfold Cst, cellc. rewrite Lsum_flat_map.
    assert (HB : has_dim D (sub_box D sing_scale)) by (split; apply repeat_length).
    rewrite (Lsum_perm _ _ _ (enum_perm _ _ _ (grid_pts_enum D _ HB) HSS)). rewrite Lsum_opp. apply Lsum_ext. intros sub Hsub.
    assert (Ls : length sub = D). { apply HSS in Hsub as [Hsub _]. apply Forall2_len in Hsub. cbn [sub_box bottom_left] in Hsub. rewrite repeat_length in Hsub. lia. }
    rewrite pnt_position, loc_offset by lia. fold s. unfold when. destruct (kept D s p1 p2 _); [|unfold Lsum; cbn; ring].
    rewrite (stc_work D m per) by (assumption || (rewrite sub_offset_len; lia) || apply HS).
    replace (IZR (sing_scale ^ Z.of_nat D)) with (10 ^ D) by (unfold sing_scale; rewrite pow_IZR; reflexivity). ring.
  Qed.
End Run.

(** The call succeeds and subtracts, tested against every velocity field v, the midpoint-free (lowest corner) quadrature on 10^D sub-cells of
    (grad u_s - p_s I) : grad v over the fluid points kept in the box of each couple in contact; whatever the distribution. *)
Theorem C51_weak_form : forall D m per h dms parts rhs, grid_ok m per -> distributes m per D dms -> length m = D -> steps_ok h m -> parts <> [] ->
  exists rhs', add_singularity_in_fluid D h parts dms rhs = Ok rhs' /\
  forall v N E S, enumerates N (nodes_box m) -> enumerates E (cells_box m per) -> enumerates S (sub_box D sing_scale) ->
    inner N D rhs' v = inner N D rhs v - singular_sum D h parts E S (fun s e x X =>
      cell_volume h / 10 ^ D * pseudo_stress D (get_grad_u_sing s X) (get_p_sing s X) (dfield_at m per h v e x)).
Proof. intros. eapply run_weak; eassumption. Qed.
Print Assumptions C51_weak_form.

(** Two distributions of the same grid get the same right-hand side. *)
Theorem C51_decomposition : forall D m per h dms dms' parts rhs, grid_ok m per -> distributes m per D dms -> distributes m per D dms' -> length m = D -> steps_ok h m -> parts <> [] ->
  exists r r', add_singularity_in_fluid D h parts dms rhs = Ok r /\ add_singularity_in_fluid D h parts dms' rhs = Ok r' /\ same_field m D r r'.
Proof.
  intros D m per h dms dms' parts rhs HG HD HD' Hm HS Hne.
  destruct (run_weak D m per h dms parts rhs HG HD Hm HS Hne) as (r & E1 & W1). destruct (run_weak D m per h dms' parts rhs HG HD' Hm HS Hne) as (r' & E2 & W2).
  exists r, r'. split; [exact E1|]. split; [exact E2|]. apply same_field_weak. intros v.
  assert (HB : has_dim D (sub_box D sing_scale)) by (split; apply repeat_length).
  rewrite (W1 v _ _ _ (N0_enum m) (E0_enum m per (proj1 (proj2 HG))) (grid_pts_enum D _ HB)), (W2 v _ _ _ (N0_enum m) (E0_enum m per (proj1 (proj2 HG))) (grid_pts_enum D _ HB)). reflexivity.
Qed.

(** The total force added is zero in every direction. *)
Theorem C51_no_total_force : forall D m per h dms parts rhs rhs' N d, grid_ok m per -> distributes m per D dms -> length m = D -> steps_ok h m -> parts <> [] -> (d < D)%nat ->
  enumerates N (nodes_box m) -> add_singularity_in_fluid D h parts dms rhs = Ok rhs' -> Lsum (fun n => rhs' n d) N = Lsum (fun n => rhs n d) N.
Proof.
  intros D m per h dms parts rhs rhs' N d HG HD Hm HS Hne Hd HN HR. destruct (run_weak D m per h dms parts rhs HG HD Hm HS Hne) as (r & E1 & W1). rewrite HR in E1. injection E1 as <-.
  assert (EI : forall f : field, inner N D f (unit_field d) = Lsum (fun n => f n d) N).
  { intros f. unfold inner. apply Lsum_ext. intros n _. rewrite <- (Rsum_pick D d (fun c => f n c) Hd). apply Rsum_ext. intros c _. unfold unit_field. rewrite (Nat.eqb_sym c d). destruct (Nat.eqb d c); ring. }
  assert (HB : has_dim D (sub_box D sing_scale)) by (split; apply repeat_length).
  pose proof (W1 (unit_field d) N _ _ HN (E0_enum m per (proj1 (proj2 HG))) (grid_pts_enum D _ HB)) as W. rewrite !EI in W. rewrite W.
  assert (Z0 : forall E S (c : sing -> vec -> R), (forall sub, In sub S -> length sub = D) -> singular_sum D h parts E S (fun s e x X => c s X * pseudo_stress D (get_grad_u_sing s X) (get_p_sing s X) (dfield_at m per h (unit_field d) e x)) = 0).
  { intros E S c HSl. unfold singular_sum. apply Lsum_all_zero. intros p _. cbv zeta. unfold when at 1. destruct (s_is _); [|reflexivity]. apply Lsum_all_zero. intros e _. unfold when at 1. destruct (in_box _ e); [|reflexivity].
    apply Lsum_all_zero. intros sub Hsub. unfold when. destruct (kept _ _ _ _ _); [|reflexivity].
    assert (DZ : forall a b, (b < D)%nat -> dfield_at m per h (unit_field d) e (sub_offset h sing_scale sub) a b = 0).
    { intros a b Hb. unfold dfield_at. transitivity (Derive (fun _ : R => if Nat.eqb a d then 1 else 0) (co b (sub_offset h sing_scale sub))); [|apply Derive_const]. apply Derive_ext. intros t.
      unfold unit_field. apply (field_at_const m per h e (set_nth b t (sub_offset h sing_scale sub)) (fun a => if Nat.eqb a d then 1 else 0) a); [apply HG|apply HS|].
      rewrite length_set_nth, sub_offset_len; [apply HS|]. rewrite (HSl sub Hsub). destruct HS as [-> _]. lia. }
    unfold pseudo_stress. rewrite (Rsum_ext D _ (fun _ => 0)); [rewrite Rsum_zero; ring|]. intros a Ha. rewrite (Rsum_ext D _ (fun _ => 0)); [apply Rsum_zero|]. intros b Hb. rewrite DZ by exact Hb. ring. }
  rewrite (Z0 _ _ (fun _ _ => cell_volume h / 10 ^ D)); [ring|]. intros sub Hs. apply (in_sub_len D sing_scale), Hs.
Qed.
Print Assumptions C51_no_total_force.

(** Without any particle the unsigned [size() - 1] wraps around and the loop reads the first particle of an empty vector. *)
Theorem C51_no_particle_refuted : forall D h dm dms rhs, add_singularity_in_fluid D h [] (dm :: dms) rhs = UB.
Proof. reflexivity. Qed.
(** With a single particle nothing is added. *)
Theorem C51_single_particle : forall D m per h dms p rhs, grid_ok m per -> distributes m per D dms -> length m = D -> steps_ok h m ->
  exists rhs', add_singularity_in_fluid D h [p] dms rhs = Ok rhs' /\ same_field m D rhs' rhs.
Proof.
  intros D m per h dms p rhs HG HD Hm HS. destruct (run_weak D m per h dms [p] rhs HG HD Hm HS ltac:(discriminate)) as (r & E1 & W1). exists r. split; [exact E1|]. apply same_field_weak. intros v.
  assert (HB : has_dim D (sub_box D sing_scale)) by (split; apply repeat_length).
  rewrite (W1 v _ _ _ (N0_enum m) (E0_enum m per (proj1 (proj2 HG))) (grid_pts_enum D _ HB)). unfold singular_sum, couples. unfold Lsum at 2. cbn. ring.
Qed.
