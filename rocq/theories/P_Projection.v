From Coquelicot Require Import Coquelicot.
From Verif Require Import Base M_Geometry S_Geometry P_Geometry M_Shapes M_Particle S_Particle P_Particle M_Quadrature S_Fem M_MatElem P_Energy M_Mesh M_Operator S_Operator P_Mesh P_Operator M_Bc S_Bc P_Bc M_ParticleOp S_ParticleOp P_ParticleOp P_Forces P_Forces2 P_Problem Prop_Problem.
From Verif Require Import S_Projection.
From Coq Require Import Permutation.
Open Scope R_scope.

Lemma NoDup_flat_split {A B} (f : A -> list B) l : (forall a, In a l -> NoDup (f a)) -> (forall l1 a l2 b x, l = l1 ++ a :: l2 -> In b l2 -> In x (f a) -> In x (f b) -> False) -> NoDup (flat_map f l).
Proof.
  induction l as [|a l IH]; intros H K; [constructor|]. cbn [flat_map]. apply NoDup_app_intro; [apply H; left; reflexivity| |].
  - apply IH; [intros; apply H; right; assumption|]. intros l1 a' l2 b x E. apply (K (a :: l1) a' l2 b x). rewrite E. reflexivity.
  - intros x Hx Hx'. apply in_flat_map in Hx' as (b & Hb & Hx'). apply (K [] a l b x eq_refl Hb Hx Hx').
Qed.
Lemma Forall2_weaken {A B} (P Q : A -> B -> Prop) l l' : Forall2 P l l' -> (forall a b, P a b -> Q a b) -> Forall2 Q l l'.
Proof. intros H K. induction H; constructor; auto. Qed.
Lemma fold_ok {A S} (f : A -> S -> outcome S) (I : list A -> S -> Prop) l : forall l0 s, I l0 s ->
  (forall l1 a s, In a l -> I l1 s -> exists s', f a s = Ok s' /\ I (l1 ++ [a]) s') ->
  exists s', fold_left (fun o a => bind o (f a)) l (Ok s) = Ok s' /\ I (l0 ++ l) s'.
Proof.
  induction l as [|a l IH]; intros l0 s H K; [exists s; rewrite app_nil_r; split; [reflexivity|exact H]|]. cbn [fold_left bind].
  destruct (K l0 a s (or_introl eq_refl) H) as (s1 & -> & H1). destruct (IH (l0 ++ [a]) s1 H1) as (s2 & E & H2); [intros; apply K; [right|]; assumption|].
  exists s2. split; [exact E|]. rewrite <- app_assoc in H2. exact H2.
Qed.
Lemma sub_offset_eq D h scale s : (D = 2 \/ D = 3)%nat -> length h = D -> length s = D -> pos_times (pos_of_int s) (map (fun x => x / IZR scale) h) = sub_offset h scale s.
Proof.
  intros HD Hh Hs. unfold pos_times, pos_mul_assign, pos_of_int, sub_offset. destruct HD; subst D.
  - destruct h as [|a [|b [|]]]; try discriminate. destruct s as [|x [|y [|]]]; try discriminate. cbn [map zip_with length seq nth co]. unfold co. cbn [nth]. unfold Rdiv. repeat (apply f_equal2; [ring|]). reflexivity.
  - destruct h as [|a [|b [|c [|]]]]; try discriminate. destruct s as [|x [|y [|t [|]]]]; try discriminate. cbn [map zip_with length seq nth co]. unfold co. cbn [nth]. unfold Rdiv. repeat (apply f_equal2; [ring|]). reflexivity.
Qed.
Lemma sub_point_eq D h scale q s : (D = 2 \/ D = 3)%nat -> length h = D -> length q = D -> length s = D ->
  pos_plus (pos_times (pos_of_int q) h) (pos_times (pos_of_int s) (map (fun x => x / IZR scale) h)) = sub_point h scale q s.
Proof.
  intros HD Hh Hq Hs. unfold pos_plus, pos_add_assign, pos_times, pos_mul_assign, pos_of_int, sub_point. destruct HD; subst D.
  - destruct h as [|a [|b [|]]]; try discriminate. destruct s as [|x [|y [|]]]; try discriminate. destruct q as [|u [|v [|]]]; try discriminate. cbn [map zip_with length seq nth co]. unfold co. cbn [nth]. unfold Rdiv. repeat (apply f_equal2; [ring|]). reflexivity.
  - destruct h as [|a [|b [|c [|]]]]; try discriminate. destruct s as [|x [|y [|t [|]]]]; try discriminate. destruct q as [|u [|v [|w [|]]]]; try discriminate. cbn [map zip_with length seq nth co]. unfold co. cbn [nth]. unfold Rdiv. repeat (apply f_equal2; [ring|]). reflexivity.
Qed.
Lemma sub_point_len h scale q s : length (sub_point h scale q s) = length h.
Proof. unfold sub_point. rewrite map_length, seq_length. reflexivity. Qed.
Lemma sub_offset_len h scale s : length (sub_offset h scale s) = length h.
Proof. unfold sub_offset. rewrite map_length, seq_length. reflexivity. Qed.
Lemma cross_vv_len D r u : (D = 2 \/ D = 3)%nat -> length r = D -> length u = D -> length (cross_vv r u) = spin_size D.
Proof.
  intros [-> | ->] Hr Hu.
  - destruct r as [|? [|? [|]]]; try discriminate. destruct u as [|? [|? [|]]]; try discriminate. reflexivity.
  - destruct r as [|? [|? [|? [|]]]]; try discriminate. destruct u as [|? [|? [|? [|]]]]; try discriminate. reflexivity.
Qed.

Section Proj.
  Variables (D : nat) (m : list Z) (per : list bool) (h : vec) (parts : list gpart) (dms : list dmda) (bc : list (option bc_row)) (dpart : R) (scale : Z) (i : nat) (sol : field).
  Hypothesis HG : grid_ok m per.
  Hypothesis HD : distributes m per D dms.
  Hypothesis HDm : length m = D.
  Hypothesis HSt : steps_ok h m.
  Hypothesis Hi : (i < length parts)%nat.
  Let p := nth i parts gpart0.
  Hypothesis Hpb : has_dim D (p_bbox (gp p) h).
  Hypothesis Hpc : length (p_center (gp p)) = D.
  Let c := create_Mat_and_Vec D h parts dms bc dpart scale.
  Let cube := mkbox (repeat 0%Z D) (repeat scale D).
  Let hs := map (fun x => x / IZR scale) h.
  Let vel := sample_velocity m per h scale sol.
  Let arm := sample_arm h scale (gp p).
  Lemma p_D23 : (D = 2 \/ D = 3)%nat. Proof. rewrite <- HDm. apply HG. Qed.
  Lemma p_h : length h = D. Proof. destruct HSt as [E _]. rewrite E. exact HDm. Qed.
  Lemma p_cube : has_dim D cube. Proof. split; apply repeat_length. Qed.
  Definition cell_subs (q : list Z) : list (list Z * list Z) := map (pair q) (filter (fun s => p_contains (gp p) (sub_point h scale q s)) (grid_pts cube)).
  Definition proc_subs (dm : dmda) : list (list Z * list Z) := flat_map cell_subs (grid_pts (box_inside Z.ltb (get_DM_bounds dm true) (p_bbox (gp p) h))).
  Definition acc_ok (L : list (list Z * list Z)) (st : vec * vec) : Prop :=
    length (fst st) = D /\ length (snd st) = spin_size D /\ (forall k, co k (fst st) = Lsum (fun qs => co k (vel qs)) L) /\ forall k, co k (snd st) = Lsum (fun qs => co k (cross_vv (arm qs) (vel qs))) L.
  Lemma arm_len qs : length (arm qs) = D.
  Proof. unfold arm, sample_arm. rewrite zip_length; rewrite sub_point_len, p_h; [reflexivity|symmetry; exact Hpc]. Qed.
  Lemma vel_len qs : length (vel qs) = D.
  Proof. unfold vel, sample_velocity. rewrite map_length, seq_length. exact HDm. Qed.
  Lemma Lsum_snoc {A} (f : A -> R) l a : Lsum f (l ++ [a]) = Lsum f l + f a.
  Proof. rewrite Lsum_app. unfold Lsum at 2. cbn. ring. Qed.
  Lemma kernel_ok dm q : In dm dms -> in_grid_box (get_DM_bounds dm true) q -> forall L0 st, acc_ok L0 st ->
    exists st', kernel_projection D p h hs scale (global_to_local dm sol) q st = Ok st' /\ acc_ok (L0 ++ cell_subs q) st'.
  Proof.
    intros Hin Hq L0 st H0. unfold kernel_projection. fold cube. destruct (grid_pts_spec D cube p_cube) as (HI & _ & _ & Hrun). unfold iterate_o. rewrite Hrun.
    pose proof (cell_len D m per dms HG HD HDm dm q Hin Hq) as Lq. pose proof p_D23 as H23. pose proof p_h as Lh.
    destruct (fold_ok (fun s st => let pts := pos_plus (pos_times (pos_of_int q) h) (pos_times (pos_of_int s) hs) in
      if p_contains (gp p) pts then bind (interp_surf_point D h (global_to_local dm sol) (q, pos_times (pos_of_int s) hs)) (fun tmp =>
        let r := zip_with Rminus pts (p_center (gp p)) in Ok (vec_add_assign (fst st) tmp, vec_add_assign (snd st) (cross_vv r tmp))) else Ok st)
      (fun l st => acc_ok (L0 ++ map (pair q) (filter (fun s => p_contains (gp p) (sub_point h scale q s)) l)) st) (grid_pts cube) [] st) as (st' & E & V).
    - cbn [filter map]. rewrite app_nil_r. exact H0.
    - intros l1 s st1 Hs H1. cbv zeta. assert (Ls : length s = D). { rewrite (in_grid_box_len cube s); [apply repeat_length|apply HI, Hs]. }
      unfold hs. rewrite (sub_point_eq D), (sub_offset_eq D) by assumption. rewrite filter_app. cbn [filter].
      destruct (p_contains (gp p) (sub_point h scale q s)) eqn:EC; [|exists st1; split; [reflexivity|rewrite app_nil_r; exact H1]].
      rewrite (interp_point_ok D m per h dms HG HD HDm HSt dm sol q _ Hin Hq) by (rewrite sub_offset_len; exact Lh). cbn [bind]. eexists. split; [reflexivity|].
      assert (EV : map (field_at m per h sol q (sub_offset h scale s)) (seq 0 D) = vel (q, s)) by (unfold vel, sample_velocity; cbn [fst snd]; rewrite HDm; reflexivity).
      rewrite EV. change (zip_with Rminus (sub_point h scale q s) (p_center (gp p))) with (arm (q, s)).
      rewrite map_app. cbn [map]. rewrite app_assoc. destruct H1 as (A1 & A2 & A3 & A4).
      pose proof (cross_vv_len D (arm (q, s)) (vel (q, s)) H23 (arm_len _) (vel_len _)) as LC.
      split; [|split; [|split]]; cbn [fst snd].
      + rewrite len_add; [exact A1|]. rewrite vel_len. exact A1.
      + rewrite len_add; [exact A2|]. rewrite LC. exact A2.
      + intros k. rewrite co_add by (rewrite vel_len; exact A1). rewrite Lsum_snoc, A3. reflexivity.
      + intros k. rewrite co_add by (rewrite LC; exact A2). rewrite Lsum_snoc, A4. reflexivity.
    - exists st'. split; [exact E|exact V].
  Qed.
  Lemma impl_ok dm : In dm dms -> exists st, projection_impl c sol i dm = Ok (vec_div_assign (fst st) (IZR (x_num c i)), vec_div_assign (snd st) (IZR (x_num c i))) /\ acc_ok (proc_subs dm) st.
  Proof.
    intros Hin. pose proof (view_dim' D m per dms HG HD HDm dm Hin) as Hb. unfold projection_impl. change (x_D c) with D. change (x_h c) with h. change (x_parts c) with parts. change (x_scale c) with scale. fold p. fold hs. cbv zeta.
    assert (Z0 : acc_ok [] (vzero D, vzero (spin_size D))). { split; [apply len_zero|]. split; [apply len_zero|]. split; intros k; cbn [fst snd]; rewrite co_zero; reflexivity. }
    pose proof (overlap_dim D _ _ Hb Hpb) as Hov. destruct (grid_pts_spec D _ Hov) as (HI & _ & _ & Hrun).
    destruct (intersect Z.ltb (get_DM_bounds dm true) (p_bbox (gp p) h)) eqn:EI.
    - unfold iterate_o. rewrite Hrun.
      destruct (fold_ok (kernel_projection D p h hs scale (global_to_local dm sol)) (fun l st => acc_ok (flat_map cell_subs l) st) (grid_pts (box_inside Z.ltb (get_DM_bounds dm true) (p_bbox (gp p) h))) [] (vzero D, vzero (spin_size D)) Z0) as (st & E & V).
      + intros l1 q st Hq H1. apply HI, (overlap_grid D) in Hq; auto. destruct (kernel_ok dm q Hin (proj1 Hq) _ st H1) as (st' & E' & V'). exists st'. split; [exact E'|]. rewrite flat_map_app. cbn [flat_map]. rewrite app_nil_r. exact V'.
      + rewrite E. cbn [bind]. exists st. split; [reflexivity|exact V].
    - cbn [bind]. eexists. split; [reflexivity|]. assert (EE : proc_subs dm = []); [|rewrite EE; exact Z0].
      unfold proc_subs. destruct (grid_pts (box_inside Z.ltb (get_DM_bounds dm true) (p_bbox (gp p) h))) as [|q l] eqn:EG; [reflexivity|]. exfalso.
      assert (Hq : in_grid_box (box_inside Z.ltb (get_DM_bounds dm true) (p_bbox (gp p) h)) q) by (apply HI; left; reflexivity).
      apply (overlap_grid D) in Hq; auto. destruct Hq as [Q1 Q2]. rewrite (intersect_common_point _ _ _ Q1 Q2) in EI. discriminate.
  Qed.
  Lemma subs_in q s dm : In dm dms -> (In (q, s) (proc_subs dm) <-> in_grid_box (get_DM_bounds dm true) q /\ in_grid_box (p_bbox (gp p) h) q /\ in_grid_box cube s /\ p_contains (gp p) (sub_point h scale q s) = true).
  Proof.
    intros Hin. pose proof (view_dim' D m per dms HG HD HDm dm Hin) as Hb. pose proof (overlap_dim D _ _ Hb Hpb) as Hov. destruct (grid_pts_spec D _ Hov) as (HI & _). destruct (grid_pts_spec D cube p_cube) as (HC & _).
    unfold proc_subs. rewrite in_flat_map. split.
    - intros (q' & Hq' & Hs). unfold cell_subs in Hs. apply in_map_iff in Hs as (s' & E & Hs). injection E as -> ->. apply filter_In in Hs as [Hs EC]. apply HI, (overlap_grid D) in Hq'; auto. destruct Hq'. repeat split; auto; try apply H; try apply H0; apply HC, Hs.
    - intros (A & B & C & E). exists q. split; [apply HI, (overlap_grid D); auto|]. unfold cell_subs. apply in_map_iff. exists s. split; [reflexivity|]. apply filter_In. split; [apply HC, C|exact E].
  Qed.
  Lemma subs_nodup dm : In dm dms -> NoDup (proc_subs dm).
  Proof.
    intros Hin. pose proof (view_dim' D m per dms HG HD HDm dm Hin) as Hb. pose proof (overlap_dim D _ _ Hb Hpb) as Hov. destruct (grid_pts_spec D _ Hov) as (_ & ND & _). destruct (grid_pts_spec D cube p_cube) as (_ & NC & _).
    unfold proc_subs. revert ND. generalize (grid_pts (box_inside Z.ltb (get_DM_bounds dm true) (p_bbox (gp p) h))) as l. induction l as [|q l IH]; intros ND; [constructor|]. inversion ND as [|? ? N1 N2]; subst. cbn [flat_map]. apply NoDup_app_intro; [|apply IH, N2|].
    - unfold cell_subs. apply FinFun.Injective_map_NoDup; [intros a b E; congruence|]. apply NoDup_filter, NC.
    - intros [q1 s1] H1 H2. unfold cell_subs at 1 in H1. apply in_map_iff in H1 as (s' & E & _). injection E as -> ->. apply in_flat_map in H2 as (q' & Hq' & H2). unfold cell_subs in H2. apply in_map_iff in H2 as (s2 & E2 & _). injection E2 as -> _. contradiction.
  Qed.
  Lemma all_subs_sample : sub_sample m per h (gp p) scale (flat_map proc_subs dms).
  Proof.
    assert (HL : length per = length m) by apply HG. pose proof HD as [HV HT]. rewrite Forall_forall in HV.
    split.
    - apply NoDup_flat_split; [intros; apply subs_nodup; assumption|]. intros l1 dm l2 dm' [q s] E Hb Hx Hx'. assert (I1 : In dm dms) by (rewrite E; apply in_elt). assert (I2 : In dm' dms) by (rewrite E; apply in_or_app; right; right; exact Hb).
      apply (subs_in q s dm I1) in Hx. apply (subs_in q s dm' I2) in Hx'. destruct Hx as (Q & _). destruct Hx' as (Q' & _).
      apply (bounds_in m per D dm q (HV dm I1) HL) in Q. apply (bounds_in m per D dm' q (HV dm' I2) HL) in Q'. apply (owner_unique m per D dms l1 dm l2 dm' q HG HDm HD E Hb); tauto.
    - intros q s. rewrite in_flat_map. rewrite HDm. fold cube. split.
      + intros (dm & Hin & Hs). apply (subs_in q s dm Hin) in Hs. destruct Hs as (A & B & C & E). apply (bounds_in m per D dm q (HV dm Hin) HL) in A. tauto.
      + intros (A & B & C & E).
        assert (N : in_grid_box (nodes_box m) q). { apply (cells_sub_nodes m per q HL A). }
        apply HT in N. destruct N as (j & Hj & Hjq & _). rewrite map_length in Hj. assert (Hin : In (nth j (map g_own dms) (nodes_box m)) (map g_own dms)) by (apply nth_In; rewrite map_length; exact Hj).
        apply in_map_iff in Hin as (dm & Ed & Hin). exists dm. split; [exact Hin|]. apply (subs_in q s dm Hin). split; [|tauto]. apply (bounds_in m per D dm q (HV dm Hin) HL). split; [rewrite Ed; exact Hjq|exact A].
  Qed.
  Lemma num_len : x_num c i = Z.of_nat (length (flat_map proc_subs dms)).
  Proof.
    unfold c. rewrite (x_num_spec D m per h parts dms bc dpart scale i HG HD HDm p_h Hi Hpb). unfold over. fold p.
    assert (G : forall l, (forall dm, In dm l -> In dm dms) -> Z.of_nat (length (flat_map proc_subs l)) = bsum (fun dm => bsum (fun q => if inb (get_DM_bounds dm true) q then sub_count D (gp p) h scale q else 0%Z) (grid_pts (p_bbox (gp p) h))) l).
    { induction l as [|dm l IH]; intros Hl; [reflexivity|]. cbn [flat_map]. rewrite app_length, Nat2Z.inj_add, IH by (intros; apply Hl; right; assumption). change (bsum ?f (dm :: l)) with (f dm + bsum f l)%Z. cbv beta. f_equal.
      assert (Hin : In dm dms) by (apply Hl; left; reflexivity). pose proof (view_dim' D m per dms HG HD HDm dm Hin) as Hb. pose proof (overlap_dim D _ _ Hb Hpb) as Hov. destruct (grid_pts_spec D _ Hov) as (HI & _).
      rewrite <- bsum_filter, <- (bsum_perm _ _ _ (overlap_perm D (gp p) h Hpb (get_DM_bounds dm true) Hb)). unfold proc_subs.
      assert (Q : forall l, (forall q, In q l -> length q = D) -> Z.of_nat (length (flat_map cell_subs l)) = bsum (sub_count D (gp p) h scale) l).
      { clear - HDm HSt HG. induction l as [|q l IH]; intros Hl; [reflexivity|]. cbn [flat_map]. rewrite app_length, Nat2Z.inj_add, IH by (intros; apply Hl; right; assumption). change (bsum ?f (q :: l)) with (f q + bsum f l)%Z. f_equal.
        unfold cell_subs, sub_count. rewrite map_length, length_bsum, bsum_filter. fold cube. destruct (grid_pts_spec D cube p_cube) as (HC & _). apply bsum_ext. intros s Hs.
        assert (Ls : length s = D) by (rewrite (in_grid_box_len cube s); [apply repeat_length|apply HC, Hs]).
        rewrite (sub_point_eq D); [reflexivity|exact p_D23|exact p_h|apply Hl; left; reflexivity|exact Ls]. }
      apply Q. intros q Hq. apply HI in Hq. rewrite (in_grid_box_len _ _ Hq). apply Hov. }
    symmetry. apply G. auto.
  Qed.
  Theorem projection_value L : sub_sample m per h (gp p) scale L ->
    exists mean cross, projection c sol i = Ok (mean, cross) /\ length mean = D /\ length cross = spin_size D /\
    (forall k, co k mean = mean_over (fun qs => co k (vel qs)) L) /\ forall k, co k cross = mean_over (fun qs => co k (cross_vv (arm qs) (vel qs))) L.
  Proof.
    intros HL. assert (PL : Permutation (flat_map proc_subs dms) L).
    { destruct all_subs_sample as [N1 I1]. destruct HL as [N2 I2]. apply NoDup_Permutation; [exact N1|exact N2|]. intros [q s]. rewrite I1, I2. reflexivity. }
    assert (EN : IZR (x_num c i) = INR (length L)). { rewrite num_len, <- INR_IZR_INZ. f_equal. apply Permutation_length, PL. }
    unfold projection. change (x_dms c) with dms. change (x_D c) with D.
    destruct (on_all_ok (projection_impl c sol i) (fun dm r => length (fst r) = D /\ length (snd r) = spin_size D /\ (forall k, co k (fst r) = Lsum (fun qs => co k (vel qs)) (proc_subs dm) / INR (length L)) /\
      forall k, co k (snd r) = Lsum (fun qs => co k (cross_vv (arm qs) (vel qs))) (proc_subs dm) / INR (length L)) dms) as (ys & EY & HY).
    { intros dm Hin. destruct (impl_ok dm Hin) as (st & E & A1 & A2 & A3 & A4). rewrite E. eexists. split; [reflexivity|]. cbn [fst snd]. rewrite !len_div. split; [exact A1|]. split; [exact A2|]. rewrite EN. split; intros k; rewrite co_div; [rewrite A3|rewrite A4]; reflexivity. }
    rewrite EY. cbn [bind]. do 2 eexists. split; [reflexivity|].
    assert (LA : all_len D (map fst ys) /\ all_len (spin_size D) (map snd ys)).
    { clear - HY. induction HY as [|dm r l l' (B1 & B2 & _) HY IH]; split; constructor; try tauto; apply IH. }
    destruct (allsum_spec D (map fst ys) (proj1 LA)) as [S1 S2]. destruct (allsum_spec (spin_size D) (map snd ys) (proj2 LA)) as [S3 S4].
    assert (G : forall (pr : vec * vec -> vec) f k, Forall2 (fun dm r => co k (pr r) = Lsum f (proc_subs dm) / INR (length L)) dms ys -> total k (map pr ys) = mean_over f L).
    { intros pr f k HF. unfold mean_over. rewrite <- (Lsum_perm f _ _ PL). unfold total. rewrite Lsum_map. clear - HF. induction HF as [|dm r l l' E HF IH]; [unfold Lsum; cbn; unfold Rdiv; ring|].
      rewrite Lsum_cons, IH, E. cbn [flat_map]. rewrite Lsum_app. unfold Rdiv. ring. }
    split; [exact S1|]. split; [exact S3|]. split; intros k; [rewrite S2|rewrite S4]; apply G; apply (Forall2_weaken _ _ _ _ HY); cbv beta; intros dm r (_ & _ & B3 & B4); [apply B3|apply B4].
  Qed.
End Proj.
