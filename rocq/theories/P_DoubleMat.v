From Coq Require Import Permutation.
From Flocq Require Import Core BinarySingleNaN Plus_error Relative.
From Verif Require Import Base M_Geometry S_Geometry P_Geometry M_Particle S_Particle P_Particle.
From Verif Require Import P_Mesh.
From Verif Require Import M_Double S_Double P_Double P_Double2 P_Double3 P_Double4 P_Double6.
From Verif Require Import M_DoubleMat.
Open Scope R_scope.
Lemma filter_false {A} (l : list A) : filter (fun _ => false) l = [].
Proof. induction l; [reflexivity|assumption]. Qed.
(** ** counts on a box, as sums over the particle's own box *)
Section Counts.
  Variables (D : nat) (p : dparticle) (h : list double) (dp : double) (scale : Z) (pb : box Z).
  Hypothesis HD : (D = 2 \/ D = 3)%nat.
  Hypothesis Hh : length h = D.
  Hypothesis Ebb : dp_bbox p h = Ok pb.
  Hypothesis Hpb : has_dim D pb.
  Hypothesis Hsurf : Forall (fun q => length q = D /\ forall a, (a < D)%nat -> surface_coordinate (nth a h dzero) (nth a q dzero)) (dp_surface p dp).
  Lemma dradial_ok b : has_dim D b -> dfind_radial_surf_points_insides (dp_surface p dp) b h (dp_center p)
    = Ok (map (fun q => zip_with dminus q (dp_center p)) (filter (fun q => point_inside Z.ltb b (cells_of h q)) (dp_surface p dp))).
  Proof.
    intros Hb. generalize Hsurf. generalize (dp_surface p dp). intros l0 HS. induction HS as [|q l [L C] _ IH]; [reflexivity|]. cbn [dfind_radial_surf_points_insides]. subst D. rewrite dcells_ok by assumption. cbn [bind]. rewrite IH. cbn [bind filter]. destruct (point_inside Z.ltb b (cells_of h q)); reflexivity.
  Qed.
  Definition dsub_count (q : list Z) : Z :=
    bsum (fun s => if dp_contains p (dsub_point h (dsub_step h scale) q s) then 1%Z else 0%Z) (grid_pts (mkbox (repeat 0%Z D) (repeat scale D))).
  Lemma dkernel_num_count_spec q n : dkernel_num_count D (dp_contains p) h (dsub_step h scale) scale q n = (n + dsub_count q)%Z.
  Proof.
    unfold dkernel_num_count, dsub_count.
    assert (HB : has_dim D (mkbox (repeat 0%Z D) (repeat scale D))) by (split; simpl; apply repeat_length).
    rewrite (proj2 (proj2 (proj2 (grid_pts_spec D _ HB)))). rewrite <- fold_left_bsum.
    generalize (grid_pts (mkbox (repeat 0%Z D) (repeat scale D))) as l. intros l. revert n.
    induction l as [|s l IH]; intros n; simpl; [reflexivity|]. rewrite IH. f_equal.
    match goal with |- context [dp_contains p ?v] => destruct (dp_contains p v) end; lia.
  Qed.
  Lemma overlap_perm' b : has_dim D b -> Permutation (grid_pts (box_inside Z.ltb b pb)) (filter (inb b) (grid_pts pb)).
  Proof.
    intros Hb. destruct (grid_pts_spec D _ (overlap_dim D _ _ Hb Hpb)) as [H1 [H2 _]]. destruct (grid_pts_spec D _ Hpb) as [H3 [H4 _]].
    apply NoDup_Permutation; [exact H2|apply NoDup_filter, H4|].
    intros q. rewrite H1, filter_In, H3, (overlap_grid D) by assumption. split.
    - intros [A B]. split; [exact B|]. apply (point_inside_grid D); auto. rewrite (in_grid_box_len _ _ A). apply Hb.
    - intros [A B]. split; [|exact A]. apply (point_inside_grid D) in B; auto. rewrite (in_grid_box_len _ _ A). apply Hpb.
  Qed.
  Lemma no_intersect' b q : has_dim D b -> intersect Z.ltb b pb = false -> in_grid_box pb q -> inb b q = false.
  Proof.
    intros Hb E Hq. destruct (inb b q) eqn:E1; [|reflexivity]. exfalso.
    apply (point_inside_grid D) in E1; auto; [|rewrite (in_grid_box_len _ _ Hq); apply Hpb].
    rewrite (intersect_common_point _ _ _ E1 Hq) in E. discriminate.
  Qed.
  Lemma cell_len q : In q (dp_surface p dp) -> length (cells_of h q) = D.
  Proof. intros Hq. rewrite Forall_forall in Hsurf. destruct (Hsurf q Hq) as [L _]. rewrite cells_of_length; lia. Qed.
  Definition kept (b : box Z) : list (list double) := filter (fun q => inb pb (cells_of h q) && inb b (cells_of h q)) (dp_surface p dp).
  Definition stored (q : list double) : list Z * list double := (cells_of h q, zip_with (fun xh i => doffset (fst xh) (snd xh) i) (combine q h) (cells_of h q)).
  Lemma overlap_filter b : has_dim D b -> filter (fun q => point_inside Z.ltb (box_inside Z.ltb b pb) (cells_of h q)) (dp_surface p dp) = kept b.
  Proof.
    intros Hb. unfold kept. apply filter_ext_in. intros q Hq. pose proof (cell_len q Hq) as HL.
    pose proof (point_inside_grid D b _ Hb HL) as P1. pose proof (point_inside_grid D _ _ Hpb HL) as P2.
    pose proof (point_inside_grid D _ _ (overlap_dim D _ _ Hb Hpb) HL) as P3. pose proof (overlap_grid D b pb (cells_of h q) Hb Hpb) as P4. unfold inb.
    destruct (point_inside Z.ltb (box_inside Z.ltb b pb) (cells_of h q)) eqn:E3, (point_inside Z.ltb b (cells_of h q)) eqn:E1, (point_inside Z.ltb pb (cells_of h q)) eqn:E2; try reflexivity; exfalso.
    all: rewrite <- P1, <- P2, <- P3 in P4; destruct P4 as [P4 P5]; try (destruct (P4 eq_refl); discriminate); try (discriminate (P5 (conj eq_refl eq_refl))).
  Qed.
  Lemma no_kept b : has_dim D b -> intersect Z.ltb b pb = false -> kept b = [].
  Proof.
    intros Hb E. unfold kept. rewrite (filter_ext_in _ (fun _ => false)); [apply filter_false|]. intros q Hq. destruct (inb pb (cells_of h q)) eqn:E2; [|reflexivity]. cbn [andb]. apply no_intersect'; try assumption. apply (point_inside_grid D pb); auto. apply cell_len, Hq.
  Qed.
  (** the state after a call on fresh arrays *)
  Lemma dset_material_ok b : has_dim D b -> exists n, dset_material D p b h dp scale dmat0
    = Ok (n, mkdmat (map stored (kept b)) (map (fun q => zip_with dminus q (dp_center p)) (kept b)) (Z.of_nat (length (kept b)))
        (bsum (fun q => if inb b q then dsub_count q else 0%Z) (grid_pts pb))).
  Proof.
    intros Hb. unfold dset_material. rewrite Ebb. cbn [bind]. pose proof (overlap_dim D _ _ Hb Hpb) as Ho. destruct (intersect Z.ltb b pb) eqn:E.
    - rewrite (dfind_surf_ok D h _ _ Ho Hh Hsurf), (dradial_ok _ Ho), overlap_filter by exact Hb. cbn [bind]. eexists. do 3 f_equal; [rewrite map_length; reflexivity|].
      rewrite (proj2 (proj2 (proj2 (grid_pts_spec D _ Ho)))). rewrite <- bsum_filter, <- (bsum_perm _ _ _ (overlap_perm' b Hb)). rewrite <- (Z.add_0_l (bsum _ _)). rewrite <- fold_left_bsum. cbn [dm_num dmat0].
      generalize (grid_pts (box_inside Z.ltb b pb)) as l. intros l. generalize 0%Z. induction l as [|q l IH]; intros n; simpl; [reflexivity|]. rewrite dkernel_num_count_spec. apply IH.
    - eexists. rewrite (no_kept b Hb E). unfold dmat0. do 3 f_equal. symmetry. apply bsum_all_zero. intros q Hq. rewrite (no_intersect' b q Hb E); [reflexivity|]. apply (grid_pts_spec D _ Hpb), Hq.
  Qed.
  (** the sub-points are added to those counted before *)
  Lemma dset_material_num old b : has_dim D b -> exists n m, dset_material D p b h dp scale old = Ok (n, m) /\
    dm_num m = (dm_num old + bsum (fun q => if inb b q then dsub_count q else 0%Z) (grid_pts pb))%Z.
  Proof.
    intros Hb. unfold dset_material. rewrite Ebb. cbn [bind]. pose proof (overlap_dim D _ _ Hb Hpb) as Ho. destruct (intersect Z.ltb b pb) eqn:E.
    - rewrite (dfind_surf_ok D h _ _ Ho Hh Hsurf), (dradial_ok _ Ho), overlap_filter by exact Hb. cbn [bind]. eexists _, _. split; [reflexivity|]. cbn [dm_num].
      rewrite (proj2 (proj2 (proj2 (grid_pts_spec D _ Ho)))). rewrite <- bsum_filter, <- (bsum_perm _ _ _ (overlap_perm' b Hb)). rewrite <- fold_left_bsum.
      generalize (grid_pts (box_inside Z.ltb b pb)) as l. intros l. generalize (dm_num old). induction l as [|q l IH]; intros n; simpl; [reflexivity|]. rewrite dkernel_num_count_spec. apply IH.
    - eexists _, _. split; [reflexivity|]. cut (bsum (fun q => if inb b q then dsub_count q else 0%Z) (grid_pts pb) = 0%Z); [lia|]. apply bsum_all_zero. intros q Hq. rewrite (no_intersect' b q Hb E); [reflexivity|]. apply (grid_pts_spec D _ Hpb), Hq.
  Qed.
  Lemma pbox_len' q : In q (grid_pts pb) -> length q = D.
  Proof. intros Hq. apply (grid_pts_spec D _ Hpb) in Hq. rewrite (in_grid_box_len _ _ Hq). apply Hpb. Qed.
End Counts.
Lemma sum_over_tiling' {A} D (g : A -> Z) (idx : A -> list Z) bs B l : tiling bs B -> has_dim D B -> Forall (has_dim D) bs -> (forall a, In a l -> length (idx a) = D) ->
  bsum (fun b => bsum (fun a => if inb b (idx a) then g a else 0%Z) l) bs = bsum (fun a => if inb B (idx a) then g a else 0%Z) l.
Proof.
  intros HT HB Hbs Hl. rewrite bsum_swap. apply bsum_ext. intros a Ha. transitivity (g a * bsum (fun b => if inb b (idx a) then 1 else 0) bs)%Z.
  - clear. induction bs as [|b bs IH]; simpl; [lia|]. rewrite IH. destruct (inb b (idx a)); lia.
  - rewrite (tiling_count bs B D (idx a)); auto. destruct (inb B (idx a)); lia.
Qed.
(** ** a tiling keeps each surface point once *)
Lemma tiling_filter_perm {A} (idx : A -> list Z) D bs B l : tiling bs B -> has_dim D B -> Forall (has_dim D) bs -> (forall a, In a l -> length (idx a) = D) ->
  Permutation (concat (map (fun b => filter (fun a => inb b (idx a)) l) bs)) (filter (fun a => inb B (idx a)) l).
Proof.
  intros HT HB Hbs. induction l as [|a l IH]; intros Hl.
  - replace (concat _) with (@nil A); [reflexivity|]. clear. induction bs; simpl; auto.
  - assert (S : Permutation (concat (map (fun b => filter (fun a => inb b (idx a)) (a :: l)) bs)) (repeat a (Z.to_nat (bsum (fun b => if inb b (idx a) then 1%Z else 0%Z) bs)) ++ concat (map (fun b => filter (fun a => inb b (idx a)) l) bs))).
    { clear. induction bs as [|b bs IH]; [reflexivity|]. cbn [map concat filter bsum fold_right]. assert (N : (0 <= bsum (fun b => if inb b (idx a) then 1%Z else 0%Z) bs)%Z). { clear. induction bs as [|b bs IH]; simpl; [lia|]. destruct (inb b (idx a)); lia. }
      fold (bsum (fun b => if inb b (idx a) then 1%Z else 0%Z) bs). destruct (inb b (idx a)).
      - rewrite Z2Nat.inj_add by lia. cbn [Z.to_nat Pos.to_nat Pos.iter_op Nat.add repeat app]. apply perm_skip. rewrite IH. apply Permutation_app_swap_app.
      - rewrite Z.add_0_l. rewrite IH. apply Permutation_app_swap_app. }
    rewrite S, (tiling_count bs B D (idx a) HT HB Hbs) by (apply Hl; left; reflexivity). cbn [filter]. specialize (IH (fun x Hx => Hl x (or_intror Hx))). destruct (inb B (idx a)); cbn [Z.to_nat Pos.to_nat Pos.iter_op Nat.add repeat app]; [apply perm_skip|]; exact IH.
Qed.
Lemma concat_map_map {A B C} (f : B -> C) (g : A -> list B) l : concat (map (fun a => map f (g a)) l) = map f (concat (map g l)).
Proof. induction l as [|a l IH]; [reflexivity|]. cbn [map concat]. rewrite map_app, IH. reflexivity. Qed.
Lemma length_concat_bsum {A B} (g : A -> list B) l : bsum (fun a => Z.of_nat (length (g a))) l = Z.of_nat (length (concat (map g l))).
Proof. induction l as [|a l IH]; [reflexivity|]. cbn [map concat bsum fold_right]. unfold bsum in IH. rewrite IH, app_length. lia. Qed.
Lemma kept_perm D p h dp pb bs B : length h = D -> Forall (fun q => length q = D /\ forall a, (a < D)%nat -> surface_coordinate (nth a h dzero) (nth a q dzero)) (dp_surface p dp) ->
  tiling bs B -> has_dim D B -> Forall (has_dim D) bs -> Permutation (concat (map (kept p h dp pb) bs)) (kept p h dp pb B).
Proof.
  intros Hh HS HT HB Hbs. unfold kept. assert (E : forall b, filter (fun q => inb pb (cells_of h q) && inb b (cells_of h q)) (dp_surface p dp) = filter (fun q => inb b (cells_of h q)) (filter (fun q => inb pb (cells_of h q)) (dp_surface p dp))).
  { intros b. induction (dp_surface p dp) as [|q l IH]; [reflexivity|]. cbn [filter]. inversion HS; subst. destruct (inb pb (cells_of h q)); cbn [andb filter]; rewrite IH by assumption; reflexivity. }
  rewrite E. rewrite (map_ext _ _ E). apply tiling_filter_perm with D; auto. intros q Hq. apply filter_In in Hq as [Hq _]. rewrite Forall_forall in HS. destruct (HS q Hq) as [L _]. rewrite cells_of_length; lia.
Qed.
(** ** the whole call *)
Lemma dset_materials_local_ok D parts b h dp scale : (forall p, In p parts -> exists nm, dset_material D p b h dp scale dmat0 = Ok nm) ->
  exists r, dset_materials_local D parts b h dp scale (repeat dmat0 (length parts)) = Ok r /\ length (snd r) = length parts /\
    forall i d, (i < length parts)%nat -> exists n, dset_material D (nth i parts d) b h dp scale dmat0 = Ok (n, nth i (snd r) dmat0).
Proof.
  induction parts as [|p ps IH]; intros H; [exists (0%nat, []); split; [reflexivity|]; split; [reflexivity|intros i d Hi; simpl in Hi; lia]|].
  destruct (H p (or_introl eq_refl)) as [[n m] E]. destruct IH as (r & Er & Lr & Nr); [intros q Hq; apply H; right; exact Hq|].
  cbn [length repeat dset_materials_local]. rewrite E. cbn [bind]. rewrite Er. cbn [bind fst snd]. eexists. split; [reflexivity|]. cbn [fst snd length]. split; [lia|]. intros [|i] d Hi; cbn [nth]; [exists n; exact E|apply Nr; simpl in Hi; lia].
Qed.
Lemma dset_materials_all_ok D parts bs h dp scale : (forall b, In b bs -> forall p, In p parts -> exists nm, dset_material D p b h dp scale dmat0 = Ok nm) ->
  exists locals, dset_materials_all D parts bs h dp scale = Ok locals /\
    Forall2 (fun b r => forall i d, (i < length parts)%nat -> exists n, dset_material D (nth i parts d) b h dp scale dmat0 = Ok (n, nth i (snd r) dmat0)) bs locals.
Proof.
  induction bs as [|b bs IH]; intros H; [exists []; split; [reflexivity|constructor]|].
  destruct (dset_materials_local_ok D parts b h dp scale (H b (or_introl eq_refl))) as (r & Er & _ & Nr). destruct IH as (rs & Ers & Nrs); [intros c Hc; apply H; right; exact Hc|].
  cbn [dset_materials_all]. rewrite Er. cbn [bind]. rewrite Ers. cbn [bind]. eexists. split; [reflexivity|]. constructor; assumption.
Qed.
Lemma dallreduce_bsum field locals i : dallreduce field locals i = bsum (fun r => field (nth i (snd r) dmat0)) locals.
Proof.
  unfold dallreduce. change (fold_left Z.add ?l 0%Z) with (fold_left (fun s a => (s + a)%Z) l 0%Z). rewrite fold_left_bsum, Z.add_0_l. induction locals as [|r l IH]; simpl; [reflexivity|]. f_equal; exact IH.
Qed.
Lemma Forall2_bsum {A B} (P : A -> B -> Prop) (f : A -> Z) (g : B -> Z) l m : Forall2 P l m -> (forall a b, In a l -> P a b -> f a = g b) -> bsum g m = bsum f l.
Proof. induction 1; intros H1; [reflexivity|]. cbn [bsum fold_right]. unfold bsum in IHForall2. rewrite IHForall2 by (intros; apply H1; [right|]; assumption). rewrite (H1 x y (or_introl eq_refl) H). reflexivity. Qed.
Lemma Forall2_concat {A B C} (P : A -> B -> Prop) (f : A -> list C) (g : B -> list C) l m : Forall2 P l m -> (forall a b, In a l -> P a b -> f a = g b) -> concat (map g m) = concat (map f l).
Proof. induction 1; intros H1; [reflexivity|]. cbn [map concat]. rewrite IHForall2 by (intros; apply H1; [right|]; assumption). rewrite (H1 x y (or_introl eq_refl) H). reflexivity. Qed.
(** ** meaning of the count *)
Lemma flat_map_filter_length {A B} (t : A -> B -> bool) m l : Z.of_nat (length (flat_map (fun a => map (pair a) (filter (t a) m)) l)) = bsum (fun a => bsum (fun b => if t a b then 1%Z else 0%Z) m) l.
Proof.
  induction l as [|a l IH]; [reflexivity|]. cbn [flat_map bsum fold_right]. unfold bsum in IH. rewrite app_length, Nat2Z.inj_add, IH. f_equal. rewrite map_length, length_bsum, bsum_filter. reflexivity.
Qed.
Lemma NoDup_pairs {A B} (t : A -> B -> bool) m l : NoDup l -> NoDup m -> NoDup (flat_map (fun a => map (pair a) (filter (t a) m)) l).
Proof.
  intros Hl Hm. induction Hl as [|a l Ha Hl IH]; [constructor|]. cbn [flat_map]. apply NoDup_app_intro; [|exact IH|].
  - apply FinFun.Injective_map_NoDup; [intros x y E; congruence|apply NoDup_filter, Hm].
  - intros [x y] H1 H2. apply in_map_iff in H1 as (z & E & _). inversion E; subst. apply in_flat_map in H2 as (a' & Ha' & H2). apply in_map_iff in H2 as (z' & E' & _). inversion E'; subst. contradiction.
Qed.
(** ** the tested sub-grid point *)
Lemma int_mult n x : (0 <= n <= 2 ^ 53)%Z -> finite x -> / 2 ^ 1022 <= dval x -> IZR n * dval x <= 2 ^ 1023 ->
  finite (dmult (dint n) x) /\ exists e, Rabs e <= u64 /\ dval (dmult (dint n) x) = IZR n * dval x * (1 + e).
Proof.
  intros Hn Fx Hx HO. assert (HP : 0 < / 2 ^ 1022) by (apply Rinv_0_lt_compat, pow_lt; lra). pose proof u64_pos as U. destruct (dint_ok n) as [Fi Vi]; [lia|]. assert (HN : 0 <= IZR n) by (apply IZR_le; lia).
  assert (EA : Rabs (IZR n * dval x) = IZR n * dval x) by (apply Rabs_pos_eq; nra).
  destruct (dmult_ok (dint n) x) as [F V]; auto; [rewrite Vi, EA; exact HO|]. split; [exact F|]. rewrite V, Vi. apply rel_ex; [lra|].
  destruct (Z.eq_dec n 0) as [->|Hz]; [rewrite Rmult_0_l, round_0 by typeclasses eauto; rewrite Rminus_0_r, Rabs_R0; lra|]. assert (1 <= IZR n) by (apply IZR_le; lia). apply rnd_rel. rewrite EA. nra.
Qed.
Lemma sub_coordinate h i s scale : finite h -> / 2 ^ 900 <= dval h <= 2 ^ 900 -> (0 <= i <= 2 ^ 31)%Z -> (0 <= s < scale)%Z -> (1 <= scale <= 2 ^ 31)%Z ->
  let x := dplus (dmult (dint i) h) (dmult (dint s) (ddiv h (dint scale))) in
  finite x /\ Rabs (dval x - (IZR i + IZR s / IZR scale) * dval h) <= 4 * u64 * ((IZR i + IZR s / IZR scale) * dval h).
Proof.
  intros Fh Hh Hi Hs Hsc x. subst x. assert (HP : 0 < / 2 ^ 1022) by (apply Rinv_0_lt_compat, pow_lt; lra). pose proof u64_pos as U. pose proof u64_small as US.
  assert (I0 : 0 <= IZR i) by (apply IZR_le; lia). assert (S0 : 0 <= IZR s) by (apply IZR_le; lia). assert (C0 : 1 <= IZR scale) by (apply IZR_le; lia). assert (SC : IZR s <= IZR scale) by (apply IZR_le; lia).
  assert (I1 : IZR i <= 2 ^ 31). { apply Rle_trans with (IZR (2 ^ 31)); [apply IZR_le; lia|]. change (2 ^ 31)%Z with (Zpower radix2 (Z.of_nat 31)). rewrite IZR_Zpower, pow2 by lia. lra. }
  assert (C1 : IZR scale <= 2 ^ 31). { apply Rle_trans with (IZR (2 ^ 31)); [apply IZR_le; lia|]. change (2 ^ 31)%Z with (Zpower radix2 (Z.of_nat 31)). rewrite IZR_Zpower, pow2 by lia. lra. }
  assert (H900 : 0 < / 2 ^ 900) by (apply Rinv_0_lt_compat, pow_lt; lra).
  assert (B1 : 2 ^ 31 * 2 ^ 900 <= 2 ^ 931) by (rewrite <- pow_add; apply pow_le_1; lia).
  assert (B2 : 8 * 2 ^ 931 <= 2 ^ 1023) by (replace 8 with (2 ^ 3) by lra; rewrite <- pow_add; apply pow_le_1; lia).
  assert (B3 : / 2 ^ 931 <= / 2 ^ 900 / IZR scale). { unfold Rdiv. rewrite <- Rinv_mult. apply Rinv_le_contravar; [apply Rmult_lt_0_compat; [apply pow_lt; lra|lra]|]. apply Rle_trans with (2 ^ 900 * 2 ^ 31); [apply Rmult_le_compat_l; [apply pow_le; lra|lra]|lra]. }
  assert (B4 : 2 * / 2 ^ 1022 <= / 2 ^ 931). { apply Rle_trans with (/ 2 ^ 1021); [|apply Rinv_le_contravar; [apply pow_lt; lra|apply pow_le_1; lia]]. change (2 ^ 1022) with (2 * 2 ^ 1021). rewrite Rinv_mult. generalize (/ 2 ^ 1021). intros; lra. }
  assert (B5 : 0 < 2 ^ 931) by (apply pow_lt; lra). assert (B6 : 2 ^ 900 <= 2 ^ 931) by (apply pow_le_1; lia).
  destruct (dint_ok scale) as [Fs Vs]; [lia|]. set (H := dval h) in *.
  assert (Q : H / IZR scale <= H). { apply Rmult_le_reg_r with (IZR scale); [lra|]. unfold Rdiv. rewrite Rmult_assoc, Rinv_l by lra. assert (0 < H) by lra. nra. }
  assert (Q2 : 2 * / 2 ^ 1022 <= H / IZR scale). { eapply Rle_trans; [exact B4|]. eapply Rle_trans; [exact B3|]. unfold Rdiv. apply Rmult_le_compat_r; [left; apply Rinv_0_lt_compat; lra|lra]. }
  assert (P4 : 8 * 2 ^ 900 <= 2 ^ 1023) by lra. clear B3 B4.
  assert (QA : Rabs (H / IZR scale) = H / IZR scale) by (apply Rabs_pos_eq; lra).
  assert (D1 : finite (ddiv h (dint scale)) /\ dval (ddiv h (dint scale)) = rnd (H / IZR scale)). { rewrite <- Vs. apply ddiv_ok; [exact Fh|rewrite Vs; lra|rewrite Vs; fold H; rewrite QA; lra]. } destruct D1 as [Fq Vq].
  assert (D2 : exists e2, Rabs e2 <= u64 /\ dval (ddiv h (dint scale)) = H / IZR scale * (1 + e2)). { rewrite Vq. apply rel_ex; [lra|]. apply rnd_rel. rewrite QA. lra. } destruct D2 as (e2 & E2 & V2).
  assert (A2 : - u64 <= e2 <= u64) by (apply Rabs_le_inv, E2).
  assert (R2 : / 2 * (H / IZR scale) <= dval (ddiv h (dint scale)) <= 2 * (H / IZR scale)) by (rewrite V2; nra).
  assert (SH : IZR s * (H / IZR scale) <= H). { replace H with (IZR scale * (H / IZR scale)) at 2 by (field; lra). apply Rmult_le_compat_r; lra. }
  destruct (int_mult s (ddiv h (dint scale))) as (Fy & e3 & E3 & V3); [lia|exact Fq|lra| |]. { apply Rle_trans with (IZR s * (2 * (H / IZR scale))); [apply Rmult_le_compat_l; lra|]. lra. }
  assert (IH31 : IZR i * H <= 2 ^ 931). { eapply Rle_trans; [|exact B1]. apply Rmult_le_compat; lra. }
  destruct (int_mult i h) as (Fx & e1 & E1 & V1); [lia|exact Fh|fold H; lra|fold H; lra|]. fold H in V1.
  assert (A1 : - u64 <= e1 <= u64) by (apply Rabs_le_inv, E1). assert (A3 : - u64 <= e3 <= u64) by (apply Rabs_le_inv, E3).
  set (X := IZR i * H) in *. set (Y := IZR s * (H / IZR scale)) in *. assert (X0 : 0 <= X) by (apply Rmult_le_pos; lra). assert (Y0 : 0 <= Y) by (apply Rmult_le_pos; lra).
  assert (V3' : dval (dmult (dint s) (ddiv h (dint scale))) = Y * ((1 + e2) * (1 + e3))) by (rewrite V3, V2; unfold Y; ring).
  assert (C23 : Rabs ((1 + e2) * (1 + e3) - 1) <= (1 + 1 + / 100) * u64) by (apply chain; [lra|rewrite Rmult_1_l; exact E2|exact E3]).
  apply Rabs_le_inv in C23. set (f := (1 + e2) * (1 + e3)) in *.
  assert (Z0 : Rabs (dval (dmult (dint i) h) + dval (dmult (dint s) (ddiv h (dint scale))) - (X + Y)) <= (2 + / 100) * u64 * (X + Y)). { rewrite V1, V3'. apply Rabs_le. nra. }
  assert (Z1 : Rabs (dval (dmult (dint i) h) + dval (dmult (dint s) (ddiv h (dint scale)))) <= (1 + 3 * u64) * (X + Y)). { apply Rabs_le_inv in Z0. apply Rabs_le. nra. }
  destruct (dplus_ok (dmult (dint i) h) (dmult (dint s) (ddiv h (dint scale)))) as [F V]; auto.
  { eapply Rle_trans; [exact Z1|]. apply Rle_trans with (2 * (X + Y)); [apply Rmult_le_compat_r; lra|]. lra. }
  split; [exact F|]. rewrite V. pose proof (rnd_plus_rel _ _ (dval_format (dmult (dint i) h)) (dval_format (dmult (dint s) (ddiv h (dint scale))))) as RR.
  replace ((IZR i + IZR s / IZR scale) * H) with (X + Y) by (unfold X, Y, Rdiv; ring).
  set (w := dval (dmult (dint i) h) + dval (dmult (dint s) (ddiv h (dint scale)))) in *.
  replace (rnd w - (X + Y)) with ((rnd w - w) + (w - (X + Y))) by ring. eapply Rle_trans; [apply Rabs_triang|].
  assert (u64 * Rabs w <= u64 * ((1 + 3 * u64) * (X + Y))) by (apply Rmult_le_compat_l; lra).
  assert (u64 * ((1 + 3 * u64) * (X + Y)) <= u64 * ((1 + / 100) * (X + Y))) by (apply Rmult_le_compat_l; [lra|]; apply Rmult_le_compat_r; lra). assert (0 <= u64 * (X + Y)) by (apply Rmult_le_pos; lra). lra.
Qed.
Close Scope R_scope.
