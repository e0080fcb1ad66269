From Verif Require Import Base M_Geometry S_Geometry P_Geometry M_Particle S_Particle.
From Coq Require Import Permutation.

(** ** size_t loops *)
Lemma to_size_t_nonneg z : (0 <= z)%Z -> is_int z -> to_size_t z = z.
Proof. unfold is_int, to_size_t; intros. apply Z.mod_small. change (2 ^ 64)%Z with (2 ^ 31 * 2 ^ 33)%Z. nia. Qed.
Lemma to_size_t_neg z : (z < 0)%Z -> is_int z -> to_size_t z = (z + 2 ^ 64)%Z.
Proof.
  unfold is_int, to_size_t; intros. rewrite <- (Z_mod_plus_full z 1). rewrite Z.mul_1_l. apply Z.mod_small.
  change (2 ^ 64)%Z with 18446744073709551616%Z in *. change (2 ^ 31)%Z with 2147483648%Z in *. lia.
Qed.
Lemma to_int_id z : is_int z -> to_int z = z.
Proof.
  unfold is_int, to_int; intros. rewrite Z.mod_small; [lia|]. change (2 ^ 32)%Z with (2 ^ 31 + 2 ^ 31)%Z. lia.
Qed.

Lemma for_size_t_loop_spec {A} (body : Z -> R -> list A) h : forall fuel i hi x,
  Z.to_nat (hi - i) = fuel ->
  for_size_t_loop fuel i hi x h body
  = flat_map (fun j => body j (x + IZR (j - i) * h)%R) (zrange i hi).
Proof.
  induction fuel as [|k IH]; intros i hi x Hf; simpl.
  - rewrite zrange_empty by lia. reflexivity.
  - destruct (Z.ltb_spec i hi) as [Hlt|Hge].
    + rewrite zrange_cons by lia. simpl. f_equal.
      * f_equal. replace (i - i)%Z with 0%Z by lia. ring.
      * rewrite IH by lia. apply flat_map_ext. intros j. f_equal.
        rewrite !minus_IZR, plus_IZR. ring.
    + rewrite zrange_empty by lia. reflexivity.
Qed.
Lemma for_size_t_spec {A} lo hi h (body : Z -> R -> list A) :
  is_int lo -> is_int hi -> (0 <= lo)%Z -> (0 <= hi)%Z ->
  for_size_t lo hi h body = flat_map (fun j => body j (IZR j * h)%R) (zrange lo hi).
Proof.
  intros H1 H2 H3 H4. unfold for_size_t. rewrite !to_size_t_nonneg by assumption.
  rewrite for_size_t_loop_spec by reflexivity. apply flat_map_ext. intros j. f_equal.
  rewrite minus_IZR. ring.
Qed.
Lemma for_size_t_neg {A} lo hi h (body : Z -> R -> list A) :
  is_int lo -> is_int hi -> (lo < 0)%Z -> (0 <= hi)%Z -> for_size_t lo hi h body = [].
Proof.
  intros H1 H2 H3 H4. unfold for_size_t. rewrite (to_size_t_neg lo), (to_size_t_nonneg hi) by assumption.
  replace (Z.to_nat _) with 0; [reflexivity|]. unfold is_int in *.
  change (2 ^ 64)%Z with 18446744073709551616%Z in *. change (2 ^ 31)%Z with 2147483648%Z in *. lia.
Qed.

Definition box_ints (b : box Z) : Prop := Forall is_int (bottom_left b) /\ Forall is_int (upper_right b).
Definition box_nonneg (b : box Z) : Prop := Forall (fun z => (0 <= z)%Z) (bottom_left b) /\ Forall (fun z => (0 <= z)%Z) (upper_right b).

Lemma flat_map_filter {A B} (f : A -> B) (t : B -> bool) l :
  flat_map (fun x => if t (f x) then [f x] else []) l = filter t (map f l).
Proof. induction l as [|a l IH]; simpl; [reflexivity|]. destruct (t (f a)); simpl; rewrite IH; reflexivity. Qed.
Lemma filter_flat_map {A B} (g : A -> list B) (t : B -> bool) l :
  flat_map (fun x => filter t (g x)) l = filter t (flat_map g l).
Proof. induction l as [|a l IH]; simpl; [reflexivity|]. rewrite filter_app, IH; reflexivity. Qed.
Lemma flat_map_singleton {A B} (f : A -> B) l : flat_map (fun x => [f x]) l = map f l.
Proof. induction l as [|a l IH]; simpl; [reflexivity|]. rewrite IH; reflexivity. Qed.
Lemma flat_map_ext_in {A B} (f g : A -> list B) l : (forall a, In a l -> f a = g a) -> flat_map f l = flat_map g l.
Proof. induction l as [|a l IH]; intros H; simpl; [reflexivity|]. rewrite (H a), IH; auto; [intros; apply H|]; simpl; auto. Qed.

Definition grid_pts (b : box Z) : list (list Z) := pts b (length (bottom_left b)) (repeat 0%Z (length (bottom_left b))).

Lemma grid_pts_spec D b : has_dim D b ->
  (forall p, In p (grid_pts b) <-> in_grid_box b p) /\ NoDup (grid_pts b) /\ strictly_increasing colex_lt (grid_pts b) /\
  forall St (f : list Z -> St -> St) s, run_iterate b f s = fold_left (fun s p => f p s) (grid_pts b) s.
Proof.
  intros Hb. assert (Hp : forall p, In p (grid_pts b) <-> in_grid_box b p).
  { destruct Hb as [A1 A2]. unfold grid_pts. rewrite A1. intros p. split.
    - intros H. apply in_pts in H as [[La Ha] Hb]; [|rewrite repeat_length; lia]. rewrite repeat_length in La. split.
      + apply (Forall2_nth_iff Z.le _ _ 0%Z 0%Z). split; [lia|]. intros i Hi. apply Hb; lia.
      + apply (Forall2_nth_iff Z.lt _ _ 0%Z 0%Z). split; [lia|]. intros i Hi. apply Hb; lia.
    - intros [H1 H2]. apply (Forall2_nth_iff Z.le _ _ 0%Z 0%Z) in H1 as [L1 H1].
      apply (Forall2_nth_iff Z.lt _ _ 0%Z 0%Z) in H2 as [L2 H2].
      apply in_pts; [rewrite repeat_length; lia|]. split.
      + split; [rewrite repeat_length; lia|]. intros j Hj. rewrite !nth_overflow; auto; rewrite ?repeat_length; lia.
      + intros j Hj. split; [apply H1|apply H2]; lia. }
  assert (Hinc : strictly_increasing colex_lt (grid_pts b)).
  { apply pts_increasing. rewrite repeat_length; lia. }
  split; [exact Hp|]. split; [apply strictly_increasing_NoDup with colex_lt; [apply colex_irrefl|exact Hinc]|].
  split; [exact Hinc|]. intros St f s. unfold run_iterate, iterate.
  destruct (iterate_impl_spec b f (length (bottom_left b)) (repeat 0%Z (length (bottom_left b))) s) as [p' [E _]];
    [rewrite repeat_length; lia|].
  rewrite E. reflexivity.
Qed.

Lemma box2_inv (b : box Z) : has_dim 2 b -> exists a0 a1 c0 c1, b = mkbox [a0; a1] [c0; c1].
Proof.
  destruct b as [[|a0 [|a1 [|? ?]]] [|c0 [|c1 [|? ?]]]]; intros [H1 H2]; simpl in *; try discriminate. eauto 6.
Qed.
Lemma box3_inv (b : box Z) : has_dim 3 b -> exists a0 a1 a2 c0 c1 c2, b = mkbox [a0; a1; a2] [c0; c1; c2].
Proof.
  destruct b as [[|a0 [|a1 [|a2 [|? ?]]]] [|c0 [|c1 [|c2 [|? ?]]]]]; intros [H1 H2]; simpl in *; try discriminate. eauto 8.
Qed.

Lemma in_range_int lo hi z : is_int lo -> is_int hi -> In z (zrange lo hi) -> to_int z = z.
Proof. intros H1 H2 H. apply in_zrange in H. apply to_int_id. unfold is_int in *; lia. Qed.

Lemma find_fluid_points2_filter contains b h : has_dim 2 b -> length h = 2 -> box_ints b -> box_nonneg b ->
  find_fluid_points2 contains b h = filter (fun p => contains (grid_point h p)) (grid_pts b).
Proof.
  intros Hb Hh HI HN. apply box2_inv in Hb as [a0 [a1 [c0 [c1 ->]]]].
  destruct h as [|h0 [|h1 [|? ?]]]; simpl in Hh; try discriminate.
  destruct HI as [I1 I2], HN as [N1 N2]; simpl in *.
  inversion I1 as [|? ? Ia0 I1']; subst; inversion I1' as [|? ? Ia1 _]; subst.
  inversion I2 as [|? ? Ic0 I2']; subst; inversion I2' as [|? ? Ic1 _]; subst.
  inversion N1 as [|? ? Na0 N1']; subst; inversion N1' as [|? ? Na1 _]; subst.
  inversion N2 as [|? ? Nc0 N2']; subst; inversion N2' as [|? ? Nc1 _]; subst.
  unfold find_fluid_points2, grid_pts; simpl. rewrite for_size_t_spec by assumption.
  rewrite <- filter_flat_map. apply flat_map_ext_in. intros iy Hy.
  rewrite for_size_t_spec by assumption. rewrite flat_map_singleton.
  rewrite <- flat_map_filter. apply flat_map_ext_in. intros ix Hx.
  rewrite (in_range_int _ _ _ Ia0 Ic0 Hx), (in_range_int _ _ _ Ia1 Ic1 Hy). reflexivity.
Qed.
Lemma find_fluid_points3_filter contains b h : has_dim 3 b -> length h = 3 -> box_ints b -> box_nonneg b ->
  find_fluid_points3 contains b h = filter (fun p => contains (grid_point h p)) (grid_pts b).
Proof.
  intros Hb Hh HI HN. apply box3_inv in Hb as [a0 [a1 [a2 [c0 [c1 [c2 ->]]]]]].
  destruct h as [|h0 [|h1 [|h2 [|? ?]]]]; simpl in Hh; try discriminate.
  destruct HI as [I1 I2], HN as [N1 N2]; simpl in *.
  inversion I1 as [|? ? Ia0 I1']; subst; inversion I1' as [|? ? Ia1 I1'']; subst; inversion I1'' as [|? ? Ia2 _]; subst.
  inversion I2 as [|? ? Ic0 I2']; subst; inversion I2' as [|? ? Ic1 I2'']; subst; inversion I2'' as [|? ? Ic2 _]; subst.
  inversion N1 as [|? ? Na0 N1']; subst; inversion N1' as [|? ? Na1 N1'']; subst; inversion N1'' as [|? ? Na2 _]; subst.
  inversion N2 as [|? ? Nc0 N2']; subst; inversion N2' as [|? ? Nc1 N2'']; subst; inversion N2'' as [|? ? Nc2 _]; subst.
  unfold find_fluid_points3, grid_pts; simpl. rewrite for_size_t_spec by assumption.
  rewrite <- filter_flat_map. apply flat_map_ext_in. intros iz Hz.
  rewrite for_size_t_spec by assumption. rewrite <- filter_flat_map. apply flat_map_ext_in. intros iy Hy.
  rewrite for_size_t_spec by assumption. rewrite flat_map_singleton.
  rewrite <- flat_map_filter. apply flat_map_ext_in. intros ix Hx.
  rewrite (in_range_int _ _ _ Ia0 Ic0 Hx), (in_range_int _ _ _ Ia1 Ic1 Hy), (in_range_int _ _ _ Ia2 Ic2 Hz). reflexivity.
Qed.

Lemma strictly_increasing_filter {A} (lt : A -> A -> Prop) t l : strictly_increasing lt l -> strictly_increasing lt (filter t l).
Proof.
  induction l as [|a l IH]; simpl; intros H; [exact I|]. destruct H as [H1 H2]. destruct (t a); simpl; auto.
  split; auto. intros x Hx. apply filter_In in Hx as [Hx _]. auto.
Qed.

Lemma find_fluid_points_spec D contains b h :
  D = 2 \/ D = 3 -> has_dim D b -> length h = D -> box_ints b -> box_nonneg b ->
  (forall p, In p (find_fluid_points D contains b h) <-> in_grid_box b p /\ contains (grid_point h p) = true) /\
  NoDup (find_fluid_points D contains b h) /\ strictly_increasing colex_lt (find_fluid_points D contains b h).
Proof.
  intros HD Hb Hh HI HN.
  assert (E : find_fluid_points D contains b h = filter (fun p => contains (grid_point h p)) (grid_pts b)).
  { destruct HD; subst D; simpl; [apply find_fluid_points2_filter|apply find_fluid_points3_filter]; assumption. }
  rewrite E. destruct (grid_pts_spec D b Hb) as [H1 [H2 [H3 _]]]. split; [|split].
  - intros p. rewrite filter_In, H1. tauto.
  - apply NoDup_filter, H2.
  - apply strictly_increasing_filter, H3.
Qed.

(** ** surface points *)
Lemma find_surf_points_filter surf_p b h :
  find_surf_points_insides surf_p b h
  = map (fun p => (cell_of h p, pos_minus p (pos_times (pos_of_int (cell_of h p)) h)))
        (filter (fun p => point_inside Z.ltb b (cell_of h p)) surf_p).
Proof. induction surf_p as [|p l IH]; simpl; [reflexivity|]. destruct (point_inside Z.ltb b (cell_of h p)); simpl; rewrite IH; reflexivity. Qed.
Lemma find_radial_filter surf_p b h c :
  find_radial_surf_points_insides surf_p b h c
  = map (fun p => pos_minus p c) (filter (fun p => point_inside Z.ltb b (cell_of h p)) surf_p).
Proof. induction surf_p as [|p l IH]; simpl; [reflexivity|]. destruct (point_inside Z.ltb b (cell_of h p)); simpl; rewrite IH; reflexivity. Qed.

Lemma Forall2_imp {A B} (P Q : A -> B -> Prop) l m : (forall a b, P a b -> Q a b) -> Forall2 P l m -> Forall2 Q l m.
Proof. intros H; induction 1; constructor; auto. Qed.
Lemma halfopen_grid b p : in_halfopen Z.le b p <-> in_grid_box b p.
Proof.
  unfold in_halfopen, in_grid_box, slt. split; intros [H1 H2]; split; auto; revert H2; apply Forall2_imp; intros; lia.
Qed.
Lemma point_inside_grid D b p : has_dim D b -> length p = D -> (point_inside Z.ltb b p = true <-> in_grid_box b p).
Proof. intros Hb Hp. rewrite (point_inside_spec Z.le Z.ltb total_order_Z D b p Hb Hp). apply halfopen_grid. Qed.

Lemma cell_of_length h p D : length h = D -> length p = D -> length (cell_of h p) = D.
Proof. intros H1 H2. unfold cell_of, pos_to_int, pos_div, pos_div_assign. rewrite map_length, length_zip_with; lia. Qed.

Lemma surf_offset h p i : length p = length h -> i < length h -> (0 < nth i h 0)%R ->
  let c := nth i (cell_of h p) 0%Z in
  let e := nth i (pos_minus p (pos_times (pos_of_int (cell_of h p)) h)) 0%R in
  (nth i p 0 = IZR c * nth i h 0 + e)%R /\
  (0 <= nth i p 0 -> 0 <= e < nth i h 0)%R /\ (- nth i h 0 < e < nth i h 0)%R.
Proof.
  intros Hl Hi Hh c e.
  assert (Ec : c = Rtrunc (nth i p 0 / nth i h 0)%R).
  { unfold c, cell_of, pos_to_int, pos_div, pos_div_assign.
    rewrite (nth_indep _ 0%Z (Rtrunc 0%R)) by (rewrite map_length, length_zip_with; lia).
    rewrite map_nth. f_equal. rewrite (nth_zip_with Rdiv p h i 0%R 0%R) by lia. reflexivity. }
  assert (Ee : e = (nth i p 0 - IZR c * nth i h 0)%R).
  { unfold e, pos_minus, pos_sub_assign, pos_times, pos_mul_assign.
    assert (HL : length (pos_of_int (cell_of h p)) = length h) by (unfold pos_of_int; rewrite map_length, (cell_of_length h p (length h)); lia).
    rewrite (nth_zip_with Rminus _ _ i 0%R 0%R) by (rewrite ?length_zip_with; lia). f_equal.
    rewrite (nth_zip_with Rmult _ _ i 0%R 0%R) by lia. f_equal.
    unfold pos_of_int. rewrite (map_nth IZR _ 0%Z). reflexivity. }
  set (q := (nth i p 0 / nth i h 0)%R) in *.
  assert (Hq : nth i p 0%R = (q * nth i h 0)%R) by (unfold q; field; lra).
  assert (Ee' : e = ((q - IZR c) * nth i h 0)%R) by (rewrite Ee, Hq; ring).
  split; [rewrite Ee; ring|]. split.
  - intros Hp. assert (0 <= q)%R by (unfold q; apply Rmult_le_pos; [exact Hp|left; apply Rinv_0_lt_compat, Hh]).
    rewrite Rtrunc_nonneg in Ec by assumption. destruct (Int_part_bounds q). rewrite <- Ec in *. rewrite Ee'. nra.
  - pose proof (Rtrunc_bounds q) as Hb. rewrite <- Ec in Hb. rewrite Ee'. nra.
Qed.

(** ** counting over tilings *)
Lemma in_grid_box_len b p : in_grid_box b p -> length p = length (bottom_left b).
Proof. intros [H _]. apply Forall2_len in H. lia. Qed.

Lemma intersect_common bl1 : forall ur1 bl2 ur2 p,
  Forall2 Z.le bl1 p -> Forall2 Z.lt p ur1 -> Forall2 Z.le bl2 p -> Forall2 Z.lt p ur2 ->
  intersect_loop Z.ltb bl1 ur1 bl2 ur2 = true.
Proof.
  induction bl1 as [|a1 bl1 IH]; intros ur1 bl2 ur2 p H1 H2 H3 H4; inversion H1; subst.
  - simpl. destruct ur1, bl2, ur2; reflexivity.
  - inversion H2; subst; inversion H3; subst; inversion H4; subst. simpl.
    repeat match goal with |- context [Z.ltb ?a ?b] => destruct (Z.ltb_spec a b); [lia|] end.
    eapply IH; eassumption.
Qed.
Lemma intersect_common_point b1 b2 p : in_grid_box b1 p -> in_grid_box b2 p -> intersect Z.ltb b1 b2 = true.
Proof. intros [H1 H2] [H3 H4]. unfold intersect. eapply intersect_common; eassumption. Qed.

Lemma overlap_grid D b1 b2 p : has_dim D b1 -> has_dim D b2 ->
  (in_grid_box (box_inside Z.ltb b1 b2) p <-> in_grid_box b1 p /\ in_grid_box b2 p).
Proof.
  intros H1 H2. rewrite <- !halfopen_grid. rewrite (box_inside_overlap Z.ltb).
  apply (overlap_box_halfopen_spec Z.le Z.ltb total_order_Z D); assumption.
Qed.
Lemma overlap_dim D b1 b2 : has_dim D b1 -> has_dim D b2 -> has_dim D (box_inside Z.ltb b1 b2).
Proof. intros [H1 H2] [H3 H4]. unfold has_dim, box_inside; simpl. rewrite !length_zip_with; lia. Qed.

Definition bsum {A} (f : A -> Z) (l : list A) : Z := fold_right (fun a s => (f a + s)%Z) 0%Z l.
Lemma bsum_app {A} (f : A -> Z) l m : bsum f (l ++ m) = (bsum f l + bsum f m)%Z.
Proof. induction l as [|a l IH]; simpl; [reflexivity|]. rewrite IH; lia. Qed.
Lemma bsum_ext {A} (f g : A -> Z) l : (forall a, In a l -> f a = g a) -> bsum f l = bsum g l.
Proof. induction l as [|a l IH]; intros H; simpl; [reflexivity|]. rewrite (H a), IH; auto; [intros; apply H|]; simpl; auto. Qed.
Lemma bsum_zero {A} l : bsum (fun _ : A => 0%Z) l = 0%Z.
Proof. induction l; simpl; lia. Qed.
Lemma bsum_all_zero {A} (f : A -> Z) l : (forall a, In a l -> f a = 0%Z) -> bsum f l = 0%Z.
Proof. intros H. transitivity (bsum (fun _ : A => 0%Z) l); [apply bsum_ext, H|apply bsum_zero]. Qed.
Lemma bsum_plus {A} (f g : A -> Z) l : bsum (fun a => f a + g a)%Z l = (bsum f l + bsum g l)%Z.
Proof. induction l as [|a l IH]; simpl; [reflexivity|]. rewrite IH; lia. Qed.
Lemma bsum_swap {A B} (f : A -> B -> Z) l m :
  bsum (fun a => bsum (f a) m) l = bsum (fun b => bsum (fun a => f a b) l) m.
Proof.
  induction l as [|a l IH]; simpl; [rewrite bsum_zero; reflexivity|]. rewrite IH, <- bsum_plus. reflexivity.
Qed.
Lemma bsum_perm {A} (f : A -> Z) l m : Permutation l m -> bsum f l = bsum f m.
Proof. induction 1; simpl; lia. Qed.
Lemma bsum_filter {A} (f : A -> Z) t l : bsum f (filter t l) = bsum (fun a => if t a then f a else 0%Z) l.
Proof. induction l as [|a l IH]; simpl; [reflexivity|]. destruct (t a); simpl; rewrite IH; lia. Qed.
Lemma length_bsum {A} (l : list A) : Z.of_nat (length l) = bsum (fun _ => 1%Z) l.
Proof. induction l as [|a l IH]; [reflexivity|]. simpl length. rewrite Nat2Z.inj_succ. cbn [bsum fold_right] in *. unfold bsum in IH. rewrite IH. unfold bsum. cbn [fold_right]. lia. Qed.
Lemma fold_left_bsum {A} (g : A -> Z) l : forall s, fold_left (fun s a => (s + g a)%Z) l s = (s + bsum g l)%Z.
Proof. induction l as [|a l IH]; intros s; simpl; [lia|]. rewrite IH; lia. Qed.

Definition inb (b : box Z) (p : list Z) : bool := point_inside Z.ltb b p.

(** A tiling counts each index exactly once. *)
Lemma tiling_count bs B D p :
  tiling bs B -> has_dim D B -> Forall (has_dim D) bs -> length p = D ->
  bsum (fun b => if inb b p then 1%Z else 0%Z) bs = if inb B p then 1%Z else 0%Z.
Proof.
  intros HT HB Hbs Hp. destruct (HT p) as [H1 H2].
  assert (Hi : forall b, In b bs -> (inb b p = true <-> in_grid_box b p)).
  { intros b Hb. rewrite Forall_forall in Hbs. apply (point_inside_grid D); auto. }
  destruct (inb B p) eqn:E.
  - apply (point_inside_grid D) in E; auto. destruct (H1 E) as [k [Hk [Hin Huniq]]].
    clear H1 H2 HT. revert k Hk Hin Huniq. induction bs as [|b bs IH]; intros k Hk Hin Huniq; simpl in *; [lia|].
    inversion Hbs as [|? ? Hb0 Hbs']; subst. destruct k as [|k].
    + rewrite (proj2 (Hi b (or_introl eq_refl)) Hin).
      assert (Z0 : bsum (fun b => if inb b p then 1%Z else 0%Z) bs = 0%Z).
      { (apply bsum_all_zero || (symmetry; apply bsum_all_zero)). intros b' Hb'. destruct (inb b' p) eqn:E'; [|reflexivity].
        apply Hi in E'; [|right; exact Hb']. apply (In_nth _ _ B) in Hb' as [j [Hj <-]].
        assert (S j = 0) by (apply Huniq; [lia|exact E']). lia. }
      rewrite Z0. lia.
    + destruct (inb b p) eqn:E'.
      * apply Hi in E'; [|left; reflexivity]. assert (0 = S k) by (apply Huniq; [lia|exact E']). lia.
      * rewrite Z.add_0_l. apply (IH Hbs' ltac:(intros; apply Hi; right; assumption) k); [lia|exact Hin|].
        intros j Hj Hj'. assert (S j = S k) by (apply Huniq; [lia|exact Hj']). lia.
  - (apply bsum_all_zero || (symmetry; apply bsum_all_zero)). intros b Hb. destruct (inb b p) eqn:E'; [|reflexivity].
    apply Hi in E'; auto. apply (In_nth _ _ B) in Hb as [j [Hj <-]]. apply H2 in E'; auto.
    apply (point_inside_grid D) in E'; auto. unfold inb in E. congruence.
Qed.

(** The three counts of one particle on one box, as sums over the particle's own index box. *)
Section Counts.
  Variables (D : nat) (p : part) (h : vec) (dpart : R) (scale : Z).
  Hypothesis HD : D = 2 \/ D = 3.
  Hypothesis Hh : length h = D.
  Hypothesis Hpb : has_dim D (p_bbox p h).
  Hypothesis Hsurf : Forall (fun q => length q = D) (p_surface p dpart).

  Lemma nb_count b : has_dim D b ->
    m_nb (snd (set_material D p b h dpart scale mat0))
    = bsum (fun q => if inb (p_bbox p h) (cell_of h q) then if inb b (cell_of h q) then 1%Z else 0%Z else 0%Z) (p_surface p dpart).
  Proof.
    intros Hb. unfold set_material. destruct (intersect Z.ltb b (p_bbox p h)) eqn:E; simpl.
    - rewrite find_surf_points_filter, map_length, length_bsum, bsum_filter. apply bsum_ext. intros q Hq.
      rewrite Forall_forall in Hsurf. specialize (Hsurf q Hq).
      assert (HL : length (cell_of h q) = D) by (apply cell_of_length; auto).
      pose proof (point_inside_grid D b _ Hb HL) as P1. pose proof (point_inside_grid D _ _ Hpb HL) as P2.
      pose proof (point_inside_grid D _ _ (overlap_dim D _ _ Hb Hpb) HL) as P3.
      pose proof (overlap_grid D b (p_bbox p h) (cell_of h q) Hb Hpb) as P4. unfold inb.
      destruct (point_inside Z.ltb (box_inside Z.ltb b (p_bbox p h)) (cell_of h q)) eqn:E3,
               (point_inside Z.ltb b (cell_of h q)) eqn:E1, (point_inside Z.ltb (p_bbox p h) (cell_of h q)) eqn:E2; try reflexivity; exfalso.
      all: rewrite <- P1, <- P2, <- P3 in P4; destruct P4 as [P4 P5]; try (destruct (P4 eq_refl); discriminate); try (discriminate (P5 (conj eq_refl eq_refl))).
    - (apply bsum_all_zero || (symmetry; apply bsum_all_zero)). intros q Hq. rewrite Forall_forall in Hsurf. specialize (Hsurf q Hq).
      assert (HL : length (cell_of h q) = D) by (apply cell_of_length; auto). unfold inb.
      destruct (point_inside Z.ltb (p_bbox p h) (cell_of h q)) eqn:E2; [|reflexivity].
      destruct (point_inside Z.ltb b (cell_of h q)) eqn:E1; [|reflexivity]. exfalso.
      apply (point_inside_grid D _ _ Hpb HL) in E2. apply (point_inside_grid D _ _ Hb HL) in E1.
      rewrite (intersect_common_point _ _ _ E1 E2) in E. discriminate.
  Qed.

  (** points of the overlap = points of the particle's box that are in b *)
  Lemma overlap_perm b : has_dim D b ->
    Permutation (grid_pts (box_inside Z.ltb b (p_bbox p h))) (filter (inb b) (grid_pts (p_bbox p h))).
  Proof.
    intros Hb. destruct (grid_pts_spec D _ (overlap_dim D _ _ Hb Hpb)) as [H1 [H2 _]].
    destruct (grid_pts_spec D _ Hpb) as [H3 [H4 _]].
    apply NoDup_Permutation; [exact H2|apply NoDup_filter, H4|].
    intros q. rewrite H1, filter_In, H3, (overlap_grid D) by assumption. split.
    - intros [A B]. split; [exact B|]. apply (point_inside_grid D); auto. rewrite (in_grid_box_len _ _ A). apply Hb.
    - intros [A B]. split; [|exact A]. apply (point_inside_grid D) in B; auto. rewrite (in_grid_box_len _ _ A). apply Hpb.
  Qed.
  Lemma no_intersect b q : has_dim D b -> intersect Z.ltb b (p_bbox p h) = false -> In q (grid_pts (p_bbox p h)) -> inb b q = false.
  Proof.
    intros Hb E Hq. destruct (grid_pts_spec D _ Hpb) as [H3 _]. apply H3 in Hq.
    destruct (inb b q) eqn:E1; [|reflexivity]. exfalso.
    apply (point_inside_grid D) in E1; auto; [|rewrite (in_grid_box_len _ _ Hq); apply Hpb].
    rewrite (intersect_common_point _ _ _ E1 Hq) in E. discriminate.
  Qed.

  (** number of sub-grid points of cell [q] inside the particle *)
  Definition sub_count (q : list Z) : Z :=
    bsum (fun s => if p_contains p (pos_plus (pos_times (pos_of_int q) h) (pos_times (pos_of_int s) (map (fun x => (x / IZR scale)%R) h))) then 1%Z else 0%Z)
         (grid_pts (mkbox (repeat 0%Z D) (repeat scale D))).
  Lemma kernel_num_count_spec q n :
    kernel_num_count D (p_contains p) h (map (fun x => (x / IZR scale)%R) h) scale q n = (n + sub_count q)%Z.
  Proof.
    unfold kernel_num_count, sub_count.
    assert (HB : has_dim D (mkbox (repeat 0%Z D) (repeat scale D))) by (split; simpl; apply repeat_length).
    rewrite (proj2 (proj2 (proj2 (grid_pts_spec D _ HB)))). rewrite <- fold_left_bsum.
    generalize (grid_pts (mkbox (repeat 0%Z D) (repeat scale D))) as l. intros l. revert n.
    induction l as [|s l IH]; intros n; simpl; [reflexivity|]. rewrite IH. f_equal.
    match goal with |- context [p_contains p ?v] => destruct (p_contains p v) end; lia.
  Qed.
  Lemma num_count b old : has_dim D b ->
    m_num (snd (set_material D p b h dpart scale old))
    = (m_num old + bsum (fun q => if inb b q then sub_count q else 0%Z) (grid_pts (p_bbox p h)))%Z.
  Proof.
    intros Hb. unfold set_material. destruct (intersect Z.ltb b (p_bbox p h)) eqn:E; simpl.
    - rewrite (proj2 (proj2 (proj2 (grid_pts_spec D _ (overlap_dim D _ _ Hb Hpb))))).
      rewrite <- bsum_filter, <- (bsum_perm _ _ _ (overlap_perm b Hb)), <- fold_left_bsum.
      generalize (grid_pts (box_inside Z.ltb b (p_bbox p h))) as l. intros l. generalize (m_num old). 
      induction l as [|q l IH]; intros n; simpl; [reflexivity|]. rewrite kernel_num_count_spec. apply IH.
    - replace (bsum _ _) with 0%Z; [lia|]. symmetry. apply bsum_all_zero.
      intros q Hq. rewrite (no_intersect b q Hb E Hq). reflexivity.
  Qed.
  Lemma fluid_count b : has_dim D b -> box_ints (box_inside Z.ltb b (p_bbox p h)) -> box_nonneg (box_inside Z.ltb b (p_bbox p h)) ->
    Z.of_nat (fst (set_material D p b h dpart scale mat0))
    = bsum (fun q => if inb b q then if p_contains p (grid_point h q) then 1%Z else 0%Z else 0%Z) (grid_pts (p_bbox p h)).
  Proof.
    intros Hb HI HN. unfold set_material. destruct (intersect Z.ltb b (p_bbox p h)) eqn:E; cbn [fst].
    - rewrite <- bsum_filter, <- (bsum_perm _ _ _ (overlap_perm b Hb)), <- bsum_filter, length_bsum. f_equal.
      pose proof (overlap_dim D _ _ Hb Hpb) as Hov.
      destruct HD as [E2|E2]; rewrite E2 in *; simpl; [apply find_fluid_points2_filter|apply find_fluid_points3_filter]; assumption.
    - (apply bsum_all_zero || (symmetry; apply bsum_all_zero)). intros q Hq. rewrite (no_intersect b q Hb E Hq). reflexivity.
  Qed.

  Lemma sum_over_tiling {A} (g : A -> Z) (idx : A -> list Z) bs B l :
    tiling bs B -> has_dim D B -> Forall (has_dim D) bs -> (forall a, In a l -> length (idx a) = D) ->
    bsum (fun b => bsum (fun a => if inb b (idx a) then g a else 0%Z) l) bs
    = bsum (fun a => if inb B (idx a) then g a else 0%Z) l.
  Proof.
    intros HT HB Hbs Hl. rewrite bsum_swap. apply bsum_ext. intros a Ha.
    transitivity (g a * bsum (fun b => if inb b (idx a) then 1 else 0) bs)%Z.
    - clear. induction bs as [|b bs IH]; simpl; [lia|]. rewrite IH. destruct (inb b (idx a)); lia.
    - rewrite (tiling_count bs B D (idx a)); auto. destruct (inb B (idx a)); lia.
  Qed.

  Lemma nb_tiling bs B : tiling bs B -> has_dim D B -> Forall (has_dim D) bs ->
    bsum (fun b => m_nb (snd (set_material D p b h dpart scale mat0))) bs
    = m_nb (snd (set_material D p B h dpart scale mat0)).
  Proof.
    intros HT HB Hbs. rewrite nb_count by exact HB.
    rewrite (bsum_ext _ (fun b => bsum (fun q => if inb b (cell_of h q) then (if inb (p_bbox p h) (cell_of h q) then 1%Z else 0%Z) else 0%Z) (p_surface p dpart))).
    - rewrite (sum_over_tiling _ _ bs B) by (auto; intros q Hq; rewrite Forall_forall in Hsurf; apply cell_of_length; auto).
      apply bsum_ext. intros q _. destruct (inb B _), (inb (p_bbox p h) _); reflexivity.
    - intros b Hb. rewrite Forall_forall in Hbs. rewrite nb_count by auto. apply bsum_ext. intros q _. destruct (inb b _), (inb (p_bbox p h) _); reflexivity.
  Qed.
  Lemma pbox_len q : In q (grid_pts (p_bbox p h)) -> length q = D.
  Proof. intros Hq. apply (grid_pts_spec D _ Hpb) in Hq. rewrite (in_grid_box_len _ _ Hq). apply Hpb. Qed.
  Lemma num_tiling bs B : tiling bs B -> has_dim D B -> Forall (has_dim D) bs ->
    bsum (fun b => m_num (snd (set_material D p b h dpart scale mat0))) bs
    = m_num (snd (set_material D p B h dpart scale mat0)).
  Proof.
    intros HT HB Hbs. rewrite num_count by exact HB.
    rewrite (bsum_ext _ (fun b => bsum (fun q => if inb b q then sub_count q else 0%Z) (grid_pts (p_bbox p h)))).
    - rewrite (sum_over_tiling sub_count (fun q => q) bs B) by (auto using pbox_len). reflexivity.
    - intros b Hb. rewrite Forall_forall in Hbs. rewrite num_count by auto. simpl. lia.
  Qed.
  Lemma fluid_tiling bs B : tiling bs B -> has_dim D B -> Forall (has_dim D) bs ->
    (forall b, In b (B :: bs) -> box_ints (box_inside Z.ltb b (p_bbox p h)) /\ box_nonneg (box_inside Z.ltb b (p_bbox p h))) ->
    bsum (fun b => Z.of_nat (fst (set_material D p b h dpart scale mat0))) bs
    = Z.of_nat (fst (set_material D p B h dpart scale mat0)).
  Proof.
    intros HT HB Hbs Hok. destruct (Hok B (or_introl eq_refl)) as [I0 N0]. rewrite fluid_count by assumption.
    rewrite (bsum_ext _ (fun b => bsum (fun q => if inb b q then (if p_contains p (grid_point h q) then 1%Z else 0%Z) else 0%Z) (grid_pts (p_bbox p h)))).
    - rewrite (sum_over_tiling _ (fun q => q) bs B) by (auto using pbox_len). reflexivity.
    - intros b Hb. rewrite Forall_forall in Hbs. destruct (Hok b (or_intror Hb)) as [I1 N1]. rewrite fluid_count by auto. reflexivity.
  Qed.
End Counts.

(** The whole [set_materials]: particle [i]'s entry is its own [set_material]. *)
Lemma set_materials_nth D parts b h dpart scale i dp :
  i < length parts ->
  nth i (snd (set_materials_local D parts b h dpart scale (repeat mat0 (length parts)))) mat0
  = snd (set_material D (nth i parts dp) b h dpart scale mat0).
Proof.
  revert i; induction parts as [|p ps IH]; intros i Hi; simpl in *; [lia|].
  destruct (set_material D p b h dpart scale mat0) as [n m] eqn:E1.
  destruct (set_materials_local D ps b h dpart scale (repeat mat0 (length ps))) as [n' ms] eqn:E2. simpl.
  destruct i as [|i]; simpl; [rewrite E1; reflexivity|]. rewrite <- IH by lia. reflexivity.
Qed.
Lemma allreduce_bsum field locals i : allreduce field locals i = bsum (fun r => field (nth i (snd r) mat0)) locals.
Proof.
  unfold allreduce. change (fold_left Z.add ?l 0%Z) with (fold_left (fun s a => (s + a)%Z) l 0%Z).
  rewrite fold_left_bsum. rewrite Z.add_0_l. induction locals as [|r l IH]; simpl; [reflexivity|]. f_equal; exact IH.
Qed.
Lemma bsum_map {A B} (f : B -> Z) (g : A -> B) l : bsum f (map g l) = bsum (fun a => f (g a)) l.
Proof. induction l as [|a l IH]; simpl; [reflexivity|]. rewrite IH; reflexivity. Qed.

(** ** pair quantities *)
Open Scope R_scope.
Definition sqsum (l : list R) : R := fold_right (fun x s => x * x + s) 0 l.
Lemma distance_sqsum c1 c2 : distance c1 c2 = sqrt (sqsum (zip_with Rminus c1 c2)).
Proof.
  unfold distance, position_diff, sqsum. f_equal. generalize (zip_with Rminus c1 c2) as l. intros l.
  assert (H : forall s, fold_left (fun acc x => acc + x * x) l s = s + fold_right (fun x s => x * x + s) 0 l).
  { induction l as [|x l IH]; intros s; simpl; [ring|]. rewrite IH; ring. }
  rewrite H; ring.
Qed.
Lemma sqsum_nonneg l : 0 <= sqsum l.
Proof. induction l as [|x l IH]; simpl; [lra|]. nra. Qed.
Definition dotl (l m : list R) : R := fold_right Rplus 0 (zip_with Rmult l m).
Lemma cauchy_schwarz l : forall m, length l = length m -> dotl l m * dotl l m <= sqsum l * sqsum m.
Proof.
  induction l as [|a l IH]; intros [|b m] H; simpl in H; try discriminate.
  - unfold dotl; simpl; lra.
  - specialize (IH m ltac:(lia)). unfold dotl in *; simpl. fold (sqsum l) (sqsum m).
    set (S := fold_right Rplus 0 (zip_with Rmult l m)) in *.
    pose proof (sqsum_nonneg l) as HA. pose proof (sqsum_nonneg m) as HB.
    set (A := sqsum l) in *. set (B := sqsum m) in *.
    assert (H2 : 2 * (a * b * S) <= a * a * B + b * b * A).
    { apply Rnot_lt_le; intros Hc.
      assert (Hp : 0 <= a * a * B + b * b * A) by (pose proof (Rle_0_sqr a); pose proof (Rle_0_sqr b); unfold Rsqr in *; nra).
      assert (Hsq : (a * a * B + b * b * A) * (a * a * B + b * b * A) < (2 * (a * b * S)) * (2 * (a * b * S))) by nra.
      assert (Hk : (2 * (a * b * S)) * (2 * (a * b * S)) <= 4 * (a * a * (b * b)) * (A * B)).
      { replace ((2 * (a * b * S)) * (2 * (a * b * S))) with (4 * (a * a * (b * b)) * (S * S)) by ring.
        apply Rmult_le_compat_l; [|exact IH]. pose proof (Rle_0_sqr (a * b)); unfold Rsqr in *; lra. }
      pose proof (Rle_0_sqr (a * a * B - b * b * A)); unfold Rsqr in *. nra. }
    nra.
Qed.
Lemma sqsum_triangle u : forall v, length u = length v ->
  sqrt (sqsum (zip_with Rplus u v)) <= sqrt (sqsum u) + sqrt (sqsum v).
Proof.
  intros v H. pose proof (sqsum_nonneg u) as HA. pose proof (sqsum_nonneg v) as HB.
  pose proof (sqrt_pos (sqsum u)) as SA. pose proof (sqrt_pos (sqsum v)) as SB.
  assert (E : sqsum (zip_with Rplus u v) = sqsum u + sqsum v + 2 * dotl u v).
  { clear -H. revert v H; induction u as [|a u IH]; intros [|b v] H; simpl in H; try discriminate; unfold dotl; simpl; [ring|].
    injection H as H. rewrite (IH v H). unfold dotl; ring. }
  pose proof (cauchy_schwarz u v H) as HC.
  assert (HD : dotl u v <= sqrt (sqsum u) * sqrt (sqsum v)).
  { rewrite <- sqrt_mult by assumption. destruct (Rle_dec 0 (dotl u v)) as [Hp|Hn].
    - rewrite <- (sqrt_square (dotl u v)) by exact Hp. apply sqrt_le_1_alt, HC.
    - pose proof (sqrt_pos (sqsum u * sqsum v)). lra. }
  rewrite <- (sqrt_square (sqrt (sqsum u) + sqrt (sqsum v))) by lra. apply sqrt_le_1_alt. rewrite E.
  pose proof (sqrt_sqrt _ HA). pose proof (sqrt_sqrt _ HB). nra.
Qed.
Lemma sqsum_zero l : sqsum l = 0 -> Forall (fun x => x = 0) l.
Proof.
  induction l as [|x l IH]; simpl; intros H; constructor; pose proof (sqsum_nonneg l); [nra|]. apply IH. nra.
Qed.
Lemma distance_laws c1 c2 c3 : length c1 = length c2 -> length c2 = length c3 ->
  0 <= distance c1 c2 /\ distance c1 c2 = distance c2 c1 /\
  (distance c1 c2 = 0 <-> c1 = c2) /\ distance c1 c3 <= distance c1 c2 + distance c2 c3.
Proof.
  intros H12 H23. rewrite !distance_sqsum. split; [apply sqrt_pos|]. split; [|split].
  - f_equal. clear. revert c2; induction c1 as [|a c1 IH]; intros [|b c2]; simpl; try reflexivity. rewrite IH; ring.
  - split.
    + intros H. apply sqrt_eq_0 in H; [|apply sqsum_nonneg]. apply sqsum_zero in H.
      clear -H H12. revert c2 H H12; induction c1 as [|a c1 IH]; intros [|b c2] H H12; simpl in *; try discriminate; [reflexivity|].
      inversion H; subst. f_equal; [lra|]. apply IH; auto.
    + intros ->. replace (sqsum _) with 0; [apply sqrt_0|]. symmetry. clear. induction c2 as [|b c2 IH]; simpl; [reflexivity|]. rewrite IH; ring.
  - replace (zip_with Rminus c1 c3) with (zip_with Rplus (zip_with Rminus c1 c2) (zip_with Rminus c2 c3)).
    + apply sqsum_triangle. rewrite !length_zip_with; lia.
    + clear -H12 H23. revert c2 c3 H12 H23; induction c1 as [|a c1 IH]; intros [|b c2] [|c c3] H12 H23; simpl in *; try discriminate; [reflexivity|].
      f_equal; [ring|]. apply IH; lia.
Qed.
Close Scope R_scope.
