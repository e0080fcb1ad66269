(** C65: the sizes of the matrix-free operators. *)
From Coq Require Import Permutation.
From Verif Require Import Base M_Geometry S_Geometry P_Geometry M_Shapes M_Particle S_Particle P_Particle M_Quadrature S_Fem M_MatElem M_Mesh M_Operator S_Operator P_Mesh P_Operator P_Stokes Prop_Operator Prop_Operator2.
Local Open Scope Z_scope.

Lemma zprod_snoc l a : zprod (l ++ [a]) = zprod l * a. Proof. unfold zprod. rewrite fold_left_app. reflexivity. Qed.
Lemma firstn_S_nth l : forall k, (k < length l)%nat -> firstn (S k) l = firstn k l ++ [nth k l 0].
Proof. induction l as [|a l IH]; intros [|k] H; cbn in *; try lia; [reflexivity|]. rewrite <- IH by lia. reflexivity. Qed.
Lemma nth_extents b : forall k, (k < length (bottom_left b))%nat -> (k < length (upper_right b))%nat -> nth k (extents b) 0 = nth k (upper_right b) 0 - nth k (bottom_left b) 0.
Proof.
  destruct b as [lo up]. unfold extents. cbn [bottom_left upper_right]. revert up. induction lo as [|a lo IH]; intros [|c up] [|k] H1 H2; cbn in *; try lia. apply IH; lia.
Qed.
Lemma extents_length b : length (bottom_left b) = length (upper_right b) -> length (extents b) = length (bottom_left b).
Proof.
  destruct b as [lo up]. unfold extents. cbn [bottom_left upper_right]. revert up. induction lo as [|a lo IH]; intros [|c up] H; cbn in *; try lia. rewrite IH; lia.
Qed.
Lemma pts_length b D : has_dim D b -> Forall2 Z.le (bottom_left b) (upper_right b) -> forall k q, (k <= D)%nat -> Z.of_nat (length (pts b k q)) = zprod (firstn k (extents b)).
Proof.
  intros [L1 L2] HL. induction k as [|k IH]; intros q Hk; [reflexivity|]. cbn [pts].
  assert (E : forall l, Z.of_nat (length (flat_map (fun z => pts b k (set_nth k z q)) l)) = Z.of_nat (length l) * zprod (firstn k (extents b))).
  { induction l as [|a l IHl]; [reflexivity|]. cbn [flat_map length]. rewrite app_length, Nat2Z.inj_add, IHl, IH by lia. lia. }
  rewrite E. rewrite firstn_S_nth by (rewrite extents_length; lia). rewrite zprod_snoc, nth_extents by lia.
  assert (nth k (bottom_left b) 0 <= nth k (upper_right b) 0). { apply (P_Geometry.Forall2_nth_iff Z.le _ _ 0 0) in HL. apply HL. lia. }
  unfold zrange. rewrite map_length, seq_length, Z2Nat.id by lia. ring.
Qed.
Lemma box_count b D N : has_dim D b -> Forall2 Z.le (bottom_left b) (upper_right b) -> enumerates N b -> Z.of_nat (length N) = zprod (extents b).
Proof.
  intros HB HL [N1 I1]. destruct (grid_pts_enum D b HB) as [N2 I2]. assert (P : Permutation N (grid_pts b)). { apply NoDup_Permutation; auto. intros p. rewrite I1, I2. reflexivity. }
  rewrite (Permutation_length P). unfold grid_pts. rewrite (pts_length b D HB HL) by (destruct HB; lia). rewrite firstn_all2; [reflexivity|]. rewrite extents_length; destruct HB; lia.
Qed.
Lemma extents_nodes m : extents (nodes_box m) = m.
Proof. unfold extents, nodes_box. cbn [bottom_left upper_right]. induction m as [|a m IH]; [reflexivity|]. cbn. rewrite IH. f_equal. lia. Qed.
Lemma view_le m per dof dm : view_ok m per dof dm -> Forall2 Z.le (bottom_left (g_own dm)) (upper_right (g_own dm)). Proof. intros (_ & _ & _ & _ & H & _). exact H. Qed.
Lemma nodes_le m : Forall (fun n => 1 <= n) m -> Forall2 Z.le (bottom_left (nodes_box m)) (upper_right (nodes_box m)).
Proof. intros H. cbn. induction H; constructor; auto; lia. Qed.
Definition zsum_of {A} (f : A -> Z) (l : list A) : Z := fold_right (fun a s => f a + s) 0 l.
Lemma owned_sum m per dof ds : length per = length m -> Forall (fun n => 1 <= n) m -> distributes m per dof ds -> zsum_of (fun dm => zprod (extents (g_own dm))) ds = zprod m.
Proof.
  intros Lp Hm [V T]. assert (HB : has_dim (length m) (nodes_box m)) by (split; cbn; rewrite ?map_length; reflexivity).
  assert (HO : Forall (has_dim (length m)) (map g_own ds)). { rewrite Forall_map. eapply Forall_impl; [|exact V]. intros dm Hv. apply (view_dims m per dof dm Hv Lp). }
  pose proof (Permutation_length (tiling_perm (length m) _ _ T HB HO)) as P.
  rewrite <- (extents_nodes m) at 1. rewrite <- (box_count (nodes_box m) (length m) (grid_pts (nodes_box m)) HB (nodes_le m Hm) (grid_pts_enum _ _ HB)), <- P. clear P T HB.
  induction ds as [|dm ds IH]; [reflexivity|]. inversion V as [|? ? V1 V2]; subst. cbn [map] in HO. inversion HO as [|? ? O1 O2]; subst. cbn [zsum_of fold_right map flat_map]. fold (zsum_of (fun dm => zprod (extents (g_own dm))) ds). rewrite IH by auto.
  rewrite app_length, Nat2Z.inj_add. f_equal. symmetry. apply (box_count _ (length m)); [exact O1|eapply view_le, V1|apply (grid_pts_enum (length m)), O1].
Qed.
Lemma zsum_lin {A} (f g : A -> Z) k l : zsum_of (fun a => k * f a + g a) l = k * zsum_of f l + zsum_of g l.
Proof. induction l as [|a l IH]; [cbn; lia|]. cbn [zsum_of fold_right] in *. unfold zsum_of in IH. rewrite IH. ring. Qed.
Lemma zsum_map {A B} (f : B -> Z) (g : A -> B) l : zsum_of f (map g l) = zsum_of (fun a => f (g a)) l.
Proof. induction l as [|a l IH]; [reflexivity|]. cbn. unfold zsum_of in IH. rewrite IH. reflexivity. Qed.
Lemma zsum_ext {A} (f g : A -> Z) l : (forall a, In a l -> f a = g a) -> zsum_of f l = zsum_of g l.
Proof. induction l as [|a l IH]; intros H; [reflexivity|]. cbn [zsum_of fold_right]. f_equal; [apply H; left; reflexivity|apply IH; intros b Hb; apply H; right; exact Hb]. Qed.

(** the number of rows a process declares for the composite (velocity, pressure) matrix is the number of unknowns at the nodes it owns; the total it declares is the
    number of unknowns of the two grids, the same for all processes, and the sum of the local numbers *)
Theorem C65_matrix_sizes : forall mp per D dms, grid_ok mp per -> stokes_layout mp per D dms ->
  (forall dm Nv Np, In dm dms -> enumerates Nv (g_own (fst dm)) -> enumerates Np (g_own (snd dm)) -> fst (get_DM_sizes [fst dm; snd dm]) = Z.of_nat (D * length Nv + length Np)) /\
  (forall dm Nv Np, In dm dms -> enumerates Nv (nodes_box (refined_size mp per)) -> enumerates Np (nodes_box mp) -> snd (get_DM_sizes [fst dm; snd dm]) = Z.of_nat (D * length Nv + length Np)) /\
  (forall dm, In dm dms -> zsum_of (fun dm' => fst (get_DM_sizes [fst dm'; snd dm'])) dms = snd (get_DM_sizes [fst dm; snd dm])).
Proof.
  intros mp per D dms HG (DV & DP & _). pose proof HG as (H23 & Lp & Hm). pose proof (refined_grid mp per HG) as (_ & Lv & Hv). set (mv := refined_size mp per) in *.
  destruct DV as [VV TV] eqn:EV. destruct DP as [VP TP] eqn:EP. pose proof VV as VV'. pose proof VP as VP'. rewrite Forall_map, Forall_forall in VV', VP'.
  assert (SZ : forall dm, In dm dms -> get_DM_sizes [fst dm; snd dm] = (Z.of_nat D * zprod (extents (g_own (fst dm))) + zprod (extents (g_own (snd dm))), Z.of_nat D * zprod mv + zprod mp)).
  { intros dm Hd. pose proof (VV' dm Hd) as (S1 & _ & S2 & _). pose proof (VP' dm Hd) as (S3 & _ & S4 & _). unfold get_DM_sizes. cbn [fold_left fst snd]. rewrite S1, S2, S3, S4. f_equal; lia. }
  assert (Dv : has_dim (length mv) (nodes_box mv)) by (split; cbn; rewrite ?map_length; reflexivity). assert (Dp : has_dim (length mp) (nodes_box mp)) by (split; cbn; rewrite ?map_length; reflexivity).
  split; [|split].
  - intros dm Nv Np Hd E1 E2. rewrite (SZ dm Hd). cbn [fst]. rewrite Nat2Z.inj_add, Nat2Z.inj_mul.
    rewrite (box_count _ (length mv) _ (proj1 (view_dims mv per D (fst dm) (VV' dm Hd) Lv)) (view_le _ _ _ _ (VV' dm Hd)) E1), (box_count _ (length mp) _ (proj1 (view_dims mp per 1 (snd dm) (VP' dm Hd) Lp)) (view_le _ _ _ _ (VP' dm Hd)) E2). reflexivity.
  - intros dm Nv Np Hd E1 E2. rewrite (SZ dm Hd). cbn [snd]. rewrite Nat2Z.inj_add, Nat2Z.inj_mul.
    rewrite (box_count _ _ _ Dv (nodes_le mv Hv) E1), (box_count _ _ _ Dp (nodes_le mp Hm) E2), !extents_nodes. reflexivity.
  - intros dm Hd. rewrite (SZ dm Hd). cbn [snd]. rewrite (zsum_ext _ (fun dm' => Z.of_nat D * zprod (extents (g_own (fst dm'))) + zprod (extents (g_own (snd dm'))))) by (intros a Ha; rewrite (SZ a Ha); reflexivity).
    rewrite (zsum_lin (fun dm' => zprod (extents (g_own (fst dm')))) (fun dm' => zprod (extents (g_own (snd dm'))))).
    rewrite <- (zsum_map (fun dm => zprod (extents (g_own dm))) fst), <- (zsum_map (fun dm => zprod (extents (g_own dm))) snd). rewrite (owned_sum mv per D _ Lv Hv (conj VV TV)), (owned_sum mp per 1 _ Lp Hm (conj VP TP)). reflexivity.
Qed.
Example ex_sizes : grid_ok ex_mp ex_per /\ stokes_layout ex_mp ex_per 2 ex_dms. Proof. split; [apply ex_grid|apply ex_layout]. Qed.
Print Assumptions C65_matrix_sizes.
