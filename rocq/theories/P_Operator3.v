(** From weak forms to operator properties. *)
From Coq Require Import Permutation.
From Coquelicot Require Import Coquelicot.
From Verif Require Import Base M_Geometry S_Geometry P_Geometry M_Particle S_Particle P_Particle M_Quadrature S_Fem M_MatElem P_MatElem P_Energy M_Mesh M_Operator S_Operator P_Mesh P_Operator P_Operator2 P_Global P_Stokes.
Open Scope R_scope.

Definition represents (op : dmda -> lvec -> lvec -> outcome lvec) (m : list Z) (per : list bool) (dof : nat) (F : list (list Z) -> field -> field -> R) : Prop :=
  forall dms x, distributes m per dof dms -> exists y, diag_block_matrix_raw op dms x = Ok y /\
    forall N E, enumerates N (nodes_box m) -> enumerates E (cells_box m per) -> forall v, inner N dof y v = F E v x.

Lemma rep_diag m per dof M : grid_ok m per -> represents (diag_block_mult (kernel_diag_block M)) m per dof (fun E v x => scalar_form m per E dof M v x).
Proof. intros HG dms x HD. apply diag_weak; assumption. Qed.
Lemma rep_tens m per dof M : grid_ok m per -> represents (diag_block_mult (kernel_tensor_block M)) m per dof (fun E v x => tensor_form m per E dof M v x).
Proof. intros HG dms x HD. apply tens_weak; assumption. Qed.

Definition N0 m := box_points_list (nodes_box m).
Definition E0 m per := box_points_list (cells_box m per).
Lemma N0_enum m : enumerates (N0 m) (nodes_box m).
Proof. eapply box_points_list_enum, nodes_dim. Qed.
Lemma E0_enum m per : length per = length m -> enumerates (E0 m per) (cells_box m per).
Proof. intros H. eapply box_points_list_enum, cells_dim, H. Qed.

Lemma same_field_weak m dof y y' : (forall v, inner (N0 m) dof y v = inner (N0 m) dof y' v) -> same_field m dof y y'.
Proof. intros H n d Hn Hd. eapply (inner_ext (N0 m) dof); eauto. apply N0_enum. apply N0_enum, Hn. Qed.

Section Rep.
  Variables (op : dmda -> lvec -> lvec -> outcome lvec) (m : list Z) (per : list bool) (dof : nat) (F : list (list Z) -> field -> field -> R).
  Hypothesis HG : grid_ok m per.
  Hypothesis HR : represents op m per dof F.
  Let HL : length per = length m := proj1 (proj2 HG).
  Lemma rep_layout dms dms' x : distributes m per dof dms -> distributes m per dof dms' ->
    exists y y', diag_block_matrix_raw op dms x = Ok y /\ diag_block_matrix_raw op dms' x = Ok y' /\ same_field m dof y y'.
  Proof.
    intros H H'. destruct (HR dms x H) as [y [E1 W1]]. destruct (HR dms' x H') as [y' [E2 W2]]. exists y, y'. repeat split; auto.
    apply same_field_weak. intros v. rewrite (W1 _ _ (N0_enum m) (E0_enum m per HL)), (W2 _ _ (N0_enum m) (E0_enum m per HL)). reflexivity.
  Qed.
  Lemma rep_linear (HF : forall E v a b x x', F E v (lin a b x x') = a * F E v x + b * F E v x') dms a b x x' : distributes m per dof dms ->
    exists y y' z, diag_block_matrix_raw op dms x = Ok y /\ diag_block_matrix_raw op dms x' = Ok y' /\ diag_block_matrix_raw op dms (lin a b x x') = Ok z /\
      same_field m dof z (lin a b y y').
  Proof.
    intros H. destruct (HR dms x H) as [y [E1 W1]]. destruct (HR dms x' H) as [y' [E2 W2]]. destruct (HR dms (lin a b x x') H) as [z [E3 W3]].
    exists y, y', z. repeat split; auto. apply same_field_weak. intros v.
    rewrite inner_lin, (W1 _ _ (N0_enum m) (E0_enum m per HL)), (W2 _ _ (N0_enum m) (E0_enum m per HL)), (W3 _ _ (N0_enum m) (E0_enum m per HL)). apply HF.
  Qed.
  Lemma rep_sym (HF : forall E u v, F E u v = F E v u) dms x x' y y' N : distributes m per dof dms ->
    diag_block_matrix_raw op dms x = Ok y -> diag_block_matrix_raw op dms x' = Ok y' -> enumerates N (nodes_box m) -> inner N dof y x' = inner N dof x y'.
  Proof.
    intros H Ey Ey' HN. destruct (HR dms x H) as [z [E1 W1]]. destruct (HR dms x' H) as [z' [E2 W2]]. rewrite E1 in Ey. rewrite E2 in Ey'. injection Ey as ->. injection Ey' as ->.
    rewrite (inner_sym N dof x y'), (W1 _ _ HN (E0_enum m per HL)), (W2 _ _ HN (E0_enum m per HL)). apply HF.
  Qed.
  Lemma rep_q dms x y N : distributes m per dof dms -> diag_block_matrix_raw op dms x = Ok y -> enumerates N (nodes_box m) -> inner N dof y x = F (E0 m per) x x.
  Proof.
    intros H Ey HN. destruct (HR dms x H) as [z [E1 W1]]. rewrite E1 in Ey. injection Ey as ->. apply (W1 _ _ HN (E0_enum m per HL)).
  Qed.
End Rep.

Lemma Lsum_nonneg {A} (f : A -> R) l : (forall a, In a l -> 0 <= f a) -> 0 <= Lsum f l.
Proof.
  induction l as [|a l IH]; intros H; [unfold Lsum; simpl; lra|]. rewrite Lsum_cons. pose proof (H a (or_introl eq_refl)).
  assert (0 <= Lsum f l) by (apply IH; intros; apply H; right; auto). lra.
Qed.
Lemma Lsum_zero_all {A} (f : A -> R) l : (forall a, In a l -> 0 <= f a) -> Lsum f l = 0 -> forall a, In a l -> f a = 0.
Proof.
  induction l as [|a l IH]; intros H HS b Hb; [destruct Hb|]. rewrite Lsum_cons in HS. pose proof (H a (or_introl eq_refl)).
  assert (0 <= Lsum f l) by (apply Lsum_nonneg; intros; apply H; right; auto).
  destruct Hb as [<-|Hb]; [lra|]. apply IH; auto; [intros; apply H; right; auto|lra].
Qed.
Lemma Rsum_nonneg' n (f : nat -> R) : (forall i, (i < n)%nat -> 0 <= f i) -> 0 <= Rsum n f.
Proof. induction n; simpl; intros H; [lra|]. pose proof (H n ltac:(lia)). assert (0 <= Rsum n f) by (apply IHn; intros; apply H; lia). lra. Qed.
Lemma Rsum_zero_all n (f : nat -> R) : (forall i, (i < n)%nat -> 0 <= f i) -> Rsum n f = 0 -> forall i, (i < n)%nat -> f i = 0.
Proof.
  induction n; simpl; intros H HS i Hi; [lia|]. pose proof (H n ltac:(lia)). assert (0 <= Rsum n f) by (apply Rsum_nonneg'; intros; apply H; lia).
  destruct (Nat.eq_dec i n) as [->|]; [lra|]. apply IHn; try lia; [intros; apply H; lia|lra].
Qed.

(** every node is a vertex of a cell *)
Lemma node_in_cell m : forall per n, length per = length m -> has_cells m per -> in_grid_box (nodes_box m) n ->
  exists e, in_grid_box (cells_box m per) e /\ near e n.
Proof.
  unfold in_grid_box, nodes_box, cells_box, has_cells, near. cbn [bottom_left upper_right].
  induction m as [|z m IH]; intros [|b per] n HL HC [H1 H2]; cbn [map zip_with length] in *; try lia.
  - inversion H1; subst. exists []. repeat split; constructor.
  - inversion HC as [|? ? ? ? HZ HC']; subst. inversion H1 as [|? y ? n' K1 K1']; subst. inversion H2 as [|? ? ? ? K2 K2']; subst.
    destruct (IH per n') as (e & [I1 I2] & I3); auto; try lia.
    exists ((if Z.eqb y (z - 1) && negb b then (y - 1)%Z else y) :: e).
    repeat split; constructor; auto; destruct (Z.eqb_spec y (z - 1)), b; cbn [andb negb]; try lia; destruct HZ; try discriminate; lia.
Qed.

Section Positive.
  Variables (h : list R) (m : list Z) (per : list bool).
  Hypothesis HG : grid_ok m per.
  Hypothesis HS : steps_ok h m.
  Variables (x : field) (dof : nat).
  Let HL : length per = length m := proj1 (proj2 HG).
  Lemma lap_terms e d : 0 <= qform (2 ^ length m) (getMatElemLaplacian h) (fun k => gv m per x e k d).
  Proof. apply lap_psd; auto. apply HG. Qed.
  Lemma lap_form_nonneg E : 0 <= scalar_form m per E dof (getMatElemLaplacian h) x x.
  Proof. rewrite scalar_form_q. apply Lsum_nonneg. intros e _. apply Rsum_nonneg'. intros; apply lap_terms. Qed.
  Lemma lap_form_zero : has_cells m per -> scalar_form m per (E0 m per) dof (getMatElemLaplacian h) x x = 0 <->
      (forall n d, in_grid_box (nodes_box m) n -> (d < dof)%nat -> x n d = x (map (fun _ => 0%Z) m) d).
  Proof.
    intros HC. rewrite scalar_form_q. split.
    - intros HZ n d Hn Hd. apply (connected m per (fun p => x p d)); auto. intros e p He Hp. clear n Hn.
      assert (Z1 : Rsum dof (fun d => qform (2 ^ length m) (getMatElemLaplacian h) (fun k => gv m per x e k d)) = 0).
      { apply (Lsum_zero_all (fun e => Rsum dof (fun d => qform (2 ^ length m) (getMatElemLaplacian h) (fun k => gv m per x e k d))) (E0 m per)); auto.
        intros; apply Rsum_nonneg'; intros; apply lap_terms. apply E0_enum; auto. }
      assert (Z2 : qform (2 ^ length m) (getMatElemLaplacian h) (fun k => gv m per x e k d) = 0).
      { apply (Rsum_zero_all dof (fun d => qform (2 ^ length m) (getMatElemLaplacian h) (fun k => gv m per x e k d))); auto. intros; apply lap_terms. }
      pose proof (proj1 (proj2 (lap_psd h m HS (proj1 HG) _)) Z2) as Z3. clear Z2. rename Z3 into Z2.
      assert (Le : length e = length m) by (eapply cell_dim; eauto). pose proof (proj1 HG) as Hdim. rewrite <- Le in Hdim.
      destruct (near_corner e p Hdim Hp) as [k [Hk ->]]. rewrite Le in Hk.
      destruct (near_corner e e Hdim) as [k0 [Hk0 Ee]]. { unfold near. clear. induction e; constructor; auto. lia. } rewrite Le in Hk0.
      transitivity (x (wrap m per (corner e k0)) d); [|rewrite <- Ee; reflexivity].
      transitivity (x (wrap m per (corner e 0)) d); [exact (Z2 k Hk)|symmetry; exact (Z2 k0 Hk0)].
    - intros HK. transitivity (Lsum (fun _ => 0) (E0 m per)); [|clear; induction (E0 m per) as [|? l IH]; [reflexivity|rewrite Lsum_cons, IH; ring]].
      apply Lsum_ext. intros e He. apply E0_enum in He; auto. transitivity (Rsum dof (fun _ => 0)); [|apply Rsum_zero]. apply Rsum_ext. intros d Hd.
      apply (proj2 (proj2 (lap_psd h m HS (proj1 HG) _))). intros i Hi. assert (Le : length e = length m) by (eapply cell_dim; eauto).
      pose proof (proj1 HG) as Hdim. pose proof Hdim as Hdim'. rewrite <- Le in Hdim. unfold gv.
      assert (K : forall k, (k < 2 ^ length m)%nat -> x (wrap m per (corner e k)) d = x (map (fun _ => 0%Z) m) d).
      { intros k Hk. apply HK; auto. apply (wrap_in_nodes m per e); auto; [apply HG|]. apply corner_near; auto. rewrite Le; auto. }
      rewrite (K i Hi), (K 0%nat); [reflexivity|]. destruct Hdim' as [->| ->]; simpl; lia.
  Qed.
  Lemma mass_terms e d : 0 <= qform (2 ^ length m) (getMatElemMass h) (fun k => gv m per x e k d).
  Proof. apply mass_pd; auto. apply HG. Qed.
  Lemma mass_form_nonneg E : 0 <= scalar_form m per E dof (getMatElemMass h) x x.
  Proof. rewrite scalar_form_q. apply Lsum_nonneg. intros e _. apply Rsum_nonneg'. intros; apply mass_terms. Qed.
  Lemma mass_form_zero : has_cells m per -> scalar_form m per (E0 m per) dof (getMatElemMass h) x x = 0 ->
      (forall n d, in_grid_box (nodes_box m) n -> (d < dof)%nat -> x n d = 0).
  Proof.
    intros HC. rewrite scalar_form_q. intros HZ n d Hn Hd.
    destruct (node_in_cell m per n HL HC Hn) as (e & He & Hne).
    assert (Z1 : Rsum dof (fun d => qform (2 ^ length m) (getMatElemMass h) (fun k => gv m per x e k d)) = 0).
    { apply (Lsum_zero_all (fun e => Rsum dof (fun d => qform (2 ^ length m) (getMatElemMass h) (fun k => gv m per x e k d))) (E0 m per)); auto.
      intros; apply Rsum_nonneg'; intros; apply mass_terms. apply E0_enum; auto. }
    assert (Z2 : qform (2 ^ length m) (getMatElemMass h) (fun k => gv m per x e k d) = 0).
    { apply (Rsum_zero_all dof (fun d => qform (2 ^ length m) (getMatElemMass h) (fun k => gv m per x e k d))); auto. intros; apply mass_terms. }
    pose proof (proj2 (mass_pd h m HS (proj1 HG) _) Z2) as Z3. clear Z2. rename Z3 into Z2.
    assert (Le : length e = length m) by (eapply cell_dim; eauto). pose proof (proj1 HG) as Hdim. rewrite <- Le in Hdim.
    destruct (near_corner e n Hdim Hne) as [k [Hk En]]. rewrite Le in Hk.
    rewrite <- (wrap_id m per n HL Hn), En. exact (Z2 k Hk).
  Qed.
  Lemma strain_form_nonneg E : 0 <= tensor_form m per E (length m) (getMatElemStrainTensor h) x x.
  Proof. rewrite tensor_form_v. apply Lsum_nonneg. intros e _. apply strain_nonneg; auto. apply HG. Qed.
End Positive.
Close Scope R_scope.
