(** The assembled matrices act as the element sums. *)
From Coquelicot Require Import Coquelicot.
From Verif Require Import Base M_Geometry S_Geometry P_Geometry M_Particle S_Particle P_Particle M_Quadrature S_Fem M_MatElem P_MatElem P_Energy M_Mesh M_Operator M_Bc M_Assembly S_Operator P_Mesh P_Operator P_Operator2 P_Global P_Stokes P_Operator3 P_Assembly.
Open Scope R_scope.

(** ** reading the flat element arrays *)
Ltac split_nat a n := do n (destruct a as [|a]; [|]); [..|exfalso; lia].
Lemma read_lapA h0 h1 a b : (a < 4)%nat -> (b < 4)%nat -> read_flat (getMatElemLaplacianA h0 h1) (a * 4 + b) = Some (getMatElemLaplacian2 h0 h1 b a).
Proof. intros Ha Hb. do 4 (destruct a as [|a]; [do 4 (destruct b as [|b]; [reflexivity|]); lia|]). lia. Qed.
Lemma read_massA h0 h1 a b : (a < 4)%nat -> (b < 4)%nat -> read_flat (getMatElemMassA h0 h1) (a * 4 + b) = Some (getMatElemMass2 h0 h1 b a).
Proof. intros Ha Hb. do 4 (destruct a as [|a]; [do 4 (destruct b as [|b]; [reflexivity|]); lia|]). lia. Qed.
Lemma read_zeroA a b : (a < 4)%nat -> (b < 4)%nat -> read_flat (map (fun k => (k, 0%R)) (seq 0 16)) (a * 4 + b) = Some 0.
Proof. intros Ha Hb. do 4 (destruct a as [|a]; [do 4 (destruct b as [|b]; [reflexivity|]); lia|]). lia. Qed.
Lemma read_pA h0 h1 a b : (a < 4)%nat -> (b < 18)%nat -> read_flat (getMatElemPressureA h0 h1) (a * 18 + b) = Some (getMatElemPressure2 h0 h1 a (b mod 9) (b / 9)).
Proof. intros Ha Hb. do 4 (destruct a as [|a]; [do 18 (destruct b as [|b]; [reflexivity|]); lia|]). lia. Qed.
Lemma read_pAT h0 h1 a b : (a < 18)%nat -> (b < 4)%nat -> read_flat (getMatElemPressureAT h0 h1) (a * 4 + b) = Some (- getMatElemPressure2 h0 h1 b (a mod 9) (a / 9)).
Proof.
  intros Ha Hb.
  assert (K : exists x, read_flat (getMatElemPressureAT h0 h1) (a * 4 + b) = Some x /\ x = - getMatElemPressure2 h0 h1 b (a mod 9) (a / 9)).
  { do 18 (destruct a as [|a]; [do 4 (destruct b as [|b]; [eexists; split; [reflexivity|simpl; unfold getMatElemPressure2; ring]|]); lia|]). lia. }
  destruct K as [x [-> ->]]. reflexivity.
Qed.
(** row a = (component a/4, vertex a mod 4); the (0,1) block is transposed *)
Definition strainA (h0 h1 : R) (k1 k2 d1 d2 : nat) : R :=
  match d1, d2 with 0%nat, 1%nat => matElem2d_dxudyu k2 k1 | _, _ => getMatElemStrainTensor2 h0 h1 k2 k1 d2 d1 end.
Lemma read_strainA h0 h1 a b : (a < 8)%nat -> (b < 8)%nat -> read_flat (getMatElemStrainTensorA h0 h1) (a * 8 + b) = Some (strainA h0 h1 (a mod 4) (b mod 4) (a / 4) (b / 4)).
Proof. intros Ha Hb. do 8 (destruct a as [|a]; [do 8 (destruct b as [|b]; [reflexivity|]); lia|]). lia. Qed.

Section Act.
  Variables (mp : list Z) (per : list bool) (dms : list (dmda * dmda)).
  Hypothesis H2 : length mp = 2%nat.
  Hypothesis HG : grid_ok mp per.
  Hypothesis HS : stokes_layout mp per 2 dms.
  Let mv := refined_size mp per.
  Let HGv : grid_ok mv per := refined_grid mp per HG.
  Let HL : length per = length mp := proj1 (proj2 HG).
  Let HLv : length per = length mv := proj1 (proj2 HGv).
  Let lv : length mv = 2%nat := lmv mp per H2 HG.
  Variables (Nv Np Ev Ep : list (list Z)).
  Hypothesis HNv : enumerates Nv (nodes_box mv).
  Hypothesis HNp : enumerates Np (nodes_box mp).
  Hypothesis HEv : enumerates Ev (cells_box mv per).
  Hypothesis HEp : enumerates Ep (cells_box mp per).

  (** the entries whose rows are well placed *)
  Definition rows_ok (A : list mentry) : Prop := Forall (fun e : mentry =>
    if fst (fst (erow e)) then In (snd (fst (erow e))) Np /\ (snd (erow e) < 1)%nat else In (snd (fst (erow e))) Nv /\ (snd (erow e) < 2)%nat) A.
  Lemma act_v A x v : rows_ok A -> inner Nv 2 (MatMult A x false) v = Lsum (mval x false v) A.
  Proof.
    intros H. apply matmult_weak; [apply HNv|]. eapply Forall_impl; [|exact H]. intros e He E. cbv beta in He. rewrite E in He. exact He.
  Qed.
  Lemma act_p A x q : rows_ok A -> inner Np 1 (MatMult A x true) q = Lsum (mval x true q) A.
  Proof.
    intros H. apply matmult_weak; [apply HNp|]. eapply Forall_impl; [|exact H]. intros e He E. cbv beta in He. rewrite E in He. exact He.
  Qed.
  Lemma Forall_block (P : mentry -> Prop) nr nc rd cd V : (forall a b, (a < nr)%nat -> (b < nc)%nat -> P (rd a, cd b, V a b)) -> Forall P (block nr nc rd cd V).
  Proof.
    intros H. unfold block. rewrite Forall_forall. intros x Hx. apply in_flat_map in Hx as [a [Ha Hx]]. apply in_flat_map in Hx as [b [Hb Hx]].
    apply in_seq in Ha, Hb. destruct Hx as [<-|[]]. apply H; lia.
  Qed.
  Lemma node_v e k : in_grid_box (cells_box mv per) e -> (k < 4)%nat -> In (wrap mv per (corner e k)) Nv.
  Proof.
    intros He Hk. apply HNv. apply (wrap_in_nodes mv per e); auto; [apply HGv|]. assert (Le : length e = length mv) by (eapply cell_dim; eauto).
    apply corner_near; [left; lia|]. rewrite Le, lv. exact Hk.
  Qed.
  Lemma node_p e k : in_grid_box (cells_box mp per) e -> (k < 4)%nat -> In (wrap mp per (corner e k)) Np.
  Proof.
    intros He Hk. apply HNp. apply (wrap_in_nodes mp per e); auto; [apply HG|]. assert (Le : length e = length mp) by (eapply cell_dim; eauto).
    apply corner_near; [left; lia|]. rewrite Le, H2. exact Hk.
  Qed.
  Lemma node_v3 e k : in_grid_box (cells_box mp per) e -> (k < 9)%nat -> In (wrap mv per (corner3 e k)) Nv.
  Proof.
    intros He Hk. apply HNv. assert (Le : length e = length mp) by (eapply cell_dim; eauto).
    apply (wrap_in_nodes3 mp per e); auto; [apply HG|]. 
    rewrite <- get_element_4Q1_corner; [|left; lia|rewrite Le, H2; exact Hk].
    apply get_element_4Q1_near, nth_In. rewrite get_element_4Q1_length; [|left; lia]. rewrite Le, H2. exact Hk.
  Qed.

  (** *** diagonal blocks *)
  Definition all_v (c : list Z -> list mentry) : list mentry := flat_map (fun dm : dmda * dmda => flat_map c (grid_pts (get_DM_bounds (fst dm) true))) dms.
  Definition all_p (c : list Z -> list mentry) : list mentry := flat_map (fun dm : dmda * dmda => flat_map c (grid_pts (get_DM_bounds (snd dm) true))) dms.
  Lemma dblock_v_rows M : rows_ok (all_v (dblock per false mv 2 M)).
  Proof.
    apply (cells_all_v mp per dms HG HS). intros e He. unfold dblock. rewrite Forall_forall. intros x Hx. apply in_flat_map in Hx as [d [Hd Hx]]. apply in_seq in Hd.
    revert x Hx. rewrite <- Forall_forall. apply Forall_block. intros a b Ha Hb. unfold erow; cbn [fst snd]. split; [apply node_v; auto|lia].
  Qed.
  Lemma dblock_p_rows M : rows_ok (all_p (dblock per true mp 1 M)).
  Proof.
    apply (cells_all_p mp per dms HG HS). intros e He. unfold dblock. rewrite Forall_forall. intros x Hx. apply in_flat_map in Hx as [d [Hd Hx]]. apply in_seq in Hd.
    revert x Hx. rewrite <- Forall_forall. apply Forall_block. intros a b Ha Hb. unfold erow; cbn [fst snd]. split; [apply node_p; auto|lia].
  Qed.
  Lemma dblock_v_sum M M' x v : (forall a b, (a < 4)%nat -> (b < 4)%nat -> M a b = M' a b) ->
    Lsum (mval x false v) (all_v (dblock per false mv 2 M)) = scalar_form mv per Ev 2 M' v (x false).
  Proof.
    intros HM. unfold all_v. erewrite (cells_sum_v mp per dms HG HS) by exact HEv. unfold scalar_form. apply Lsum_ext. intros e He. unfold dblock.
    rewrite Lsum_flat_map, Lsum_seq. apply Rsum_ext. intros d Hd. rewrite Lsum_block, lv. apply Rsum_ext. intros a Ha. apply Rsum_ext. intros b Hb.
    unfold mval, erow, ecol, xat, gv. cbn [fst snd Bool.eqb]. fold mv. rewrite (HM a b Ha Hb). ring.
  Qed.
  Lemma dblock_p_sum M M' x v : (forall a b, (a < 4)%nat -> (b < 4)%nat -> M a b = M' a b) ->
    Lsum (mval x true v) (all_p (dblock per true mp 1 M)) = scalar_form mp per Ep 1 M' v (x true).
  Proof.
    intros HM. unfold all_p. erewrite (cells_sum_p mp per dms HG HS) by exact HEp. unfold scalar_form. apply Lsum_ext. intros e He. unfold dblock.
    rewrite Lsum_flat_map, Lsum_seq. apply Rsum_ext. intros d Hd. rewrite Lsum_block, H2. apply Rsum_ext. intros a Ha. apply Rsum_ext. intros b Hb.
    unfold mval, erow, ecol, xat, gv. cbn [fst snd Bool.eqb]. rewrite (HM a b Ha Hb). ring.
  Qed.
  (** entries of the other field do not contribute *)
  Lemma mval_other b b' x v A : b <> b' -> Forall (fun e : mentry => fst (fst (erow e)) = b) A -> Lsum (mval x b' v) A = 0.
  Proof.
    intros Hb H. apply Lsum_all_zero. intros e He. rewrite Forall_forall in H. unfold mval. rewrite (H e He). destruct b, b'; try reflexivity; contradiction.
  Qed.
  Lemma dblock_v_tag M : Forall (fun e : mentry => fst (fst (erow e)) = false) (all_v (dblock per false mv 2 M)).
  Proof.
    apply (cells_all_v mp per dms HG HS). intros e He. unfold dblock. rewrite Forall_forall. intros x Hx. apply in_flat_map in Hx as [d [Hd Hx]].
    revert x Hx. rewrite <- Forall_forall. apply Forall_block. reflexivity.
  Qed.
  Lemma dblock_p_tag M : Forall (fun e : mentry => fst (fst (erow e)) = true) (all_p (dblock per true mp 1 M)).
  Proof.
    apply (cells_all_p mp per dms HG HS). intros e He. unfold dblock. rewrite Forall_forall. intros x Hx. apply in_flat_map in Hx as [d [Hd Hx]].
    revert x Hx. rewrite <- Forall_forall. apply Forall_block. reflexivity.
  Qed.
  (** *** strain block *)
  Lemma tblock_rows V : rows_ok (all_v (tblock mp per V)).
  Proof.
    apply (cells_all_v mp per dms HG HS). intros e He. unfold tblock. apply Forall_block. intros a b Ha Hb. unfold erow; cbn [fst snd].
    split; [apply node_v; auto; apply Nat.mod_upper_bound; lia|apply (Nat.div_lt_upper_bound a 4 2); lia].
  Qed.
  Lemma tblock_tag V : Forall (fun e : mentry => fst (fst (erow e)) = false) (all_v (tblock mp per V)).
  Proof. apply (cells_all_v mp per dms HG HS). intros e He. unfold tblock. apply Forall_block. reflexivity. Qed.
  Lemma Rsum8 (f : nat -> R) : Rsum 8 f = Rsum 2 (fun d => Rsum 4 (fun k => f (d * 4 + k)%nat)).
  Proof. simpl. ring. Qed.
  Lemma split8 d k : (k < 4)%nat -> ((d * 4 + k) mod 4 = k /\ (d * 4 + k) / 4 = d)%nat.
  Proof. intros H. split; [symmetry; apply (Nat.mod_unique _ _ d)|symmetry; apply (Nat.div_unique _ _ d k)]; lia. Qed.
  Lemma tblock_sum M x v :
    Lsum (mval x false v) (all_v (tblock mp per (fun a b => M (a mod 4) (b mod 4) (a / 4) (b / 4))%nat)) = tensor_form mv per Ev 2 M v (x false).
  Proof.
    unfold all_v. erewrite (cells_sum_v mp per dms HG HS) by exact HEv. unfold tensor_form. apply Lsum_ext. intros e He. unfold tblock.
    rewrite Lsum_block, lv. fold mv. rewrite Rsum8. rewrite Rsum_swap. apply Rsum_ext. intros k1 Hk1.
    transitivity (Rsum 2 (fun d1 => Rsum 4 (fun k2 => Rsum 2 (fun d2 => gv mv per v e k1 d1 * M k1 k2 d1 d2 * gv mv per (x false) e k2 d2)))).
    2:{ exact (Rsum_swap _ _ _). }
    apply Rsum_ext. intros d1 _. rewrite Rsum8. rewrite Rsum_swap. apply Rsum_ext. intros k2 Hk2. apply Rsum_ext. intros d2 _.
    unfold mval, erow, ecol, xat, gv. cbn [fst snd Bool.eqb]. rewrite (proj1 (split8 d1 k1 Hk1)), (proj2 (split8 d1 k1 Hk1)), (proj1 (split8 d2 k2 Hk2)), (proj2 (split8 d2 k2 Hk2)). ring.
  Qed.
  (** *** off-diagonal blocks *)
  Lemma oblock_rows VB VT : rows_ok (all_p (oblock mp per VB VT)).
  Proof.
    apply (cells_all_p mp per dms HG HS). intros e He. unfold oblock. apply Forall_app. split; apply Forall_block; intros a b Ha Hb; unfold erow; cbn [fst snd].
    - split; [apply node_p; auto|lia].
    - split; [apply node_v3; auto; apply Nat.mod_upper_bound; lia|apply (Nat.div_lt_upper_bound a 9 2); lia].
  Qed.
  Lemma Rsum18 (f : nat -> R) : Rsum 18 f = Rsum 9 (fun k => Rsum 2 (fun d => f (d * 9 + k)%nat)).
  Proof. simpl. ring. Qed.
  Lemma split18 d k : (k < 9)%nat -> ((d * 9 + k) mod 9 = k /\ (d * 9 + k) / 9 = d)%nat.
  Proof. intros H. split; [symmetry; apply (Nat.mod_unique _ _ d)|symmetry; apply (Nat.div_unique _ _ d k)]; lia. Qed.
  Lemma mval_block_other x b v nr nc rd cd V : (forall a, fst (fst (rd a)) <> b) -> Lsum (mval x b v) (block nr nc rd cd V) = 0.
  Proof.
    intros H. rewrite Lsum_block. transitivity (Rsum nr (fun _ => 0)); [|apply Rsum_zero]. apply Rsum_ext. intros a _.
    transitivity (Rsum nc (fun _ => 0)); [|apply Rsum_zero]. apply Rsum_ext. intros c _. unfold mval, erow; cbn [fst snd].
    specialize (H a). destruct (fst (fst (rd a))), b; try reflexivity; contradiction.
  Qed.
  Lemma oblock_p_sum (M : nat -> nat -> nat -> R) VT x q :
    Lsum (mval x true q) (all_p (oblock mp per (fun a b => M a (b mod 9) (b / 9))%nat VT)) = div_form mv mp per Ep 2 M q (x false).
  Proof.
    unfold all_p. erewrite (cells_sum_p mp per dms HG HS) by exact HEp. unfold div_form. apply Lsum_ext. intros e He. unfold oblock.
    rewrite Lsum_app, (mval_block_other x true q 18) by discriminate. rewrite Lsum_block, Rplus_0_r, H2. apply Rsum_ext. intros a Ha.
    rewrite Rsum18. apply Rsum_ext. intros k Hk. apply Rsum_ext. intros d _. unfold mval, erow, ecol, xat, gv, gv3. cbn [fst snd Bool.eqb].
    rewrite (proj1 (split18 d k Hk)), (proj2 (split18 d k Hk)). fold mv. ring.
  Qed.
  Lemma oblock_v_sum (M : nat -> nat -> nat -> R) VB x v :
    Lsum (mval x false v) (all_p (oblock mp per VB (fun a b => - M b (a mod 9) (a / 9))%nat)) = - div_form mv mp per Ep 2 M (x true) v.
  Proof.
    unfold all_p. erewrite (cells_sum_p mp per dms HG HS) by exact HEp. unfold div_form.
    match goal with |- _ = - ?X => replace (- X) with (-1 * X) by ring end. rewrite <- Lsum_scal. apply Lsum_ext. intros e He. unfold oblock.
    rewrite Lsum_app, (mval_block_other x false v 4) by discriminate. rewrite Lsum_block, Rplus_0_l, H2.
    rewrite <- Rsum_scal. rewrite Rsum_swap. apply Rsum_ext. intros a Ha. rewrite Rsum18. rewrite <- Rsum_scal. apply Rsum_ext. intros k Hk. rewrite <- Rsum_scal. apply Rsum_ext. intros d _.
    unfold mval, erow, ecol, xat, gv, gv3. cbn [fst snd Bool.eqb].
    rewrite (proj1 (split18 d k Hk)), (proj2 (split18 d k Hk)). fold mv. ring.
  Qed.

  (** ** what the assembly routines produce *)
  Variables (h0 h1 : R).
  Definition lapM (a b : nat) : R := getMatElemLaplacian2 h0 h1 b a.
  Definition massM (a b : nat) : R := getMatElemMass2 h0 h1 b a.
  Definition strM (a b : nat) : R := strainA h0 h1 (a mod 4) (b mod 4) (a / 4) (b / 4).
  Definition pB (a b : nat) : R := getMatElemPressure2 h0 h1 a (b mod 9) (b / 9).
  Definition pT (a b : nat) : R := - getMatElemPressure2 h0 h1 b (a mod 9) (a / 9).
  Lemma run_lap A : assemble (laplacian_assembling h0 h1) dms A = Ok (A ++ all_v (dblock per false mv 2 lapM)).
  Proof. erewrite assemble_runs; [apply runsA|]. intros dm A0 Hin. apply (diag_A_v mp per dms H2 HG HS); auto. intros; apply read_lapA; auto. Qed.
  Lemma run_strain A : assemble (strain_tensor_assembling h0 h1) dms A = Ok (A ++ all_v (tblock mp per strM)).
  Proof. erewrite assemble_runs; [apply runsA|]. intros dm A0 Hin. apply (tens_A mp per dms H2 HG HS); auto. intros; apply read_strainA; auto. Qed.
  Lemma run_mass A : assemble (mass_assembling h0 h1) dms A = Ok (A ++ all_p (dblock per true mp 1 massM)).
  Proof. erewrite assemble_runs; [apply runsA|]. intros dm A0 Hin. apply (diag_A_p mp per dms H2 HG HS); auto. intros; apply read_massA; auto. Qed.
  Lemma run_diag value A : assemble (diagonal_assembling value) dms A = Ok (A ++ all_p (dblock per true mp 1 (fun _ _ => 0))).
  Proof. erewrite assemble_runs; [apply runsA|]. intros dm A0 Hin. apply (diag_A_p mp per dms H2 HG HS); auto. intros; apply read_zeroA; auto. Qed.
  Lemma run_B A : assemble (B_BT_assembling h0 h1) dms A = Ok (A ++ all_p (oblock mp per pB pT)).
  Proof.
    erewrite assemble_runs; [apply runsA|]. intros dm A0 Hin. apply (off_A mp per dms H2 HG HS); auto; intros; [apply read_pA|apply read_pAT]; auto.
  Qed.
  Lemma lapM_sym a b : (a < 4)%nat -> (b < 4)%nat -> lapM a b = getMatElemLaplacian [h0; h1] a b.
  Proof. intros Ha Hb. unfold lapM. cbn [getMatElemLaplacian]. unfold getMatElemLaplacian2. f_equal; f_equal; rewrite ?tab_dxudxu2, ?tab_dyudyu2 by auto; destruct (vx2 a), (vx2 b), (vy2 a), (vy2 b); reflexivity. Qed.
  Lemma massM_sym a b : (a < 4)%nat -> (b < 4)%nat -> massM a b = getMatElemMass [h0; h1] a b.
  Proof. intros Ha Hb. unfold massM. cbn [getMatElemMass]. unfold getMatElemMass2. f_equal; rewrite !tab_mass2 by auto; destruct (vx2 a), (vx2 b), (vy2 a), (vy2 b); reflexivity. Qed.
  Lemma rows_app A B : rows_ok A -> rows_ok B -> rows_ok (A ++ B). Proof. intros; apply Forall_app; auto. Qed.

  Lemma weak_zero_p x q : Lsum (mval x true q) (all_p (dblock per true mp 1 (fun _ _ => 0))) = 0.
  Proof.
    rewrite (dblock_p_sum (fun _ _ => 0) (fun _ _ => 0)) by reflexivity. unfold scalar_form. apply Lsum_all_zero. intros e _. rewrite H2. cbn [Nat.pow Nat.mul Nat.add Rsum]. ring.
  Qed.
  Theorem lap_rep : exists A, assemble (laplacian_assembling h0 h1) dms [] = Ok A /\ forall x,
    (forall v, inner Nv 2 (MatMult A x false) v = scalar_form mv per Ev 2 (getMatElemLaplacian [h0; h1]) v (x false)) /\
    (forall q, inner Np 1 (MatMult A x true) q = 0).
  Proof.
    rewrite run_lap. eexists. split; [reflexivity|]. intros x. split; intros v; cbn [app].
    - rewrite act_v by apply dblock_v_rows. apply dblock_v_sum, lapM_sym.
    - rewrite act_p by apply dblock_v_rows. apply (mval_other false); [discriminate|apply dblock_v_tag].
  Qed.
  Theorem mass_rep : exists A, assemble (mass_assembling h0 h1) dms [] = Ok A /\ forall x,
    (forall v, inner Nv 2 (MatMult A x false) v = 0) /\
    (forall q, inner Np 1 (MatMult A x true) q = scalar_form mp per Ep 1 (getMatElemMass [h0; h1]) q (x true)).
  Proof.
    rewrite run_mass. eexists. split; [reflexivity|]. intros x. split; intros v; cbn [app].
    - rewrite act_v by apply dblock_p_rows. apply (mval_other true); [discriminate|apply dblock_p_tag].
    - rewrite act_p by apply dblock_p_rows. apply dblock_p_sum, massM_sym.
  Qed.
  Theorem strain_rep : exists A, assemble (strain_tensor_assembling h0 h1) dms [] = Ok A /\ forall x,
    (forall v, inner Nv 2 (MatMult A x false) v = tensor_form mv per Ev 2 (strainA h0 h1) v (x false)) /\
    (forall q, inner Np 1 (MatMult A x true) q = 0).
  Proof.
    rewrite run_strain. eexists. split; [reflexivity|]. intros x. split; intros v; cbn [app].
    - rewrite act_v by apply tblock_rows. apply tblock_sum.
    - rewrite act_p by apply tblock_rows. apply (mval_other false); [discriminate|apply tblock_tag].
  Qed.
  Theorem stokes_A_lap_rep : exists A, stokes_A false h0 h1 dms = Ok A /\ forall x,
    (forall v, inner Nv 2 (MatMult A x false) v = scalar_form mv per Ev 2 (getMatElemLaplacian [h0; h1]) v (x false) - div_form mv mp per Ep 2 (getMatElemPressure [h0; h1]) (x true) v) /\
    (forall q, inner Np 1 (MatMult A x true) q = div_form mv mp per Ep 2 (getMatElemPressure [h0; h1]) q (x false)).
  Proof.
    unfold stokes_A. rewrite run_lap. cbn [bind]. rewrite run_B. cbn [bind]. rewrite run_diag. eexists. split; [reflexivity|]. cbn [app]. intros x.
    assert (R : rows_ok ((all_v (dblock per false mv 2 lapM) ++ all_p (oblock mp per pB pT)) ++ all_p (dblock per true mp 1 (fun _ _ => 0)))).
    { apply rows_app; [apply rows_app|]; auto using dblock_v_rows, dblock_p_rows, oblock_rows. }
    split; intros v.
    - rewrite act_v by exact R. rewrite !Lsum_app. rewrite (dblock_v_sum lapM (getMatElemLaplacian [h0; h1])) by apply lapM_sym.
      unfold pT. rewrite (oblock_v_sum (getMatElemPressure2 h0 h1)). rewrite (mval_other true); [|discriminate|apply dblock_p_tag]. cbn [getMatElemPressure]. ring.
    - rewrite act_p by exact R. rewrite !Lsum_app. rewrite (mval_other false); [|discriminate|apply dblock_v_tag].
      unfold pB. rewrite (oblock_p_sum (getMatElemPressure2 h0 h1)). rewrite weak_zero_p. cbn [getMatElemPressure]. ring.
  Qed.
  Theorem stokes_A_strain_rep : exists A, stokes_A true h0 h1 dms = Ok A /\ forall x,
    (forall v, inner Nv 2 (MatMult A x false) v = tensor_form mv per Ev 2 (strainA h0 h1) v (x false) - div_form mv mp per Ep 2 (getMatElemPressure [h0; h1]) (x true) v) /\
    (forall q, inner Np 1 (MatMult A x true) q = div_form mv mp per Ep 2 (getMatElemPressure [h0; h1]) q (x false)).
  Proof.
    unfold stokes_A. rewrite run_strain. cbn [bind]. rewrite run_B. cbn [bind]. rewrite run_diag. eexists. split; [reflexivity|]. cbn [app]. intros x.
    assert (R : rows_ok ((all_v (tblock mp per strM) ++ all_p (oblock mp per pB pT)) ++ all_p (dblock per true mp 1 (fun _ _ => 0)))).
    { apply rows_app; [apply rows_app|]; auto using tblock_rows, dblock_p_rows, oblock_rows. }
    split; intros v.
    - rewrite act_v by exact R. rewrite !Lsum_app. unfold strM. rewrite (tblock_sum (strainA h0 h1)).
      unfold pT. rewrite (oblock_v_sum (getMatElemPressure2 h0 h1)). rewrite (mval_other true); [|discriminate|apply dblock_p_tag]. cbn [getMatElemPressure]. ring.
    - rewrite act_p by exact R. rewrite !Lsum_app. rewrite (mval_other false); [|discriminate|apply tblock_tag].
      unfold pB. rewrite (oblock_p_sum (getMatElemPressure2 h0 h1)). rewrite weak_zero_p. cbn [getMatElemPressure]. ring.
  Qed.
End Act.
Close Scope R_scope.
