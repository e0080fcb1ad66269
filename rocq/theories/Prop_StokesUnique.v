(** C66: the constrained Stokes problem: velocity unique, pressure unique up to a constant; solvable exactly when compatible. *)
From Coq Require Import FunctionalExtensionality.
From Coquelicot Require Import Coquelicot.
From Verif Require Import Base M_Geometry S_Geometry P_Geometry M_Shapes M_Particle S_Particle P_Particle M_Quadrature S_Fem P_Energy M_MatElem M_Mesh M_Operator S_Operator P_Mesh P_Operator P_Operator2 P_Operator3 P_Global P_Stokes M_Bc S_Bc P_Constant Prop_Operator Prop_Assembly P_LinAlg P_PressKer P_PressKer3 P_Korn Prop_WellPosed P_CreateMesh Prop_Operator2 Prop_Assembly2.
Local Open Scope R_scope.

(** an axis is thin when it is not periodic and has a single cell of pressure *)
Definition thin (n : Z) (p : bool) : bool := negb p && (n <? 3)%Z.
Definition at_most_one_thin (mp : list Z) (per : list bool) : Prop := (length (filter (fun a => thin (fst a) (snd a)) (combine mp per)) <= 1)%nat.
(** what the conditions must hold for the viscous operator to be definite: for the Laplacian, each
    component is prescribed somewhere; for the strain tensor, one side prescribes all components *)
Definition each_component_held (D : nat) (mv : list Z) (per : list bool) (bc : list bc_row) : Prop :=
  forall c, (c < D)%nat -> exists n, in_grid_box (nodes_box mv) n /\ prescribed D mv per bc n c <> None.
Definition a_side_held (D : nat) (per : list bool) (bc : list bc_row) : Prop :=
  exists s, In s (sides D) /\ nth (fst s) per false = false /\ forall c, (c < D)%nat -> nth c (nth (side_index s) bc []) None <> None.
Definition held (strain : bool) (D : nat) (mv : list Z) (per : list bool) (bc : list bc_row) : Prop :=
  if strain then a_side_held D per bc else each_component_held D mv per bc.

Lemma wide_of n p : thin n p = false -> p = true \/ (3 <= n)%Z.
Proof. unfold thin. destruct p; [auto|]. cbn [negb andb]. intros H. apply Z.ltb_ge in H. auto. Qed.
Lemma pressure_constant h mp per p : grid_ok mp per -> has_cells mp per -> steps_ok h mp -> at_most_one_thin mp per ->
  (forall v : field, (forall n d, in_grid_box (nodes_box (refined_size mp per)) n -> (exists s, In s (sides (length mp)) /\ on_side (refined_size mp per) per n s = true) -> v n d = 0) ->
    div_form (refined_size mp per) mp per (E0 mp per) (length mp) (getMatElemPressure h) p v = 0) ->
  forall n, in_grid_box (nodes_box mp) n -> p n 0%nat = p (map (fun _ => 0%Z) mp) 0%nat.
Proof.
  intros (HD & HL & HM) HC [Hh HP] HT HZ. destruct HD as [D|D].
  - destruct mp as [|m0 [|m1 [|]]]; try discriminate D. destruct per as [|q0 [|q1 [|]]]; try discriminate HL. destruct h as [|h0 [|h1 [|]]]; try discriminate Hh.
    inversion HM as [|? ? M0 HM']; subst. inversion HM' as [|? ? M1 _]; subst. inversion HP as [|? ? P0 HP']; subst. inversion HP' as [|? ? P1 _]; subst.
    refine (pressure_constant2 m0 m1 q0 q1 h0 h1 p (conj M0 M1) (conj P0 P1) HZ HC _). unfold at_most_one_thin in HT. cbn [combine filter fst snd] in HT.
    destruct (thin m0 q0) eqn:T0; [|left; apply wide_of, T0]. destruct (thin m1 q1) eqn:T1; [cbn [length] in HT; lia|right; apply wide_of, T1].
  - destruct mp as [|m0 [|m1 [|m2 [|]]]]; try discriminate D. destruct per as [|q0 [|q1 [|q2 [|]]]]; try discriminate HL. destruct h as [|h0 [|h1 [|h2 [|]]]]; try discriminate Hh.
    inversion HM as [|? ? M0 HM']; subst. inversion HM' as [|? ? M1 HM2]; subst. inversion HM2 as [|? ? M2 _]; subst. inversion HP as [|? ? P0 HP']; subst. inversion HP' as [|? ? P1 HP2]; subst. inversion HP2 as [|? ? P2 _]; subst.
    refine (pressure_constant3 m0 m1 m2 q0 q1 q2 h0 h1 h2 p (conj M0 (conj M1 M2)) (conj P0 (conj P1 P2)) HZ HC _). unfold at_most_one_thin in HT. cbn [combine filter fst snd] in HT. unfold wide.
    destruct (thin m0 q0) eqn:T0; [destruct (thin m1 q1) eqn:T1; [cbn [length] in HT; lia|]; destruct (thin m2 q2) eqn:T2; [cbn [length] in HT; lia|]; right; right; split; apply wide_of; assumption|].
    destruct (thin m1 q1) eqn:T1; [destruct (thin m2 q2) eqn:T2; [cbn [length] in HT; lia|]; right; left; split; apply wide_of; assumption|]. left; split; apply wide_of; assumption.
Qed.

Definition viscous (strain : bool) (h : list R) := if strain then strain_tensor_mult h else laplacian_mult h.
Definition aform (strain : bool) h mv per (D : nat) (v x : field) : R :=
  if strain then tensor_form mv per (E0 mv per) D (getMatElemStrainTensor h) v x else scalar_form mv per (E0 mv per) D (getMatElemLaplacian h) v x.
Lemma aform_lin s h mv per D v a b x x' : aform s h mv per D v (lin a b x x') = a * aform s h mv per D v x + b * aform s h mv per D v x'.
Proof. unfold aform. destruct s; [apply tensor_form_lin|apply scalar_form_lin]. Qed.
Lemma aform_zero s h mv per D v : aform s h mv per D v zero_field = 0.
Proof. unfold aform. destruct s; [apply tensor_zero|apply scalar_zero]. Qed.
Lemma aform_ext s h mv per v x x' : grid_ok mv per -> same_field mv (length mv) x x' -> aform s h mv per (length mv) v x = aform s h mv per (length mv) v x'.
Proof.
  intros HG HE. assert (K : forall e k d, In e (E0 mv per) -> (k < 2 ^ length mv)%nat -> (d < length mv)%nat -> gv mv per x e k d = gv mv per x' e k d).
  { intros e k d He Hk Hd. apply E0_enum in He; [|apply HG]. assert (Le : length e = length mv) by (eapply cell_dim; eauto). unfold gv. apply HE; auto. apply (wrap_in_nodes mv per e); auto; [apply HG|apply HG|]. pose proof (proj1 HG) as HD. apply corner_near; rewrite Le; auto. }
  unfold aform. destruct s; [unfold tensor_form|unfold scalar_form]; apply Lsum_ext; intros e He.
  - apply Rsum_ext. intros k1 H1. apply Rsum_ext. intros k2 H2. apply Rsum_ext. intros d1 Hd1. apply Rsum_ext. intros d2 Hd2. rewrite (K e k2 d2) by auto. reflexivity.
  - apply Rsum_ext. intros d1 Hd1. apply Rsum_ext. intros k1 H1. apply Rsum_ext. intros k2 H2. rewrite (K e k2 d1) by auto. reflexivity.
Qed.
Lemma aform_definite s h mv per bc x : grid_ok mv per -> has_cells mv per -> steps_ok h mv -> held s (length mv) mv per bc ->
  (forall n c, in_grid_box (nodes_box mv) n -> (c < length mv)%nat -> prescribed (length mv) mv per bc n c <> None -> x n c = 0) ->
  aform s h mv per (length mv) x x = 0 -> same_field mv (length mv) x zero_field.
Proof.
  intros HG HC HS HH HB HZ n c Hn Hc. unfold zero_field, aform, held in *. destruct s.
  - destruct HH as (sd & Hs & Hp & Ha). assert (Hf : (fst sd < length mv)%nat) by (clear - Hs; unfold sides in Hs; apply in_flat_map in Hs; destruct Hs as (d & Hd & Hs); apply in_seq in Hd; destruct Hs as [<-|[<-|[]]]; cbn; lia).
    apply (korn h mv per x HG HS HC HZ (fst sd) (snd sd) Hf Hp); auto. intros n' d Hn' E Hd. apply HB; auto. apply C30_constrained_iff. exists (fst sd), (snd sd). split; [exact Hf|]. split; [exact Hp|]. split; [exact E|]. apply (Ha d Hd).
  - pose proof (proj1 (lap_form_zero h mv per HG HS x (length mv) HC) HZ) as K. rewrite (K n c Hn Hc). destruct (HH c Hc) as (n' & Hn' & Hp). rewrite <- (K n' c Hn' Hc). apply HB; auto.
Qed.
Lemma div_form_lin_u mv mp per E dof M q a b x x' : div_form mv mp per E dof M q (lin a b x x') = a * div_form mv mp per E dof M q x + b * div_form mv mp per E dof M q x'.
Proof. unfold div_form. rewrite <- !Lsum_scal, <- Lsum_plus. apply Lsum_ext. intros e _. do 3 (rewrite <- !Rsum_scal, <- Rsum_plus; apply Rsum_ext; intros ? _). unfold gv3, lin. ring. Qed.
Lemma div_form_lin_q mv mp per E dof M u a b q q' : div_form mv mp per E dof M (lin a b q q') u = a * div_form mv mp per E dof M q u + b * div_form mv mp per E dof M q' u.
Proof. unfold div_form. rewrite <- !Lsum_scal, <- Lsum_plus. apply Lsum_ext. intros e _. do 3 (rewrite <- !Rsum_scal, <- Rsum_plus; apply Rsum_ext; intros ? _). unfold gv, lin. ring. Qed.

Lemma gv3_node_aux m : forall per e p, length per = length m -> Forall (fun n => (1 <= n)%Z) m -> in_grid_box (cells_box m per) e -> Forall2 (fun a b => (2 * a <= b <= 2 * a + 2)%Z) e p ->
  in_grid_box (nodes_box (refined_size m per)) (wrap (refined_size m per) per p).
Proof.
  induction m as [|z m IH]; intros [|q per] e p HL HF [He1 He2] HP; cbn [length] in HL; try lia; cbn [cells_box bottom_left upper_right map zip_with] in He1, He2.
  - inversion He1; subst. inversion HP; subst. split; constructor.
  - inversion He1 as [|? x ? e' X1 X2]; subst. inversion He2 as [|? ? ? ? Y1 Y2]; subst. inversion HP as [|? y ? p' P1 P2]; subst. inversion HF as [|? ? F1 F2]; subst.
    destruct (IH per e' p') as [I1 I2]; auto; try lia. { split; assumption. }
    cbn [refined_size zip_with wrap]. split; cbn [nodes_box bottom_left upper_right map]; constructor; try exact I1; try exact I2; destruct q; try lia.
    + apply Z.mod_pos_bound. lia.
    + apply Z.mod_pos_bound. lia.
Qed.
Lemma gv3_node mp per e k : grid_ok mp per -> in_grid_box (cells_box mp per) e -> in_grid_box (nodes_box (refined_size mp per)) (wrap (refined_size mp per) per (corner3 e k)).
Proof.
  intros (_ & HL & HF) He. apply (gv3_node_aux mp per e); auto. unfold corner3.
  enough (K : forall s, Forall2 (fun a b : Z => (2 * a <= b <= 2 * a + 2)%Z) e (zip_with (fun (a : Z) (i : nat) => (2 * a + Z.of_nat (k / 3 ^ i mod 3))%Z) e (seq s (length e)))) by apply K.
  clear He. induction e as [|x e IH]; intros s; cbn [length seq zip_with]; constructor; [|apply IH]. pose proof (Nat.mod_upper_bound (k / 3 ^ s) 3 ltac:(lia)). lia.
Qed.
Lemma refined_cells mp per : has_cells mp per -> has_cells (refined_size mp per) per.
Proof. unfold has_cells, refined_size. induction 1 as [|n q l l' Hx HC' IH]; [constructor|]. cbn [zip_with]. constructor; [|exact IH]. destruct q; [left; reflexivity|]. right. destruct Hx; [discriminate|lia]. Qed.
Lemma dotL_app {I} (L L' : list I) w y : dotL (L ++ L') w y = dotL L w y + dotL L' w y.
Proof. unfold dotL. induction L as [|i L IH]; cbn [app fold_right]; [ring|rewrite IH; ring]. Qed.
Lemma dotL_map {I J} (f : J -> I) (L : list J) w y : dotL (map f L) w y = dotL L (fun j => w (f j)) (fun j => y (f j)).
Proof. unfold dotL. induction L as [|i L IH]; cbn [map fold_right]; [reflexivity|rewrite IH; reflexivity]. Qed.
Lemma dotL_seq n (w y : nat -> R) : dotL (seq 0 n) w y = Rsum n (fun d => w d * y d).
Proof. induction n as [|n IH]; [reflexivity|]. rewrite seq_S, dotL_app, IH. cbn [Rsum]. unfold dotL. cbn. ring. Qed.
Lemma dotL_unknowns m dof w y : dotL (unknowns m dof) (vec_of w) (vec_of y) = inner (N0 m) dof w y.
Proof.
  unfold unknowns, inner. induction (N0 m) as [|n l IH]; [reflexivity|]. cbn [list_prod]. rewrite dotL_app, IH, dotL_map, dotL_seq, Lsum_cons. reflexivity.
Qed.
Notation Ix := ((list Z * nat) + (list Z * nat))%type.
Definition ix_eqd : forall a b : Ix, {a = b} + {a <> b}.
Proof. decide equality; apply dof_eqd. Defined.
Definition all_unknowns (mv mp : list Z) (D : nat) : list Ix := map inl (unknowns mv D) ++ map inr (unknowns mp 1).
Definition pack (xv xp : field) : Ix -> R := fun i => match i with inl j => vec_of xv j | inr j => vec_of xp j end.
Definition vpart (x : Ix -> R) : field := fun n c => x (inl (n, c)).
Definition ppart (x : Ix -> R) : field := fun n c => x (inr (n, c)).
Lemma dotL_pack mv mp D w q y p : dotL (all_unknowns mv mp D) (pack w q) (pack y p) = inner (N0 mv) D w y + inner (N0 mp) 1 q p.
Proof. unfold all_unknowns. rewrite dotL_app, !dotL_map. cbn [pack]. f_equal; apply (dotL_unknowns _ _ _ _). Qed.
Lemma in_all mv mp D i : In i (all_unknowns mv mp D) <-> match i with inl (n, c) => in_grid_box (nodes_box mv) n /\ (c < D)%nat | inr (n, c) => in_grid_box (nodes_box mp) n /\ (c < 1)%nat end.
Proof.
  unfold all_unknowns. rewrite in_app_iff, !in_map_iff. destruct i as [[n c]|[n c]].
  - rewrite <- in_unknowns. split; [intros [(x & E & H)|(x & E & H)]; [injection E as ->; exact H|discriminate]|intros H; left; exists (n, c); auto].
  - rewrite <- in_unknowns. split; [intros [(x & E & H)|(x & E & H)]; [discriminate|injection E as ->; exact H]|intros H; right; exists (n, c); auto].
Qed.
Lemma all_NoDup mv mp D : NoDup (all_unknowns mv mp D).
Proof.
  unfold all_unknowns. apply NoDup_app_intro; [apply FinFun.Injective_map_NoDup; [intros x y E; injection E; auto|apply unknowns_NoDup]|apply FinFun.Injective_map_NoDup; [intros x y E; injection E; auto|apply unknowns_NoDup]|].
  intros x H1 H2. apply in_map_iff in H1. apply in_map_iff in H2. destruct H1 as (a & <- & _). destruct H2 as (c & E & _). discriminate.
Qed.
Lemma origin_node m : Forall (fun n => (1 <= n)%Z) m -> in_grid_box (nodes_box m) (map (fun _ => 0%Z) m).
Proof. unfold in_grid_box, nodes_box. cbn [bottom_left upper_right]. induction 1 as [|n l Hn Hl [I1 I2]]; cbn [map]; split; constructor; auto; lia. Qed.
Section Stokes.
  Variables (strain : bool) (h : list R) (mp : list Z) (per : list bool) (bc : list bc_row) (dms : list (dmda * dmda)).
  Let D := length mp. Let mv := refined_size mp per.
  Hypothesis HG : grid_ok mp per.
  Hypothesis HS : stokes_layout mp per D dms.
  Hypothesis HN : nonempty_views (map fst dms).
  Hypothesis HT : table_ok D D bc.
  Let b := div_form mv mp per (E0 mp per) D (getMatElemPressure h).
  Let a := aform strain h mv per D.
  Lemma facts xv xp : exists rv rp yv, stokes_matrix_raw (viscous strain h) h dms xv xp = Ok (rv, rp) /\
    stokes_matrix (viscous strain h) h D (Some (map Some bc)) dms xv xp = Ok (yv, rp) /\
    (forall n c, in_grid_box (nodes_box mv) n -> (c < D)%nat -> yv n c = match prescribed D mv per bc n c with Some _ => xv n c | None => rv n c end) /\
    (forall v, inner (N0 mv) D rv v = a v xv - b xp v) /\ (forall q, inner (N0 mp) 1 rp q = b q xv).
  Proof.
    unfold viscous, a, aform. destruct strain.
    - destruct (C31_stokes h mp per D bc dms xv xp HG HS HN HT) as (rv & rp & yv & E1 & E2 & V). exists rv, rp, yv. split; [exact E1|]. split; [exact E2|]. split; [exact V|].
      destruct (stokes_rep_strain h mp per D dms xv xp HG HS) as (rv' & rp' & E & W). rewrite E in E1. injection E1 as <- <-. exact (W _ _ _ _ (nv0 mp per) (np0 mp) (ev0 mp per HG) (ep0 mp per HG)).
    - destruct (C31_stokes_laplacian h mp per D bc dms xv xp HG HS HN HT) as (rv & rp & yv & E1 & E2 & V). exists rv, rp, yv. split; [exact E1|]. split; [exact E2|]. split; [exact V|].
      destruct (stokes_rep_lap h mp per D dms xv xp HG HS) as (rv' & rp' & E & W). rewrite E in E1. injection E1 as <- <-. exact (W _ _ _ _ (nv0 mp per) (np0 mp) (ev0 mp per HG) (ep0 mp per HG)).
  Qed.
  Let op xv xp := stokes_matrix (viscous strain h) h D (Some (map Some bc)) dms xv xp.
  Lemma op_linear k k' xv xp xv' xp' : exists yv yp yv' yp' zv zp, op xv xp = Ok (yv, yp) /\ op xv' xp' = Ok (yv', yp') /\ op (lin k k' xv xv') (lin k k' xp xp') = Ok (zv, zp) /\
    same_field mv D zv (lin k k' yv yv') /\ same_field mp 1 zp (lin k k' yp yp').
  Proof.
    destruct (facts xv xp) as (rv & rp & yv & _ & E1 & V1 & W1 & Q1). destruct (facts xv' xp') as (rv' & rp' & yv' & _ & E2 & V2 & W2 & Q2). destruct (facts (lin k k' xv xv') (lin k k' xp xp')) as (sv & sp & zv & _ & E3 & V3 & W3 & Q3).
    exists yv, rp, yv', rp', zv, sp. split; [exact E1|]. split; [exact E2|]. split; [exact E3|]. split.
    - assert (R : same_field mv D sv (lin k k' rv rv')). { apply same_field_weak. intros v. rewrite inner_lin, W1, W2, W3. unfold a, b. rewrite aform_lin, div_form_lin_q. ring. }
      intros n c Hn Hc. unfold lin at 1. rewrite (V3 n c Hn Hc), (V1 n c Hn Hc), (V2 n c Hn Hc). destruct (prescribed D mv per bc n c); [reflexivity|]. apply (R n c Hn Hc).
    - apply same_field_weak. intros q. rewrite inner_lin, Q1, Q2, Q3. unfold b. apply div_form_lin_u.
  Qed.
  Hypothesis HC : has_cells mp per.
  Hypothesis Hh : steps_ok h mp.
  Hypothesis HH : held strain D mv per bc.
  Hypothesis H1 : at_most_one_thin mp per.
  Lemma Lmv : length mv = D.
  Proof. unfold mv, refined_size. rewrite length_zip_with; auto. symmetry. apply HG. Qed.
  Lemma kernel xv xp yv yp : op xv xp = Ok (yv, yp) -> same_field mv D yv zero_field -> same_field mp 1 yp zero_field ->
    same_field mv D xv zero_field /\ exists c, same_field mp 1 xp (constant c).
  Proof.
    intros Ey Zv Zp. destruct (facts xv xp) as (rv & rp & yv' & _ & E & V & W & Q). unfold op in Ey. rewrite E in Ey. injection Ey as -> ->.
    pose proof (refined_grid mp per HG) as HGv. fold mv in HGv.
    assert (B0 : b xp xv = 0).
    { rewrite <- Q. transitivity (inner (N0 mp) 1 zero_field xp); [|apply inner_zero]. unfold inner. apply Lsum_ext. intros n Hn. apply N0_enum in Hn. apply Rsum_ext. intros c Hc. rewrite (Zp n c Hn Hc). reflexivity. }
    assert (Zx : forall n c, in_grid_box (nodes_box mv) n -> (c < D)%nat -> prescribed D mv per bc n c <> None -> xv n c = 0).
    { intros n c Hn Hc HP. specialize (Zv n c Hn Hc). rewrite (V n c Hn Hc) in Zv. destruct (prescribed D mv per bc n c); [exact Zv|congruence]. }
    assert (A0 : a xv xv = 0).
    { assert (I0 : inner (N0 mv) D rv xv = 0). { unfold inner. apply Lsum_all_zero. intros n Hn. apply N0_enum in Hn. transitivity (Rsum D (fun _ => 0)); [|apply Rsum_zero]. apply Rsum_ext. intros c Hc. specialize (Zv n c Hn Hc). rewrite (V n c Hn Hc) in Zv. destruct (prescribed D mv per bc n c) eqn:P; [rewrite (Zx n c Hn Hc ltac:(congruence)); ring|rewrite Zv; unfold zero_field; ring]. }
      rewrite W, B0 in I0. lra. }
    assert (X0 : same_field mv D xv zero_field).
    { rewrite <- Lmv. apply (aform_definite strain h mv per bc); auto.
      - apply refined_cells; exact HC.
      - destruct Hh as [L1 L2]. split; [rewrite Lmv; exact L1|exact L2].
      - rewrite Lmv. exact HH.
      - rewrite Lmv. exact Zx.
      - rewrite Lmv. exact A0. }
    split; [exact X0|]. exists (xp (map (fun _ => 0%Z) mp) 0%nat). intros n d Hn Hd. assert (d = 0%nat) by lia. subst d. unfold constant.
    apply (pressure_constant h mp per xp HG HC Hh H1); auto. intros v Hv. fold D. fold mv in Hv |- *. change (b xp v = 0).
    assert (AV : a v xv = 0). { unfold a. rewrite <- Lmv. rewrite (aform_ext strain h mv per v xv zero_field HGv); [apply aform_zero|rewrite Lmv; exact X0]. }
    assert (I0 : inner (N0 mv) D rv v = 0).
    { unfold inner. apply Lsum_all_zero. intros n' Hn'. apply N0_enum in Hn'. transitivity (Rsum D (fun _ => 0)); [|apply Rsum_zero]. apply Rsum_ext. intros c Hc. specialize (Zv n' c Hn' Hc). rewrite (V n' c Hn' Hc) in Zv.
      destruct (prescribed D mv per bc n' c) eqn:P; [|rewrite Zv; unfold zero_field; ring]. rewrite (Hv n' c Hn'); [ring|]. assert (P' : prescribed D mv per bc n' c <> None) by congruence. apply C30_constrained_iff in P'. destruct P' as (d & up & Hd' & O1 & O2 & _).
      exists (d, up). split; [apply (in_sides D (d, up)); exact Hd'|]. unfold on_side. cbn [fst snd]. rewrite O1. cbn [negb andb]. apply Z.eqb_eq. exact O2. }
    rewrite W, AV in I0. lra.
  Qed.
  Lemma kernel_iff xv xp yv yp : normal_conditions D per bc -> op xv xp = Ok (yv, yp) -> ((same_field mv D yv zero_field /\ same_field mp 1 yp zero_field) <-> (same_field mv D xv zero_field /\ exists c, same_field mp 1 xp (constant c))).
  Proof.
    intros HB Ey. split; [intros [Zv Zp]; exact (kernel xv xp yv yp Ey Zv Zp)|]. intros [X0 (c & Xc)].
    destruct (facts xv xp) as (rv & rp & yv' & _ & E & V & W & Q). unfold op in Ey. rewrite E in Ey. injection Ey as <- <-.
    pose proof (refined_grid mp per HG) as HGv. fold mv in HGv.
    destruct (C56_constant_pressure_in_kernel strain h mp per bc dms c HG HS HN HT (proj1 Hh) HB) as (zv & zp & Ez & Z1 & Z2). fold D mv in Z1, Z2.
    destruct (facts zero_field (constant c)) as (rv0 & rp0 & zv' & _ & E0 & V0 & W0 & Q0). unfold viscous in E0. fold D in Ez. rewrite Ez in E0. injection E0 as <- <-.
    assert (Bc : forall v, b xp v = b (constant c) v).
    { intros v. unfold b, div_form. apply Lsum_ext. intros e He. apply E0_enum in He; [|apply HG]. assert (Le : length e = length mp) by (eapply cell_dim; eauto). apply Rsum_ext. intros kp Hp. apply Rsum_ext. intros kv _. apply Rsum_ext. intros d _. f_equal. f_equal. unfold gv. apply Xc; [|lia].
      apply (wrap_in_nodes mp per e); auto; [apply HG|apply HG|]. pose proof (proj1 HG) as HD. apply corner_near; rewrite Le; auto. }
    assert (AV : forall v, a v xv = a v zero_field). { intros v. unfold a. rewrite <- Lmv. apply aform_ext; auto. rewrite Lmv. exact X0. }
    assert (Rv : same_field mv D rv rv0). { apply same_field_weak. intros v. rewrite W, W0, AV, Bc. reflexivity. }
    assert (Rp : same_field mp 1 rp zp).
    { apply same_field_weak. intros q. rewrite Q, Q0. unfold b, div_form. apply Lsum_ext. intros e He. apply E0_enum in He; [|apply HG]. apply Rsum_ext. intros kp _. apply Rsum_ext. intros kv Hv. apply Rsum_ext. intros d Hd. f_equal. unfold gv3. apply X0; auto. apply gv3_node; auto. }
    split.
    - intros n d Hn Hd. rewrite <- (Z1 n d Hn Hd). rewrite (V n d Hn Hd), (V0 n d Hn Hd). destruct (prescribed D mv per bc n d); [apply X0; auto|apply Rv; auto].
    - intros n d Hn Hd. rewrite (Rp n d Hn Hd). apply Z2; auto.
  Qed.
  Lemma unique xv xp yv yp xv' xp' yv' yp' : op xv xp = Ok (yv, yp) -> op xv' xp' = Ok (yv', yp') -> same_field mv D yv yv' -> same_field mp 1 yp yp' ->
    same_field mv D xv xv' /\ exists c, forall n, in_grid_box (nodes_box mp) n -> xp n 0%nat = xp' n 0%nat + c.
  Proof.
    intros E E' Sv Sp. destruct (op_linear 1 (-1) xv xp xv' xp') as (y1 & p1 & y2 & p2 & z & zp & E1 & E2 & E3 & L1 & L2). rewrite E in E1. injection E1 as <- <-. rewrite E' in E2. injection E2 as <- <-.
    destruct (kernel _ _ _ _ E3) as [K1 (c & K2)].
    - intros n d Hn Hd. rewrite (L1 n d Hn Hd). unfold lin, zero_field. rewrite (Sv n d Hn Hd). ring.
    - intros n d Hn Hd. rewrite (L2 n d Hn Hd). unfold lin, zero_field. rewrite (Sp n d Hn Hd). ring.
    - split; [intros n d Hn Hd; specialize (K1 n d Hn Hd); unfold lin, zero_field in K1; lra|]. exists c. intros n Hn. specialize (K2 n 0%nat Hn ltac:(lia)). unfold lin, constant in K2. lra.
  Qed.
  Lemma sum_inner (y : field) : Lsum (fun n => y n 0%nat) (N0 mp) = inner (N0 mp) 1 y (constant 1).
  Proof. unfold inner, constant. apply Lsum_ext. intros n _. cbn [Rsum]. ring. Qed.
  Hypothesis HB : normal_conditions D per bc.
  Lemma flux_free v : (forall n c, in_grid_box (nodes_box mv) n -> (c < D)%nat -> prescribed D mv per bc n c <> None -> v n c = 0) -> b (constant 1) v = 0.
  Proof.
    intros HV. apply const_pressure_form; auto; [apply Hh|apply ep0, HG|]. intros n s Hn Hs Ho. change (refined_size mp per) with mv in Hn, Hs, Ho. rewrite Lmv in Hs. apply HV; auto. apply C30_constrained_iff. unfold on_side in Ho. apply andb_true_iff in Ho as [O1 O2]. apply negb_true_iff in O1. apply Z.eqb_eq in O2.
    exists (fst s), (snd s). split; [exact Hs|]. split; [exact O1|]. split; [exact O2|]. apply (HB s (in_sides D s Hs) O1).
  Qed.
  Lemma solvable bv bp : (exists xv xp yv yp, op xv xp = Ok (yv, yp) /\ same_field mv D yv bv /\ same_field mp 1 yp bp) <-> b (constant 1) bv = Lsum (fun n => bp n 0%nat) (N0 mp).
  Proof.
    split.
    - intros (xv & xp & yv & yp & E & Sv & Sp). destruct (facts xv xp) as (rv & rp & yv' & _ & E' & V & W & Q). unfold op in E. rewrite E in E'. injection E' as <- <-.
      transitivity (Lsum (fun n => yp n 0%nat) (N0 mp)); [|apply Lsum_ext; intros n Hn; apply N0_enum in Hn; apply Sp; [exact Hn|lia]]. rewrite sum_inner, Q.
      assert (K : b (constant 1) (lin 1 (-1) bv xv) = 0).
      { apply flux_free. intros n c Hn Hc HP. unfold lin. rewrite <- (Sv n c Hn Hc), (V n c Hn Hc). destruct (prescribed D mv per bc n c); [ring|congruence]. }
      unfold b in K. rewrite div_form_lin_u in K. unfold b. lra.
    - intros HE. destruct (facts zero_field (constant 1)) as (wv & wp & yv0 & _ & _ & _ & Ww & _).
      assert (W0 : forall v, inner (N0 mv) D wv v = - b (constant 1) v) by (intros v; rewrite Ww; unfold a; rewrite aform_zero; ring).
      assert (Wfree : forall n c, in_grid_box (nodes_box mv) n -> (c < D)%nat -> prescribed D mv per bc n c = None -> wv n c = 0).
      { intros n c Hn Hc HP. rewrite <- (inner_unit mv D wv n c Hn Hc), W0. rewrite flux_free; [ring|]. intros n' c' Hn' Hc' HP'. unfold unit_field. destruct (same_node_spec n n') as [<-|]; [|reflexivity]. destruct (Nat.eqb_spec c c') as [<-|]; [congruence|reflexivity]. }
      set (G := fun x : Ix -> R => match op (vpart x) (ppart x) with Ok (yv, yp) => pack yv yp | _ => fun _ => 0 end).
      assert (ND : exists n, in_grid_box (nodes_box mp) n).
      { exists (map (fun _ => 0%Z) mp). destruct HG as (_ & _ & HF). apply origin_node, HF. }
      destruct ND as (n0 & Hn0).
      destruct (fredholm1 ix_eqd (all_unknowns mv mp D) G (pack zero_field (constant 1)) (pack wv (constant 1))) with (b := pack bv bp) as (x & Hx).
      + apply all_NoDup.
      + intros k k' x y i Hi. apply in_all in Hi. unfold G. destruct (op_linear k k' (vpart x) (ppart x) (vpart y) (ppart y)) as (yv & yp & yv' & yp' & zv & zp & E1 & E2 & E3 & L1 & L2).
        rewrite E1, E2. change (vpart (fun j => k * x j + k' * y j)) with (lin k k' (vpart x) (vpart y)). change (ppart (fun j => k * x j + k' * y j)) with (lin k k' (ppart x) (ppart y)). rewrite E3.
        destruct i as [[n c]|[n c]]; [apply (L1 n c); apply Hi|apply (L2 n c); apply Hi].
      + exists (inr (n0, 0%nat)). split; [apply in_all; split; [exact Hn0|lia]|]. exact R1_neq_R0.
      + exists (inr (n0, 0%nat)). split; [apply in_all; split; [exact Hn0|lia]|]. exact R1_neq_R0.
      + intros x HK. destruct (facts (vpart x) (ppart x)) as (rv & rp & yv & _ & E & _). unfold G, op in HK. rewrite E in HK.
        destruct (kernel (vpart x) (ppart x) yv rp E) as [K1 (c & K2)].
        * intros n d Hn Hd. exact (HK (inl (n, d)) (proj2 (in_all mv mp D (inl (n, d))) (conj Hn Hd))).
        * intros n d Hn Hd. exact (HK (inr (n, d)) (proj2 (in_all mv mp D (inr (n, d))) (conj Hn Hd))).
        * exists c. intros i Hi. apply in_all in Hi. destruct i as [[n d]|[n d]].
          -- change (vpart x n d = c * 0). rewrite (K1 n d) by apply Hi. unfold zero_field. ring.
          -- change (ppart x n d = c * 1). rewrite (K2 n d) by apply Hi. unfold constant. ring.
      + intros x. unfold G. destruct (facts (vpart x) (ppart x)) as (rv & rp & yv & _ & E & V & W & Q). unfold op. rewrite E. rewrite dotL_pack.
        transitivity (inner (N0 mv) D wv (vpart x) + inner (N0 mp) 1 rp (constant 1)).
        * f_equal; [|unfold inner; apply Lsum_ext; intros; apply Rsum_ext; intros; ring]. unfold inner. apply Lsum_ext. intros n Hn. apply N0_enum in Hn. apply Rsum_ext. intros c Hc. rewrite (V n c Hn Hc). destruct (prescribed D mv per bc n c) eqn:P; [reflexivity|]. rewrite (Wfree n c Hn Hc P). ring.
        * rewrite W0, Q. ring.
      + rewrite dotL_pack, W0, HE, sum_inner. unfold inner. assert (S : forall y z : field, Lsum (fun n => Rsum 1 (fun d => y n d * z n d)) (N0 mp) = Lsum (fun n => Rsum 1 (fun d => z n d * y n d)) (N0 mp)) by (intros; apply Lsum_ext; intros; apply Rsum_ext; intros; ring). rewrite (S (constant 1) bp). ring.
      + destruct (facts (vpart x) (ppart x)) as (rv & rp & yv & _ & E & _). exists (vpart x), (ppart x), yv, rp. split; [exact E|]. unfold G, op in Hx. rewrite E in Hx. split; intros n c Hn Hc.
        * exact (Hx (inl (n, c)) (proj2 (in_all mv mp D (inl (n, c))) (conj Hn Hc))).
        * exact (Hx (inr (n, c)) (proj2 (in_all mv mp D (inr (n, c))) (conj Hn Hc))).
  Qed.
End Stokes.

(** ** C55 for the strain tensor: one solution when one side prescribes all components *)
Section Strain.
  Variables (h : list R) (m : list Z) (per : list bool) (bc : list bc_row) (dms : list dmda).
  Hypothesis HG : grid_ok m per.
  Hypothesis HC : has_cells m per.
  Hypothesis HS : steps_ok h m.
  Hypothesis HD : distributes m per (length m) dms.
  Hypothesis HN : nonempty_views dms.
  Hypothesis HT : table_ok (length m) (length m) bc.
  Hypothesis HB : a_side_held (length m) per bc.
  Let op x := diag_block_matrix (strain_tensor_mult h) (length m) (Some (map Some bc)) dms x.
  Lemma strain_facts x : exists r y, op x = Ok y /\ (forall n c, in_grid_box (nodes_box m) n -> (c < length m)%nat -> y n c = match prescribed (length m) m per bc n c with Some _ => x n c | None => r n c end) /\
    (forall v, inner (N0 m) (length m) r v = aform true h m per (length m) v x).
  Proof.
    destruct (C31_constrained_rows (strain_tensor_mult h) m per (length m) (fun E v x => tensor_form m per E (length m) (getMatElemStrainTensor h) v x) bc dms x HG HD HN HT (rep_tens m per (length m) _ HG)) as (r & y & Er & Ey & V).
    exists r, y. split; [exact Ey|]. split; [exact V|]. intros v. destruct (rep_tens m per (length m) (getMatElemStrainTensor h) HG dms x HD) as (r2 & Er2 & W). unfold strain_tensor_mult in Er. rewrite Er2 in Er. injection Er as <-. apply W; [apply N0_enum|apply E0_enum, HG].
  Qed.
  Lemma strain_linear k k' x x' : exists y y' z, op x = Ok y /\ op x' = Ok y' /\ op (lin k k' x x') = Ok z /\ same_field m (length m) z (lin k k' y y').
  Proof.
    destruct (strain_facts x) as (r & y & E1 & V1 & W1). destruct (strain_facts x') as (r' & y' & E2 & V2 & W2). destruct (strain_facts (lin k k' x x')) as (rz & z & E3 & V3 & W3). exists y, y', z. split; [exact E1|]. split; [exact E2|]. split; [exact E3|].
    assert (K : same_field m (length m) rz (lin k k' r r')) by (apply same_field_weak; intros v; rewrite inner_lin, W1, W2, W3; apply aform_lin).
    intros n c Hn Hc. unfold lin at 1. rewrite (V1 n c Hn Hc), (V2 n c Hn Hc), (V3 n c Hn Hc). destruct (prescribed (length m) m per bc n c); [reflexivity|apply (K n c Hn Hc)].
  Qed.
  Lemma strain_injective x y : op x = Ok y -> same_field m (length m) y zero_field -> same_field m (length m) x zero_field.
  Proof.
    intros E Zy. destruct (strain_facts x) as (r & y' & E' & V & W). rewrite E in E'. injection E' as <-.
    assert (Zx : forall n c, in_grid_box (nodes_box m) n -> (c < length m)%nat -> prescribed (length m) m per bc n c <> None -> x n c = 0).
    { intros n c Hn Hc HP. specialize (Zy n c Hn Hc). rewrite (V n c Hn Hc) in Zy. destruct (prescribed (length m) m per bc n c); [exact Zy|congruence]. }
    apply (aform_definite true h m per bc); auto. rewrite <- W. unfold inner. apply Lsum_all_zero. intros n Hn. apply N0_enum in Hn. transitivity (Rsum (length m) (fun _ => 0)); [|apply Rsum_zero]. apply Rsum_ext. intros c Hc.
    specialize (Zy n c Hn Hc). rewrite (V n c Hn Hc) in Zy. destruct (prescribed (length m) m per bc n c) eqn:P; [rewrite (Zx n c Hn Hc ltac:(congruence)); ring|rewrite Zy; unfold zero_field; ring].
  Qed.
End Strain.
Theorem C55_constrained_strain_unique_solution : forall h m per bc dms x x' y y',
  grid_ok m per -> has_cells m per -> steps_ok h m -> distributes m per (length m) dms -> nonempty_views dms -> table_ok (length m) (length m) bc -> a_side_held (length m) per bc ->
  diag_block_matrix (strain_tensor_mult h) (length m) (Some (map Some bc)) dms x = Ok y ->
  diag_block_matrix (strain_tensor_mult h) (length m) (Some (map Some bc)) dms x' = Ok y' ->
  same_field m (length m) y y' -> same_field m (length m) x x'.
Proof.
  intros h m per bc dms x x' y y' HG HC HS HD HN HT HB E E' Sy. destruct (strain_linear h m per bc dms HG HD HN HT 1 (-1) x x') as (y1 & y2 & z & E1 & E2 & E3 & L). rewrite E in E1. injection E1 as <-. rewrite E' in E2. injection E2 as <-.
  assert (K : same_field m (length m) (lin 1 (-1) x x') zero_field). { apply (strain_injective h m per bc dms HG HC HS HD HN HT HB _ z E3). intros n d Hn Hd. rewrite (L n d Hn Hd). unfold lin, zero_field. rewrite (Sy n d Hn Hd). ring. }
  intros n d Hn Hd. specialize (K n d Hn Hd). unfold lin, zero_field in K. lra.
Qed.
Theorem C55_constrained_strain_has_a_solution : forall h m per bc dms b,
  grid_ok m per -> has_cells m per -> steps_ok h m -> distributes m per (length m) dms -> nonempty_views dms -> table_ok (length m) (length m) bc -> a_side_held (length m) per bc ->
  exists x y, diag_block_matrix (strain_tensor_mult h) (length m) (Some (map Some bc)) dms x = Ok y /\ same_field m (length m) y b.
Proof.
  intros h m per bc dms b HG HC HS HD HN HT HB. set (dof := length m) in *.
  set (G := fun x : list Z * nat -> R => match diag_block_matrix (strain_tensor_mult h) dof (Some (map Some bc)) dms (field_of x) with Ok y => vec_of y | _ => fun _ => 0 end).
  destruct (injective_onto dof_eqd (unknowns m dof) G) with (b := vec_of b) as (x & Hx).
  - apply unknowns_NoDup.
  - intros k k' x y [n d] Hi. apply in_unknowns in Hi. destruct Hi as [Hn Hd]. unfold G. destruct (strain_linear h m per bc dms HG HD HN HT k k' (field_of x) (field_of y)) as (y1 & y2 & z & E1 & E2 & E3 & L). fold dof in E1, E2, E3, L. rewrite E1, E2.
    change (field_of (fun j => k * x j + k' * y j)) with (lin k k' (field_of x) (field_of y)). rewrite E3. apply (L n d Hn Hd).
  - intros x H0 [n d] Hi. destruct (proj1 (in_unknowns m dof n d) Hi) as [Hn Hd]. destruct (strain_facts h m per bc dms HG HD HN HT (field_of x)) as (r & y & E & _). fold dof in E. change (field_of x n d = zero_field n d).
    apply (strain_injective h m per bc dms HG HC HS HD HN HT HB _ y E); auto. intros n' c' Hn' Hc'. specialize (H0 (n', c') (proj2 (in_unknowns m dof n' c') (conj Hn' Hc'))). unfold G in H0. rewrite E in H0. exact H0.
  - destruct (strain_facts h m per bc dms HG HD HN HT (field_of x)) as (r & y & E & _). fold dof in E. exists (field_of x), y. split; [exact E|]. intros n d Hn Hd. specialize (Hx (n, d) (proj2 (in_unknowns m dof n d) (conj Hn Hd))). unfold G in Hx. rewrite E in Hx. exact Hx.
Qed.

(** the state on which the constrained operator vanishes: no velocity, a constant pressure *)
Theorem C66_kernel : forall (strain : bool) h mp per bc dms xv xp yv yp, let D := length mp in let mv := refined_size mp per in
  grid_ok mp per -> has_cells mp per -> at_most_one_thin mp per -> steps_ok h mp -> stokes_layout mp per D dms -> nonempty_views (map fst dms) -> table_ok D D bc ->
  held strain D mv per bc -> normal_conditions D per bc ->
  stokes_matrix (if strain then strain_tensor_mult h else laplacian_mult h) h D (Some (map Some bc)) dms xv xp = Ok (yv, yp) ->
  ((same_field mv D yv zero_field /\ same_field mp 1 yp zero_field) <-> (same_field mv D xv zero_field /\ exists c, same_field mp 1 xp (constant c))).
Proof. intros. apply (kernel_iff strain h mp per bc dms); auto. Qed.
(** two solutions of the same problem *)
Theorem C66_unique : forall (strain : bool) h mp per bc dms xv xp yv yp xv' xp' yv' yp', let D := length mp in let mv := refined_size mp per in
  grid_ok mp per -> has_cells mp per -> at_most_one_thin mp per -> steps_ok h mp -> stokes_layout mp per D dms -> nonempty_views (map fst dms) -> table_ok D D bc ->
  held strain D mv per bc ->
  stokes_matrix (if strain then strain_tensor_mult h else laplacian_mult h) h D (Some (map Some bc)) dms xv xp = Ok (yv, yp) ->
  stokes_matrix (if strain then strain_tensor_mult h else laplacian_mult h) h D (Some (map Some bc)) dms xv' xp' = Ok (yv', yp') ->
  same_field mv D yv yv' -> same_field mp 1 yp yp' ->
  same_field mv D xv xv' /\ exists c, forall n, in_grid_box (nodes_box mp) n -> xp n 0%nat = xp' n 0%nat + c.
Proof. intros strain h mp per bc dms xv xp yv yp xv' xp' yv' yp' D mv HG HC H1 Hh HS HN HT HH E E'. apply (unique strain h mp per bc dms HG HS HN HT HC Hh HH H1 xv xp yv yp xv' xp' yv' yp' E E'). Qed.
(** the right-hand sides that are reached: those whose pressure part sums to the divergence
    (over the whole domain) of the velocity part *)
Theorem C66_solvable_iff_compatible : forall (strain : bool) h mp per bc dms bv bp dv dp, let D := length mp in let mv := refined_size mp per in
  grid_ok mp per -> has_cells mp per -> at_most_one_thin mp per -> steps_ok h mp -> stokes_layout mp per D dms -> nonempty_views (map fst dms) -> table_ok D D bc ->
  held strain D mv per bc -> normal_conditions D per bc ->
  stokes_matrix_raw (if strain then strain_tensor_mult h else laplacian_mult h) h dms bv zero_field = Ok (dv, dp) ->
  forall Np, enumerates Np (nodes_box mp) ->
  ((exists xv xp yv yp, stokes_matrix (if strain then strain_tensor_mult h else laplacian_mult h) h D (Some (map Some bc)) dms xv xp = Ok (yv, yp) /\
      same_field mv D yv bv /\ same_field mp 1 yp bp)
   <-> Lsum (fun n => dp n 0%nat) Np = Lsum (fun n => bp n 0%nat) Np).
Proof.
  intros strain h mp per bc dms bv bp dv dp D mv HG HC H1 Hh HS HN HT HH HB E Np HNp.
  assert (PE : forall f, Lsum f Np = Lsum f (N0 mp)) by (intros f; apply Lsum_perm, (enum_perm _ _ (nodes_box mp)); [exact HNp|apply N0_enum]). rewrite !PE.
  destruct (facts strain h mp per bc dms HG HS HN HT bv zero_field) as (rv & rp & yv & E1 & _ & _ & _ & Q). unfold viscous in E1. rewrite E in E1. injection E1 as <- <-.
  rewrite sum_inner, Q. apply (solvable strain h mp per bc dms HG HS HN HT HC Hh HH H1 HB bv bp).
Qed.
(** in particular without data on the walls and without source of mass, always *)
Theorem C66_homogeneous_walls_solvable : forall (strain : bool) h mp per bc dms bv, let D := length mp in let mv := refined_size mp per in
  grid_ok mp per -> has_cells mp per -> at_most_one_thin mp per -> steps_ok h mp -> stokes_layout mp per D dms -> nonempty_views (map fst dms) -> table_ok D D bc ->
  held strain D mv per bc -> normal_conditions D per bc ->
  (forall n c, in_grid_box (nodes_box mv) n -> (c < D)%nat -> prescribed D mv per bc n c <> None -> bv n c = 0) ->
  exists xv xp yv yp, stokes_matrix (if strain then strain_tensor_mult h else laplacian_mult h) h D (Some (map Some bc)) dms xv xp = Ok (yv, yp) /\
    same_field mv D yv bv /\ same_field mp 1 yp zero_field.
Proof.
  intros strain h mp per bc dms bv D mv HG HC H1 Hh HS HN HT HH HB Hbv.
  apply (solvable strain h mp per bc dms HG HS HN HT HC Hh HH H1 HB bv zero_field). rewrite (flux_free h mp per bc HG Hh HB bv Hbv). symmetry. apply Lsum_all_zero. reflexivity.
Qed.

(** the hypotheses hold, for both viscous operators, in the example of two processes *)
Example ex_well_posed : forall strain, grid_ok ex_mp ex_per /\ has_cells ex_mp ex_per /\ at_most_one_thin ex_mp ex_per /\ steps_ok [1/7; 1/3] ex_mp /\ stokes_layout ex_mp ex_per 2 ex_dms /\ nonempty_views (map fst ex_dms) /\
  table_ok 2 2 ex_walls /\ held strain 2 (refined_size ex_mp ex_per) ex_per ex_walls /\ normal_conditions 2 ex_per ex_walls.
Proof.
  intros strain. pose proof ex_assembly as (_ & A1 & A2 & A3 & _ & A5 & A6 & A7). split; [exact A1|]. split; [constructor; [right; lia|constructor; [left; reflexivity|constructor]]|]. split; [unfold at_most_one_thin; cbn; lia|]. split; [split; [reflexivity|repeat constructor; lra]|].
  split; [exact A2|]. split; [exact A3|]. split; [exact A5|]. split; [|exact A7]. unfold held. destruct strain.
  - exists (0%nat, false). split; [cbn; auto|]. split; [reflexivity|]. intros c Hc. apply (A6 (0%nat, false) c); [cbn; auto|reflexivity|exact Hc].
  - intros c Hc. exists [0; 0]%Z. split; [split; repeat constructor; cbn; lia|]. apply C30_constrained_iff. exists 0%nat, false. split; [lia|]. split; [reflexivity|]. split; [reflexivity|]. apply (A6 (0%nat, false) c); [cbn; auto|reflexivity|exact Hc].
Qed.
(** a single cell of pressure between walls: a pressure alternating from corner to corner is also in the kernel *)
Definition checkerboard : field := fun n _ => if Z.even (nth 0 n 0%Z + nth 1 n 0%Z) then 1 else -1.
Definition sq_walls : list bc_row := [[Some (fun _ => 0); Some (fun _ => 0)]; [Some (fun _ => 0); Some (fun _ => 0)]; [Some (fun _ => 0); Some (fun _ => 0)]; [Some (fun _ => 0); Some (fun _ => 0)]].
Theorem C66_single_cell_refuted : forall (strain : bool) h0 h1, 0 < h0 -> 0 < h1 ->
  grid_ok [2; 2]%Z [false; false] /\ has_cells [2; 2]%Z [false; false] /\ stokes_layout [2; 2]%Z [false; false] 2 sq_dms /\ nonempty_views (map fst sq_dms) /\
  table_ok 2 2 sq_walls /\ all_conditions 2 2 [false; false] sq_walls /\
  (exists yv yp, stokes_matrix (if strain then strain_tensor_mult [h0; h1] else laplacian_mult [h0; h1]) [h0; h1] 2 (Some (map Some sq_walls)) sq_dms zero_field checkerboard = Ok (yv, yp) /\
    same_field [3; 3]%Z 2 yv zero_field /\ same_field [2; 2]%Z 1 yp zero_field) /\
  ~ exists c, same_field [2; 2]%Z 1 checkerboard (constant c).
Proof.
  intros strain h0 h1 H0 H1. split; [exact sq_grid|]. split; [constructor; [right; lia|constructor; [right; lia|constructor]]|]. split; [exact sq_layout|].
  assert (HN : nonempty_views (map fst sq_dms)) by (unfold sq_dms; vm_compute; repeat constructor). split; [exact HN|].
  assert (HT : table_ok 2 2 sq_walls) by (split; [reflexivity|repeat constructor]). split; [exact HT|].
  split; [intros s c Hs _ Hc; cbn in Hs; destruct c as [|[|]]; [| |lia]; destruct Hs as [<-|[<-|[<-|[<-|[]]]]]; cbn; discriminate|]. split.
  - destruct (facts strain [h0; h1] [2; 2]%Z [false; false] sq_walls sq_dms sq_grid sq_layout HN HT zero_field checkerboard) as (rv & rp & yv & _ & E & V & W & Q). exists yv, rp. split; [exact E|]. split.
    + intros n d Hn Hd. rewrite (V n d Hn Hd). destruct (prescribed _ _ _ _ n d) eqn:P; [reflexivity|].
      rewrite <- (inner_unit _ 2 rv n d Hn Hd). change (length [2; 2]%Z) with 2%nat in W. rewrite W, aform_zero.
      assert (En : n = [1; 1]%Z).
      { destruct Hn as [N1 N2]. cbn in N1, N2. inversion N1 as [|? x ? n1 X Y]; subst. inversion Y as [|? y ? n2 X' Y']; subst. inversion Y'; subst. inversion N2 as [|? ? ? ? X2 Y2]; subst. inversion Y2 as [|? ? ? ? X3 _]; subst.
        assert (Px : forall a up, (a < 2)%nat -> nth a [x; y] 0%Z = (if up : bool then 2 else 0)%Z -> False).
        { intros a up Ha Ea. assert (K : prescribed 2 [3; 3]%Z [false; false] sq_walls [x; y] d <> None); [|apply K; exact P]. apply C30_constrained_iff. exists a, up. split; [exact Ha|]. split; [destruct a as [|[|]]; [reflexivity|reflexivity|lia]|]. split; [rewrite Ea; destruct a as [|[|]]; [reflexivity|reflexivity|lia]|]. destruct a as [|[|]], up, d as [|[|]]; try lia; cbn; discriminate. }
        assert (x <> 0 /\ x <> 2 /\ y <> 0 /\ y <> 2)%Z. { repeat split; intros ->; [apply (Px 0%nat false)|apply (Px 0%nat true)|apply (Px 1%nat false)|apply (Px 1%nat true)]; auto. }
        f_equal; [|f_equal]; lia. }
      subst n. change (refined_size [2; 2]%Z [false; false]) with [3; 3]%Z. unfold div_form. change (E0 [2; 2]%Z [false; false]) with [[0; 0]]%Z. unfold Lsum, gv, gv3, unit_field, checkerboard, zero_field.
      destruct d as [|[|]]; [| |lia]; cbn; unfold matElem2d_pdxu, matElem2d_pdyu, entry, matElem2d_pdxu_q, matElem2d_pdyu_q, Q2R; cbn; field.
    + apply same_field_weak. intros q. rewrite Q, inner_zero. apply div_zero.
  - intros (c & Hc). assert (A : in_grid_box (nodes_box [2; 2]%Z) [0; 0]%Z) by (split; repeat constructor; lia). assert (B : in_grid_box (nodes_box [2; 2]%Z) [1; 0]%Z) by (split; repeat constructor; lia).
    pose proof (Hc _ 0%nat A ltac:(lia)) as E1. pose proof (Hc _ 0%nat B ltac:(lia)) as E2. unfold checkerboard, constant in E1, E2. cbn in E1, E2. lra.
Qed.
