(** Assembled matrices against element sums. *)
From Coquelicot Require Import Coquelicot.
From Verif Require Import Base M_Geometry S_Geometry P_Geometry M_Particle S_Particle P_Particle M_Quadrature S_Fem M_MatElem P_MatElem P_Energy M_Mesh M_Operator M_Bc M_Assembly S_Operator P_Mesh P_Operator P_Operator2 P_Global P_Stokes P_Operator3.
Open Scope R_scope.

(** ** local numbering *)
Definition lidx (dm : dmda) (p : list Z) (c : nat) : Z := (Z.of_nat c + DMDALocalIndex2D (info_of dm) (nth 0 p 0) (nth 1 p 0))%Z.
Lemma ltog1_lidx dm p c : length (bottom_left (g_ghost dm)) = 2%nat -> length (upper_right (g_ghost dm)) = 2%nat ->
  in_grid_box (g_ghost dm) p -> (c < g_dof dm)%nat ->
  ltog1 dm (lidx dm p c) = (wrap (g_size dm) (g_per dm) p, c) /\ (0 <= lidx dm p c < local_size dm)%Z.
Proof.
  intros L1 L2 [H1 H2] Hc. unfold ltog1, lidx, local_size, DMDALocalIndex2D.
  assert (E : exists a0 a1 b0 b1 i j, bottom_left (g_ghost dm) = [a0; a1] /\ upper_right (g_ghost dm) = [b0; b1] /\ p = [i; j] /\ (a0 <= i < b0)%Z /\ (a1 <= j < b1)%Z).
  { destruct (bottom_left (g_ghost dm)) as [|a0 [|a1 [|]]]; simpl in L1; try lia. destruct (upper_right (g_ghost dm)) as [|b0 [|b1 [|]]]; simpl in L2; try lia.
    destruct p as [|i [|j [|]]]; try (inversion H1 as [|? ? ? ? ? K]; inversion K as [|? ? ? ? ? K']; inversion K'; fail).
    all: try (inversion H1 as [|? ? ? ? ? K]; subst; inversion K; fail). all: try (inversion H1; fail).
    exists a0, a1, b0, b1, i, j. inversion H1 as [|? ? ? ? A1 A2]; subst. inversion A2 as [|? ? ? ? A3 A4]; subst. inversion H2 as [|? ? ? ? B1 B2]; subst. inversion B2 as [|? ? ? ? B3 B4]; subst.
    repeat split; lia. }
  destruct E as (a0 & a1 & b0 & b1 & i & j & Ea & Eb & -> & Hi & Hj). unfold info_of. rewrite Ea, Eb.
  cbn [nth i_dof i_gxm i_gym i_gxs i_gys].
  set (D := Z.of_nat (g_dof dm)). set (w := (b0 - a0)%Z). set (hh := (b1 - a1)%Z). set (q := ((j - a1) * w + i - a0)%Z).
  assert (HD : (0 <= Z.of_nat c < D)%Z) by (unfold D; lia).
  assert (Q1 : ((Z.of_nat c + D * q) / D = q)%Z) by (symmetry; apply (Z.div_unique_pos _ _ q (Z.of_nat c)); lia).
  assert (Q2 : ((Z.of_nat c + D * q) mod D = Z.of_nat c)%Z) by (symmetry; apply (Z.mod_unique_pos _ _ q (Z.of_nat c)); lia).
  assert (Q3 : (q / w = j - a1)%Z) by (symmetry; apply (Z.div_unique_pos _ _ (j - a1) (i - a0)); unfold q, w; lia).
  assert (Q4 : (q mod w = i - a0)%Z) by (symmetry; apply (Z.mod_unique_pos _ _ (j - a1) (i - a0)); unfold q, w; lia).
  rewrite Q1, Q2, Q3, Q4, Nat2Z.id. split; [f_equal; f_equal; f_equal; [|f_equal]; lia|].
  assert (0 <= q < w * hh)%Z by (unfold q; nia). nia.
Qed.

(** ** MatSetValuesLocal appends entries *)
Definition stepA (A : list mentry) (e : mentry) : outcome (list mentry) := Ok (A ++ [e]).
Lemma runsA l : forall A, runs stepA A l = Ok (A ++ l).
Proof. induction l as [|e l IH]; intros A; [rewrite app_nil_r; reflexivity|]. rewrite runs_cons. cbn [stepA bind]. rewrite IH, <- app_assoc. reflexivity. Qed.
Definition block (nr nc : nat) (rd cd : nat -> gdof) (V : nat -> nat -> R) : list mentry :=
  flat_map (fun a => flat_map (fun b => [(rd a, cd b, V a b)]) (seq 0 nc)) (seq 0 nr).
Lemma set_values dm rows cols v rd cd V A :
  (forall a, (a < length rows)%nat -> ltog dm (nth a rows 0%Z) = Ok (rd a)) ->
  (forall b, (b < length cols)%nat -> ltog dm (nth b cols 0%Z) = Ok (cd b)) ->
  (forall a b, (a < length rows)%nat -> (b < length cols)%nat -> read_flat v (a * length cols + b) = Some (V a b)) ->
  MatSetValuesLocal dm rows cols v A = runs stepA A (block (length rows) (length cols) rd cd V).
Proof.
  intros Hr Hc Hv. unfold MatSetValuesLocal, block. apply for_runs. intros a A1 Ha. apply for_runs. intros b A2 Hb.
  rewrite Hr, Hc by auto. cbn [bind]. rewrite Hv by auto. reflexivity.
Qed.
Lemma Lsum_block f nr nc rd cd V : Lsum f (block nr nc rd cd V) = Rsum nr (fun a => Rsum nc (fun b => f (rd a, cd b, V a b))).
Proof.
  unfold block. rewrite Lsum_flat_map, Lsum_seq. apply Rsum_ext. intros a _. rewrite Lsum_flat_map, Lsum_seq. apply Rsum_ext. intros b _. apply Lsum_single.
Qed.
Lemma assemble_runs f (c : dmda * dmda -> list mentry) dms A : (forall dm A, In dm dms -> f dm A = runs stepA A (c dm)) -> assemble f dms A = runs stepA A (flat_map c dms).
Proof. intros H. apply fold_runs. intros; apply H; auto. Qed.

(** ** MatMult in weak form *)
Definition erow (e : mentry) : gdof := fst (fst e).
Definition ecol (e : mentry) : gdof := snd (fst e).
Definition xat (x : bool -> field) (g : gdof) : R := x (fst (fst g)) (snd (fst g)) (snd g).
Definition mval (x : bool -> field) (b : bool) (v : field) (e : mentry) : R :=
  if Bool.eqb (fst (fst (erow e))) b then snd e * xat x (ecol e) * v (snd (fst (erow e))) (snd (erow e)) else 0.
Lemma matmult_weak A x b N dof v : NoDup N ->
  Forall (fun e : mentry => fst (fst (erow e)) = b -> In (snd (fst (erow e))) N /\ (snd (erow e) < dof)%nat) A ->
  inner N dof (MatMult A x b) v = Lsum (mval x b v) A.
Proof.
  intros HN HF. unfold inner, MatMult. change (fold_right Rplus 0 (map ?f ?l)) with (Lsum f l).
  induction HF as [|e A He HF IH].
  { unfold Lsum at 2 3. simpl. apply Lsum_all_zero. intros n _. transitivity (Rsum dof (fun _ => 0)); [|apply Rsum_zero]. apply Rsum_ext. intros. ring. }
  rewrite Lsum_cons, <- IH.
  transitivity (Lsum (fun n => Rsum dof (fun d => (if same_dof (erow e) (b, n, d) then snd e * xat x (ecol e) else 0) * v n d)
     + Rsum dof (fun d => Lsum (fun e0 : mentry => if same_dof (fst (fst e0)) (b, n, d) then snd e0 * x (fst (fst (snd (fst e0)))) (snd (fst (snd (fst e0)))) (snd (snd (fst e0))) else 0) A * v n d)) N).
  { apply Lsum_ext. intros n _. rewrite <- Rsum_plus. apply Rsum_ext. intros d _. rewrite Lsum_cons. unfold xat, ecol, erow. ring. }
  rewrite Lsum_plus. f_equal. unfold mval, same_dof. cbn [fst snd].
  destruct (Bool.eqb (fst (fst (erow e))) b) eqn:EB; cbn [andb].
  - apply eqb_prop in EB. destruct (He EB) as [HI HD].
    rewrite <- (Lsum_pick (list_eq_dec Z.eq_dec) (snd (fst (erow e))) (fun n => snd e * xat x (ecol e) * v n (snd (erow e))) N HN HI).
    apply Lsum_ext. intros n _. unfold same_node. destruct (list_eq_dec Z.eq_dec (snd (fst (erow e))) n) as [<-|Hne]; cbn [andb].
    + rewrite <- (Rsum_pick dof (snd (erow e)) (fun d => snd e * xat x (ecol e) * v (snd (fst (erow e))) d) HD). apply Rsum_ext. intros d _. destruct (Nat.eqb _ d); ring.
    + transitivity (Rsum dof (fun _ => 0)); [|apply Rsum_zero]. apply Rsum_ext. intros; ring.
  - apply Lsum_all_zero. intros n _. transitivity (Rsum dof (fun _ => 0)); [|apply Rsum_zero]. apply Rsum_ext. intros; ring.
Qed.

(** ** one pair of grids, all processes *)
Section Pair.
  Variables (mp : list Z) (per : list bool) (dms : list (dmda * dmda)).
  Hypothesis H2 : length mp = 2%nat.
  Hypothesis HG : grid_ok mp per.
  Hypothesis HS : stokes_layout mp per 2 dms.
  Let mv := refined_size mp per.
  Let HGv : grid_ok mv per := refined_grid mp per HG.
  Let HL : length per = length mp := proj1 (proj2 HG).
  Let HLv : length per = length mv := proj1 (proj2 HGv).
  Lemma lmv : length mv = 2%nat.
  Proof. unfold mv, refined_size. rewrite length_zip_with; lia. Qed.
  Lemma vv dm : In dm dms -> view_ok mv per 2 (fst dm). Proof. intros Hin. destruct HS as [[HV _] _]. rewrite Forall_forall in HV. apply HV, in_map, Hin. Qed.
  Lemma vp dm : In dm dms -> view_ok mp per 1 (snd dm). Proof. intros Hin. destruct HS as [_ [[HV _] _]]. rewrite Forall_forall in HV. apply HV, in_map, Hin. Qed.
  Lemma gdim m dof dm : length m = 2%nat -> length per = length m -> view_ok m per dof dm -> length (bottom_left (g_ghost dm)) = 2%nat /\ length (upper_right (g_ghost dm)) = 2%nat.
  Proof. intros Hm Hl V. destruct (view_dims m per dof dm V Hl) as (_ & _ & [A B]). lia. Qed.

  Lemma ltog_v dm p c : In dm dms -> in_grid_box (g_ghost (fst dm)) p -> (c < 2)%nat -> ltog dm (lidx (fst dm) p c) = Ok (false, wrap mv per p, c).
  Proof.
    intros Hin Hp Hc. pose proof (vv dm Hin) as V. destruct (gdim mv 2 (fst dm) lmv HLv V) as [L1 L2]. destruct V as (E1 & E2 & E3 & _).
    destruct (ltog1_lidx (fst dm) p c L1 L2 Hp ltac:(lia)) as [A B]. unfold ltog. rewrite A, E1, E2.
    rewrite (proj2 (Z.leb_le _ _)) by lia. rewrite (proj2 (Z.ltb_lt _ _)) by lia. reflexivity.
  Qed.
  Lemma ltog_p dm p : In dm dms -> in_grid_box (g_ghost (snd dm)) p -> ltog dm (local_size (fst dm) + lidx (snd dm) p 0)%Z = Ok (true, wrap mp per p, 0%nat).
  Proof.
    intros Hin Hp. pose proof (vp dm Hin) as V. destruct (gdim mp 1 (snd dm) H2 HL V) as [L1 L2]. destruct V as (E1 & E2 & E3 & _).
    destruct (ltog1_lidx (snd dm) p 0 L1 L2 Hp ltac:(lia)) as [A B]. unfold ltog.
    match goal with |- (if ?c then _ else _) = _ => replace c with false end.
    2:{ symmetry. apply andb_false_iff. right. apply Z.ltb_ge. lia. }
    rewrite (proj2 (Z.leb_le _ _)) by lia. rewrite (proj2 (Z.ltb_lt _ _)) by lia. cbn [andb].
    replace (local_size (fst dm) + lidx (snd dm) p 0 - local_size (fst dm))%Z with (lidx (snd dm) p 0) by lia. rewrite A, E1, E2. reflexivity.
  Qed.

  (** cells of a process, as pairs *)
  Lemma e_shape m dof dm e : length m = 2%nat -> length per = length m -> view_ok m per dof dm -> in_grid_box (get_DM_bounds dm true) e -> exists i j, e = [i; j].
  Proof.
    intros Hm Hl V [A _]. apply Forall2_len in A. destruct (view_dims m per dof dm V Hl) as (_ & [B _] & _).
    assert (L : length e = 2%nat) by lia. clear - L. destruct e as [|i [|j [|]]]; try discriminate L. exists i, j. reflexivity.
  Qed.
  Lemma node_v_ghost dm e k : In dm dms -> in_grid_box (get_DM_bounds (fst dm) true) e -> (k < 4)%nat -> in_grid_box (g_ghost (fst dm)) (corner e k).
  Proof.
    intros Hin He Hk. pose proof (vv dm Hin) as V. destruct (e_shape mv 2 (fst dm) e lmv HLv V He) as (i & j & ->).
    assert (Hn : near [i; j] (corner [i; j] k)) by (apply corner_near; [left; reflexivity|exact Hk]).
    destruct V as (E1 & E2 & E3 & K1 & K2 & K3 & E4). rewrite E4. unfold get_DM_bounds in He. rewrite E1, E2 in He.
    destruct He as [He1 He2]. simpl in He1, He2. unfold in_grid_box, ghost_box; simpl. apply (ghost_contains _ _ mv per [i; j]); auto.
  Qed.

  (** *** Laplacian *)
  Lemma indices_corner info i j c k : (k < 4)%nat -> nth k (get_indices info i j c) 0%Z = (c + DMDALocalIndex2D info (nth 0 (corner [i; j] k) 0) (nth 1 (corner [i; j] k) 0))%Z.
  Proof. intros Hk. do 4 (destruct k as [|k]; [unfold corner; simpl; rewrite ?Z.add_0_r; reflexivity|]). lia. Qed.
  Lemma tensor_corner info i j a : (a < 8)%nat -> nth a (get_indices_tensor info i j) 0%Z =
    (Z.of_nat (a / 4) + DMDALocalIndex2D info (nth 0 (corner [i; j] (a mod 4)) 0) (nth 1 (corner [i; j] (a mod 4)) 0))%Z.
  Proof. intros Hk. do 8 (destruct a as [|a]; [unfold corner; simpl; rewrite ?Z.add_0_r; reflexivity|]). lia. Qed.
  Lemma q1_corner info i j a : (a < 18)%nat -> nth a (get_indices_4Q1 info i j) 0%Z =
    (Z.of_nat (a / 9) + DMDALocalIndex2D info (nth 0 (corner3 [i; j] (a mod 9)) 0) (nth 1 (corner3 [i; j] (a mod 9)) 0))%Z.
  Proof.
    intros Hk. do 18 (destruct a as [|a]; [unfold corner3; cbn [get_indices_4Q1 flat_map app nth length seq zip_with];
      repeat match goal with |- context [Z.of_nat ?t] => let v := eval vm_compute in (Z.of_nat t) in change (Z.of_nat t) with v end;
      rewrite ?Z.add_0_r; reflexivity|]). lia.
  Qed.

  Definition dblock (b : bool) (m : list Z) (dof : nat) (M : nat -> nat -> R) (e : list Z) : list mentry :=
    flat_map (fun d => block 4 4 (fun k => (b, wrap m per (corner e k), d)) (fun k => (b, wrap m per (corner e k), d)) M) (seq 0 dof).
  Lemma diag_A_v matelem M dm A : In dm dms ->
    (forall k1 k2, (k1 < 4)%nat -> (k2 < 4)%nat -> read_flat matelem (k1 * 4 + k2) = Some (M k1 k2)) ->
    iterate_o (get_DM_bounds (fst dm) true) (kernel_diag_block_A dm (info_of (fst dm)) matelem 0) A
    = runs stepA A (flat_map (dblock false mv 2 M) (grid_pts (get_DM_bounds (fst dm) true))).
  Proof.
    intros Hin HM. pose proof (vv dm Hin) as V. eapply iterate_runs; [apply (view_dims mv per 2 (fst dm) V HLv)|].
    intros e A0 He. destruct (e_shape mv 2 (fst dm) e lmv HLv V He) as (i & j & ->). unfold kernel_diag_block_A, dblock.
    assert (ED : Z.to_nat (i_dof (info_of (fst dm))) = 2%nat) by (unfold info_of; cbn [i_dof]; rewrite Nat2Z.id; apply V).
    rewrite ED. apply for_runs. intros d A1 Hd. cbn [px py nth].
    assert (ID : forall k, (k < 4)%nat -> ltog dm (nth k (get_indices (info_of (fst dm)) i j (Z.of_nat d + 0)) 0%Z) = Ok (false, wrap mv per (corner [i; j] k), d)).
    { intros k Hk. rewrite indices_corner, Z.add_0_r by exact Hk. apply ltog_v; auto. apply node_v_ghost; auto. }
    erewrite set_values; [reflexivity|exact ID|exact ID|]. exact HM.
  Qed.
  Lemma node_p_ghost dm e k : In dm dms -> in_grid_box (get_DM_bounds (snd dm) true) e -> (k < 4)%nat -> in_grid_box (g_ghost (snd dm)) (corner e k).
  Proof.
    intros Hin He Hk. destruct (e_shape mp 1 (snd dm) e H2 HL (vp dm Hin) He) as (i & j & ->).
    eapply (p_in_ghost mp per 2 dms HG HS dm); eauto. apply corner_near; [left; reflexivity|exact Hk].
  Qed.
  Lemma node_v3_ghost dm e k : In dm dms -> in_grid_box (get_DM_bounds (snd dm) true) e -> (k < 9)%nat -> in_grid_box (g_ghost (fst dm)) (corner3 e k).
  Proof.
    intros Hin He Hk. destruct (e_shape mp 1 (snd dm) e H2 HL (vp dm Hin) He) as (i & j & ->).
    eapply (v_in_ghost mp per 2 dms HG HS dm); eauto. rewrite <- get_element_4Q1_corner; [|left; reflexivity|exact Hk].
    apply get_element_4Q1_near, nth_In. exact Hk.
  Qed.
  Lemma diag_A_p matelem M dm A : In dm dms ->
    (forall k1 k2, (k1 < 4)%nat -> (k2 < 4)%nat -> read_flat matelem (k1 * 4 + k2) = Some (M k1 k2)) ->
    iterate_o (get_DM_bounds (snd dm) true) (kernel_diag_block_A dm (info_of (snd dm)) matelem (local_size (fst dm))) A
    = runs stepA A (flat_map (dblock true mp 1 M) (grid_pts (get_DM_bounds (snd dm) true))).
  Proof.
    intros Hin HM. pose proof (vp dm Hin) as V. eapply iterate_runs; [apply (view_dims mp per 1 (snd dm) V HL)|].
    intros e A0 He. destruct (e_shape mp 1 (snd dm) e H2 HL V He) as (i & j & ->). unfold kernel_diag_block_A, dblock.
    assert (ED : Z.to_nat (i_dof (info_of (snd dm))) = 1%nat) by (unfold info_of; cbn [i_dof]; rewrite Nat2Z.id; apply V).
    rewrite ED. apply for_runs. intros d A1 Hd. cbn [px py nth]. assert (d = 0%nat) by lia. subst d.
    assert (ID : forall k, (k < 4)%nat -> ltog dm (nth k (get_indices (info_of (snd dm)) i j (Z.of_nat 0 + local_size (fst dm))) 0%Z) = Ok (true, wrap mp per (corner [i; j] k), 0%nat)).
    { intros k Hk. rewrite indices_corner by exact Hk.
      replace (Z.of_nat 0 + local_size (fst dm) + DMDALocalIndex2D (info_of (snd dm)) (nth 0 (corner [i; j] k) 0) (nth 1 (corner [i; j] k) 0))%Z
        with (local_size (fst dm) + lidx (snd dm) (corner [i; j] k) 0)%Z by (unfold lidx; lia).
      apply ltog_p; auto. apply node_p_ghost; auto. }
    erewrite set_values; [reflexivity|exact ID|exact ID|]. exact HM.
  Qed.
  (** *** strain tensor *)
  Definition tblock (V : nat -> nat -> R) (e : list Z) : list mentry :=
    block 8 8 (fun a => (false, wrap mv per (corner e (a mod 4)), (a / 4)%nat)) (fun a => (false, wrap mv per (corner e (a mod 4)), (a / 4)%nat)) V.
  Lemma div_lt4 a : (a < 8)%nat -> (a / 4 < 2)%nat. Proof. intros H. apply Nat.div_lt_upper_bound; lia. Qed.
  Lemma tens_A matelem V dm A : In dm dms ->
    (forall a b, (a < 8)%nat -> (b < 8)%nat -> read_flat matelem (a * 8 + b) = Some (V a b)) ->
    iterate_o (get_DM_bounds (fst dm) true) (kernel_tensor_block_A dm (info_of (fst dm)) matelem) A
    = runs stepA A (flat_map (tblock V) (grid_pts (get_DM_bounds (fst dm) true))).
  Proof.
    intros Hin HM. pose proof (vv dm Hin) as W. eapply iterate_runs; [apply (view_dims mv per 2 (fst dm) W HLv)|].
    intros e A0 He. destruct (e_shape mv 2 (fst dm) e lmv HLv W He) as (i & j & ->). unfold kernel_tensor_block_A, tblock. cbn [px py nth].
    assert (ID : forall k, (k < 8)%nat -> ltog dm (nth k (get_indices_tensor (info_of (fst dm)) i j) 0%Z) = Ok (false, wrap mv per (corner [i; j] (k mod 4)), (k / 4)%nat)).
    { intros k Hk. rewrite tensor_corner by exact Hk. apply ltog_v; auto; [|apply div_lt4, Hk]. apply node_v_ghost; auto. apply Nat.mod_upper_bound; lia. }
    erewrite set_values; [reflexivity|exact ID|exact ID|]. exact HM.
  Qed.
  (** *** B and BT *)
  Definition oblock (VB VT : nat -> nat -> R) (e : list Z) : list mentry :=
    block 4 18 (fun k => (true, wrap mp per (corner e k), 0%nat)) (fun a => (false, wrap mv per (corner3 e (a mod 9)), (a / 9)%nat)) VB ++
    block 18 4 (fun a => (false, wrap mv per (corner3 e (a mod 9)), (a / 9)%nat)) (fun k => (true, wrap mp per (corner e k), 0%nat)) VT.
  Lemma div_lt9 a : (a < 18)%nat -> (a / 9 < 2)%nat. Proof. intros H. apply Nat.div_lt_upper_bound; lia. Qed.
  Lemma off_A mB mT VB VT dm A : In dm dms ->
    (forall a b, (a < 4)%nat -> (b < 18)%nat -> read_flat mB (a * 18 + b) = Some (VB a b)) ->
    (forall a b, (a < 18)%nat -> (b < 4)%nat -> read_flat mT (a * 4 + b) = Some (VT a b)) ->
    iterate_o (get_DM_bounds (snd dm) true) (kernel_off_diag_block_A dm (local_size (fst dm)) (info_of (fst dm)) (info_of (snd dm)) mB mT) A
    = runs stepA A (flat_map (oblock VB VT) (grid_pts (get_DM_bounds (snd dm) true))).
  Proof.
    intros Hin HB HT. pose proof (vp dm Hin) as W. eapply iterate_runs; [apply (view_dims mp per 1 (snd dm) W HL)|].
    intros e A0 He. destruct (e_shape mp 1 (snd dm) e H2 HL W He) as (i & j & ->). unfold kernel_off_diag_block_A, oblock. cbn [px py nth].
    assert (IP : forall k, (k < 4)%nat -> ltog dm (nth k (get_indices (info_of (snd dm)) i j (local_size (fst dm))) 0%Z) = Ok (true, wrap mp per (corner [i; j] k), 0%nat)).
    { intros k Hk. rewrite indices_corner by exact Hk.
      replace (local_size (fst dm) + DMDALocalIndex2D (info_of (snd dm)) (nth 0 (corner [i; j] k) 0) (nth 1 (corner [i; j] k) 0))%Z
        with (local_size (fst dm) + lidx (snd dm) (corner [i; j] k) 0)%Z by (unfold lidx; lia).
      apply ltog_p; auto. apply node_p_ghost; auto. }
    assert (IV : forall k, (k < 18)%nat -> ltog dm (nth k (get_indices_4Q1 (info_of (fst dm)) i j) 0%Z) = Ok (false, wrap mv per (corner3 [i; j] (k mod 9)), (k / 9)%nat)).
    { intros k Hk. rewrite q1_corner by exact Hk. apply ltog_v; auto; [|apply div_lt9, Hk]. apply node_v3_ghost; auto. apply Nat.mod_upper_bound; lia. }
    set (ip := get_indices (info_of (snd dm)) i j (local_size (fst dm))) in *. set (iv := get_indices_4Q1 (info_of (fst dm)) i j) in *.
    assert (Lp : length ip = 4%nat) by reflexivity. assert (Lv : length iv = 18%nat) by reflexivity. clearbody ip iv.
    rewrite (set_values dm ip iv mB (fun k => (true, wrap mp per (corner [i; j] k), 0%nat)) (fun a => (false, wrap mv per (corner3 [i; j] (a mod 9)), (a / 9)%nat)) VB A0); rewrite ?Lp, ?Lv; auto.
    rewrite runsA. cbn [bind].
    rewrite (set_values dm iv ip mT (fun a => (false, wrap mv per (corner3 [i; j] (a mod 9)), (a / 9)%nat)) (fun k => (true, wrap mp per (corner [i; j] k), 0%nat)) VT); rewrite ?Lp, ?Lv; auto.
    rewrite !runsA, <- app_assoc. reflexivity.
  Qed.

  (** sums over the cells of all processes *)
  Lemma cells_sum_v (f : mentry -> R) c E : enumerates E (cells_box mv per) ->
    Lsum f (flat_map (fun dm : dmda * dmda => flat_map c (grid_pts (get_DM_bounds (fst dm) true))) dms) = Lsum (fun e => Lsum f (c e)) E.
  Proof.
    intros HE. rewrite Lsum_flat_map. pose proof (element_boxes_tile mv per 2 (map fst dms) HLv (proj1 HS)) as HT.
    assert (HF : Forall (has_dim (length mv)) (map (fun dm => get_DM_bounds dm true) (map fst dms))).
    { rewrite Forall_forall. intros b Hb. rewrite map_map in Hb. apply in_map_iff in Hb as [dm [<- Hin]]. apply (view_dims mv per 2 (fst dm) (vv dm Hin) HLv). }
    pose proof (tiling_perm _ _ _ HT (cells_dim mv per HLv) HF) as HP.
    rewrite <- (Lsum_perm (fun e => Lsum f (c e)) _ _ (enum_perm _ _ _ (grid_pts_enum _ _ (cells_dim mv per HLv)) HE)).
    rewrite <- (Lsum_perm _ _ _ HP), Lsum_flat_map, !Lsum_map. apply Lsum_ext. intros dm _. rewrite Lsum_flat_map. reflexivity.
  Qed.
  Lemma cells_sum_p (f : mentry -> R) c E : enumerates E (cells_box mp per) ->
    Lsum f (flat_map (fun dm : dmda * dmda => flat_map c (grid_pts (get_DM_bounds (snd dm) true))) dms) = Lsum (fun e => Lsum f (c e)) E.
  Proof.
    intros HE. rewrite Lsum_flat_map. pose proof (element_boxes_tile mp per 1 (map snd dms) HL (proj1 (proj2 HS))) as HT.
    assert (HF : Forall (has_dim (length mp)) (map (fun dm => get_DM_bounds dm true) (map snd dms))).
    { rewrite Forall_forall. intros b Hb. rewrite map_map in Hb. apply in_map_iff in Hb as [dm [<- Hin]]. apply (view_dims mp per 1 (snd dm) (vp dm Hin) HL). }
    pose proof (tiling_perm _ _ _ HT (cells_dim mp per HL) HF) as HP.
    rewrite <- (Lsum_perm (fun e => Lsum f (c e)) _ _ (enum_perm _ _ _ (grid_pts_enum _ _ (cells_dim mp per HL)) HE)).
    rewrite <- (Lsum_perm _ _ _ HP), Lsum_flat_map, !Lsum_map. apply Lsum_ext. intros dm _. rewrite Lsum_flat_map. reflexivity.
  Qed.
  Lemma cells_all_v (P : mentry -> Prop) c : (forall e, in_grid_box (cells_box mv per) e -> Forall P (c e)) ->
    Forall P (flat_map (fun dm : dmda * dmda => flat_map c (grid_pts (get_DM_bounds (fst dm) true))) dms).
  Proof.
    intros H. rewrite Forall_forall. intros x Hx. apply in_flat_map in Hx as [dm [Hin Hx]]. apply in_flat_map in Hx as [e [He Hx]].
    destruct (view_dims mv per 2 (fst dm) (vv dm Hin) HLv) as (_ & Hb & _). apply (proj2 (grid_pts_enum _ _ Hb)) in He.
    apply (bounds_in mv per 2 (fst dm) e (vv dm Hin) HLv) in He. specialize (H e (proj2 He)). rewrite Forall_forall in H. apply H, Hx.
  Qed.
  Lemma cells_all_p (P : mentry -> Prop) c : (forall e, in_grid_box (cells_box mp per) e -> Forall P (c e)) ->
    Forall P (flat_map (fun dm : dmda * dmda => flat_map c (grid_pts (get_DM_bounds (snd dm) true))) dms).
  Proof.
    intros H. rewrite Forall_forall. intros x Hx. apply in_flat_map in Hx as [dm [Hin Hx]]. apply in_flat_map in Hx as [e [He Hx]].
    destruct (view_dims mp per 1 (snd dm) (vp dm Hin) HL) as (_ & Hb & _). apply (proj2 (grid_pts_enum _ _ Hb)) in He.
    apply (bounds_in mp per 1 (snd dm) e (vp dm Hin) HL) in He. specialize (H e (proj2 He)). rewrite Forall_forall in H. apply H, Hx.
  Qed.
End Pair.
Close Scope R_scope.
