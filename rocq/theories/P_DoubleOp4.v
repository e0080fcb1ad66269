(** The operators of a grid in doubles. *)
From Coq Require Import Permutation.
From Coquelicot Require Import Coquelicot.
From Flocq Require Import Core BinarySingleNaN.
From Verif Require Import Base M_Geometry S_Geometry P_Geometry M_Particle S_Particle P_Particle M_Quadrature S_Fem M_MatElem P_MatElem P_Energy M_Mesh M_Operator S_Operator P_Mesh P_Operator P_Operator2 P_Global P_Stokes P_Operator3 P_Diag P_Precond.
From Verif Require Import M_Double S_Double P_Double P_Double2 P_Double3 P_Double4.
From Verif Require Import M_DoubleOp S_DoubleOp P_DoubleOp P_DoubleOp2 P_DoubleOp3.
Open Scope R_scope.
Section StokesM.
  Variables (mp : list Z) (per : list bool) (dof : nat) (dms : list (dmda * dmda)).
  Hypothesis HG : grid_ok mp per.
  Hypothesis HS : stokes_layout mp per dof dms.
  Let mv := refined_size mp per.
  Let HL : length per = length mp := proj1 (proj2 HG).
  Let HLv : length per = length mv := proj1 (proj2 (mv_grid mp per HG)).
  Variables (xv xp : field) (M : nat -> nat -> nat -> R).
  Variables (apply : dmda -> lvec -> lvec -> outcome lvec) (cA : list Z -> list contrib).
  Hypothesis HA : forall dv, In dv (map fst dms) -> forall y0, apply dv (global_to_local dv xv) y0 = runs step1 y0 (local_contribs cA dv).
  Hypothesis HcA : forall e, Forall (fun ct : contrib => near e (fst (fst ct)) /\ (snd (fst ct) < dof)%nat) (cA e).
  Lemma stokes_strong_M : exists yv yp, stokes_matrix_M apply M dms xv xp = Ok (yv, yp) /\
    forall Ev Ep, enumerates Ev (cells_box mv per) -> enumerates Ep (cells_box mp per) ->
      (forall n d, yv n d = Lsum (fun e => Lsum (hitsw mv per n d) (cA e)) Ev + Lsum (fun e => Lsum (hitsw mv per n d) (tagged true (off_c mp per dof xv xp M e))) Ep) /\
      (forall n d, yp n d = Lsum (fun e => Lsum (hitsw mp per n d) (tagged false (off_c mp per dof xv xp M e))) Ep).
  Proof.
    unfold stokes_matrix_M.
    destruct (on_all_ok (fun dm : dmda * dmda => let '(dv, dp) := dm in
        bind (apply dv (global_to_local dv xv) (fill0 dv)) (fun yv => off_diag_block_mult (kernel_off_diag_block M) dp (global_to_local dv xv) (global_to_local dp xp) (yv, fill0 dp)))
      (fun dm y => (lv_box (fst y) = g_ghost (fst dm) /\ forall q d, lv_val (fst y) q d = Lsum (hits q d) (local_contribs cA (fst dm) ++ tagged true (local_off mp per dof xv xp M dm))) /\
                   (lv_box (snd y) = g_ghost (snd dm) /\ forall q d, lv_val (snd y) q d = Lsum (hits q d) (tagged false (local_off mp per dof xv xp M dm)))) dms) as [ys [Ey Hy]].
    { intros [dv dp] Hin. pose proof (cA_ghost mp per dof dms HG HS M cA HcA _ Hin) as G1. pose proof (off_ghost mp per dof dms HG HS xv xp M true _ Hin) as G2. pose proof (off_ghost mp per dof dms HG HS xv xp M false _ Hin) as G3. cbn [fst snd] in *.
      destruct (view_dims _ _ _ _ (view_p mp per dof dms HS _ Hin) HL) as (_ & _ & Hgp). destruct (view_dims _ _ _ _ (view_v mp per dof dms HS _ Hin) HLv) as (_ & _ & Hgv). cbn [fst snd] in *.
      assert (W : forall b D l, has_dim D b -> Forall (fun ct : contrib => in_grid_box b (fst (fst ct))) l -> Forall (fun ct : contrib => point_inside Z.ltb b (fst (fst ct)) = true) l).
      { intros b D l Hb. apply Forall_impl. intros ct. apply (inside_dim mp per HG b _ D Hb). }
      destruct (runs1_ok (local_contribs cA dv) (fill0 dv)) as (y1 & R1 & R2 & R3 & R4); [apply (W _ _ _ Hgv G1)|].
      destruct (runs1_ok (tagged true (local_off mp per dof xv xp M (dv, dp))) y1) as (y1' & S1 & S2 & S3 & S4); [rewrite R2; apply (W _ _ _ Hgv G2)|].
      destruct (runs1_ok (tagged false (local_off mp per dof xv xp M (dv, dp))) (fill0 dp)) as (y2' & T1 & T2 & T3 & T4); [apply (W _ _ _ Hgp G3)|].
      destruct (runs2_ok (local_off mp per dof xv xp M (dv, dp)) y1 (fill0 dp)) as (z1 & z2 & Z1 & Z2 & Z3).
      { rewrite R2. apply (W _ _ _ Hgv G2). } { apply (W _ _ _ Hgp G3). }
      exists (y1', y2'). split.
      - rewrite HA by (apply in_map_iff; exists (dv, dp); auto). rewrite R1. cbn [bind].
        rewrite (off_runs mp per dof dms HG HS xv xp M (dv, dp)) by auto. rewrite Z1. congruence.
      - cbn [fst snd]. split; (split; [rewrite ?S2, ?R2, ?T2; reflexivity|]).
        + intros q d. rewrite S4, R4, Lsum_app. simpl. unfold zeros. ring.
        + intros q d. rewrite T4. simpl. unfold zeros. ring. }
    rewrite Ey. cbn [bind]. eexists _, _. split; [reflexivity|]. intros Ev Ep HEv HEp.
    assert (HVv : Forall (fun a => view_ok mv per dof (fst a)) dms) by (rewrite Forall_forall; intros; apply (view_v mp per dof dms HS); auto).
    assert (HVp : Forall (fun a => view_ok mp per 1 (snd a)) dms) by (rewrite Forall_forall; intros; apply (view_p mp per dof dms HS); auto).
    assert (SUM : forall b f, Lsum (fun a => Lsum f (tagged b (local_off mp per dof xv xp M a))) dms = Lsum (fun e => Lsum f (tagged b (off_c mp per dof xv xp M e))) Ep).
    { intros b f. rewrite <- (elements_sum mp per 1 (map snd dms) HG (proj1 (proj2 HS)) f (fun e => tagged b (off_c mp per dof xv xp M e)) Ep HEp), Lsum_map.
      apply Lsum_ext. intros a _. unfold local_off, local_contribs. rewrite tagged_flat_map. reflexivity. }
    split; intros n d.
    - rewrite (l2g_gen mv per dof fst dms (fun dm => local_contribs cA (fst dm) ++ tagged true (local_off mp per dof xv xp M dm)) (map fst ys) HLv HVv).
      + transitivity (Lsum (fun a => Lsum (hitsw mv per n d) (local_contribs cA (fst a))) dms + Lsum (fun a => Lsum (hitsw mv per n d) (tagged true (local_off mp per dof xv xp M a))) dms).
        { rewrite <- Lsum_plus. apply Lsum_ext. intros a _. apply Lsum_app. }
        rewrite SUM. f_equal. rewrite <- (elements_sum mv per dof (map fst dms) (mv_grid mp per HG) (proj1 HS) _ cA Ev HEv), Lsum_map. reflexivity.
      + intros a Ha. apply Forall_app. split; [apply (cA_ghost mp per dof dms HG HS M cA HcA), Ha|apply (off_ghost mp per dof dms HG HS xv xp M true), Ha].
      + apply Forall2_map_r. eapply Forall2_imp; [|exact Hy]. simpl; tauto.
    - rewrite (l2g_gen mp per 1 snd dms (fun dm => tagged false (local_off mp per dof xv xp M dm)) (map snd ys) HL HVp).
      + apply SUM.
      + intros a Ha. apply (off_ghost mp per dof dms HG HS xv xp M false), Ha.
      + apply Forall2_map_r. eapply Forall2_imp; [|exact Hy]. simpl; tauto.
  Qed.

End StokesM.
(** ** counts of the coupling terms *)
Section StokesCount.
  Variables (mp : list Z) (per : list bool) (dof : nat).
  Hypothesis HG : grid_ok mp per.
  Let mv := refined_size mp per.
  Let HL : length per = length mp := proj1 (proj2 HG).
  Variables (xv xp : field).
  Hypothesis Hv : forall n d, xv n d = 1.
  Hypothesis Hp : forall n d, xp n d = -1.
  Lemma off_count_v n d : Lsum (fun e => Lsum (hitsw mv per n d) (tagged true (off_c mp per dof xv xp (fun _ _ _ => 1) e))) (E0 mp per) <= INR (3 ^ length mp * 2 ^ length mp).
  Proof.
    rewrite mult_INR, <- Rsum_const. eapply Rle_trans with (Rsum (3 ^ length mp) (fun kv => Lsum (fun e => INR (2 ^ length mp) * (if same_node (wrap mv per (corner3 e kv)) n then 1 else 0)) (E0 mp per))).
    - rewrite <- Lsum_Rsum. apply Lsum_le. intros e He. apply E0_enum in He; auto. rewrite (off_sum mp per dof HG xv xp (fun _ _ _ => 1) true e _ He). apply Rsum_le. intros kv _. rewrite <- Rsum_const. apply Rsum_le. intros kp _.
      unfold hitsw. cbn [fst snd]. destruct (same_node _ n); cbn [andb]; [|rewrite Rsum_zero; lra]. apply (sum_one mp per dof HG _ d); intros d'; destruct (Nat.eqb_spec d' d); auto; rewrite ?Hp; lra.
    - apply Rsum_le. intros kv _. rewrite Lsum_scal. pose proof (pos_INR (2 ^ length mp)). assert (Lsum (fun e => if same_node (wrap mv per (corner3 e kv)) n then 1 else 0) (E0 mp per) <= 1); [|nra].
      apply (one_hit (fun e => wrap mv per (corner3 e kv))); [apply (E0_enum mp per HL)|]. intros e e' He He' E E'. cbv beta in E, E'. apply E0_enum in He, He'; auto. apply (corner3_cell mp per kv); auto. fold mv. congruence.
  Qed.
  Lemma off_count_p n d : Lsum (fun e => Lsum (hitsw mp per n d) (tagged false (off_c mp per dof xv xp (fun _ _ _ => 1) e))) (E0 mp per) <= INR (2 ^ length mp * (3 ^ length mp * dof)).
  Proof.
    rewrite mult_INR, <- Rsum_const. eapply Rle_trans with (Rsum (2 ^ length mp) (fun kp => Lsum (fun e => INR (3 ^ length mp * dof) * (if same_node (wrap mp per (corner e kp)) n then 1 else 0)) (E0 mp per))).
    - rewrite <- Lsum_Rsum. apply Lsum_le. intros e He. apply E0_enum in He; auto. rewrite (off_sum mp per dof HG xv xp (fun _ _ _ => 1) false e _ He). rewrite Rsum_swap. apply Rsum_le. intros kp _. rewrite mult_INR, Rmult_assoc, <- Rsum_const. apply Rsum_le. intros kv _. rewrite <- Rsum_const. apply Rsum_le. intros d' _.
      unfold hitsw. cbn [fst snd]. destruct (same_node _ n); cbn [andb]; [|lra]. destruct (Nat.eqb 0 d); rewrite ?Hv; lra.
    - apply Rsum_le. intros kp _. rewrite Lsum_scal. pose proof (pos_INR (3 ^ length mp * dof)). assert (Lsum (fun e => if same_node (wrap mp per (corner e kp)) n then 1 else 0) (E0 mp per) <= 1); [|nra].
      apply (one_hit (fun e => wrap mp per (corner e kp))); [apply (E0_enum mp per HL)|]. intros e e' He He' E E'. cbv beta in E, E'. apply E0_enum in He, He'; auto. apply (corner_cell mp per kp); auto. congruence.
  Qed.
End StokesCount.

(** ** the four runs of an operator *)
Section Main.
  Variables (c : nat) (fin : Prop).
  Hypothesis Hc : (c <= 20)%nat.
  Lemma raw_main dms dop op opa opk x xr xa xk Y :
    (forall dm, In dm dms -> orel (vrel c fin) (dop dm (dglobal_to_local dm x) (dfill0 dm)) (op dm (global_to_local dm xr) (fill0 dm)) (opa dm (global_to_local dm xa) (fill0 dm)) (opk dm (global_to_local dm xk) (fill0 dm))) ->
    ddiag_block_matrix_raw dop dms x Y ->
    exists yr ya yk, diag_block_matrix_raw op dms xr = Ok yr /\ diag_block_matrix_raw opa dms xa = Ok ya /\ diag_block_matrix_raw opk dms xk = Ok yk /\ forall n d, approx c fin (Y n d) (yr n d) (ya n d) (yk n d).
  Proof.
    intros H (ys & E & S). pose proof (orel_on_all (fun _ => vrel c fin) dms _ _ _ _ H) as R. rewrite E in R.
    unfold diag_block_matrix_raw. destruct (on_all (fun dm => op dm _ _) dms) as [zr| | |] eqn:E1; cbn [orel] in R; try contradiction; destruct (on_all (fun dm => opa dm _ _) dms) as [za| | |] eqn:E2; cbn [orel] in R; try contradiction; destruct (on_all (fun dm => opk dm _ _) dms) as [zk| | |] eqn:E3; cbn [orel] in R; try contradiction.
    cbn [bind]. do 3 eexists. do 3 (split; [reflexivity|]). intros n d. destruct R as (L0 & L1 & L2 & L3 & HV). apply (l2g_rel c fin Hc dms ys zr za zk n d); auto.
  Qed.
  Lemma run_ok dms dop op opa opk x xr xa xk yr :
    (forall dm, In dm dms -> orel (vrel c fin) (dop dm (dglobal_to_local dm x) (dfill0 dm)) (op dm (global_to_local dm xr) (fill0 dm)) (opa dm (global_to_local dm xa) (fill0 dm)) (opk dm (global_to_local dm xk) (fill0 dm))) ->
    diag_block_matrix_raw op dms xr = Ok yr -> exists Y, ddiag_block_matrix_raw dop dms x Y.
  Proof.
    intros H E. pose proof (orel_on_all (fun _ => vrel c fin) dms _ _ _ _ H) as R. unfold diag_block_matrix_raw in E. destruct (on_all (fun dm => op dm _ _) dms) as [zr| | |]; try discriminate.
    destruct (on_all (fun dm => dop dm _ _) dms) as [ys| | |] eqn:E0; cbn [orel] in R; try contradiction.
    exists (fun n d => fold_left dplus (l2g_entries dms ys n d) dzero). exists ys. split; [exact E0|]. intros n d. unfold dlocal_to_global. generalize (l2g_entries dms ys n d). intros l. clear.
    enough (G : forall l l0 v, summed l0 v -> summed (l0 ++ l) (fold_left dplus l v)) by apply (G l [dzero] dzero (summed_one _)).
    clear l. induction l as [|a l IH]; intros l0 v Hv; cbn [fold_left]; [rewrite app_nil_r; exact Hv|]. replace (l0 ++ a :: l) with ((l0 ++ [a]) ++ l) by (rewrite <- app_assoc; reflexivity). apply IH. apply summed_add; [exact Hv|apply summed_one].
  Qed.
  Section Grid.
    Variables (m : list Z) (per : list bool) (dof : nat) (dms : list dmda).
    Hypothesis HG : grid_ok m per.
    Hypothesis HD : distributes m per dof dms.
    Let HL : length per = length m := proj1 (proj2 HG).
    Variable x : dfield.
    Hypothesis HX : fin -> finite_on m dof x.
    Lemma g2l_rel dm : In dm dms -> xrel fin (length m) 1 (dglobal_to_local dm x) (global_to_local dm (exact x)) (global_to_local dm (absolute x)) (global_to_local dm (fun _ _ => 1)).
    Proof. intros Hin. destruct HD as [HV _]. rewrite Forall_forall in HV. eapply x_rel; eauto; [apply HG|]. intros n d. unfold exact, absolute. repeat split; ring. Qed.
    Lemma bdim dm : In dm dms -> has_dim (length m) (get_DM_bounds dm true).
    Proof. intros Hin. destruct HD as [HV _]. rewrite Forall_forall in HV. apply (view_dims m per dof dm (HV dm Hin) HL). Qed.
    Lemma diag_main M r am : (forall i j, mrel c fin (M i j) (r i j) (am i j)) ->
      (exists Y, ddiag_block_matrix_raw (ddiag_block_mult (dkernel_diag_block M)) dms x Y) /\
      exists y ya, diag_block_matrix_raw (diag_block_mult (kernel_diag_block r)) dms (exact x) = Ok y /\ diag_block_matrix_raw (diag_block_mult (kernel_diag_block am)) dms (absolute x) = Ok ya /\
      forall Y, ddiag_block_matrix_raw (ddiag_block_mult (dkernel_diag_block M)) dms x Y -> forall n d, exists k, approx c fin (Y n d) (y n d) (ya n d) k /\ k <= INR (2 ^ length m * 2 ^ length m).
    Proof.
      intros HM. assert (O : forall dm, In dm dms -> orel (vrel c fin) (ddiag_block_mult (dkernel_diag_block M) dm (dglobal_to_local dm x) (dfill0 dm)) (diag_block_mult (kernel_diag_block r) dm (global_to_local dm (exact x)) (fill0 dm))
        (diag_block_mult (kernel_diag_block am) dm (global_to_local dm (absolute x)) (fill0 dm)) (diag_block_mult (kernel_diag_block (fun _ _ => 1)) dm (global_to_local dm (fun _ _ => 1)) (fill0 dm))).
      { intros dm Hin. eapply diag_rel; eauto; [apply bdim, Hin|apply g2l_rel, Hin|apply fill_rel]. }
      destruct (diag_strong m per dof dms HG HD (exact x) r) as (y & Ey & _). destruct (diag_strong m per dof dms HG HD (absolute x) am) as (ya & Ea & _). destruct (diag_count m per dof dms HG HD (fun _ _ => 1) ltac:(reflexivity)) as (yk & Ek & Hk).
      split; [exact (run_ok _ _ _ _ _ _ _ _ _ _ O Ey)|]. exists y, ya. split; [exact Ey|]. split; [exact Ea|]. intros Y HY n d. destruct (raw_main _ _ _ _ _ _ _ _ _ _ O HY) as (z & za & zk & E1 & E2 & E3 & A). rewrite Ey in E1. rewrite Ea in E2. rewrite Ek in E3. injection E1 as <-. injection E2 as <-. injection E3 as <-. exists (yk n d). split; [apply A|apply Hk].
    Qed.
    Lemma tens_main M r am : (forall i j a b, mrel c fin (M i j a b) (r i j a b) (am i j a b)) ->
      (exists Y, ddiag_block_matrix_raw (ddiag_block_mult (dkernel_tensor_block M)) dms x Y) /\
      exists y ya, diag_block_matrix_raw (diag_block_mult (kernel_tensor_block r)) dms (exact x) = Ok y /\ diag_block_matrix_raw (diag_block_mult (kernel_tensor_block am)) dms (absolute x) = Ok ya /\
      forall Y, ddiag_block_matrix_raw (ddiag_block_mult (dkernel_tensor_block M)) dms x Y -> forall n d, exists k, approx c fin (Y n d) (y n d) (ya n d) k /\ k <= INR (2 ^ length m * (2 ^ length m * dof)).
    Proof.
      intros HM. assert (O : forall dm, In dm dms -> orel (vrel c fin) (ddiag_block_mult (dkernel_tensor_block M) dm (dglobal_to_local dm x) (dfill0 dm)) (diag_block_mult (kernel_tensor_block r) dm (global_to_local dm (exact x)) (fill0 dm))
        (diag_block_mult (kernel_tensor_block am) dm (global_to_local dm (absolute x)) (fill0 dm)) (diag_block_mult (kernel_tensor_block (fun _ _ _ _ => 1)) dm (global_to_local dm (fun _ _ => 1)) (fill0 dm))).
      { intros dm Hin. eapply tens_rel; eauto; [apply bdim, Hin|apply g2l_rel, Hin|apply fill_rel]. }
      destruct (tens_strong m per dof dms HG HD (exact x) r) as (y & Ey & _). destruct (tens_strong m per dof dms HG HD (absolute x) am) as (ya & Ea & _). destruct (tens_count m per dof dms HG HD (fun _ _ => 1) ltac:(reflexivity)) as (yk & Ek & Hk).
      split; [exact (run_ok _ _ _ _ _ _ _ _ _ _ O Ey)|]. exists y, ya. split; [exact Ey|]. split; [exact Ea|]. intros Y HY n d. destruct (raw_main _ _ _ _ _ _ _ _ _ _ O HY) as (z & za & zk & E1 & E2 & E3 & A). rewrite Ey in E1. rewrite Ea in E2. rewrite Ek in E3. injection E1 as <-. injection E2 as <-. injection E3 as <-. exists (yk n d). split; [apply A|apply Hk].
    Qed.
    (** the diagonal: a run that does not read its argument *)
    Lemma dd_main M r am : (forall i j, mrel c fin (M i j) (r i j) (am i j)) ->
      (exists Y, ddiag_diag_block_matrix (ddiag_diag_block_mult (dkernel_diag_diag_block M)) dms Y) /\
      exists y ya, diag_diag_block_matrix (diag_diag_block_mult (kernel_diag_diag_block r)) dms = Ok y /\ diag_diag_block_matrix (diag_diag_block_mult (kernel_diag_diag_block am)) dms = Ok ya /\
      forall Y, ddiag_diag_block_matrix (ddiag_diag_block_mult (dkernel_diag_diag_block M)) dms Y -> forall n d, exists k, approx c fin (Y n d) (y n d) (ya n d) k /\ k <= INR (2 ^ length m).
    Proof.
      intros HM. pose (dop := fun dm (_ : dlvec) y => ddiag_diag_block_mult (dkernel_diag_diag_block M) dm y). pose (op := fun q dm (_ : lvec) y => diag_diag_block_mult (kernel_diag_diag_block q) dm y).
      assert (O : forall dm, In dm dms -> orel (vrel c fin) (dop dm (dglobal_to_local dm x) (dfill0 dm)) (op r dm (global_to_local dm zeros) (fill0 dm)) (op am dm (global_to_local dm zeros) (fill0 dm)) (op (fun _ _ => 1) dm (global_to_local dm zeros) (fill0 dm))).
      { intros dm Hin. unfold dop, op. eapply dd_rel; eauto; [apply bdim, Hin|apply fill_rel]. }
      destruct (dd_weak m per dof dms r HG HD) as (y & Ey & _). destruct (dd_weak m per dof dms am HG HD) as (ya & Ea & _). destruct (dd_count m per dof dms HG HD) as (yk & Ek & Hk).
      change (diag_block_matrix_raw (op r) dms zeros = Ok y) in Ey. change (diag_block_matrix_raw (op am) dms zeros = Ok ya) in Ea. change (diag_block_matrix_raw (op (fun _ _ => 1)) dms zeros = Ok yk) in Ek.
      split; [exact (run_ok _ _ _ _ _ _ _ _ _ _ O Ey)|]. exists y, ya. split; [exact Ey|]. split; [exact Ea|]. intros Y HY n d. change (ddiag_block_matrix_raw dop dms x Y) in HY. destruct (raw_main _ _ _ _ _ _ _ _ _ _ O HY) as (z & za & zk & E1 & E2 & E3 & A). rewrite Ey in E1. rewrite Ea in E2. rewrite Ek in E3. injection E1 as <-. injection E2 as <-. injection E3 as <-. exists (yk n d). split; [apply A|apply Hk].
    Qed.
  End Grid.
End Main.
Close Scope R_scope.
