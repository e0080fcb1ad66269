(** The Stokes operator in doubles. *)
From Coq Require Import Permutation.
From Coquelicot Require Import Coquelicot.
From Flocq Require Import Core BinarySingleNaN.
From Verif Require Import Base M_Geometry S_Geometry P_Geometry M_Particle S_Particle P_Particle M_Quadrature S_Fem M_MatElem P_MatElem P_Energy M_Mesh M_Operator S_Operator P_Mesh P_Operator P_Operator2 P_Global P_Stokes P_Operator3 P_Diag P_Precond.
From Verif Require Import M_Double S_Double P_Double P_Double2 P_Double3 P_Double4.
From Verif Require Import M_DoubleOp S_DoubleOp P_DoubleOp P_DoubleOp2 P_DoubleOp3 P_DoubleOp4.
Open Scope R_scope.
Lemma nth_error_map_some {A B} (f : A -> B) l i b : nth_error (map f l) i = Some b -> exists a, nth_error l i = Some a /\ f a = b.
Proof. revert i. induction l as [|a l IH]; intros [|i]; cbn; try discriminate; [intros E; injection E as <-; eauto|apply IH]. Qed.
Section StokesMain.
  Variables (c : nat) (fin : Prop).
  Hypothesis Hc : (c <= 20)%nat.
  Variables (mp : list Z) (per : list bool) (dof : nat) (dms : list (dmda * dmda)).
  Hypothesis HG : grid_ok mp per.
  Hypothesis HS : stokes_layout mp per dof dms.
  Let mv := refined_size mp per.
  Let HL : length per = length mp := proj1 (proj2 HG).
  Let HGv : grid_ok mv per := mv_grid mp per HG.
  Let HLv : length per = length mv := proj1 (proj2 HGv).
  Variables (xv xp : dfield).
  Hypothesis HXv : fin -> finite_on mv dof xv.
  Hypothesis HXp : fin -> finite_on mp 1 xp.
  Variables (dapply : dmda -> dlvec -> dlvec -> outcome dlvec) (ap apa apk : dmda -> lvec -> lvec -> outcome lvec).
  Hypothesis HO : forall dv, In dv (map fst dms) -> orel (vrel c fin) (dapply dv (dglobal_to_local dv xv) (dfill0 dv)) (ap dv (global_to_local dv (exact xv)) (fill0 dv)) (apa dv (global_to_local dv (absolute xv)) (fill0 dv)) (apk dv (global_to_local dv (fun _ _ => 1)) (fill0 dv)).
  Variables (M : nat -> nat -> nat -> double) (r am : nat -> nat -> nat -> R).
  Hypothesis HM : forall i j d, mrel c fin (M i j d) (r i j d) (am i j d).
  Let ones : field := fun _ _ => 1.
  Let mones : field := fun _ _ => -1.
  Lemma local_stokes : orel (fun l0 l1 l2 l3 => length l0 = length dms /\ length l1 = length dms /\ length l2 = length dms /\ length l3 = length dms /\
     forall i a b0 b1 b2 b3, nth_error dms i = Some a -> nth_error l0 i = Some b0 -> nth_error l1 i = Some b1 -> nth_error l2 i = Some b2 -> nth_error l3 i = Some b3 -> vrel2 c fin b0 b1 b2 b3)
    (on_all (fun dm : dmda * dmda => let '(dv, dp) := dm in bind (dapply dv (dglobal_to_local dv xv) (dfill0 dv)) (fun yv => doff_diag_block_mult (dkernel_off_diag_block M) dp (dglobal_to_local dv xv) (dglobal_to_local dp xp) (yv, dfill0 dp))) dms)
    (on_all (fun dm : dmda * dmda => let '(dv, dp) := dm in bind (ap dv (global_to_local dv (exact xv)) (fill0 dv)) (fun yv => off_diag_block_mult (kernel_off_diag_block r) dp (global_to_local dv (exact xv)) (global_to_local dp (exact xp)) (yv, fill0 dp))) dms)
    (on_all (fun dm : dmda * dmda => let '(dv, dp) := dm in bind (apa dv (global_to_local dv (absolute xv)) (fill0 dv)) (fun yv => off_diag_block_mult (kernel_off_diag_block am) dp (global_to_local dv (absolute xv)) (global_to_local dp (minus_abs xp)) (yv, fill0 dp))) dms)
    (on_all (fun dm : dmda * dmda => let '(dv, dp) := dm in bind (apk dv (global_to_local dv ones) (fill0 dv)) (fun yv => off_diag_block_mult (kernel_off_diag_block (fun _ _ _ => 1)) dp (global_to_local dv ones) (global_to_local dp mones) (yv, fill0 dp))) dms).
  Proof.
    apply (orel_on_all (fun _ => vrel2 c fin)). intros [dv dp] Hin. pose proof (view_p mp per dof dms HS _ Hin) as VP. pose proof (view_v mp per dof dms HS _ Hin) as VV. cbn [fst snd] in VP, VV.
    eapply orel_bind; [apply HO; apply in_map_iff; exists (dv, dp); auto|]. intros y0 y1 y2 y3 HY.
    apply (off_rel c fin Hc (length mp)); auto.
    - apply (view_dims mp per 1 dp VP HL).
    - replace (length mp) with (length mv) by (unfold mv, refined_size; rewrite length_zip_with; lia). apply (x_rel mv per dof); auto; [apply HGv|]. intros n d. unfold exact, absolute, ones. repeat split; ring.
    - apply (x_rel mp per 1); auto; [apply HG|]. intros n d. unfold exact, minus_abs, mones. repeat split; ring.
    - destruct VP as (_ & _ & E & _). exact E.
    - split; cbn [fst snd]; [exact HY|apply fill_rel].
  Qed.
  Lemma stokes_main yv yp av apv kv kp :
    stokes_matrix_M ap r dms (exact xv) (exact xp) = Ok (yv, yp) -> stokes_matrix_M apa am dms (absolute xv) (minus_abs xp) = Ok (av, apv) -> stokes_matrix_M apk (fun _ _ _ => 1) dms ones mones = Ok (kv, kp) ->
    (exists Yv Yp, dstokes_matrix_raw dapply M dms xv xp Yv Yp) /\
    forall Yv Yp, dstokes_matrix_raw dapply M dms xv xp Yv Yp -> forall n d, approx c fin (Yv n d) (yv n d) (av n d) (kv n d) /\ approx c fin (Yp n d) (yp n d) (apv n d) (kp n d).
  Proof.
    intros E1 E2 E3. pose proof local_stokes as R. unfold stokes_matrix_M in E1, E2, E3.
    destruct (on_all (fun dm : dmda * dmda => let '(dv, dp) := dm in bind (ap dv _ _) _) dms) as [zr| | |]; try discriminate. destruct (on_all (fun dm : dmda * dmda => let '(dv, dp) := dm in bind (apa dv _ _) _) dms) as [za| | |]; try discriminate. destruct (on_all (fun dm : dmda * dmda => let '(dv, dp) := dm in bind (apk dv _ _) _) dms) as [zk| | |]; try discriminate.
    cbn [bind] in E1, E2, E3. injection E1 as <- <-. injection E2 as <- <-. injection E3 as <- <-.
    destruct (on_all (fun dm : dmda * dmda => let '(dv, dp) := dm in bind (dapply dv _ _) _) dms) as [ys| | |] eqn:E0; cbn [orel] in R; try contradiction. destruct R as (L0 & L1 & L2 & L3 & HV).
    split.
    - exists (fun n d => fold_left dplus (l2g_entries (map fst dms) (map fst ys) n d) dzero), (fun n d => fold_left dplus (l2g_entries (map snd dms) (map snd ys) n d) dzero). exists ys. split; [exact E0|].
      enough (G : forall l l0 v, summed l0 v -> summed (l0 ++ l) (fold_left dplus l v)) by (split; intros n d; apply (G _ [dzero] dzero (summed_one _))).
      clear. induction l as [|a l IH]; intros l0 v Hv; cbn [fold_left]; [rewrite app_nil_r; exact Hv|]. replace (l0 ++ a :: l) with ((l0 ++ [a]) ++ l) by (rewrite <- app_assoc; reflexivity). apply IH. apply summed_add; [exact Hv|apply summed_one].
    - intros Yv Yp (ys' & E0' & S1 & S2) n d. rewrite E0 in E0'. injection E0' as <-. split.
      + eapply (l2g_rel c fin Hc); [..|apply S1]; rewrite ?map_length; auto. intros i dm b0 b1 b2 b3 K K0 K1 K2 K3. apply nth_error_map_some in K as (a & K & <-). apply nth_error_map_some in K0 as (c0 & K0 & <-). apply nth_error_map_some in K1 as (c1 & K1 & <-). apply nth_error_map_some in K2 as (c2 & K2 & <-). apply nth_error_map_some in K3 as (c3 & K3 & <-). apply (HV i a); auto.
      + eapply (l2g_rel c fin Hc); [..|apply S2]; rewrite ?map_length; auto. intros i dm b0 b1 b2 b3 K K0 K1 K2 K3. apply nth_error_map_some in K as (a & K & <-). apply nth_error_map_some in K0 as (c0 & K0 & <-). apply nth_error_map_some in K1 as (c1 & K1 & <-). apply nth_error_map_some in K2 as (c2 & K2 & <-). apply nth_error_map_some in K3 as (c3 & K3 & <-). apply (HV i a); auto.
  Qed.
End StokesMain.
(** the two operators of the velocity *)
Section TwoOps.
  Variables (c : nat) (fin : Prop).
  Hypothesis Hc : (c <= 20)%nat.
  Variables (mp : list Z) (per : list bool) (dof : nat) (dms : list (dmda * dmda)).
  Hypothesis HG : grid_ok mp per.
  Hypothesis HS : stokes_layout mp per dof dms.
  Let mv := refined_size mp per.
  Let HL : length per = length mp := proj1 (proj2 HG).
  Let HGv : grid_ok mv per := mv_grid mp per HG.
  Let HLv : length per = length mv := proj1 (proj2 HGv).
  Let Lm : length mv = length mp. Proof. unfold mv, refined_size. rewrite length_zip_with; lia. Qed.
  Variables (xv xp : dfield).
  Hypothesis HXv : fin -> finite_on mv dof xv.
  Hypothesis HXp : fin -> finite_on mp 1 xp.
  Variables (M : nat -> nat -> nat -> double) (r am : nat -> nat -> nat -> R).
  Hypothesis HM : forall i j d, mrel c fin (M i j d) (r i j d) (am i j d).
  Let D := length mp.
  Lemma tens_stokes A ra aa : (forall i j a b, mrel c fin (A i j a b) (ra i j a b) (aa i j a b)) ->
    (exists Yv Yp, dstokes_matrix_raw (ddiag_block_mult (dkernel_tensor_block A)) M dms xv xp Yv Yp) /\
    exists yv yp av apv, stokes_matrix_M (diag_block_mult (kernel_tensor_block ra)) r dms (exact xv) (exact xp) = Ok (yv, yp) /\
      stokes_matrix_M (diag_block_mult (kernel_tensor_block aa)) am dms (absolute xv) (minus_abs xp) = Ok (av, apv) /\
      forall Yv Yp, dstokes_matrix_raw (ddiag_block_mult (dkernel_tensor_block A)) M dms xv xp Yv Yp -> forall n d,
        (exists k, approx c fin (Yv n d) (yv n d) (av n d) k /\ k <= INR (2 ^ D * (2 ^ D * dof) + 3 ^ D * 2 ^ D)) /\
        (exists k, approx c fin (Yp n d) (yp n d) (apv n d) k /\ k <= INR (2 ^ D * (3 ^ D * dof))).
  Proof.
    intros HA.
    assert (ST : forall x p B Q, exists yv yp, stokes_matrix_M (diag_block_mult (kernel_tensor_block B)) Q dms x p = Ok (yv, yp) /\
      forall Ev Ep, enumerates Ev (cells_box mv per) -> enumerates Ep (cells_box mp per) ->
      (forall n d, yv n d = Lsum (fun e => Lsum (hitsw mv per n d) (tens_c mv per dof x B e)) Ev + Lsum (fun e => Lsum (hitsw mv per n d) (tagged true (off_c mp per dof x p Q e))) Ep) /\
      (forall n d, yp n d = Lsum (fun e => Lsum (hitsw mp per n d) (tagged false (off_c mp per dof x p Q e))) Ep)).
    { intros x p B Q. apply (stokes_strong_M mp per dof dms HG HS x p Q (diag_block_mult (kernel_tensor_block B)) (tens_c mv per dof x B)).
      - intros dv Hin y0. apply (tens_runs mv per dof (map fst dms) HGv (proj1 HS) x B dv Hin y0).
      - intros e. apply (tens_near mv per dof HGv). }
    destruct (ST (exact xv) (exact xp) ra r) as (yv & yp & Ey & _). destruct (ST (absolute xv) (minus_abs xp) aa am) as (av & apv & Ea & _). destruct (ST (fun _ _ => 1) (fun _ _ => -1) (fun _ _ _ _ => 1) (fun _ _ _ => 1)) as (kv & kp & Ek & Hk).
    destruct (Hk (E0 mv per) (E0 mp per) (E0_enum mv per HLv) (E0_enum mp per HL)) as [Hkv Hkp].
    destruct (stokes_main c fin Hc mp per dof dms HG HS xv xp HXv HXp (ddiag_block_mult (dkernel_tensor_block A)) (diag_block_mult (kernel_tensor_block ra)) (diag_block_mult (kernel_tensor_block aa)) (diag_block_mult (kernel_tensor_block (fun _ _ _ _ => 1)))) with (M := M) (r := r) (am := am) (yv := yv) (yp := yp) (av := av) (apv := apv) (kv := kv) (kp := kp) as [RUN APP]; auto.
    { intros dv Hin. eapply tens_rel; eauto; [apply (bdim mv per dof (map fst dms) HGv (proj1 HS)), Hin|apply (g2l_rel fin mv per dof (map fst dms) HGv (proj1 HS) xv HXv), Hin|apply fill_rel]. }
    split; [exact RUN|]. exists yv, yp, av, apv. split; [exact Ey|]. split; [exact Ea|]. intros Yv Yp HY n d. destruct (APP Yv Yp HY n d) as [A1 A2]. split.
    - exists (kv n d). split; [exact A1|]. rewrite Hkv, plus_INR. apply Rplus_le_compat.
      + pose proof (tens_ccount mv per dof HGv (fun _ _ => 1) n d ltac:(reflexivity)) as T. rewrite Lm in T. exact T.
      + apply (off_count_v mp per dof HG); reflexivity.
    - exists (kp n d). split; [exact A2|]. rewrite Hkp. apply (off_count_p mp per dof HG); reflexivity.
  Qed.
  Lemma diag_stokes A ra aa : (forall i j, mrel c fin (A i j) (ra i j) (aa i j)) ->
    (exists Yv Yp, dstokes_matrix_raw (ddiag_block_mult (dkernel_diag_block A)) M dms xv xp Yv Yp) /\
    exists yv yp av apv, stokes_matrix_M (diag_block_mult (kernel_diag_block ra)) r dms (exact xv) (exact xp) = Ok (yv, yp) /\
      stokes_matrix_M (diag_block_mult (kernel_diag_block aa)) am dms (absolute xv) (minus_abs xp) = Ok (av, apv) /\
      forall Yv Yp, dstokes_matrix_raw (ddiag_block_mult (dkernel_diag_block A)) M dms xv xp Yv Yp -> forall n d,
        (exists k, approx c fin (Yv n d) (yv n d) (av n d) k /\ k <= INR (2 ^ D * 2 ^ D + 3 ^ D * 2 ^ D)) /\
        (exists k, approx c fin (Yp n d) (yp n d) (apv n d) k /\ k <= INR (2 ^ D * (3 ^ D * dof))).
  Proof.
    intros HA.
    assert (ST : forall x p B Q, exists yv yp, stokes_matrix_M (diag_block_mult (kernel_diag_block B)) Q dms x p = Ok (yv, yp) /\
      forall Ev Ep, enumerates Ev (cells_box mv per) -> enumerates Ep (cells_box mp per) ->
      (forall n d, yv n d = Lsum (fun e => Lsum (hitsw mv per n d) (diag_c mv per dof x B e)) Ev + Lsum (fun e => Lsum (hitsw mv per n d) (tagged true (off_c mp per dof x p Q e))) Ep) /\
      (forall n d, yp n d = Lsum (fun e => Lsum (hitsw mp per n d) (tagged false (off_c mp per dof x p Q e))) Ep)).
    { intros x p B Q. apply (stokes_strong_M mp per dof dms HG HS x p Q (diag_block_mult (kernel_diag_block B)) (diag_c mv per dof x B)).
      - intros dv Hin y0. apply (diag_runs mv per dof (map fst dms) HGv (proj1 HS) x B dv Hin y0).
      - intros e. apply (diag_near mv per dof HGv). }
    destruct (ST (exact xv) (exact xp) ra r) as (yv & yp & Ey & _). destruct (ST (absolute xv) (minus_abs xp) aa am) as (av & apv & Ea & _). destruct (ST (fun _ _ => 1) (fun _ _ => -1) (fun _ _ => 1) (fun _ _ _ => 1)) as (kv & kp & Ek & Hk).
    destruct (Hk (E0 mv per) (E0 mp per) (E0_enum mv per HLv) (E0_enum mp per HL)) as [Hkv Hkp].
    destruct (stokes_main c fin Hc mp per dof dms HG HS xv xp HXv HXp (ddiag_block_mult (dkernel_diag_block A)) (diag_block_mult (kernel_diag_block ra)) (diag_block_mult (kernel_diag_block aa)) (diag_block_mult (kernel_diag_block (fun _ _ => 1)))) with (M := M) (r := r) (am := am) (yv := yv) (yp := yp) (av := av) (apv := apv) (kv := kv) (kp := kp) as [RUN APP]; auto.
    { intros dv Hin. eapply diag_rel; eauto; [apply (bdim mv per dof (map fst dms) HGv (proj1 HS)), Hin|apply (g2l_rel fin mv per dof (map fst dms) HGv (proj1 HS) xv HXv), Hin|apply fill_rel]. }
    split; [exact RUN|]. exists yv, yp, av, apv. split; [exact Ey|]. split; [exact Ea|]. intros Yv Yp HY n d. destruct (APP Yv Yp HY n d) as [A1 A2]. split.
    - exists (kv n d). split; [exact A1|]. rewrite Hkv, plus_INR. apply Rplus_le_compat.
      + pose proof (diag_ccount mv per dof HGv (fun _ _ => 1) n d ltac:(reflexivity)) as T. rewrite Lm in T. exact T.
      + apply (off_count_v mp per dof HG); reflexivity.
    - exists (kp n d). split; [exact A2|]. rewrite Hkp. apply (off_count_p mp per dof HG); reflexivity.
  Qed.
End TwoOps.
Close Scope R_scope.
