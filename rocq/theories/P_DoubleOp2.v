(** The operators in doubles run in step with the operators over the reals. *)
From Coq Require Import Permutation.
From Flocq Require Import Core BinarySingleNaN.
From Verif Require Import Base M_Geometry S_Geometry P_Geometry M_Particle S_Particle P_Particle M_Quadrature M_MatElem M_Mesh M_Operator S_Operator P_Mesh P_Operator P_Operator2 P_Stokes.
From Verif Require Import M_Double S_Double P_Double P_Double2 P_Double3 P_Double4.
From Verif Require Import M_DoubleOp P_DoubleOp.
Open Scope R_scope.

(** ** outcomes of four runs in step *)
Definition orel {S0 S1 S2 S3} (P : S0 -> S1 -> S2 -> S3 -> Prop) (o0 : outcome S0) (o1 : outcome S1) (o2 : outcome S2) (o3 : outcome S3) : Prop :=
  match o0, o1, o2, o3 with
  | Ok s0, Ok s1, Ok s2, Ok s3 => P s0 s1 s2 s3
  | UB, UB, UB, UB => True
  | Abort, Abort, Abort, Abort => True
  | OutOfFuel, OutOfFuel, OutOfFuel, OutOfFuel => True
  | _, _, _, _ => False
  end.
Lemma orel_bind {S0 S1 S2 S3 T0 T1 T2 T3} (P : S0 -> S1 -> S2 -> S3 -> Prop) (Q : T0 -> T1 -> T2 -> T3 -> Prop) o0 o1 o2 o3 f0 f1 f2 f3 :
  orel P o0 o1 o2 o3 -> (forall s0 s1 s2 s3, P s0 s1 s2 s3 -> orel Q (f0 s0) (f1 s1) (f2 s2) (f3 s3)) -> orel Q (bind o0 f0) (bind o1 f1) (bind o2 f2) (bind o3 f3).
Proof. destruct o0, o1, o2, o3; cbn; try tauto. intros H K. apply K, H. Qed.
Lemma orel_fold {A S0 S1 S2 S3} (P : S0 -> S1 -> S2 -> S3 -> Prop) (l : list A) f0 f1 f2 f3 : (forall k s0 s1 s2 s3, In k l -> P s0 s1 s2 s3 -> orel P (f0 k s0) (f1 k s1) (f2 k s2) (f3 k s3)) ->
  forall o0 o1 o2 o3, orel P o0 o1 o2 o3 -> orel P (fold_left (fun o k => bind o (f0 k)) l o0) (fold_left (fun o k => bind o (f1 k)) l o1) (fold_left (fun o k => bind o (f2 k)) l o2) (fold_left (fun o k => bind o (f3 k)) l o3).
Proof.
  induction l as [|a l IH]; intros H o0 o1 o2 o3 Ho; [exact Ho|]. cbn [fold_left]. apply IH; [intros; apply H; [right|]; assumption|].
  eapply orel_bind; [exact Ho|]. intros. apply H; [left; reflexivity|assumption].
Qed.
Lemma orel_for {S0 S1 S2 S3} (P : S0 -> S1 -> S2 -> S3 -> Prop) n f0 f1 f2 f3 s0 s1 s2 s3 :
  P s0 s1 s2 s3 -> (forall k s0 s1 s2 s3, (k < n)%nat -> P s0 s1 s2 s3 -> orel P (f0 k s0) (f1 k s1) (f2 k s2) (f3 k s3)) ->
  orel P (for_ n f0 s0) (for_ n f1 s1) (for_ n f2 s2) (for_ n f3 s3).
Proof. intros HP H. unfold for_. apply orel_fold; [|exact HP]. intros k t0 t1 t2 t3 Hk. apply in_seq in Hk. apply H. lia. Qed.
Lemma orel_iterate {S0 S1 S2 S3} (P : S0 -> S1 -> S2 -> S3 -> Prop) D b f0 f1 f2 f3 s0 s1 s2 s3 : has_dim D b ->
  P s0 s1 s2 s3 -> (forall k s0 s1 s2 s3, length k = D -> P s0 s1 s2 s3 -> orel P (f0 k s0) (f1 k s1) (f2 k s2) (f3 k s3)) ->
  orel P (iterate_o b f0 s0) (iterate_o b f1 s1) (iterate_o b f2 s2) (iterate_o b f3 s3).
Proof.
  intros Hb HP H. unfold iterate_o. destruct (grid_pts_spec D b Hb) as (IN & _ & _ & R). rewrite !R. apply orel_fold; [|exact HP]. intros k t0 t1 t2 t3 Hk. apply H. apply IN in Hk as [Hk _]. apply Forall2_len in Hk. destruct Hb. lia.
Qed.
Lemma orel_on_all {A B0 B1 B2 B3} (P : A -> B0 -> B1 -> B2 -> B3 -> Prop) (l : list A) f0 f1 f2 f3 :
  (forall a, In a l -> orel (P a) (f0 a) (f1 a) (f2 a) (f3 a)) ->
  orel (fun l0 l1 l2 l3 => length l0 = length l /\ length l1 = length l /\ length l2 = length l /\ length l3 = length l /\
     forall i a b0 b1 b2 b3, nth_error l i = Some a -> nth_error l0 i = Some b0 -> nth_error l1 i = Some b1 -> nth_error l2 i = Some b2 -> nth_error l3 i = Some b3 -> P a b0 b1 b2 b3) (on_all f0 l) (on_all f1 l) (on_all f2 l) (on_all f3 l).
Proof.
  induction l as [|a l IH]; intros H; cbn [on_all].
  - cbn. repeat (split; [reflexivity|]). intros [|i]; discriminate.
  - eapply orel_bind; [apply H; left; reflexivity|]. intros b0 b1 b2 b3 Hb. eapply orel_bind; [apply IH; intros; apply H; right; assumption|].
    intros l0 l1 l2 l3 (L0 & L1 & L2 & L3 & Hl). cbn. repeat (split; [lia|]). intros [|i] x y0 y1 y2 y3; cbn; [congruence|apply Hl].
Qed.
Lemma elem_len e k : (k < length (get_element e))%nat -> length (nth k (get_element e) []) = length e.
Proof. intros H. pose proof (get_element_near e _ (nth_In _ [] H)) as N. apply Forall2_len in N. auto. Qed.
Lemma elem3_len e k : (k < length (get_element_4Q1 e))%nat -> length (nth k (get_element_4Q1 e) []) = length e.
Proof. intros H. pose proof (get_element_4Q1_near e _ (nth_In _ [] H)) as N. apply Forall2_len in N. auto. Qed.
(** ** vectors *)
Section Rel.
  Variables (c : nat) (fin : Prop).
  Hypothesis Hc : (c <= 20)%nat.
  Definition vrel (y : dlvec) (yr ya yk : lvec) : Prop :=
    (lv_box yr = dl_box y /\ lv_box ya = dl_box y /\ lv_box yk = dl_box y) /\ (lv_dof yr = dl_dof y /\ lv_dof ya = dl_dof y /\ lv_dof yk = dl_dof y) /\
    forall p d, approx c fin (dl_val y p d) (lv_val yr p d) (lv_val ya p d) (lv_val yk p d).
  (** the argument: exact copies, with finite entries when [fin] *)
  Definition xrel (D : nat) (s : R) (x : dlvec) (xr xa xk : lvec) : Prop :=
    (lv_box xr = dl_box x /\ lv_box xa = dl_box x /\ lv_box xk = dl_box x) /\ (lv_dof xr = dl_dof x /\ lv_dof xa = dl_dof x /\ lv_dof xk = dl_dof x) /\
    (forall p d, lv_val xr p d = dval (dl_val x p d) /\ lv_val xa p d = s * Rabs (dval (dl_val x p d)) /\ lv_val xk p d = s * 1) /\
    (fin -> forall p d, length p = D -> point_inside Z.ltb (dl_box x) p = true -> (d < dl_dof x)%nat -> finite (dl_val x p d)).
  Definition reads (s : R) (x : double) (xr xa xk : R) : Prop := xr = dval x /\ xa = s * Rabs (dval x) /\ xk = s * 1 /\ (fin -> finite x).
  Lemma read_rel D s x xr xa xk p d : xrel D s x xr xa xk -> (d < dl_dof x)%nat -> length p = D -> orel (reads s) (dat_read x p d) (at_read xr p d) (at_read xa p d) (at_read xk p d).
  Proof.
    intros ((B1 & B2 & B3) & _ & V & F) Hd HL. unfold dat_read, at_read. rewrite B1, B2, B3. destruct (point_inside Z.ltb (dl_box x) p) eqn:E; cbn; [|exact I]. destruct (V p d) as (-> & -> & ->). repeat (split; [reflexivity|]). intros Hf. apply F; auto.
  Qed.
  Lemma upd_rel y yr ya yk p d f r a k : vrel y yr ya yk -> (forall v r' a' k', approx c fin v r' a' k' -> approx c fin (f v) (r' + r) (a' + a) (k' + k)) ->
    orel vrel (dat_upd y p d f) (at_add yr p d r) (at_add ya p d a) (at_add yk p d k).
  Proof.
    intros ((B1 & B2 & B3) & (D1 & D2 & D3) & V) H. unfold dat_upd, at_add. rewrite B1, B2, B3. destruct (point_inside Z.ltb (dl_box y) p); cbn; [|exact I].
    split; [tauto|]. split; [tauto|]. cbn. intros q e. unfold upd_val, add_val. destruct (same_node p q && Nat.eqb d e); [apply H, V|apply V].
  Qed.
  Lemma fill_rel dm : vrel (dfill0 dm) (fill0 dm) (fill0 dm) (fill0 dm).
  Proof. split; [repeat split|]. split; [repeat split|]. intros p d. apply approx_zero. Qed.

  (** element matrices: doubles, the exact ones, bounds of the absolute values *)
  Definition mrel (M : double) (m am : R) : Prop := factor c M m am /\ (fin -> finite M).
  Lemma diag_rel D dm M m am x xr xa xk y yr ya yk : has_dim D (get_DM_bounds dm true) -> (forall i j, mrel (M i j) (m i j) (am i j)) -> xrel D 1 x xr xa xk -> vrel y yr ya yk ->
    orel vrel (ddiag_block_mult (dkernel_diag_block M) dm x y) (diag_block_mult (kernel_diag_block m) dm xr yr) (diag_block_mult (kernel_diag_block am) dm xa ya) (diag_block_mult (kernel_diag_block (fun _ _ => 1)) dm xk yk).
  Proof.
    intros Hb HM HX HY. unfold ddiag_block_mult, diag_block_mult. eapply orel_iterate; [exact Hb|exact HY|]. intros pos s0 s1 s2 s3 HL HS. unfold dkernel_diag_block, kernel_diag_block.
    apply orel_for; [exact HS|]. intros k1 t0 t1 t2 t3 Hk1 HT. apply orel_for; [exact HT|]. intros k2 u0 u1 u2 u3 Hk2 HU. destruct HX as (B & (D1 & D2 & D3) & V). rewrite D1, D2, D3. pose proof (conj B (conj (conj D1 (conj D2 D3)) V)) as HX. change (xrel D 1 x xr xa xk) in HX.
    apply orel_for; [exact HU|]. intros d v0 v1 v2 v3 Hd HV. eapply orel_bind; [apply (read_rel D); [exact HX|exact Hd|rewrite <- HL; apply elem_len, Hk2]|]. intros ux uxr uxa uxk (-> & -> & -> & F). apply upd_rel; [exact HV|]. intros v r' a' k' HA.
    rewrite !Rmult_1_l. apply approx_plus; auto. destruct (HM k1 k2) as [HM1 HM2]. apply approx_mult; auto.
  Qed.
  Lemma tens_rel D dm M m am x xr xa xk y yr ya yk : has_dim D (get_DM_bounds dm true) -> (forall i j a b, mrel (M i j a b) (m i j a b) (am i j a b)) -> xrel D 1 x xr xa xk -> vrel y yr ya yk ->
    orel vrel (ddiag_block_mult (dkernel_tensor_block M) dm x y) (diag_block_mult (kernel_tensor_block m) dm xr yr) (diag_block_mult (kernel_tensor_block am) dm xa ya) (diag_block_mult (kernel_tensor_block (fun _ _ _ _ => 1)) dm xk yk).
  Proof.
    intros Hb HM HX HY. unfold ddiag_block_mult, diag_block_mult. eapply orel_iterate; [exact Hb|exact HY|]. intros pos s0 s1 s2 s3 HL HS. unfold dkernel_tensor_block, kernel_tensor_block.
    apply orel_for; [exact HS|]. intros k1 t0 t1 t2 t3 Hk1 HT. apply orel_for; [exact HT|]. intros k2 u0 u1 u2 u3 Hk2 HU. destruct HX as (B & (D1 & D2 & D3) & V). rewrite D1, D2, D3. pose proof (conj B (conj (conj D1 (conj D2 D3)) V)) as HX. change (xrel D 1 x xr xa xk) in HX.
    apply orel_for; [exact HU|]. intros d v0 v1 v2 v3 Hd HV. apply orel_for; [exact HV|]. intros d2 w0 w1 w2 w3 Hd2 HW. eapply orel_bind; [apply (read_rel D); [exact HX|exact Hd2|rewrite <- HL; apply elem_len, Hk2]|]. intros ux uxr uxa uxk (-> & -> & -> & F). apply upd_rel; [exact HW|]. intros v r' a' k' HA.
    rewrite !Rmult_1_l. apply approx_plus; auto. destruct (HM k1 k2 d d2) as [HM1 HM2]. apply approx_mult; auto.
  Qed.
  Lemma dd_rel D dm M m am y yr ya yk : has_dim D (get_DM_bounds dm true) -> (forall i j, mrel (M i j) (m i j) (am i j)) -> vrel y yr ya yk ->
    orel vrel (ddiag_diag_block_mult (dkernel_diag_diag_block M) dm y) (diag_diag_block_mult (kernel_diag_diag_block m) dm yr) (diag_diag_block_mult (kernel_diag_diag_block am) dm ya) (diag_diag_block_mult (kernel_diag_diag_block (fun _ _ => 1)) dm yk).
  Proof.
    intros Hb HM HY. unfold ddiag_diag_block_mult, diag_diag_block_mult. eapply orel_iterate; [exact Hb|exact HY|]. intros pos s0 s1 s2 s3 HL HS. unfold dkernel_diag_diag_block, kernel_diag_diag_block.
    apply orel_for; [exact HS|]. intros k1 t0 t1 t2 t3 Hk1 HT. destruct HT as (B & (D1 & D2 & D3) & V). rewrite D1, D2, D3. pose proof (conj B (conj (conj D1 (conj D2 D3)) V)) as HT. change (vrel t0 t1 t2 t3) in HT.
    apply orel_for; [exact HT|]. intros d v0 v1 v2 v3 Hd HV. apply upd_rel; [exact HV|]. intros v r' a' k' HA. apply approx_plus; auto. destruct (HM k1 k1) as [HM1 HM2]. apply approx_term; auto.
  Qed.
  Definition vrel2 (y : dlvec * dlvec) (yr ya yk : lvec * lvec) : Prop := vrel (fst y) (fst yr) (fst ya) (fst yk) /\ vrel (snd y) (snd yr) (snd ya) (snd yk).
  (** the absolute run takes minus the absolute value of the pressure, so that the subtractions of the kernel add up *)
  Lemma off_rel D dm M m am x1 x1r x1a x1k x2 x2r x2a x2k y yr ya yk : has_dim D (get_DM_bounds dm true) -> (forall i j d, mrel (M i j d) (m i j d) (am i j d)) ->
    xrel D 1 x1 x1r x1a x1k -> xrel D (-1) x2 x2r x2a x2k -> dl_dof x2 = 1%nat -> vrel2 y yr ya yk ->
    orel vrel2 (doff_diag_block_mult (dkernel_off_diag_block M) dm x1 x2 y) (off_diag_block_mult (kernel_off_diag_block m) dm x1r x2r yr)
      (off_diag_block_mult (kernel_off_diag_block am) dm x1a x2a ya) (off_diag_block_mult (kernel_off_diag_block (fun _ _ _ => 1)) dm x1k x2k yk).
  Proof.
    intros Hb HM HX HX2 HD2 HY. unfold doff_diag_block_mult, off_diag_block_mult. eapply orel_iterate; [exact Hb|exact HY|]. intros pos s0 s1 s2 s3 HL HS. unfold dkernel_off_diag_block, kernel_off_diag_block.
    apply orel_for; [exact HS|]. intros k1 t0 t1 t2 t3 Hk1 HT. apply orel_for; [exact HT|]. intros k2 u0 u1 u2 u3 Hk2 HU. destruct HX as (B & (D1 & D2 & D3) & V). rewrite D1, D2, D3. pose proof (conj B (conj (conj D1 (conj D2 D3)) V)) as HX. change (xrel D 1 x1 x1r x1a x1k) in HX.
    apply orel_for; [exact HU|]. intros d v0 v1 v2 v3 Hd [HV1 HV2]. destruct (HM k2 k1 d) as [HM1 HM2].
    eapply orel_bind; [apply (read_rel D); [exact HX|exact Hd|rewrite <- HL; apply elem3_len, Hk1]|]. intros ux uxr uxa uxk (-> & -> & -> & F).
    eapply orel_bind; [apply upd_rel; [exact HV2|]; intros v r' a' k' HA; rewrite !Rmult_1_l; apply approx_plus; auto; apply approx_mult; auto|]. intros z0 z1 z2 z3 HZ.
    eapply orel_bind; [apply (read_rel D); [exact HX2|lia|rewrite <- HL; apply elem_len, Hk2]|]. intros up upr upa upk (-> & -> & -> & F2).
    eapply (orel_bind vrel).
    - apply upd_rel; [exact HV1|]. intros v r' a' k' HA. replace (- (-1 * Rabs (dval up) * am k2 k1 d)) with (Rabs (dval up) * am k2 k1 d) by ring. replace (- (-1 * 1 * 1)) with 1 by ring. apply approx_minus; auto. apply approx_mult; auto.
    - intros w0 w1 w2 w3 HW. cbn. split; cbn; assumption.
  Qed.
  (** ** communication *)
  Lemma summed_approx l v : summed l v -> forall (w : list (double * (R * R * R))), map fst w = l -> Forall (fun e => approx c fin (fst e) (fst (fst (snd e))) (snd (fst (snd e))) (snd (snd e))) w ->
    approx c fin v (Lsum (fun e => fst (fst (snd e))) w) (Lsum (fun e => snd (fst (snd e))) w) (Lsum (fun e => snd (snd e)) w).
  Proof.
    induction 1 as [v|l1 l2 v1 v2 _ IH1 _ IH2|l l' v HP _ IH]; intros w E F.
    - destruct w as [|e [|]]; try discriminate. injection E as <-. inversion F; subst. rewrite !Lsum_cons. unfold Lsum; simpl. rewrite !Rplus_0_r. assumption.
    - apply map_eq_app in E as (w1 & w2 & -> & E1 & E2). apply Forall_app in F as [F1 F2]. rewrite !Lsum_app. apply approx_plus; auto.
    - rewrite <- E in HP. apply Permutation_map_inv in HP as (w' & E' & P'). rewrite (Lsum_perm _ _ _ P'), (Lsum_perm _ _ _ P'), (Lsum_perm _ _ _ P'). apply IH; [congruence|]. eapply Permutation_Forall; [exact P'|exact F].
  Qed.
  Lemma l2g_rel dms ys yr ya yk n d v : length ys = length dms -> length yr = length dms -> length ya = length dms -> length yk = length dms ->
    (forall i dm b0 b1 b2 b3, nth_error dms i = Some dm -> nth_error ys i = Some b0 -> nth_error yr i = Some b1 -> nth_error ya i = Some b2 -> nth_error yk i = Some b3 -> vrel b0 b1 b2 b3) ->
    dlocal_to_global dms ys n d v -> approx c fin v (local_to_global_add dms yr zeros n d) (local_to_global_add dms ya zeros n d) (local_to_global_add dms yk zeros n d).
  Proof.
    intros L0 L1 L2 L3 H S. unfold dlocal_to_global in S.
    assert (W : exists w, map fst w = l2g_entries dms ys n d /\ Forall (fun e : double * (R * R * R) => approx c fin (fst e) (fst (fst (snd e))) (snd (fst (snd e))) (snd (snd e))) w /\
      local_to_global_add dms yr zeros n d = Lsum (fun e => fst (fst (snd e))) w /\ local_to_global_add dms ya zeros n d = Lsum (fun e => snd (fst (snd e))) w /\ local_to_global_add dms yk zeros n d = Lsum (fun e => snd (snd e)) w).
    { clear S. unfold local_to_global_add, zeros, l2g_entries. rewrite !Rplus_0_l. change (fold_right Rplus 0 (map ?f ?l)) with (Lsum f l).
      revert ys yr ya yk L0 L1 L2 L3 H. induction dms as [|dm dms IH]; intros [|y ys] [|zr yr] [|za ya] [|zk yk] L0 L1 L2 L3 H; try discriminate.
      - exists []. repeat split; constructor.
      - destruct (IH ys yr ya yk) as (w & W1 & W2 & W3 & W4 & W5); try (simpl in *; lia). { intros i. apply (H (S i)). }
        destruct (H 0%nat dm y zr za zk eq_refl eq_refl eq_refl eq_refl eq_refl) as ((B1 & B2 & B3) & _ & V).
        cbn [combine map flat_map fst snd]. rewrite !Lsum_cons. cbn [fst snd]. rewrite W3, W4, W5, B1, B2, B3, <- W1. change (fold_right Rplus 0 (map ?f ?l)) with (Lsum f l).
        generalize (box_points_list (dl_box y)) as l. intros l. induction l as [|q l IHl].
        + exists w. cbn. rewrite !Rplus_0_l. repeat split; auto.
        + destruct IHl as (w' & X1 & X2 & X3 & X4 & X5). cbn [flat_map]. rewrite !Lsum_cons. destruct (same_node _ n).
          * exists ((dl_val y q d, (lv_val zr q d, lv_val za q d, lv_val zk q d)) :: w'). cbn [map fst snd app]. split; [rewrite <- X1; reflexivity|]. split; [constructor; [apply V|exact X2]|]. rewrite !Lsum_cons. cbn [fst snd]. rewrite <- X3, <- X4, <- X5. repeat split; ring.
          * exists w'. cbn [app]. split; [exact X1|]. split; [exact X2|]. rewrite <- X3, <- X4, <- X5. repeat split; ring. }
    destruct W as (w & W1 & W2 & -> & -> & ->).
    pose proof (summed_approx _ _ S ((dzero, (0, 0, 0)) :: w)) as A. cbn [map fst] in A. rewrite W1 in A. specialize (A eq_refl ltac:(constructor; [apply approx_zero|exact W2])). rewrite !Lsum_cons in A. cbn [fst snd] in A. rewrite !Rplus_0_l in A. exact A.
  Qed.
End Rel.
Close Scope R_scope.
