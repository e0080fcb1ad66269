(** The Stokes operator: coupling terms. *)
From Coq Require Import Permutation.
From Coquelicot Require Import Coquelicot.
From Verif Require Import Base M_Geometry S_Geometry P_Geometry M_Particle S_Particle P_Particle M_Quadrature S_Fem M_MatElem P_MatElem P_Energy M_Mesh M_Operator S_Operator P_Mesh P_Operator P_Operator2.
Open Scope R_scope.

(** p is one of the velocity nodes of the pressure cell e *)
Definition near3 (e p : list Z) : Prop := Forall2 (fun a b => 2 * a <= b <= 2 * a + 2)%Z e p.
Lemma get_element_4Q1_near e p : In p (get_element_4Q1 e) -> near3 e p.
Proof.
  unfold near3. destruct e as [|i [|j [|k [|]]]]; cbn [get_element_4Q1]; try (intros []; fail);
  unfold get_element_4Q1_2, get_element_4Q1_3, In; intros H;
  repeat (destruct H as [<-|H]; [repeat constructor; lia|]); destruct H.
Qed.
Lemma ghost_contains3 lo up mp per e p : Forall2 Z.le (map (fun _ : Z => 0%Z) mp) lo -> Forall2 Z.le up mp -> length per = length mp ->
  Forall2 Z.le lo e -> Forall2 Z.lt e (dec_upper up mp per) -> near3 e p ->
  Forall2 Z.le (ghost_low (map (fun a => (2 * a)%Z) lo) per) p /\
  Forall2 Z.lt p (ghost_up (zip_with (fun b np => if (b =? fst np)%Z && negb (snd np) then (2 * b - 1)%Z else (2 * b)%Z) up (combine mp per))
                           (refined_size mp per) per).
Proof.
  unfold refined_size. intros H0 H1 Hl H2 H3 H4. revert lo up per e p H0 H1 Hl H2 H3 H4.
  induction mp as [|n m IH]; intros lo up per e p H0 H1 Hl H2 H3 H4; destruct per as [|b per]; simpl in Hl; try lia.
  - inversion H0; subst. inversion H1; subst. inversion H2; subst. inversion H4; subst. split; constructor.
  - inversion H0 as [|? l0 ? lo' ? K0]; subst. inversion H1 as [|u ? up' ? ? K1]; subst. inversion H2 as [|? e0 ? e' ? K2]; subst.
    inversion H4 as [|? p0 ? p' ? K4]; subst. simpl in H3. inversion H3 as [|? ? ? ? ? K3]; subst.
    destruct (IH lo' up' per e' p') as [I1 I2]; auto; try lia. cbn [combine map zip_with ghost_low ghost_up fst snd].
    destruct (Z.eqb_spec u n), b; cbn [andb negb] in *; split; constructor; auto; lia.
Qed.
Lemma wrap_in_nodes3 mp per e p : Forall (fun n => 1 <= n)%Z mp -> length per = length mp ->
  in_grid_box (cells_box mp per) e -> near3 e p -> in_grid_box (nodes_box (refined_size mp per)) (wrap (refined_size mp per) per p).
Proof.
  unfold in_grid_box, cells_box, nodes_box, refined_size. cbn [bottom_left upper_right]. intros HF Hl [H1 H2] H3. revert per e p HF Hl H1 H2 H3.
  induction mp as [|n m IH]; intros [|b per] e p HF Hl H1 H2 H3; cbn [map zip_with length] in *; try lia.
  - split; constructor.
  - inversion HF; subst. inversion H1; subst. inversion H2; subst. inversion H3; subst. cbn [wrap].
    edestruct (IH per) as [I1 I2]; eauto; try lia.
    destruct b; split; constructor; auto; try lia; apply Z.mod_pos_bound; lia.
Qed.

(** generalisations of P_Operator *)
Lemma l2g_gen {A} m per dof (pi : A -> dmda) (l : list A) (CS : A -> list contrib) ys :
  length per = length m -> Forall (fun a => view_ok m per dof (pi a)) l ->
  (forall a, In a l -> Forall (fun c : contrib => in_grid_box (g_ghost (pi a)) (fst (fst c))) (CS a)) ->
  Forall2 (fun a y => lv_box y = g_ghost (pi a) /\ forall q d, lv_val y q d = Lsum (hits q d) (CS a)) l ys ->
  forall n d, local_to_global_add (map pi l) ys zeros n d = Lsum (fun a => Lsum (hitsw m per n d) (CS a)) l.
Proof.
  intros HL HV HC HF n d. unfold local_to_global_add, zeros. rewrite Rplus_0_l.
  change (fold_right Rplus 0 (map ?f ?l)) with (Lsum f l).
  revert HV HC. induction HF as [|a y l ys [Hb Hv] HF IH]; intros HV HC; [reflexivity|].
  simpl map. simpl combine. rewrite !Lsum_cons. inversion HV as [|? ? V1 V2]; subst. f_equal.
  - destruct (view_dims m per dof (pi a) V1 HL) as (_ & _ & Hg). destruct V1 as (E1 & E2 & _). simpl fst; simpl snd. rewrite E1, E2, Hb.
    destruct (box_points_list_enum _ _ Hg) as [N I].
    rewrite <- (ghost_sum m per (box_points_list (g_ghost (pi a))) n d (CS a) N).
    + apply Lsum_ext. intros q _. rewrite Hv. reflexivity.
    + rewrite Forall_forall. intros c Hc. apply I. specialize (HC a (or_introl eq_refl)). rewrite Forall_forall in HC. apply HC, Hc.
  - apply IH; auto. intros; apply HC; right; auto.
Qed.
Lemma weak_gen m per dof N (E : list (list Z)) (c : list Z -> list contrib) v : NoDup N ->
  (forall e ct, In e E -> In ct (c e) -> In (wrap m per (fst (fst ct))) N /\ (snd (fst ct) < dof)%nat) ->
  inner N dof (fun n d => Lsum (fun e => Lsum (hitsw m per n d) (c e)) E) v =
  Lsum (fun e => Lsum (fun ct : contrib => snd ct * v (wrap m per (fst (fst ct))) (snd (fst ct))) (c e)) E.
Proof.
  intros HN Hc. unfold inner.
  transitivity (Lsum (fun n => Rsum dof (fun d => Lsum (fun e => Lsum (fun ct => hitsw m per n d ct * v n d) (c e)) E)) N).
  { apply Lsum_ext. intros n _. apply Rsum_ext. intros d _. rewrite <- Lsum_scal_r. apply Lsum_ext. intros e _. rewrite <- Lsum_scal_r. reflexivity. }
  transitivity (Lsum (fun n => Lsum (fun e => Lsum (fun ct => Rsum dof (fun d => hitsw m per n d ct * v n d)) (c e)) E) N).
  { apply Lsum_ext. intros n _. rewrite <- Lsum_Rsum. apply Lsum_ext. intros e _. rewrite Lsum_Rsum. reflexivity. }
  rewrite Lsum_swap. apply Lsum_ext. intros e He. rewrite Lsum_swap. apply Lsum_ext. intros ct Hct.
  destruct (Hc e ct He Hct) as [Hw Hd].
  rewrite <- (Lsum_pick (list_eq_dec Z.eq_dec) (wrap m per (fst (fst ct))) (fun n => snd ct * v n (snd (fst ct))) N HN Hw).
  apply Lsum_ext. intros n _. unfold hitsw, same_node.
  destruct (list_eq_dec Z.eq_dec (wrap m per (fst (fst ct))) n) as [<-|Hne]; simpl.
  - rewrite <- (Rsum_pick dof (snd (fst ct)) (fun d => snd ct * v (wrap m per (fst (fst ct))) d) Hd).
    apply Rsum_ext. intros d _. destruct (Nat.eqb _ d); ring.
  - transitivity (Rsum dof (fun _ => 0)); [|apply Rsum_zero]. apply Rsum_ext. intros d _. ring.
Qed.

Lemma inner_ext_pointwise N dof (y y' : field) v : (forall n d, y n d = y' n d) -> inner N dof y v = inner N dof y' v.
Proof. intros H. unfold inner. apply Lsum_ext. intros n _. apply Rsum_ext. intros d _. rewrite H. reflexivity. Qed.
Lemma Forall_map_iff {A B} (f : A -> B) (P : B -> Prop) l : Forall P (map f l) <-> Forall (fun a => P (f a)) l.
Proof. induction l; simpl; split; intros H; constructor; inversion H; subst; auto; apply IHl; auto. Qed.
Lemma Forall2_map_r {A B C} (f : B -> C) (P : A -> C -> Prop) l m : Forall2 P l (map f m) <-> Forall2 (fun a b => P a (f b)) l m.
Proof.
  revert m. induction l as [|a l IH]; intros [|b m]; simpl; split; intros H; inversion H; subst; constructor; auto; apply IH; auto.
Qed.

Lemma Forall2_imp {A B} (P Q : A -> B -> Prop) : (forall a b, P a b -> Q a b) -> forall l l', Forall2 P l l' -> Forall2 Q l l'.
Proof. intros H l l' F. induction F; constructor; auto. Qed.
Lemma refined_grid mp per : grid_ok mp per -> grid_ok (refined_size mp per) per.
Proof.
  intros (HD & HL & HF). assert (LE : length (refined_size mp per) = length mp) by (unfold refined_size; rewrite length_zip_with; lia).
  unfold grid_ok. rewrite LE. split; [exact HD|]. split; [exact HL|].
  unfold refined_size. clear LE HD. revert per HL. induction HF as [|n m Hn HF IH]; intros [|b per] Hl; cbn [zip_with length] in *; try discriminate; constructor.
  - destruct b; cbv beta; lia.
  - apply IH. lia.
Qed.

Section Stokes.
  Variables (mp : list Z) (per : list bool) (dof : nat) (dms : list (dmda * dmda)).
  Hypothesis HG : grid_ok mp per.
  Hypothesis HS : stokes_layout mp per dof dms.
  Let mv := refined_size mp per.
  Let HL : length per = length mp := proj1 (proj2 HG).
  Variables (xv xp : field) (M : nat -> nat -> nat -> R).

  Definition nv (e : list Z) (k : nat) : list Z := nth k (get_element_4Q1 e) [].
  Definition off_c (e : list Z) : list contrib2 :=
    flat_map (fun kv => flat_map (fun kp => flat_map (fun d =>
      [(false, (nd e kp, 0%nat, xv (wrap mv per (nv e kv)) d * M kp kv d)); (true, (nv e kv, d, - (xp (wrap mp per (nd e kp)) 0%nat * M kp kv d)))])
      (seq 0 dof)) (seq 0 (length (get_element e)))) (seq 0 (length (get_element_4Q1 e))).

  Lemma mv_grid : grid_ok mv per.
  Proof. apply refined_grid, HG. Qed.
  Let HLv : length per = length mv := proj1 (proj2 mv_grid).

  Lemma view_v dm : In dm dms -> view_ok mv per dof (fst dm).
  Proof. intros Hin. destruct HS as [[HV _] _]. rewrite Forall_forall in HV. apply HV. apply in_map, Hin. Qed.
  Lemma view_p dm : In dm dms -> view_ok mp per 1 (snd dm).
  Proof. intros Hin. destruct HS as [_ [[HV _] _]]. rewrite Forall_forall in HV. apply HV. apply in_map, Hin. Qed.

  Lemma inside_dim b p D : has_dim D b -> in_grid_box b p -> point_inside Z.ltb b p = true.
  Proof. intros Hb Hp. apply (point_inside_grid D); auto. destruct Hp as [H1 _]. apply Forall2_len in H1. destruct Hb. lia. Qed.

  Lemma p_in_ghost dm e p : In dm dms -> in_grid_box (get_DM_bounds (snd dm) true) e -> near e p -> in_grid_box (g_ghost (snd dm)) p.
  Proof.
    intros Hin He Hn. destruct (view_p dm Hin) as (E1 & E2 & E3 & H1 & H2 & H3 & E4). rewrite E4. unfold get_DM_bounds in He. rewrite E1, E2 in He.
    destruct He as [He1 He2]. simpl in He1, He2. unfold in_grid_box, ghost_box; simpl. apply (ghost_contains _ _ mp per e); auto.
  Qed.
  Lemma v_in_ghost dm e p : In dm dms -> in_grid_box (get_DM_bounds (snd dm) true) e -> near3 e p -> in_grid_box (g_ghost (fst dm)) p.
  Proof.
    intros Hin He Hn. destruct (view_p dm Hin) as (E1 & E2 & E3 & H1 & H2 & H3 & E4). unfold get_DM_bounds in He. rewrite E1, E2 in He.
    destruct (view_v dm Hin) as (F1 & F2 & F3 & K1 & K2 & K3 & F4). destruct HS as [_ [_ HR]]. rewrite Forall_forall in HR. specialize (HR dm Hin).
    rewrite F4, HR. destruct He as [He1 He2]. cbn [bottom_left upper_right] in He1, He2. unfold in_grid_box, ghost_box, refined_own. cbn [bottom_left upper_right].
    apply (ghost_contains3 _ _ mp per e); auto.
  Qed.

  Definition local_off (dm : dmda * dmda) : list contrib2 := flat_map off_c (grid_pts (get_DM_bounds (snd dm) true)).

  Lemma off_runs dm y : In dm dms ->
    off_diag_block_mult (kernel_off_diag_block M) (snd dm) (global_to_local (fst dm) xv) (global_to_local (snd dm) xp) y = runs step2 y (local_off dm).
  Proof.
    intros Hin. unfold off_diag_block_mult, local_off.
    destruct (view_dims _ _ _ _ (view_p dm Hin) HL) as (_ & Hb & Hgp). destruct (view_dims _ _ _ _ (view_v dm Hin) HLv) as (_ & _ & Hgv).
    destruct (view_p dm Hin) as (E1 & E2 & E3 & _). destruct (view_v dm Hin) as (F1 & F2 & F3 & _).
    eapply iterate_runs; [exact Hb|]. intros e s He. unfold kernel_off_diag_block, off_c.
    apply for_runs. intros kv s1 Hkv. apply for_runs. intros kp s2 Hkp.
    change (lv_dof (global_to_local (fst dm) xv)) with (g_dof (fst dm)). rewrite F3.
    apply for_runs. intros d s3 Hd.
    fold (nv e kv) (nd e kp).
    assert (I1 : point_inside Z.ltb (g_ghost (fst dm)) (nv e kv) = true).
    { eapply inside_dim; [exact Hgv|]. apply (v_in_ghost dm e); auto. apply get_element_4Q1_near, nth_In, Hkv. }
    assert (I2 : point_inside Z.ltb (g_ghost (snd dm)) (nd e kp) = true).
    { eapply inside_dim; [exact Hgp|]. apply (p_in_ghost dm e); auto. apply nd_near, Hkp. }
    unfold at_read, global_to_local. cbn [lv_box lv_val]. rewrite I1, I2, E1, E2, F1, F2. cbn [bind].
    rewrite runs_cons. unfold step2 at 1. cbn [fst snd]. unfold step1 at 1. cbn [fst snd].
    destruct (at_add (snd s3) (nd e kp) 0 _) as [y2| | |] eqn:EA; cbn [bind]; try reflexivity.
  Qed.
  Lemma off_in e c : In c (off_c e) -> (fst c = true -> near3 e (fst (fst (snd c))) /\ (snd (fst (snd c)) < dof)%nat) /\ (fst c = false -> near e (fst (fst (snd c))) /\ snd (fst (snd c)) = 0%nat).
  Proof.
    unfold off_c. intros H. apply in_flat_map in H as [kv [H1 H]]. apply in_flat_map in H as [kp [H2 H]]. apply in_flat_map in H as [d [H3 H]].
    apply in_seq in H1, H2, H3. destruct H as [<-|[<-|[]]]; simpl; (split; [intros K|intros K]); try discriminate.
    - split; [|reflexivity]. apply nd_near; lia.
    - split; [apply get_element_4Q1_near, nth_In|]; lia.
  Qed.
  Lemma tagged_in b e c : In c (tagged b (off_c e)) -> In (b, c) (off_c e).
  Proof.
    unfold tagged. intros H. apply in_map_iff in H as [[b' c'] [E H]]. apply filter_In in H as [H1 H2]. simpl in *. subst.
    apply eqb_prop in H2. subst. exact H1.
  Qed.

  (** the velocity operator, as contributions of velocity cells *)
  Variables (apply : dmda -> lvec -> lvec -> outcome lvec) (cA : list Z -> list contrib).
  Hypothesis HA : forall dv, In dv (map fst dms) -> forall y0, apply dv (global_to_local dv xv) y0 = runs step1 y0 (local_contribs cA dv).
  Hypothesis HcA : forall e, Forall (fun ct : contrib => near e (fst (fst ct)) /\ (snd (fst ct) < dof)%nat) (cA e).

  Lemma cA_ghost dm : In dm dms -> Forall (fun ct : contrib => in_grid_box (g_ghost (fst dm)) (fst (fst ct))) (local_contribs cA (fst dm)).
  Proof.
    intros Hin. apply (contribs_in_ghost mv per dof (map fst dms) mv_grid (proj1 HS) cA); [apply in_map, Hin|].
    intros e _. eapply Forall_impl; [|apply HcA]. simpl; tauto.
  Qed.
  Lemma off_ghost b dm : In dm dms -> Forall (fun ct : contrib => in_grid_box (g_ghost ((if b : bool then fst else snd) dm)) (fst (fst ct))) (tagged b (local_off dm)).
  Proof.
    intros Hin. destruct (view_dims _ _ _ _ (view_p dm Hin) HL) as (_ & Hb & _).
    unfold local_off. rewrite tagged_flat_map, Forall_forall. intros ct H. apply in_flat_map in H as [e [He H]]. apply tagged_in in H.
    apply (grid_pts_enum _ _ Hb) in He. destruct (off_in e _ H) as [O1 O2]. simpl in O1, O2. destruct b.
    - apply (v_in_ghost dm e); auto. apply O1; reflexivity.
    - apply (p_in_ghost dm e); auto. apply O2; reflexivity.
  Qed.

  Lemma stokes_strong h : M = getMatElemPressure h -> exists yv yp, stokes_matrix_raw apply h dms xv xp = Ok (yv, yp) /\
    forall Ev Ep, enumerates Ev (cells_box mv per) -> enumerates Ep (cells_box mp per) ->
      (forall n d, yv n d = Lsum (fun e => Lsum (hitsw mv per n d) (cA e)) Ev + Lsum (fun e => Lsum (hitsw mv per n d) (tagged true (off_c e))) Ep) /\
      (forall n d, yp n d = Lsum (fun e => Lsum (hitsw mp per n d) (tagged false (off_c e))) Ep).
  Proof.
    intros EM. unfold stokes_matrix_raw.
    destruct (on_all_ok (fun dm : dmda * dmda => let '(dv, dp) := dm in
        bind (apply dv (global_to_local dv xv) (fill0 dv)) (fun yv => B_and_BT_mult h dp (global_to_local dv xv) (global_to_local dp xp) (yv, fill0 dp)))
      (fun dm y => (lv_box (fst y) = g_ghost (fst dm) /\ forall q d, lv_val (fst y) q d = Lsum (hits q d) (local_contribs cA (fst dm) ++ tagged true (local_off dm))) /\
                   (lv_box (snd y) = g_ghost (snd dm) /\ forall q d, lv_val (snd y) q d = Lsum (hits q d) (tagged false (local_off dm)))) dms) as [ys [Ey Hy]].
    { intros [dv dp] Hin. pose proof (cA_ghost _ Hin) as G1. pose proof (off_ghost true _ Hin) as G2. pose proof (off_ghost false _ Hin) as G3. cbn [fst snd] in *.
      destruct (view_dims _ _ _ _ (view_p _ Hin) HL) as (_ & _ & Hgp). destruct (view_dims _ _ _ _ (view_v _ Hin) HLv) as (_ & _ & Hgv). cbn [fst snd] in *.
      assert (W : forall b D l, has_dim D b -> Forall (fun ct : contrib => in_grid_box b (fst (fst ct))) l -> Forall (fun ct : contrib => point_inside Z.ltb b (fst (fst ct)) = true) l).
      { intros b D l Hb. apply Forall_impl. intros ct. apply (inside_dim b _ D Hb). }
      destruct (runs1_ok (local_contribs cA dv) (fill0 dv)) as (y1 & R1 & R2 & R3 & R4); [apply (W _ _ _ Hgv G1)|].
      destruct (runs1_ok (tagged true (local_off (dv, dp))) y1) as (y1' & S1 & S2 & S3 & S4); [rewrite R2; apply (W _ _ _ Hgv G2)|].
      destruct (runs1_ok (tagged false (local_off (dv, dp))) (fill0 dp)) as (y2' & T1 & T2 & T3 & T4); [apply (W _ _ _ Hgp G3)|].
      destruct (runs2_ok (local_off (dv, dp)) y1 (fill0 dp)) as (z1 & z2 & Z1 & Z2 & Z3).
      { rewrite R2. apply (W _ _ _ Hgv G2). } { apply (W _ _ _ Hgp G3). }
      exists (y1', y2'). split.
      - rewrite HA by (apply in_map_iff; exists (dv, dp); auto). rewrite R1. cbn [bind]. unfold B_and_BT_mult. rewrite <- EM.
        rewrite (off_runs (dv, dp)) by auto. rewrite Z1. congruence.
      - cbn [fst snd]. split; (split; [rewrite ?S2, ?R2, ?T2; reflexivity|]).
        + intros q d. rewrite S4, R4, Lsum_app. simpl. unfold zeros. ring.
        + intros q d. rewrite T4. simpl. unfold zeros. ring. }
    rewrite Ey. cbn [bind]. eexists _, _. split; [reflexivity|]. intros Ev Ep HEv HEp.
    assert (HVv : Forall (fun a => view_ok mv per dof (fst a)) dms) by (rewrite Forall_forall; intros; apply view_v; auto).
    assert (HVp : Forall (fun a => view_ok mp per 1 (snd a)) dms) by (rewrite Forall_forall; intros; apply view_p; auto).
    assert (SUM : forall b f, Lsum (fun a => Lsum f (tagged b (local_off a))) dms = Lsum (fun e => Lsum f (tagged b (off_c e))) Ep).
    { intros b f. rewrite <- (elements_sum mp per 1 (map snd dms) HG (proj1 (proj2 HS)) f (fun e => tagged b (off_c e)) Ep HEp), Lsum_map.
      apply Lsum_ext. intros a _. unfold local_off, local_contribs. rewrite tagged_flat_map. reflexivity. }
    split; intros n d.
    - rewrite (l2g_gen mv per dof fst dms (fun dm => local_contribs cA (fst dm) ++ tagged true (local_off dm)) (map fst ys) HLv HVv).
      + transitivity (Lsum (fun a => Lsum (hitsw mv per n d) (local_contribs cA (fst a))) dms + Lsum (fun a => Lsum (hitsw mv per n d) (tagged true (local_off a))) dms).
        { rewrite <- Lsum_plus. apply Lsum_ext. intros a _. apply Lsum_app. }
        rewrite SUM. f_equal. rewrite <- (elements_sum mv per dof (map fst dms) mv_grid (proj1 HS) _ cA Ev HEv), Lsum_map. reflexivity.
      + intros a Ha. apply Forall_app. split; [apply cA_ghost, Ha|apply (off_ghost true), Ha].
      + apply Forall2_map_r. eapply Forall2_imp; [|exact Hy]. simpl; tauto.
    - rewrite (l2g_gen mp per 1 snd dms (fun dm => tagged false (local_off dm)) (map snd ys) HL HVp).
      + apply SUM.
      + intros a Ha. apply (off_ghost false), Ha.
      + apply Forall2_map_r. eapply Forall2_imp; [|exact Hy]. simpl; tauto.
  Qed.

  Lemma p_elem e : in_grid_box (cells_box mp per) e ->
    length (get_element e) = (2 ^ length mp)%nat /\ length (get_element_4Q1 e) = (3 ^ length mp)%nat /\
    (forall k, (k < 2 ^ length mp)%nat -> nd e k = corner e k) /\ (forall k, (k < 3 ^ length mp)%nat -> nv e k = corner3 e k).
  Proof.
    intros He. pose proof (cell_dim mp per HG e He) as Hl. pose proof (proj1 HG) as Hd. rewrite <- Hl in Hd |- *.
    repeat split.
    - apply get_element_length, Hd.
    - apply get_element_4Q1_length, Hd.
    - intros; apply get_element_corner; auto.
    - intros; apply get_element_4Q1_corner; auto.
  Qed.
  Lemma off_sum b e (f : contrib -> R) : in_grid_box (cells_box mp per) e ->
    Lsum f (tagged b (off_c e)) = Rsum (3 ^ length mp) (fun kv => Rsum (2 ^ length mp) (fun kp => Rsum dof (fun d =>
      f (if b : bool then (corner3 e kv, d, - (xp (wrap mp per (corner e kp)) 0%nat * M kp kv d)) else (corner e kp, 0%nat, xv (wrap mv per (corner3 e kv)) d * M kp kv d))))).
  Proof.
    intros He. destruct (p_elem e He) as (L1 & L2 & P1 & P2). unfold off_c. rewrite L1, L2.
    rewrite tagged_flat_map, Lsum_flat_map, Lsum_seq. apply Rsum_ext. intros kv Hkv.
    rewrite tagged_flat_map, Lsum_flat_map, Lsum_seq. apply Rsum_ext. intros kp Hkp.
    rewrite tagged_flat_map, Lsum_flat_map, Lsum_seq. apply Rsum_ext. intros d Hd.
    rewrite (P1 kp Hkp), (P2 kv Hkv). destruct b; unfold tagged; simpl; apply Lsum_single.
  Qed.

  Lemma stokes_weak h : M = getMatElemPressure h -> exists yv yp, stokes_matrix_raw apply h dms xv xp = Ok (yv, yp) /\
    forall Nv Np Ev Ep, enumerates Nv (nodes_box mv) -> enumerates Np (nodes_box mp) -> enumerates Ev (cells_box mv per) -> enumerates Ep (cells_box mp per) ->
      (forall v, inner Nv dof yv v = Lsum (fun e => Lsum (fun ct : contrib => snd ct * v (wrap mv per (fst (fst ct))) (snd (fst ct))) (cA e)) Ev - div_form mv mp per Ep dof M xp v) /\
      (forall q, inner Np 1 yp q = div_form mv mp per Ep dof M q xv).
  Proof.
    intros EM. destruct (stokes_strong h EM) as (yv & yp & Ey & Hy). exists yv, yp. split; [exact Ey|].
    intros Nv Np Ev Ep HNv HNp HEv HEp. destruct (Hy Ev Ep HEv HEp) as [Y1 Y2].
    pose proof (proj2 (proj2 HG)) as HF. pose proof (proj2 (proj2 mv_grid)) as HFv. split.
    - intros v.
      transitivity (inner Nv dof (fun n d => Lsum (fun e => Lsum (hitsw mv per n d) (cA e)) Ev) v +
                    inner Nv dof (fun n d => Lsum (fun e => Lsum (hitsw mv per n d) (tagged true (off_c e))) Ep) v).
      { unfold inner. rewrite <- Lsum_plus. apply Lsum_ext. intros n _. rewrite <- Rsum_plus. apply Rsum_ext. intros d _. rewrite Y1. ring. }
      rewrite (weak_gen mv per dof Nv Ev cA v (proj1 HNv)).
      2:{ intros e ct He Hct. pose proof (HcA e) as F. rewrite Forall_forall in F. destruct (F ct Hct). split; [|assumption].
          apply HNv. apply (wrap_in_nodes mv per e); auto. apply HEv, He. }
      rewrite (weak_gen mv per dof Nv Ep (fun e => tagged true (off_c e)) v (proj1 HNv)).
      2:{ intros e ct He Hct. apply tagged_in in Hct. destruct (off_in e _ Hct) as [O1 _]. destruct (O1 eq_refl). split; [|assumption].
          apply HNv. apply (wrap_in_nodes3 mp per e); auto. apply HEp, He. }
      unfold Rminus. f_equal. unfold div_form. 
      match goal with |- _ = - ?x => replace (- x) with ((-1) * x) by ring end. rewrite <- Lsum_scal.
      apply Lsum_ext. intros e He. apply HEp in He. rewrite off_sum by auto. rewrite Rsum_swap.
      do 3 (rewrite <- Rsum_scal; apply Rsum_ext; intros ? _). cbn [fst snd]. unfold gv, gv3. ring.
    - intros q. rewrite (inner_ext_pointwise Np 1 yp _ q Y2).
      rewrite (weak_gen mp per 1 Np Ep (fun e => tagged false (off_c e)) q (proj1 HNp)).
      2:{ intros e ct He Hct. apply tagged_in in Hct. destruct (off_in e _ Hct) as [_ O1]. destruct (O1 eq_refl) as [O2 O3]. simpl in O2, O3. rewrite O3. split; [|lia].
          apply HNp. apply (wrap_in_nodes mp per e); auto. apply HEp, He. }
      unfold div_form. apply Lsum_ext. intros e He. apply HEp in He. rewrite off_sum by auto. rewrite Rsum_swap.
      do 3 (apply Rsum_ext; intros ? _). cbn [fst snd]. unfold gv, gv3. ring.
  Qed.
End Stokes.
Close Scope R_scope.
