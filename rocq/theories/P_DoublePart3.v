(** Spreading: the sums. *)
From Coq Require Import Permutation.
From Coquelicot Require Import Coquelicot.
From Flocq Require Import Core BinarySingleNaN.
From Verif Require Import Base M_Geometry S_Geometry P_Geometry M_Particle S_Particle P_Particle S_Fem M_Quadrature M_MatElem P_MatElem P_Energy M_Mesh M_Operator S_Operator P_Mesh P_Operator P_Operator2 P_Precond M_Bc M_ParticleOp S_ParticleOp P_ParticleOp.
From Verif Require Import M_Double S_Double P_Double P_Double2 P_Double3 P_Double4 P_Double5 P_Double6 P_Double7 P_Double8.
From Verif Require Import M_DoubleOp S_DoubleOp P_DoubleOp P_DoubleOp2 P_DoubleOp3.
From Verif Require Import M_DoubleBc.
From Verif Require Import M_DoublePart S_DoublePart P_DoublePart P_DoublePart2.
Open Scope R_scope.

(** ** the weights *)

Lemma block_hits m per n d D nb (node : nat -> list Z) (F : nat -> nat -> R) : (d < D)%nat ->
  Lsum (hitsw m per n d) (flat_map (fun j => map (fun d' => (node j, d', F j d')) (seq 0 D)) (seq 0 nb)) = Rsum nb (fun j => if same_node (wrap m per (node j)) n then F j d else 0).
Proof.
  intros Hd. rewrite Lsum_flat_map, Lsum_seq. apply Rsum_ext. intros j _. rewrite Lsum_map. unfold hitsw. cbn [fst snd]. rewrite Lsum_seq. destruct (same_node _ n); cbn [andb].
  - rewrite <- (Rsum_pick D d (F j) Hd). apply Rsum_ext. intros k _. rewrite (Nat.eqb_sym d k). reflexivity.
  - apply Rsum_zero.
Qed.
Definition ptd (D : nat) (h : list double) (gm : double) (sp : list Z * list double) (g : list double) : list dcontrib :=
  flat_map (fun j => map (fun d => (nth j (get_element (fst sp)) [], d,
    (dmult (dmult (nth d g dzero) (nth j (dP1_integration (snd sp) h) dzero)) gm,
     dval (nth d g dzero) * shape (map dval h) (map dval (snd sp)) j * dval gm,
     (Rabs (dval (nth d g dzero)) * size_shape (map dval h) (map dval (snd sp)) j + / 2 ^ 700) * Rabs (dval gm)))) (seq 0 D)) (seq 0 (length (dP1_integration (snd sp) h))).
Lemma flat_single {A B} (f : A -> B) l : flat_map (fun a => [f a]) l = map f l.
Proof. induction l; simpl; congruence. Qed.
Lemma dSL_point_runs D h gm sp g y : dSL_point D h gm sp g y = runs dstep y (ptd D h gm sp g).
Proof.
  unfold dSL_point, ptd. apply for_runs. intros j y' _.
  rewrite (for_runs dstep D _ (fun d => [(nth j (get_element (fst sp)) [], d,
    (dmult (dmult (nth d g dzero) (nth j (dP1_integration (snd sp) h) dzero)) gm,
     dval (nth d g dzero) * shape (map dval h) (map dval (snd sp)) j * dval gm,
     (Rabs (dval (nth d g dzero)) * size_shape (map dval h) (map dval (snd sp)) j + / 2 ^ 700) * Rabs (dval gm)))])).
  - rewrite flat_single. reflexivity.
  - intros d y'' _. reflexivity.
Qed.
Definition DCS (D : nat) (h : list double) (gam : nat -> double) (surf : dmda -> list (list (list Z * list double))) (g : dmda -> list (list (list double))) (dm : dmda) : list dcontrib :=
  flat_map (fun i => flat_map (fun k => match nth_error (nth i (surf dm) []) k, nth_error (nth i (g dm) []) k with
      | Some sp, Some gk => ptd D h (gam i) sp gk | _, _ => [] end) (seq 0 (length (nth i (surf dm) [])))) (seq 0 (length (g dm))).
Lemma dSL_local_runs D h gam surf g dm : same_shape (surf dm) (g dm) -> dSL_local D h gam (surf dm) (g dm) dm = runs dstep (dfill0 dm) (DCS D h gam surf g dm).
Proof.
  intros H. unfold dSL_local, DCS. apply for_runs. intros i y _. apply for_runs. intros k y' Hk. pose proof (same_shape_nth _ _ i H) as HL.
  destruct (nth_error (nth i (surf dm) []) k) as [sp|] eqn:E1; [|apply nth_error_None in E1; lia].
  destruct (nth_error (nth i (g dm) []) k) as [gk|] eqn:E2; [|apply nth_error_None in E2; lia]. apply dSL_point_runs.
Qed.
Section Raw.
  Variables (D : nat) (m : list Z) (per : list bool) (h : list double) (dms : list dmda) (gam : nat -> double) (surf : dmda -> list (list (list Z * list double))) (g : dmda -> list (list (list double))).
  Hypothesis HG : grid_ok m per.
  Hypothesis HD : distributes m per D dms.
  Hypothesis HDm : length m = D.
  Hypothesis Hh : good_steps h.
  Hypothesis HLh : length h = D.
  Hypothesis HS : surface_ok D h dms surf g.
  Let fin := finite_forces dms gam g.
  Lemma nth_In' {A} (l : list (list A)) i a : In a (nth i l []) -> In (nth i l []) l.
  Proof. intros H. destruct (nth_in_or_default i l []) as [K|K]; [exact K|]. rewrite K in H. destruct H. Qed.
  Lemma point_data dm i sp gk : In dm dms -> In sp (nth i (surf dm) []) -> In gk (nth i (g dm) []) -> in_grid_box (get_DM_bounds dm true) (fst sp) /\ good_offset h (snd sp) /\ length gk = D /\ length (dP1_integration (snd sp) h) = (2 ^ D)%nat /\
    (forall j, (j < 2 ^ D)%nat -> nth j (get_element (fst sp)) [] = corner (fst sp) j /\ in_grid_box (g_ghost dm) (corner (fst sp) j)).
  Proof.
    intros Hin H1 H2. destruct (HS dm Hin) as (_ & S2 & S3). destruct (S3 _ sp (nth_In' _ _ _ H1) H1) as [He HO]. destruct (weights_ok h (snd sp) Hh HO) as [WL _]. rewrite HLh in WL.
    pose proof (cell_len D m per dms HG HD HDm dm (fst sp) Hin He) as Le. assert (D23' : (D = 2 \/ D = 3)%nat) by (rewrite <- HDm; apply HG).
    split; [exact He|]. split; [exact HO|]. split; [|split; [exact WL|]].
    - rewrite Forall_forall in S2. specialize (S2 _ (nth_In' _ _ _ H2)). unfold all_len in S2. rewrite Forall_forall in S2. apply S2, H2.
    - intros j Hj. split; [apply get_element_corner; rewrite Le; assumption|]. apply (corner_in_ghost D m per dms HG HD HDm dm (fst sp) j Hin He Hj).
  Qed.
  Lemma in_DCS dm ct : In ct (DCS D h gam surf g dm) -> exists i sp gk, (i < length (g dm))%nat /\ In sp (nth i (surf dm) []) /\ In gk (nth i (g dm) []) /\ In ct (ptd D h (gam i) sp gk).
  Proof.
    intros H. unfold DCS in H. apply in_flat_map in H as (i & Hi & H). apply in_flat_map in H as (k & _ & H). apply in_seq in Hi.
    destruct (nth_error (nth i (surf dm) []) k) as [sp|] eqn:E1; [|destruct H]. destruct (nth_error (nth i (g dm) []) k) as [gk|] eqn:E2; [|destruct H].
    exists i, sp, gk. split; [lia|]. split; [eapply nth_error_In; exact E1|]. split; [eapply nth_error_In; exact E2|exact H].
  Qed.
  Lemma DCS_ok dm : In dm dms -> Forall (cok 12 fin) (DCS D h gam surf g dm) /\ Forall (fun ct : dcontrib => in_grid_box (g_ghost dm) (fst (fst ct))) (DCS D h gam surf g dm).
  Proof.
    intros Hin. rewrite !Forall_forall. split; intros ct Hct; destruct (in_DCS dm ct Hct) as (i & sp & gk & Hi & H1 & H2 & H3); destruct (point_data dm i sp gk Hin H1 H2) as (He & HO & Lg & WL & HC);
      unfold ptd in H3; rewrite WL in H3; apply in_flat_map in H3 as (j & Hj & H3); apply in_map_iff in H3 as (d & <- & Hd); apply in_seq in Hj, Hd.
    - unfold cok. cbn [fst snd]. destruct (weights_ok h (snd sp) Hh HO) as [_ W]. rewrite HLh in W. destruct (W j ltac:(lia)) as [W1 W2]. apply approx_mult3; [exact W2|]. intros F. destruct (F dm i Hin Hi) as [F1 F2].
      rewrite Forall_forall in F2. specialize (F2 gk H2). rewrite Forall_forall in F2. destruct (F2 (nth d gk dzero)) as [G1 G2]; [apply nth_In; lia|]. repeat (split; [assumption|]).
      apply Rle_trans with (2 ^ 900 * 2 ^ 5); [|rewrite <- pow_add; apply pow_le_1; lia]. apply Rmult_le_compat; [apply Rabs_pos|apply Rlt_le, size_pos|exact G2|apply size_bound; assumption].
    - cbn [fst]. destruct (HC j ltac:(lia)) as [-> K]. exact K.
  Qed.
  (** the sums over the contributions *)
  Lemma DCS_sum (fc : dcontrib -> contrib) (P : list Z * vec * vec * R -> nat -> R) n d : (d < D)%nat ->
    (forall dm i sp gk, In dm dms -> In sp (nth i (surf dm) []) -> In gk (nth i (g dm) []) ->
      Lsum (fun ct => hitsw m per n d (fc ct)) (ptd D h (gam i) sp gk) = Rsum (2 ^ D) (fun k => if same_node (wrap m per (corner (fst sp) k)) n then P (fst sp, map dval (snd sp), map dval gk, dval (gam i)) k else 0)) ->
    Lsum (fun dm => Lsum (fun ct => hitsw m per n d (fc ct)) (DCS D h gam surf g dm)) dms =
    Lsum (fun p => Rsum (2 ^ D) (fun k => if same_node (wrap m per (corner (fst (fst (fst p))) k)) n then P p k else 0)) (all_points dms gam surf g).
  Proof.
    intros Hd HP. unfold all_points. rewrite Lsum_flat_map. apply Lsum_ext. intros dm Hin. unfold DCS. rewrite !Lsum_flat_map. apply Lsum_ext. intros i Hi. rewrite Lsum_flat_map, Lsum_map.
    destruct (HS dm Hin) as (S1 & _). pose proof (same_shape_nth _ _ i S1) as HL.
    etransitivity; [|apply (Lsum_match (fun (sp : list Z * list double) (gk : list double) => Rsum (2 ^ D) (fun k => if same_node (wrap m per (corner (fst sp) k)) n then P (fst sp, map dval (snd sp), map dval gk, dval (gam i)) k else 0)) (nth i (surf dm) []) (nth i (g dm) []) HL)].
    apply Lsum_ext. intros k _. destruct (nth_error (nth i (surf dm) []) k) as [sp|] eqn:E1; [|reflexivity]. destruct (nth_error (nth i (g dm) []) k) as [gk|] eqn:E2; [|reflexivity].
    apply (HP dm); [exact Hin|eapply nth_error_In; exact E1|eapply nth_error_In; exact E2].
  Qed.
  Lemma ptd_sum (fc : dcontrib -> contrib) (F : nat -> nat -> R) dm i sp gk n d : In dm dms -> In sp (nth i (surf dm) []) -> In gk (nth i (g dm) []) -> (d < D)%nat ->
    (forall j d', fc (nth j (get_element (fst sp)) [], d',
      (dmult (dmult (nth d' gk dzero) (nth j (dP1_integration (snd sp) h) dzero)) (gam i),
     dval (nth d' gk dzero) * shape (map dval h) (map dval (snd sp)) j * dval (gam i),
     (Rabs (dval (nth d' gk dzero)) * size_shape (map dval h) (map dval (snd sp)) j + / 2 ^ 700) * Rabs (dval (gam i)))) = (nth j (get_element (fst sp)) [], d', F j d')) ->
    Lsum (fun ct => hitsw m per n d (fc ct)) (ptd D h (gam i) sp gk) = Rsum (2 ^ D) (fun k => if same_node (wrap m per (corner (fst sp) k)) n then F k d else 0).
  Proof.
    intros Hin H1 H2 Hd Hfc. destruct (point_data dm i sp gk Hin H1 H2) as (_ & _ & _ & WL & HC).
    rewrite <- (Lsum_map (hitsw m per n d) fc). unfold ptd. rewrite flat_map_concat_map, concat_map, map_map, <- flat_map_concat_map, WL.
    etransitivity; [|etransitivity; [apply (block_hits m per n d D (2 ^ D) (fun j => nth j (get_element (fst sp)) []) F Hd)|]].
    - f_equal. apply flat_map_ext. intros j. rewrite map_map. apply map_ext. intros d'. apply Hfc.
    - apply Rsum_ext. intros j Hj. destruct (HC j Hj) as [-> _]. reflexivity.
  Qed.
  Lemma dval_nth d (gk : list double) : dval (nth d gk dzero) = co d (map dval gk).
  Proof. unfold co. change 0 with (dval dzero) at 1. symmetry. apply map_nth. Qed.
  Lemma raw_ok : (exists Y, dSL_to_Rhs_raw D h gam surf g dms Y) /\ forall Y, dSL_to_Rhs_raw D h gam surf g dms Y -> forall n d, (d < D)%nat ->
    approx 12 fin (Y n d) (spread m per (map dval h) (all_points dms gam surf g) n d) (spread_size m per (map dval h) (all_points dms gam surf g) n d) (spread_terms m per (all_points dms gam surf g) n).
  Proof.
    destruct (global_sum 12 fin ltac:(lia) m per D dms HG HD (fun dm => dSL_local D h gam (surf dm) (g dm) dm) (DCS D h gam surf g)) as (ys & Ey & A).
    - intros dm Hin. apply dSL_local_runs. apply HS, Hin.
    - intros dm Hin. apply DCS_ok, Hin.
    - split.
      + exists (fun n d => fold_left dplus (l2g_entries dms ys n d) dzero). exists ys. split; [exact Ey|]. intros n d. unfold dlocal_to_global. generalize (l2g_entries dms ys n d). intros l. clear.
        assert (X : forall l acc l0, summed l0 acc -> summed (l0 ++ l) (fold_left dplus l acc)).
        { clear l. induction l as [|a l' IH]; intros acc l0 H; cbn [fold_left]; [rewrite app_nil_r; exact H|]. replace (l0 ++ a :: l') with ((l0 ++ [a]) ++ l') by (rewrite <- app_assoc; reflexivity). apply IH. apply summed_add; [exact H|apply summed_one]. }
        apply (X l dzero [dzero]). apply summed_one.
      + intros Y (ys' & Ey' & HY) n d Hd. assert (ys' = ys). { assert (Ok ys' = Ok ys) as E by (etransitivity; [symmetry; exact Ey'|exact Ey]). injection E. auto. } subst ys'. specialize (A n d (Y n d) (HY n d)).
        rewrite (DCS_sum cr (fun p k => co d (snd (fst p)) * shape (map dval h) (snd (fst (fst p))) k * snd p) n d Hd) in A.
        2:{ intros dm i sp gk Hin H1 H2. rewrite (ptd_sum cr (fun j d' => dval (nth d' gk dzero) * shape (map dval h) (map dval (snd sp)) j * dval (gam i)) dm i sp gk n d Hin H1 H2 Hd) by reflexivity. cbn [fst snd]. rewrite dval_nth. reflexivity. }
        rewrite (DCS_sum ca (fun p k => (Rabs (co d (snd (fst p))) * size_shape (map dval h) (snd (fst (fst p))) k + / 2 ^ 700) * Rabs (snd p)) n d Hd) in A.
        2:{ intros dm i sp gk Hin H1 H2. rewrite (ptd_sum ca (fun j d' => (Rabs (dval (nth d' gk dzero)) * size_shape (map dval h) (map dval (snd sp)) j + / 2 ^ 700) * Rabs (dval (gam i))) dm i sp gk n d Hin H1 H2 Hd) by reflexivity. cbn [fst snd]. rewrite dval_nth. reflexivity. }
        rewrite (DCS_sum ck (fun p k => 1) n d Hd) in A.
        2:{ intros dm i sp gk Hin H1 H2. rewrite (ptd_sum ck (fun j d' => 1) dm i sp gk n d Hin H1 H2 Hd) by reflexivity. reflexivity. }
        unfold spread, spread_size, spread_terms. rewrite HDm. clear - A.
        repeat match type of A with approx _ _ _ ?a ?b ?c => match goal with |- approx _ _ _ ?a' ?b' ?c' => replace a' with a by (apply Lsum_ext; intros [[[e x] gg] ga] _; reflexivity); replace b' with b by (apply Lsum_ext; intros [[[e x] gg] ga] _; reflexivity); replace c' with c by (apply Lsum_ext; intros [[[e x] gg] ga] _; reflexivity) end end.
        exact A.
  Qed.
End Raw.
Close Scope R_scope.
