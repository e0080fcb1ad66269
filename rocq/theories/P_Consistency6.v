From Coq Require Import FunctionalExtensionality.
From Coquelicot Require Import Coquelicot.
From Verif Require Import Base M_Geometry S_Geometry P_Geometry M_Particle S_Particle P_Particle M_Quadrature S_Fem P_Energy P_Precond M_MatElem P_MatElem M_Mesh M_Operator S_Operator P_Mesh P_Operator P_Operator2 P_Operator3 P_Global P_Stokes M_Bc S_Bc P_Flux Prop_Flux P_Gather P_Exact M_ParticleOp S_ParticleOp S_Accuracy P_Accuracy S_Consistency S_Consistency2 P_Consistency P_Stencil P_Stencil4 P_Stencil6 P_Consistency2 P_Consistency5 Prop_Consistency.
Open Scope R_scope.
Notation samp D h n f := (fun k1 k2 => f (grid_point h (add n (sub (bits D k2) (bits D k1))))).
Lemma row_samples_t m per h dof M n c x (u : nat -> vec -> R) : length per = length m -> Forall (fun z => (1 <= z)%Z) m -> inside m per n -> (c < dof)%nat -> (forall d, (d < dof)%nat -> samples_near (u d) m per h x n d) ->
  tensor_form m per (E0 m per) dof M (S_Bc.unit_field n c) x
  = Rsum dof (fun d => Rsum (2 ^ length m) (fun k1 => Rsum (2 ^ length m) (fun k2 => M k1 k2 c d * u d (grid_point h (add n (sub (bits (length m) k2) (bits (length m) k1))))))).
Proof.
  intros HL HF HI Hc HX. unfold tensor_form.
  transitivity (Lsum (fun e => Rsum (2 ^ length m) (fun k1 => S_Bc.unit_field n c (wrap m per (corner e k1)) c * Rsum (2 ^ length m) (fun k2 => Rsum dof (fun d => M k1 k2 c d * gv m per x e k2 d)))) (E0 m per)).
  - apply Lsum_ext. intros e _. apply Rsum_ext. intros k1 _. rewrite <- Rsum_scal. apply Rsum_ext. intros k2 _. rewrite (Rsum_single dof c); auto.
    + rewrite <- Rsum_scal. apply Rsum_ext. intros d _. unfold gv at 1. ring.
    + intros d Hd Ne. rewrite (Rsum_ext _ _ (fun _ => 0)); [apply Rsum_zero|]. intros d2 _. unfold gv at 1. rewrite unit_other by auto. ring.
  - rewrite Lsum_Rsum. rewrite (Rsum_swap dof). apply Rsum_ext. intros k1 _. etransitivity; [apply (gather m per n c (fun k1 e => Rsum (2 ^ length m) (fun k2 => Rsum dof (fun d => M k1 k2 c d * gv m per x e k2 d))) k1); auto|]. cbn beta.
    rewrite (Rsum_swap dof). apply Rsum_ext. intros k2 _. apply Rsum_ext. intros d Hd. f_equal. destruct (bits_ok (length m) k1) as [_ L1]. destruct (bits_ok (length m) k2) as [_ L2]. assert (LN : length n = length m) by apply HI. unfold gv. rewrite corner_add, length_wrap; [|auto|rewrite length_sub; lia].
    rewrite wrap_add; [|auto|rewrite length_sub; lia|lia]. rewrite add_sub_add by lia. apply HX; auto; apply offset_ok.
Qed.
Lemma diag_err h m f n M c : steps_ok h m -> (length m = 2 \/ length m = 3)%nat -> length n = length m -> (c < length m)%nat -> smooth4 f h (grid_point h n) M ->
  Rabs (Rsum (2 ^ length m) (fun k1 => Rsum (2 ^ length m) (fun k2 => getMatElemStrainTensor h k1 k2 c c * f (grid_point h (add n (sub (bits (length m) k2) (bits (length m) k1)))))) / cell_volume h
    - (minus_laplacian f (length m) (grid_point h n) - second f c (grid_point h n))) <= laplacian_error h M + Rsum (length h) (fun i => co i h ^ 2 / (if Nat.eqb i c then 12 else 6) * M c i).
Proof.
  intros HS HD LN Hc SM. pose proof (lap_err h m f n M HS HD LN SM) as LE. pose proof (pos_co h m HS) as Hp. destruct HS as [Lh HP]. destruct HD as [E|E]; rewrite E in *.
  - destruct h as [|h0 [|h1 [|]]]; try discriminate Lh. destruct n as [|n0 [|n1 [|]]]; try discriminate LN.
    assert (P0 : 0 < h0) by (apply (Hp 0%nat); cbn; lia). assert (P1 : 0 < h1) by (apply (Hp 1%nat); cbn; lia).
    change (2 ^ 2)%nat with 4%nat in *. rewrite (strain2_diag h0 h1 c (fun o => f (grid_point [h0; h1] (add [n0; n1] o)))) by (auto; lra). set (h := [h0; h1]) in *. set (X := grid_point h [n0; n1]) in *.
    assert (WX : within 1 h X X) by (apply within_refl; auto).
    set (LAP := Rsum 4 _) in LE |- *. set (V := cell_volume h) in *. assert (EV : V = h0 * h1) by (unfold V, cell_volume, h; cbn [fold_right]; ring).
    assert (T : exists A, match c with O => AV6 (fun b => f (grid_point h (add [n0; n1] [1%Z; b])) - 2 * f (grid_point h (add [n0; n1] [0%Z; b])) + f (grid_point h (add [n0; n1] [(-1)%Z; b]))) / h0 ^ 2
       | _ => AV6 (fun a => f (grid_point h (add [n0; n1] [a; 1%Z])) - 2 * f (grid_point h (add [n0; n1] [a; 0%Z])) + f (grid_point h (add [n0; n1] [a; (-1)%Z]))) / h1 ^ 2 end = A /\
       Rabs (A - second f c X) <= Rsum (length h) (fun i => co i h ^ 2 / (if Nat.eqb i c then 12 else 6) * M c i)).
    { destruct c as [|[|c]]; [| |lia].
      - assert (T0 := term2 f h X M Hp eq_refl SM X 1 0 WX ltac:(cbn; lia) ltac:(cbn; lia) ltac:(lia) eq_refl eq_refl). eexists. split; [|eapply Rle_trans; [exact T0|apply Req_le; cbn [Rsum length h Nat.eqb]; ring]].
        unfold AV6, h. rewrite !grid_add2. change X with [IZR n0 * h0; IZR n1 * h1]. generalize (IZR n0 * h0) (IZR n1 * h1). intros x0 x1. normal. unfold Rdiv. ring.
      - assert (T0 := term2 f h X M Hp eq_refl SM X 0 1 WX ltac:(cbn; lia) ltac:(cbn; lia) ltac:(lia) eq_refl eq_refl). eexists. split; [|eapply Rle_trans; [exact T0|apply Req_le; cbn [Rsum length h Nat.eqb]; ring]].
        unfold AV6, h. rewrite !grid_add2. change X with [IZR n0 * h0; IZR n1 * h1]. generalize (IZR n0 * h0) (IZR n1 * h1). intros x0 x1. normal. unfold Rdiv. ring. }
    destruct T as (A & EA & BA). rewrite EA, <- EV. assert (V <> 0) by (rewrite EV; apply Rgt_not_eq, Rmult_lt_0_compat; lra).
    replace ((LAP - V * A) / V - (minus_laplacian f 2 X - second f c X)) with ((LAP / V - minus_laplacian f 2 X) - (A - second f c X)) by (field; auto).
    eapply Rle_trans; [apply Rabs_triang|]. rewrite Rabs_Ropp. apply Rplus_le_compat; assumption.
  - destruct h as [|h0 [|h1 [|h2 [|]]]]; try discriminate Lh. destruct n as [|n0 [|n1 [|n2 [|]]]]; try discriminate LN.
    assert (P0 : 0 < h0) by (apply (Hp 0%nat); cbn; lia). assert (P1 : 0 < h1) by (apply (Hp 1%nat); cbn; lia). assert (P2 : 0 < h2) by (apply (Hp 2%nat); cbn; lia).
    change (2 ^ 3)%nat with 8%nat in *. rewrite (strain3_diag h0 h1 h2 c (fun o => f (grid_point [h0; h1; h2] (add [n0; n1; n2] o)))) by (auto; lra). set (h := [h0; h1; h2]) in *. set (X := grid_point h [n0; n1; n2]) in *.
    assert (WX : within 1 h X X) by (apply within_refl; auto).
    set (LAP := Rsum 8 _) in LE |- *. set (V := cell_volume h) in *. assert (EV : V = h0 * h1 * h2) by (unfold V, cell_volume, h; cbn [fold_right]; ring).
    match goal with |- Rabs ((LAP - h0 * h1 * h2 * ?t) / V - _) <= _ => assert (T : exists A, t = A /\ Rabs (A - second f c X) <= Rsum (length h) (fun i => co i h ^ 2 / (if Nat.eqb i c then 12 else 6) * M c i)) end.
    { destruct c as [|[|[|c]]]; [| | |lia].
      - assert (T0 := term3 f h X M Hp eq_refl SM X 1 0 2 WX ltac:(cbn; lia) ltac:(cbn; lia) ltac:(cbn; lia) ltac:(lia) ltac:(lia) ltac:(lia) eq_refl eq_refl eq_refl). eexists. split; [|eapply Rle_trans; [exact T0|apply Req_le; cbn [Rsum length h Nat.eqb]; ring]].
        unfold AV6, h. rewrite !grid_add3. change X with [IZR n0 * h0; IZR n1 * h1; IZR n2 * h2]. generalize (IZR n0 * h0) (IZR n1 * h1) (IZR n2 * h2). intros x0 x1 x2. normal. unfold Rdiv. ring.
      - assert (T0 := term3 f h X M Hp eq_refl SM X 0 1 2 WX ltac:(cbn; lia) ltac:(cbn; lia) ltac:(cbn; lia) ltac:(lia) ltac:(lia) ltac:(lia) eq_refl eq_refl eq_refl). eexists. split; [|eapply Rle_trans; [exact T0|apply Req_le; cbn [Rsum length h Nat.eqb]; ring]].
        unfold AV6, h. rewrite !grid_add3. change X with [IZR n0 * h0; IZR n1 * h1; IZR n2 * h2]. generalize (IZR n0 * h0) (IZR n1 * h1) (IZR n2 * h2). intros x0 x1 x2. normal. unfold Rdiv. ring.
      - assert (T0 := term3 f h X M Hp eq_refl SM X 0 2 1 WX ltac:(cbn; lia) ltac:(cbn; lia) ltac:(cbn; lia) ltac:(lia) ltac:(lia) ltac:(lia) eq_refl eq_refl eq_refl). eexists. split; [|eapply Rle_trans; [exact T0|apply Req_le; cbn [Rsum length h Nat.eqb]; ring]].
        unfold AV6, h. rewrite !grid_add3. change X with [IZR n0 * h0; IZR n1 * h1; IZR n2 * h2]. generalize (IZR n0 * h0) (IZR n1 * h1) (IZR n2 * h2). intros x0 x1 x2. normal. unfold Rdiv. ring. }
    destruct T as (A & EA & BA). rewrite EA, <- EV. assert (V <> 0) by (rewrite EV; apply Rgt_not_eq; repeat apply Rmult_lt_0_compat; lra).
    replace ((LAP - V * A) / V - (minus_laplacian f 3 X - second f c X)) with ((LAP / V - minus_laplacian f 3 X) - (A - second f c X)) by (field; auto).
    eapply Rle_trans; [apply Rabs_triang|]. rewrite Rabs_Ropp. apply Rplus_le_compat; assumption.
Qed.
Lemma off_err h m f n N c d : steps_ok h m -> (length m = 2 \/ length m = 3)%nat -> length n = length m -> (c < length m)%nat -> (d < length m)%nat -> c <> d -> smooth_mixed f h (grid_point h n) d c N ->
  Rabs (Rsum (2 ^ length m) (fun k1 => Rsum (2 ^ length m) (fun k2 => getMatElemStrainTensor h k1 k2 c d * f (grid_point h (add n (sub (bits (length m) k2) (bits (length m) k1)))))) / cell_volume h
    - - first (first f d) c (grid_point h n)) <= Rsum (length h) (fun i => co i h ^ 2 / (if (Nat.eqb i d || Nat.eqb i c)%bool then 2 else 6) * N i).
Proof.
  intros HS HD LN Hc Hd Ne SM. pose proof (pos_co h m HS) as Hp. destruct HS as [Lh HP]. destruct HD as [E|E]; rewrite E in *.
  - destruct h as [|h0 [|h1 [|]]]; try discriminate Lh. destruct n as [|n0 [|n1 [|]]]; try discriminate LN.
    assert (P0 : 0 < h0) by (apply (Hp 0%nat); cbn; lia). assert (P1 : 0 < h1) by (apply (Hp 1%nat); cbn; lia).
    change (2 ^ 2)%nat with 4%nat in *. rewrite (strain2_off h0 h1 c d (fun o => f (grid_point [h0; h1] (add [n0; n1] o)))) by (auto; lra). set (h := [h0; h1]) in *. set (X := grid_point h [n0; n1]) in *.
    assert (WX : within 1 h X X) by (apply within_refl; auto).
    assert (T := cross_err f h X X d c N Hp SM WX ltac:(cbn; lia) ltac:(cbn; lia) ltac:(lia) eq_refl eq_refl).
    assert (EV : cell_volume h = h0 * h1) by (unfold cell_volume, h; cbn [fold_right]; ring). rewrite EV.
    match goal with |- Rabs (- (h0 * h1) * ?t / (h0 * h1) - - ?z) <= _ => assert (EQ : t = cross f X d c (co d h) (co c h) / (co d h * co c h)); [|rewrite EQ; match type of EQ with _ = ?A => replace (- (h0 * h1) * A / (h0 * h1) - - z) with (- (A - z)) by (field; split; try lra; unfold h, co; destruct c as [|[|c]], d as [|[|d]]; cbn [nth]; try (exfalso; lia); lra) end] end.
    + unfold X2, h. rewrite !grid_add2. change X with [IZR n0 * h0; IZR n1 * h1]. generalize (IZR n0 * h0) (IZR n1 * h1). intros x0 x1. destruct c as [|[|c]], d as [|[|d]]; try (exfalso; lia); cbv [cross]; normal; unfold Rminus; repeat rewrite ?Ropp_mult_distr_l_reverse, ?Rmult_1_l; unfold Rdiv; rewrite ?(Rmult_comm h1 h0); ring.
    + rewrite Rabs_Ropp. eapply Rle_trans; [exact T|]. apply Req_le. destruct c as [|[|c]], d as [|[|d]]; try (exfalso; lia); cbn [Rsum length h Nat.eqb orb]; ring.
  - destruct h as [|h0 [|h1 [|h2 [|]]]]; try discriminate Lh. destruct n as [|n0 [|n1 [|n2 [|]]]]; try discriminate LN.
    assert (P0 : 0 < h0) by (apply (Hp 0%nat); cbn; lia). assert (P1 : 0 < h1) by (apply (Hp 1%nat); cbn; lia). assert (P2 : 0 < h2) by (apply (Hp 2%nat); cbn; lia).
    change (2 ^ 3)%nat with 8%nat in *. rewrite (strain3_off h0 h1 h2 c d (fun o => f (grid_point [h0; h1; h2] (add [n0; n1; n2] o)))) by (auto; lra). set (h := [h0; h1; h2]) in *. set (X := grid_point h [n0; n1; n2]) in *.
    assert (WX : within 1 h X X) by (apply within_refl; auto).
    set (k := (3 - (c + d))%nat). assert (Hk : (k < length h)%nat) by (unfold k; change (length h) with 3%nat; lia).
    assert (T := cross_err3 f h X X d c k N Hp SM WX ltac:(cbn; lia) ltac:(cbn; lia) Hk ltac:(lia) ltac:(unfold k; lia) ltac:(unfold k; lia) eq_refl eq_refl eq_refl).
    assert (EV : cell_volume h = h0 * h1 * h2) by (unfold cell_volume, h; cbn [fold_right]; ring). rewrite EV.
    set (A := AV _) in T.
    match goal with |- Rabs (- (h0 * h1 * h2) * ?t / _ - - ?z) <= _ => assert (EQ : t = A); [|rewrite EQ; replace (- (h0 * h1 * h2) * A / (h0 * h1 * h2) - - z) with (- (A - z)) by (field; repeat split; lra)] end.
    + unfold A, k, X2, AV6, h. rewrite !grid_add3. change X with [IZR n0 * h0; IZR n1 * h1; IZR n2 * h2]. generalize (IZR n0 * h0) (IZR n1 * h1) (IZR n2 * h2). intros x0 x1 x2.
      destruct c as [|[|[|c]]], d as [|[|[|d]]]; try (exfalso; lia); cbn [Nat.add Nat.sub]; cbv [cross]; normal; unfold Rminus; repeat rewrite ?Ropp_mult_distr_l_reverse, ?Rmult_1_l; unfold Rdiv; rewrite ?(Rmult_comm h1 h0), ?(Rmult_comm h2 h0), ?(Rmult_comm h2 h1); ring.
    + rewrite Rabs_Ropp. eapply Rle_trans; [exact T|]. apply Req_le. unfold k. destruct c as [|[|[|c]]], d as [|[|[|d]]]; try (exfalso; lia); cbn [Nat.add Nat.sub Rsum length h Nat.eqb orb]; ring.
Qed.
