(** Rows of the gradient and of the divergence. *)
From Coq Require Import FunctionalExtensionality.
From Coquelicot Require Import Coquelicot.
From Verif Require Import Base M_Geometry S_Geometry P_Geometry M_Particle S_Particle P_Particle M_Quadrature S_Fem P_Energy P_Precond M_MatElem P_MatElem M_Mesh M_Operator S_Operator P_Mesh P_Operator P_Operator2 P_Operator3 P_Global P_Stokes M_Bc S_Bc P_Flux Prop_Flux P_Gather P_Exact M_ParticleOp S_ParticleOp S_Accuracy P_Accuracy S_Consistency P_Consistency P_Stencil P_Stencil5 P_Consistency2 P_Consistency3.
Open Scope R_scope.
Lemma even_half n d b : Z.even (n - d) = true -> (2 * ((n - d) / 2 + b) = n + (2 * b - d))%Z.
Proof. intros E. apply Z.even_spec in E as [k E]. rewrite E, (Z.mul_comm 2 k), Z.div_mul by lia. lia. Qed.
Lemma doubled_half n : forall d b, length d = length n -> length b = length n -> par_ok n d = true -> map (Z.mul 2) (add (half n d) b) = add n (sub (map (Z.mul 2) b) d).
Proof.
  induction n as [|x n IH]; intros [|y d] [|z b] L1 L2 P; cbn [length] in *; try lia; [reflexivity|]. unfold par_ok, half, add, sub in *. cbn [zip_with map forallb] in *. apply andb_true_iff in P as [P1 P2]. f_equal; [apply even_half, P1|apply IH; auto; lia].
Qed.
Lemma half_near n : forall d b, length d = length n -> length b = length n -> Forall (fun a => (0 <= a <= 2)%Z) d -> Forall (fun a => (0 <= a <= 1)%Z) b -> par_ok n d = true -> Forall2 (fun a b => (-2 <= 2 * a - b <= 2)%Z) (add (half n d) b) n.
Proof.
  induction n as [|x n IH]; intros [|y d] [|z b] L1 L2 F1 F2 P; cbn [length] in *; try lia; [constructor|]. inversion F1; subst. inversion F2; subst. unfold par_ok, half, add, sub in *. cbn [zip_with map forallb] in *. apply andb_true_iff in P as [P1 P2]. constructor; [|apply IH; auto; lia]. pose proof (even_half x y z P1). lia.
Qed.
Lemma row_gradient m h per dof M n c q p : length per = length m -> Forall (fun z => (1 <= z)%Z) m -> inside (refined_size m per) per n -> (c < dof)%nat -> pressure_near p m per h q n ->
  div_form (refined_size m per) m per (E0 m per) dof M q (S_Bc.unit_field n c)
  = Rsum (3 ^ length m) (fun kv => if par_ok n (digits (length m) kv) then Rsum (2 ^ length m) (fun kp => M kp kv c * p (grid_point h (add n (sub (map (Z.mul 2) (bits (length m) kp)) (digits (length m) kv))))) else 0).
Proof.
  intros HL HF HI Hc HX. unfold div_form. assert (LN : length n = length m) by (destruct HI as [L _]; rewrite L; unfold refined_size; rewrite length_zip_with; lia).
  transitivity (Lsum (fun e => Rsum (3 ^ length m) (fun kv => S_Bc.unit_field n c (wrap (refined_size m per) per (corner3 e kv)) c * Rsum (2 ^ length m) (fun kp => M kp kv c * gv m per q e kp 0%nat))) (E0 m per)).
  - apply Lsum_ext. intros e _. rewrite Rsum_swap. apply Rsum_ext. intros kv _. rewrite <- Rsum_scal. apply Rsum_ext. intros kp _. rewrite (Rsum_single dof c); auto.
    + unfold gv3. ring.
    + intros d Hd Ne. unfold gv3. rewrite unit_other by auto. ring.
  - rewrite Lsum_Rsum. apply Rsum_ext. intros kv _. rewrite (gather3 m per n c (fun e => Rsum (2 ^ length m) (fun kp => M kp kv c * gv m per q e kp 0%nat)) kv) by auto.
    destruct (par_ok n (digits (length m) kv)) eqn:P; [|reflexivity]. apply Rsum_ext. intros kp _. f_equal. destruct (digits_ok (length m) kv) as [FD LD]. destruct (bits_ok (length m) kp) as [FB LB].
    assert (LH : length (half n (digits (length m) kv)) = length m) by (unfold half; rewrite map_length, length_sub; lia).
    unfold gv. rewrite corner_add, length_wrap by auto. rewrite wrap_add by auto. rewrite HX; [f_equal; f_equal; apply doubled_half; auto; lia|rewrite length_add; lia|apply half_near; auto; lia].
Qed.
Lemma wrap_double m : forall per p b, length per = length m -> length p = length m -> length b = length m ->
  wrap (refined_size m per) per (add (map (Z.mul 2) (wrap m per p)) b) = wrap (refined_size m per) per (add (map (Z.mul 2) p) b).
Proof.
  induction m as [|z m IH]; intros [|q per] [|a p] [|b bs] L1 L2 L3; cbn [length] in *; try lia; [reflexivity|]. change (refined_size (z :: m) (q :: per)) with (rsz z q :: refined_size m per). unfold add in *. cbn [wrap map zip_with]. f_equal; [|apply IH; lia]. destruct q; [|reflexivity]. unfold rsz.
  destruct (Z.eq_dec z 0) as [->|Nz]; [cbn [Z.mul]; rewrite !Zmod_0_r; reflexivity|]. rewrite (Z.mod_eq a z) by exact Nz. replace (2 * (a - z * (a / z)) + b)%Z with (2 * a + b + (- (a / z)) * (2 * z))%Z by ring. apply Z.mod_add. lia.
Qed.
Lemma double_sub n : forall a b, length a = length n -> length b = length n -> add (map (Z.mul 2) (sub n a)) b = add (map (Z.mul 2) n) (sub b (map (Z.mul 2) a)).
Proof. induction n as [|x n IH]; intros [|y a] [|z b] L1 L2; cbn [length] in *; try lia; [reflexivity|]. unfold add, sub in *. cbn [map zip_with]. f_equal; [lia|apply IH; lia]. Qed.
Lemma offset3_ok D kp kv : length (sub (digits D kv) (map (Z.mul 2) (bits D kp))) = D /\ Forall (fun a => (-2 <= a <= 2)%Z) (sub (digits D kv) (map (Z.mul 2) (bits D kp))).
Proof.
  destruct (bits_ok D kp) as [F1 L1]. destruct (digits_ok D kv) as [F2 L2]. split; [rewrite length_sub; rewrite ?map_length; lia|]. revert F1 F2 L1 L2. generalize (bits D kp) (digits D kv). clear. intros a b F1. revert b D. induction F1 as [|x a Hx F1 IH]; intros [|y b] D F2 L1 L2; cbn [length] in *; subst; try lia; unfold sub; cbn [map zip_with]; constructor; inversion F2; subst; [lia|]. eapply IH; auto.
Qed.
Lemma row_divergence m h per M n x u : length per = length m -> Forall (fun z => (1 <= z)%Z) m -> inside m per n -> velocity_near u m per h x n ->
  div_form (refined_size m per) m per (E0 m per) (length m) M (S_Bc.unit_field n 0) x
  = Rsum (2 ^ length m) (fun kp => Rsum (3 ^ length m) (fun kv => Rsum (length m) (fun d => M kp kv d * u d (grid_point h (add (map (Z.mul 2) n) (sub (digits (length m) kv) (map (Z.mul 2) (bits (length m) kp)))))))).
Proof.
  intros HL HF HI HX. unfold div_form. assert (LN : length n = length m) by apply HI.
  transitivity (Lsum (fun e => Rsum (2 ^ length m) (fun kp => S_Bc.unit_field n 0 (wrap m per (corner e kp)) 0%nat * Rsum (3 ^ length m) (fun kv => Rsum (length m) (fun d => M kp kv d * gv3 (refined_size m per) per x e kv d)))) (E0 m per)).
  - apply Lsum_ext. intros e _. apply Rsum_ext. intros kp _. rewrite <- Rsum_scal. apply Rsum_ext. intros kv _. rewrite <- Rsum_scal. apply Rsum_ext. intros d _. unfold gv. ring.
  - rewrite Lsum_Rsum. apply Rsum_ext. intros kp _. etransitivity; [apply (gather m per n 0%nat (fun kp e => Rsum (3 ^ length m) (fun kv => Rsum (length m) (fun d => M kp kv d * gv3 (refined_size m per) per x e kv d))) kp); auto|]. cbn beta.
    apply Rsum_ext. intros kv _. apply Rsum_ext. intros d Hd. f_equal. destruct (bits_ok (length m) kp) as [_ LB]. destruct (digits_ok (length m) kv) as [_ LD]. unfold gv3. rewrite corner3_add, length_wrap; [|auto|rewrite length_sub; lia].
    rewrite wrap_double; [|auto|rewrite length_sub; lia|lia]. rewrite double_sub by lia. apply HX; [apply offset3_ok|apply offset3_ok|exact Hd].
Qed.
(** ** errors *)
Lemma slope_unfold V f h Y j : slope f h V Y j = V (fun a => f (moved Y j (co j Y + IZR a * co j h))) / co j h. Proof. reflexivity. Qed.
Lemma CV_scal e g k : CV e (fun b => g b / k) = CV e g / k.
Proof. unfold CV, Rdiv. destruct e; ring. Qed.
Lemma FV_scal g k : FV (fun b => g b / k) = FV g / k.
Proof. unfold FV, Rdiv. ring. Qed.
Lemma grad_err h m f n N c : steps_ok h m -> (length m = 2 \/ length m = 3)%nat -> length n = length m -> (c < length m)%nat -> smooth3 f h (grid_point h n) N ->
  Rabs (Rsum (3 ^ length m) (fun kv => if par_ok n (digits (length m) kv) then Rsum (2 ^ length m) (fun kp => getMatElemPressure h kp kv c * f (grid_point h (add n (sub (map (Z.mul 2) (bits (length m) kp)) (digits (length m) kv))))) else 0) / cell_volume h
    + first f c (grid_point h n)) <= gradient_error h N c.
Proof.
  intros HS HD LN Hc SM. pose proof (pos_co h m HS) as Hp. destruct HS as [Lh HP]. destruct HD as [E|E]; rewrite E in *.
  - destruct h as [|h0 [|h1 [|]]]; try discriminate Lh. destruct n as [|n0 [|n1 [|]]]; try discriminate LN.
    assert (P0 : 0 < h0) by (apply (Hp 0%nat); cbn; lia). assert (P1 : 0 < h1) by (apply (Hp 1%nat); cbn; lia). set (h := [h0; h1]) in *. set (X := grid_point h [n0; n1]) in *.
    assert (WX : within 2 h X X) by (apply within2_refl; auto).
    change (2 ^ 2)%nat with 4%nat. change (3 ^ 2)%nat with 9%nat. unfold h at 1. rewrite (grad2_all h0 h1 c (fun o => f (grid_point h (add [n0; n1] o)))) by (auto; lra). cbv beta.
    assert (G2 : forall e0 e1 j i (Ne : i <> j) (Hi : (i < 2)%nat) (Hj : (j < 2)%nat), Rabs (CV e1 (fun b => DV e0 (fun a => f (moved (moved X i (co i X + IZR b * co i h)) j (co j (moved X i (co i X + IZR b * co i h)) + IZR a * co j h)))) / co j h - first f j X) <= 2 / 3 * co j h ^ 2 * N j j + 1 / 2 * co i h ^ 2 * N j i).
    { intros e0 e1 j i Ne Hi Hj. pose proof (slope2 f h X N (DV e0) (2 / 3) Hp SM (DV_differs e0) (CV e1) (1 / 2) (CV_averages e1) X i j WX Hi Hj Ne eq_refl eq_refl) as T. unfold slope in T. rewrite CV_scal in T. exact T. }
    destruct c as [|[|c]]; [| |lia].
    + specialize (G2 (Z.even n0) (Z.even n1) 0%nat 1%nat ltac:(lia) ltac:(lia) ltac:(lia)). set (A := CV _ _) in G2.
      assert (EA : CV (Z.even n1) (fun b => DV (Z.even n0) (fun a => f (grid_point h (add [n0; n1] [a; b])))) = A) by (unfold A, h, CV, DV; rewrite !(grid_add2 f h0 h1 n0 n1); reflexivity). rewrite EA.
      replace (- (h0 * h1) * (A / h0) / cell_volume h + first f 0 X) with (- (A / co 0 h - first f 0 X)) by (unfold cell_volume, h, co; cbn [fold_right nth]; field; lra). rewrite Rabs_Ropp. unfold gradient_error. change (length h) with 2%nat. cbn [Rsum Nat.eqb]. lra.
    + specialize (G2 (Z.even n1) (Z.even n0) 1%nat 0%nat ltac:(lia) ltac:(lia) ltac:(lia)). set (A := CV _ _) in G2.
      assert (EA : CV (Z.even n0) (fun a => DV (Z.even n1) (fun b => f (grid_point h (add [n0; n1] [a; b])))) = A) by (unfold A, h, CV, DV; rewrite !(grid_add2 f h0 h1 n0 n1); reflexivity). rewrite EA.
      replace (- (h0 * h1) * (A / h1) / cell_volume h + first f 1 X) with (- (A / co 1 h - first f 1 X)) by (unfold cell_volume, h, co; cbn [fold_right nth]; field; lra). rewrite Rabs_Ropp. unfold gradient_error. change (length h) with 2%nat. cbn [Rsum Nat.eqb]. lra.
  - destruct h as [|h0 [|h1 [|h2 [|]]]]; try discriminate Lh. destruct n as [|n0 [|n1 [|n2 [|]]]]; try discriminate LN.
    assert (P0 : 0 < h0) by (apply (Hp 0%nat); cbn; lia). assert (P1 : 0 < h1) by (apply (Hp 1%nat); cbn; lia). assert (P2 : 0 < h2) by (apply (Hp 2%nat); cbn; lia). set (h := [h0; h1; h2]) in *. set (X := grid_point h [n0; n1; n2]) in *.
    assert (WX : within 2 h X X) by (apply within2_refl; auto).
    change (2 ^ 3)%nat with 8%nat. change (3 ^ 3)%nat with 27%nat. unfold h at 1. rewrite (grad3_all h0 h1 h2 c (fun o => f (grid_point h (add [n0; n1; n2] o)))) by (auto; lra). cbv beta.
    assert (G3 : forall e0 e1 e2 j i k (N1 : i <> j) (N2 : k <> j) (N3 : k <> i) (Hi : (i < 3)%nat) (Hj : (j < 3)%nat) (Hk : (k < 3)%nat), Rabs (CV e2 (fun d => CV e1 (fun b => DV e0 (fun a => f (moved (moved (moved X k (co k X + IZR d * co k h)) i (co i X + IZR b * co i h)) j (co j (moved (moved X k (co k X + IZR d * co k h)) i (co i X + IZR b * co i h)) + IZR a * co j h))))) / co j h - first f j X) <= 2 / 3 * co j h ^ 2 * N j j + 1 / 2 * co i h ^ 2 * N j i + 1 / 2 * co k h ^ 2 * N j k).
    { intros e0 e1 e2 j i k N1 N2 N3 Hi Hj Hk. pose proof (slope3 f h X N (DV e0) (2 / 3) Hp SM (DV_differs e0) (CV e1) (1 / 2) (CV_averages e1) (CV e2) (1 / 2) (CV_averages e2) X i j k WX Hi Hj Hk N1 N2 N3 eq_refl eq_refl eq_refl) as T. unfold slope in T.
      rewrite <- CV_scal. replace (fun b : Z => CV e1 (fun b0 => DV e0 (fun a => f (moved (moved (moved X k (co k X + IZR b * co k h)) i (co i X + IZR b0 * co i h)) j (co j (moved (moved X k (co k X + IZR b * co k h)) i (co i X + IZR b0 * co i h)) + IZR a * co j h)))) / co j h)
        with (fun b : Z => CV e1 (fun b0 => DV e0 (fun a => f (moved (moved (moved X k (co k X + IZR b * co k h)) i (co i X + IZR b0 * co i h)) j (co j (moved (moved X k (co k X + IZR b * co k h)) i (co i X + IZR b0 * co i h)) + IZR a * co j h))) / co j h)) by (apply functional_extensionality; intros b; apply CV_scal).
      apply T. intros Y HY EY. apply (average1 f h X N Hp SM (CV e2) (1 / 2) (CV_averages e2) Y k j); auto. }
    destruct c as [|[|[|c]]]; [| | |lia].
    + specialize (G3 (Z.even n0) (Z.even n1) (Z.even n2) 0%nat 1%nat 2%nat ltac:(lia) ltac:(lia) ltac:(lia) ltac:(lia) ltac:(lia) ltac:(lia)). set (A := CV _ _) in G3.
      match goal with |- Rabs (_ * (?B / _) / _ + _) <= _ => assert (EA : B = A) by (unfold A, h; apply (f_equal (CV _)); apply functional_extensionality; intros ?; apply (f_equal (CV _)); apply functional_extensionality; intros ?; apply (f_equal (DV _)); apply functional_extensionality; intros ?; apply grid_add3) end. rewrite EA.
      replace (- (h0 * h1 * h2) * (A / h0) / cell_volume h + first f 0 X) with (- (A / co 0 h - first f 0 X)) by (unfold cell_volume, h, co; cbn [fold_right nth]; field; lra). rewrite Rabs_Ropp. unfold gradient_error. change (length h) with 3%nat. cbn [Rsum Nat.eqb]. lra.
    + specialize (G3 (Z.even n1) (Z.even n0) (Z.even n2) 1%nat 0%nat 2%nat ltac:(lia) ltac:(lia) ltac:(lia) ltac:(lia) ltac:(lia) ltac:(lia)). set (A := CV _ _) in G3.
      match goal with |- Rabs (_ * (?B / _) / _ + _) <= _ => assert (EA : B = A) by (unfold A, h; apply (f_equal (CV _)); apply functional_extensionality; intros ?; apply (f_equal (CV _)); apply functional_extensionality; intros ?; apply (f_equal (DV _)); apply functional_extensionality; intros ?; apply grid_add3) end. rewrite EA.
      replace (- (h0 * h1 * h2) * (A / h1) / cell_volume h + first f 1 X) with (- (A / co 1 h - first f 1 X)) by (unfold cell_volume, h, co; cbn [fold_right nth]; field; lra). rewrite Rabs_Ropp. unfold gradient_error. change (length h) with 3%nat. cbn [Rsum Nat.eqb]. lra.
    + specialize (G3 (Z.even n2) (Z.even n0) (Z.even n1) 2%nat 0%nat 1%nat ltac:(lia) ltac:(lia) ltac:(lia) ltac:(lia) ltac:(lia) ltac:(lia)). set (A := CV _ _) in G3.
      match goal with |- Rabs (_ * (?B / _) / _ + _) <= _ => assert (EA : B = A) by (unfold A, h; apply (f_equal (CV _)); apply functional_extensionality; intros ?; apply (f_equal (CV _)); apply functional_extensionality; intros ?; apply (f_equal (DV _)); apply functional_extensionality; intros ?; apply grid_add3) end. rewrite EA.
      replace (- (h0 * h1 * h2) * (A / h2) / cell_volume h + first f 2 X) with (- (A / co 2 h - first f 2 X)) by (unfold cell_volume, h, co; cbn [fold_right nth]; field; lra). rewrite Rabs_Ropp. unfold gradient_error. change (length h) with 3%nat. cbn [Rsum Nat.eqb]. lra.
Qed.
Lemma grid_double h m n : steps_ok h m -> grid_point h (map (Z.mul 2) n) = grid_point (map (Rmult 2) h) n.
Proof. intros _. revert n. induction h as [|s h IH]; intros [|x n]; try reflexivity. unfold grid_point in *. cbn [map zip_with]. f_equal; [rewrite mult_IZR; ring|apply IH]. Qed.
Lemma div_err h m (u : nat -> vec -> R) n N : steps_ok h m -> (length m = 2 \/ length m = 3)%nat -> length n = length m -> (forall c, (c < length m)%nat -> smooth3 (u c) h (grid_point h n) (N c)) ->
  Rabs (Rsum (2 ^ length m) (fun kp => Rsum (3 ^ length m) (fun kv => Rsum (length m) (fun d => getMatElemPressure h kp kv d * u d (grid_point h (add n (sub (digits (length m) kv) (map (Z.mul 2) (bits (length m) kp)))))))) / cell_volume (map (Rmult 2) h)
    - Rsum (length m) (fun c => first (u c) c (grid_point h n))) <= divergence_error h N.
Proof.
  intros HS HD LN SM. pose proof (pos_co h m HS) as Hp. destruct HS as [Lh HP]. destruct HD as [E|E]; rewrite E in *.
  - destruct h as [|h0 [|h1 [|]]]; try discriminate Lh. destruct n as [|n0 [|n1 [|]]]; try discriminate LN.
    assert (P0 : 0 < h0) by (apply (Hp 0%nat); cbn; lia). assert (P1 : 0 < h1) by (apply (Hp 1%nat); cbn; lia). set (h := [h0; h1]) in *. set (X := grid_point h [n0; n1]) in *.
    assert (WX : within 2 h X X) by (apply within2_refl; auto).
    change (2 ^ 2)%nat with 4%nat. change (3 ^ 2)%nat with 9%nat. unfold h at 1. rewrite (div2_all h0 h1 (fun d o => u d (grid_point h (add [n0; n1] o)))) by lra. cbv beta.
    assert (G2 : forall j i (Ne : i <> j) (Hi : (i < 2)%nat) (Hj : (j < 2)%nat), Rabs (FV (fun b => EV (fun a => u j (moved (moved X i (co i X + IZR b * co i h)) j (co j (moved X i (co i X + IZR b * co i h)) + IZR a * co j h)))) / co j h - first (u j) j X) <= 5 / 12 * co j h ^ 2 * N j j j + 5 / 12 * co i h ^ 2 * N j j i).
    { intros j i Ne Hi Hj. pose proof (slope2 (u j) h X (N j) EV (5 / 12) Hp (SM j Hj) EV_differs FV (5 / 12) FV_averages X i j WX Hi Hj Ne eq_refl eq_refl) as T. unfold slope in T. rewrite FV_scal in T. exact T. }
    pose proof (G2 0%nat 1%nat ltac:(lia) ltac:(lia) ltac:(lia)) as T0. pose proof (G2 1%nat 0%nat ltac:(lia) ltac:(lia) ltac:(lia)) as T1. set (A0 := FV _) in T0. set (A1 := FV _) in T1.
    match goal with |- Rabs (_ * (?B / _ + ?C / _) / _ - _) <= _ => assert (E0 : B = A0) by (unfold A0, h, FV, EV; rewrite !(grid_add2 (u 0%nat) h0 h1 n0 n1); reflexivity); assert (E1 : C = A1) by (unfold A1, h, FV, EV; rewrite !(grid_add2 (u 1%nat) h0 h1 n0 n1); reflexivity) end. rewrite E0, E1.
    unfold divergence_error. change (length h) with 2%nat. cbn [Rsum].
    match goal with |- Rabs ?v <= _ => replace v with ((A0 / co 0 h - first (u 0%nat) 0 X) + (A1 / co 1 h - first (u 1%nat) 1 X)) by (unfold cell_volume, h, co; cbn [map fold_right nth]; field; lra) end.
    eapply Rle_trans; [apply Rabs_triang|]. lra.
  - destruct h as [|h0 [|h1 [|h2 [|]]]]; try discriminate Lh. destruct n as [|n0 [|n1 [|n2 [|]]]]; try discriminate LN.
    assert (P0 : 0 < h0) by (apply (Hp 0%nat); cbn; lia). assert (P1 : 0 < h1) by (apply (Hp 1%nat); cbn; lia). assert (P2 : 0 < h2) by (apply (Hp 2%nat); cbn; lia). set (h := [h0; h1; h2]) in *. set (X := grid_point h [n0; n1; n2]) in *.
    assert (WX : within 2 h X X) by (apply within2_refl; auto).
    change (2 ^ 3)%nat with 8%nat. change (3 ^ 3)%nat with 27%nat. unfold h at 1. rewrite (div3_all h0 h1 h2 (fun d o => u d (grid_point h (add [n0; n1; n2] o)))) by lra. cbv beta.
    assert (G3 : forall j i k (N1 : i <> j) (N2 : k <> j) (N3 : k <> i) (Hi : (i < 3)%nat) (Hj : (j < 3)%nat) (Hk : (k < 3)%nat), Rabs (FV (fun d => FV (fun b => EV (fun a => u j (moved (moved (moved X k (co k X + IZR d * co k h)) i (co i X + IZR b * co i h)) j (co j (moved (moved X k (co k X + IZR d * co k h)) i (co i X + IZR b * co i h)) + IZR a * co j h))))) / co j h - first (u j) j X) <= 5 / 12 * co j h ^ 2 * N j j j + 5 / 12 * co i h ^ 2 * N j j i + 5 / 12 * co k h ^ 2 * N j j k).
    { intros j i k N1 N2 N3 Hi Hj Hk. pose proof (slope3 (u j) h X (N j) EV (5 / 12) Hp (SM j Hj) EV_differs FV (5 / 12) FV_averages FV (5 / 12) FV_averages X i j k WX Hi Hj Hk N1 N2 N3 eq_refl eq_refl eq_refl) as T. unfold slope in T.
      rewrite <- FV_scal. replace (fun b : Z => FV (fun b0 => EV (fun a => u j (moved (moved (moved X k (co k X + IZR b * co k h)) i (co i X + IZR b0 * co i h)) j (co j (moved (moved X k (co k X + IZR b * co k h)) i (co i X + IZR b0 * co i h)) + IZR a * co j h)))) / co j h)
        with (fun b : Z => FV (fun b0 => EV (fun a => u j (moved (moved (moved X k (co k X + IZR b * co k h)) i (co i X + IZR b0 * co i h)) j (co j (moved (moved X k (co k X + IZR b * co k h)) i (co i X + IZR b0 * co i h)) + IZR a * co j h))) / co j h)) by (apply functional_extensionality; intros b; apply FV_scal).
      apply T. intros Y HY EY. apply (average1 (u j) h X (N j) Hp (SM j Hj) FV (5 / 12) FV_averages Y k j); auto. }
    pose proof (G3 0%nat 1%nat 2%nat ltac:(lia) ltac:(lia) ltac:(lia) ltac:(lia) ltac:(lia) ltac:(lia)) as T0. pose proof (G3 1%nat 0%nat 2%nat ltac:(lia) ltac:(lia) ltac:(lia) ltac:(lia) ltac:(lia) ltac:(lia)) as T1. pose proof (G3 2%nat 0%nat 1%nat ltac:(lia) ltac:(lia) ltac:(lia) ltac:(lia) ltac:(lia) ltac:(lia)) as T2.
    set (A0 := FV _) in T0. set (A1 := FV _) in T1. set (A2 := FV _) in T2.
    match goal with |- Rabs (_ * (?B / _ + ?C / _ + ?F / _) / _ - _) <= _ => assert (E0 : B = A0) by (unfold A0, h; apply (f_equal FV); apply functional_extensionality; intros ?; apply (f_equal FV); apply functional_extensionality; intros ?; apply (f_equal EV); apply functional_extensionality; intros ?; apply grid_add3); assert (E1 : C = A1) by (unfold A1, h; apply (f_equal FV); apply functional_extensionality; intros ?; apply (f_equal FV); apply functional_extensionality; intros ?; apply (f_equal EV); apply functional_extensionality; intros ?; apply grid_add3); assert (E2 : F = A2) by (unfold A2, h; apply (f_equal FV); apply functional_extensionality; intros ?; apply (f_equal FV); apply functional_extensionality; intros ?; apply (f_equal EV); apply functional_extensionality; intros ?; apply grid_add3) end. rewrite E0, E1, E2.
    unfold divergence_error. change (length h) with 3%nat. cbn [Rsum].
    match goal with |- Rabs ?v <= _ => replace v with ((A0 / co 0 h - first (u 0%nat) 0 X) + ((A1 / co 1 h - first (u 1%nat) 1 X) + (A2 / co 2 h - first (u 2%nat) 2 X))) by (unfold cell_volume, h, co; cbn [map fold_right nth]; field; lra) end.
    eapply Rle_trans; [apply Rabs_triang|]. pose proof (Rabs_triang (A1 / co 1 h - first (u 1%nat) 1 X) (A2 / co 2 h - first (u 2%nat) 2 X)). lra.
Qed.
