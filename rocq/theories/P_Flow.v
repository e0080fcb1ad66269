(** Nodal values of polynomial Stokes flows satisfy the rows of the free nodes. *)
From Coq Require Import Permutation QArith Qreals.
From Coquelicot Require Import Coquelicot.
From Verif Require Import Base M_Geometry S_Geometry P_Geometry M_Particle S_Particle P_Particle M_Quadrature S_Fem P_Energy M_MatElem P_MatElem M_Mesh M_Operator S_Operator P_Mesh P_Operator P_Operator2 P_Operator3 P_Global P_Stokes M_Bc S_Bc P_Flux Prop_Flux.
From Verif Require Import S_Exact P_Gather P_Exact P_Stencil P_Stencil3.
Local Open Scope R_scope.

(** ** derivatives of the polynomials *)
Definition poly1 (D : nat) (a : R) (b : nat -> R) (x : list R) : R := a + Rsum D (fun i => b i * nth i x 0).
Definition poly2 (D : nat) (a : R) (b : nat -> R) (q : nat -> nat -> R) (x : list R) : R := a + Rsum D (fun i => b i * nth i x 0) + Rsum D (fun i => Rsum D (fun j => q i j * nth i x 0 * nth j x 0)).
Definition slope (D : nat) (b : nat -> R) (q : nat -> nat -> R) (i : nat) (x : list R) : R := b i + Rsum D (fun j => (q i j + q j i) * nth j x 0).
Lemma moved_length D k t x : (k < D)%nat -> length x = D -> length (moved k t x) = D.
Proof. intros Hk L. unfold moved. rewrite app_length, firstn_length. cbn [length]. rewrite skipn_length. lia. Qed.
Lemma partial_ext D k g g' x : (k < D)%nat -> length x = D -> (forall y, length y = D -> g y = g' y) -> partial k g x = partial k g' x.
Proof. intros Hk L H. unfold partial. apply Derive_ext. intros t. apply H. apply moved_length; auto. Qed.
Ltac lens D x L := destruct D as [D|D]; rewrite D in *; [destruct x as [|? [|? [|]]]|destruct x as [|? [|? [|? [|]]]]]; try discriminate L.
Lemma partial_poly2 D a b q k x : D = 2%nat \/ D = 3%nat -> (k < D)%nat -> length x = D -> partial k (poly2 D a b q) x = slope D b q k x.
Proof.
  intros [->| ->] Hk L.
  - destruct x as [|x0 [|x1 [|]]]; try discriminate L. destruct k as [|[|k]]; [| |lia]; apply is_derive_unique; unfold poly2, slope, moved; cbn [firstn skipn app nth Rsum]; auto_derive; auto; ring.
  - destruct x as [|x0 [|x1 [|x2 [|]]]]; try discriminate L. destruct k as [|[|[|k]]]; [| | |lia]; apply is_derive_unique; unfold poly2, slope, moved; cbn [firstn skipn app nth Rsum]; auto_derive; auto; ring.
Qed.
Lemma partial_slope D b q k x : D = 2%nat \/ D = 3%nat -> (k < D)%nat -> length x = D -> partial k (slope D b q k) x = 2 * q k k.
Proof.
  intros [->| ->] Hk L.
  - destruct x as [|x0 [|x1 [|]]]; try discriminate L. destruct k as [|[|k]]; [| |lia]; apply is_derive_unique; unfold slope, moved; cbn [firstn skipn app nth Rsum]; auto_derive; auto; ring.
  - destruct x as [|x0 [|x1 [|x2 [|]]]]; try discriminate L. destruct k as [|[|[|k]]]; [| | |lia]; apply is_derive_unique; unfold slope, moved; cbn [firstn skipn app nth Rsum]; auto_derive; auto; ring.
Qed.
Lemma partial_poly1 D a b k x : D = 2%nat \/ D = 3%nat -> (k < D)%nat -> length x = D -> partial k (poly1 D a b) x = b k.
Proof.
  intros [->| ->] Hk L.
  - destruct x as [|x0 [|x1 [|]]]; try discriminate L. destruct k as [|[|k]]; [| |lia]; apply is_derive_unique; unfold poly1, moved; cbn [firstn skipn app nth Rsum]; auto_derive; auto; ring.
  - destruct x as [|x0 [|x1 [|x2 [|]]]]; try discriminate L. destruct k as [|[|[|k]]]; [| | |lia]; apply is_derive_unique; unfold poly1, moved; cbn [firstn skipn app nth Rsum]; auto_derive; auto; ring.
Qed.
Lemma second_poly2 D a b q k x : D = 2%nat \/ D = 3%nat -> (k < D)%nat -> length x = D -> partial k (partial k (poly2 D a b q)) x = 2 * q k k.
Proof. intros HD Hk L. rewrite (partial_ext D k _ (slope D b q k)); auto; [apply partial_slope; auto|]. intros y Ly. apply partial_poly2; auto. Qed.

(** ** nodal values around a node *)
Definition vstep (h : list R) (b : nat -> R) (q : nat -> nat -> R) (n : list Z) (i : nat) : R := nth i h 0 * slope (length h) b q i (position h n).
Definition vcurv (h : list R) (q : nat -> nat -> R) (i j : nat) : R := q i j * nth i h 0 * nth j h 0.
Lemma poly2_tay h a b q n s o : length h = 2%nat \/ length h = 3%nat -> length n = length h -> length s = length h -> length o = length h ->
  poly2 (length h) a b q (position h (add (sub n s) o)) = tay (length h) (poly2 (length h) a b q (position h n)) (vstep h b q n) (vcurv h q) (sub o s).
Proof.
  intros [D|D]; unfold vstep; rewrite D; intros L1 L2 L3.
  - destruct h as [|h0 [|h1 [|]]]; try discriminate D. destruct n as [|n0 [|n1 [|]]]; try discriminate L1. destruct s as [|s0 [|s1 [|]]]; try discriminate L2. destruct o as [|o0 [|o1 [|]]]; try discriminate L3.
    unfold poly2, tay, vcurv, slope, position, add, sub. cbn [zip_with nth Rsum]. rewrite !plus_IZR, !minus_IZR. ring.
  - destruct h as [|h0 [|h1 [|h2 [|]]]]; try discriminate D. destruct n as [|n0 [|n1 [|n2 [|]]]]; try discriminate L1. destruct s as [|s0 [|s1 [|s2 [|]]]]; try discriminate L2. destruct o as [|o0 [|o1 [|o2 [|]]]]; try discriminate L3.
    unfold poly2, tay, vcurv, slope, position, add, sub. cbn [zip_with nth Rsum]. rewrite !plus_IZR, !minus_IZR. ring.
Qed.
Lemma poly2_tay3 h a b q e o : length h = 2%nat \/ length h = 3%nat -> length e = length h -> length o = length h ->
  poly2 (length h) a b q (position h (add (map (Z.mul 2) e) o)) = tay (length h) (poly2 (length h) a b q (position h (map (Z.mul 2) e))) (vstep h b q (map (Z.mul 2) e)) (vcurv h q) o.
Proof.
  intros [D|D]; unfold vstep; rewrite D; intros L1 L3.
  - destruct h as [|h0 [|h1 [|]]]; try discriminate D. destruct e as [|n0 [|n1 [|]]]; try discriminate L1. destruct o as [|o0 [|o1 [|]]]; try discriminate L3.
    unfold poly2, tay, vcurv, slope, position, add, sub. cbn [map zip_with nth Rsum]. rewrite !plus_IZR. ring.
  - destruct h as [|h0 [|h1 [|h2 [|]]]]; try discriminate D. destruct e as [|n0 [|n1 [|n2 [|]]]]; try discriminate L1. destruct o as [|o0 [|o1 [|o2 [|]]]]; try discriminate L3.
    unfold poly2, tay, vcurv, slope, position, add, sub. cbn [map zip_with nth Rsum]. rewrite !plus_IZR. ring.
Qed.
Lemma half_twice x o : Z.even (x - o) = true -> 2 * IZR ((x - o) / 2) = IZR x - IZR o.
Proof. intros E. apply Z.even_spec in E as [k E]. rewrite <- minus_IZR, E, (Z.mul_comm 2 k), Z.div_mul by lia. rewrite mult_IZR. ring. Qed.
Lemma poly1_tay h a b n s o : length h = 2%nat \/ length h = 3%nat -> length n = length h -> length s = length h -> length o = length h -> par_ok n s = true ->
  poly1 (length h) a b (position (map (Rmult 2) h) (add (half n s) o)) = tay (length h) (poly1 (length h) a b (position h n)) (fun i => b i * nth i h 0) (fun _ _ => 0) (sub (map (Z.mul 2) o) s).
Proof.
  unfold par_ok, half. intros [D|D]; rewrite D; intros L1 L2 L3.
  - destruct h as [|h0 [|h1 [|]]]; try discriminate D. destruct n as [|n0 [|n1 [|]]]; try discriminate L1. destruct s as [|s0 [|s1 [|]]]; try discriminate L2. destruct o as [|o0 [|o1 [|]]]; try discriminate L3.
    cbn [sub zip_with forallb map]. rewrite !andb_true_iff. intros (P0 & P1 & _). apply half_twice in P0, P1.
    unfold poly1, tay, position, add, sub. cbn [map zip_with nth Rsum]. rewrite !minus_IZR, !plus_IZR, !mult_IZR.
    replace ((IZR ((n0 - s0) / 2) + IZR o0) * (2 * h0)) with ((2 * IZR ((n0 - s0) / 2) + 2 * IZR o0) * h0) by ring. replace ((IZR ((n1 - s1) / 2) + IZR o1) * (2 * h1)) with ((2 * IZR ((n1 - s1) / 2) + 2 * IZR o1) * h1) by ring. rewrite P0, P1. ring.
  - destruct h as [|h0 [|h1 [|h2 [|]]]]; try discriminate D. destruct n as [|n0 [|n1 [|n2 [|]]]]; try discriminate L1. destruct s as [|s0 [|s1 [|s2 [|]]]]; try discriminate L2. destruct o as [|o0 [|o1 [|o2 [|]]]]; try discriminate L3.
    cbn [sub zip_with forallb map]. rewrite !andb_true_iff. intros (P0 & P1 & P2 & _). apply half_twice in P0, P1, P2.
    unfold poly1, tay, position, add, sub. cbn [map zip_with nth Rsum]. rewrite !minus_IZR, !plus_IZR, !mult_IZR.
    replace ((IZR ((n0 - s0) / 2) + IZR o0) * (2 * h0)) with ((2 * IZR ((n0 - s0) / 2) + 2 * IZR o0) * h0) by ring. replace ((IZR ((n1 - s1) / 2) + IZR o1) * (2 * h1)) with ((2 * IZR ((n1 - s1) / 2) + 2 * IZR o1) * h1) by ring. replace ((IZR ((n2 - s2) / 2) + IZR o2) * (2 * h2)) with ((2 * IZR ((n2 - s2) / 2) + 2 * IZR o2) * h2) by ring. rewrite P0, P1, P2. ring.
Qed.
(** ** a function of the non-periodic coordinates only *)
Lemma periodic_same D per g x x' : D = 2%nat \/ D = 3%nat -> length per = D -> length x = D -> length x' = D -> periodic_ok D per g -> (forall k, nth k per false = false -> nth k x 0 = nth k x' 0) -> g x = g x'.
Proof.
  intros HD Lp L L' HP HE. destruct HD as [->| ->].
  - destruct x as [|x0 [|x1 [|]]]; try discriminate L. destruct x' as [|y0 [|y1 [|]]]; try discriminate L'. destruct per as [|p0 [|p1 [|]]]; try discriminate Lp.
    assert (S0 : forall z, g [x0; z] = g [y0; z]). { intros z. destruct p0 eqn:E; [|rewrite (HE 0%nat eq_refl : x0 = y0); reflexivity]. symmetry. exact (HP 0%nat y0 [x0; z] ltac:(lia) eq_refl eq_refl). }
    assert (S1 : forall z, g [z; x1] = g [z; y1]). { intros z. destruct p1 eqn:E; [|rewrite (HE 1%nat eq_refl : x1 = y1); reflexivity]. symmetry. exact (HP 1%nat y1 [z; x1] ltac:(lia) eq_refl eq_refl). }
    rewrite S0, S1. reflexivity.
  - destruct x as [|x0 [|x1 [|x2 [|]]]]; try discriminate L. destruct x' as [|y0 [|y1 [|y2 [|]]]]; try discriminate L'. destruct per as [|p0 [|p1 [|p2 [|]]]]; try discriminate Lp.
    assert (S0 : forall z w, g [x0; z; w] = g [y0; z; w]). { intros z w. destruct p0 eqn:E; [|rewrite (HE 0%nat eq_refl : x0 = y0); reflexivity]. symmetry. exact (HP 0%nat y0 [x0; z; w] ltac:(lia) eq_refl eq_refl). }
    assert (S1 : forall z w, g [z; x1; w] = g [z; y1; w]). { intros z w. destruct p1 eqn:E; [|rewrite (HE 1%nat eq_refl : x1 = y1); reflexivity]. symmetry. exact (HP 1%nat y1 [z; x1; w] ltac:(lia) eq_refl eq_refl). }
    assert (S2 : forall z w, g [z; w; x2] = g [z; w; y2]). { intros z w. destruct p2 eqn:E; [|rewrite (HE 2%nat eq_refl : x2 = y2); reflexivity]. symmetry. exact (HP 2%nat y2 [z; w; x2] ltac:(lia) eq_refl eq_refl). }
    rewrite S0, S1, S2. reflexivity.
Qed.
Lemma position_length h n : length h = length n -> length (position h n) = length n.
Proof. intros. unfold position. rewrite length_zip_with; lia. Qed.
Lemma nodal_invariant per h g (c : nat) : length h = 2%nat \/ length h = 3%nat -> length per = length h -> periodic_ok (length h) per g -> invariant per (fun n _ => g (position h n)) c.
Proof.
  intros HD LP HP n n' L [L' H]. apply (periodic_same (length h) per); auto; try (rewrite position_length; lia). intros k Hk. unfold position. destruct (Nat.lt_ge_cases k (length n)) as [Hl|Hl].
  - rewrite !(nth_zip_with _ _ _ k 0%Z 0 0) by lia. rewrite (H k Hk). reflexivity.
  - rewrite !nth_overflow; auto; rewrite length_zip_with; lia.
Qed.
Lemma moved_same D k t x : (k < D)%nat -> length x = D -> nth k (moved k t x) 0 = t.
Proof. intros Hk L. unfold moved. rewrite app_nth2; rewrite firstn_length; [|lia]. replace (k - Nat.min k (length x))%nat with 0%nat by lia. reflexivity. Qed.
Lemma moved_other D k j t : (k < D)%nat -> (j < D)%nat -> j <> k -> nth j (moved k t (repeat 0 D)) 0 = 0.
Proof.
  intros Hk Hj Ne. assert (A : forall l : list R, (forall v, In v l -> v = 0) -> forall i, nth i l 0 = 0) by (intros l Hl i; destruct (nth_in_or_default i l 0) as [I|E]; [apply Hl, I|exact E]).
  unfold moved. destruct (Nat.lt_ge_cases j k) as [Hl|Hl].
  - rewrite app_nth1 by (rewrite firstn_length, repeat_length; lia). apply A. intros v Hv. apply (repeat_spec D 0). rewrite <- (firstn_skipn k (repeat 0 D)). apply in_or_app. left. exact Hv.
  - rewrite app_nth2 by (rewrite firstn_length, repeat_length; lia). rewrite firstn_length, repeat_length. destruct (j - Nat.min k D)%nat as [|i] eqn:E; [lia|]. cbn [nth]. apply A. intros v Hv. apply (repeat_spec D 0). rewrite <- (firstn_skipn (S k) (repeat 0 D)). apply in_or_app. right. exact Hv.
Qed.
(** product of the steps *)
Definition volume (h : list R) : R := fold_right Rmult 1 h.
Section Flow.
  Variables (h : list R) (mp : list Z) (per : list bool) (u : nat -> list R -> R) (p : list R -> R) (f : nat -> R).
  Let D := length mp. Let mv := refined_size mp per.
  Hypothesis HG : grid_ok mp per.
  Hypothesis HS : steps_ok h mp.
  Hypothesis HF : stokes_flow D u p f.
  Hypothesis HP : forall c, (c < D)%nat -> periodic_ok D per (u c).
  Hypothesis HPp : periodic_ok D per p.
  Let xv : field := fun n c => u c (position h n).
  Let xp : field := fun n _ => p (position (map (Rmult 2) h) n).
  Lemma Lh : length h = D. Proof. apply HS. Qed.
  Lemma HD : D = 2%nat \/ D = 3%nat. Proof. apply HG. Qed.
  Lemma Lv : length mv = D. Proof. unfold mv, refined_size. rewrite length_zip_with; auto. symmetry. apply HG. Qed.
  Lemma Fv : Forall (fun z => (1 <= z)%Z) mv. Proof. apply (refined_grid mp per HG). Qed.
  Lemma Lpv : length per = length mv. Proof. rewrite Lv. apply HG. Qed.
  Lemma inv_v c : (c < D)%nat -> invariant per xv c.
  Proof. intros Hc n n' L S. unfold xv. apply (nodal_invariant per h (u c) c); auto; rewrite Lh; [apply HD|apply HG|apply HP, Hc]. Qed.
  Lemma inv_p : invariant per xp 0.
  Proof. intros n n' L S. unfold xp. apply (nodal_invariant per (map (Rmult 2) h) p 0%nat); auto; rewrite map_length, Lh; [apply HD|apply HG|apply HPp]. Qed.
  Lemma coeffs : exists a b q pa pb, (forall c x, (c < D)%nat -> length x = D -> u c x = poly2 D (a c) (b c) (q c) x) /\ (forall x, length x = D -> p x = poly1 D pa pb x) /\
    (forall c, (c < D)%nat -> q c c c = 0) /\ (forall c, (c < D)%nat -> - Rsum D (fun i => 2 * q c i i) + pb c = f c) /\ (forall x, length x = D -> Rsum D (fun c => slope D (b c) (q c) c x) = 0).
  Proof.
    destruct HF as (Hq & (pa & pb & Ep) & Hc & Hm & Hdiv).
    assert (K : exists a b q, forall c x, (c < D)%nat -> length x = D -> u c x = poly2 D (a c) (b c) (q c) x).
    { assert (E : forall c, exists t : R * (nat -> R) * (nat -> nat -> R), (c < D)%nat -> forall x, length x = D -> u c x = poly2 D (fst (fst t)) (snd (fst t)) (snd t) x).
      { intros c. destruct (Nat.lt_ge_cases c D) as [Hl|Hl]; [|exists (0, fun _ => 0, fun _ _ => 0); lia]. destruct (Hq c Hl) as (a & b & q & E). exists (a, b, q). intros _. exact E. }
      assert (E' : forall k, exists t : nat -> R * (nat -> R) * (nat -> nat -> R), forall c, (c < k)%nat -> (c < D)%nat -> forall x, length x = D -> u c x = poly2 D (fst (fst (t c))) (snd (fst (t c))) (snd (t c)) x).
      { induction k as [|k (t & IH)]; [exists (fun _ => (0, fun _ => 0, fun _ _ => 0)); lia|]. destruct (E k) as (tk & Hk). exists (fun c => if Nat.eqb c k then tk else t c). intros c Hck HcD. destruct (Nat.eqb_spec c k) as [->|Ne]; [apply Hk, HcD|apply IH; lia]. }
      destruct (E' D) as (t & Ht). exists (fun c => fst (fst (t c))), (fun c => snd (fst (t c))), (fun c => snd (t c)). intros c x Hcx L. apply Ht; auto. }
    destruct K as (a & b & q & Eu). exists a, b, q, pa, pb. pose proof HD as D23. split; [exact Eu|]. split; [exact Ep|].
    assert (O : length (repeat 0 D) = D) by apply repeat_length.
    assert (S2 : forall c k x, (c < D)%nat -> (k < D)%nat -> length x = D -> partial k (partial k (u c)) x = 2 * q c k k).
    { intros c k x Hc' Hk L. rewrite <- (second_poly2 D (a c) (b c) (q c) k x) by auto. apply (partial_ext D k); auto. intros y Ly. apply (partial_ext D k); auto. }
    split; [|split].
    - intros c Hc'. specialize (Hc c _ Hc' O). rewrite S2 in Hc by auto. lra.
    - intros c Hc'. specialize (Hm c _ Hc' O). rewrite <- Hm. f_equal; [f_equal; apply Rsum_ext; intros i Hi; rewrite S2; auto|]. rewrite (partial_ext D c p (poly1 D pa pb)); auto. symmetry. apply partial_poly1; auto.
    - intros x L. rewrite <- (Hdiv x L). apply Rsum_ext. intros c Hc'. rewrite (partial_ext D c (u c) (poly2 D (a c) (b c) (q c))); auto. symmetry. apply partial_poly2; auto.
  Qed.
  (** consequences of the divergence: on the slopes and on the curvatures *)
  Lemma div_coeffs b q : (forall x, length x = D -> Rsum D (fun c => slope D (b c) (q c) c x) = 0) ->
    (forall n, length n = D -> Rsum D (fun c => vstep h (b c) (q c) n c / nth c h 0) = 0) /\
    (forall i, (i < D)%nat -> Rsum D (fun d => (vcurv h (q d) d i + vcurv h (q d) i d) / nth d h 0) = 0) /\
    (forall i, (i < D)%nat -> Rsum D (fun d => (vcurv h (q d) i d + vcurv h (q d) d i) / (nth i h 0 * nth d h 0)) = 0).
  Proof.
    intros HDv. assert (NZ : forall i, (i < D)%nat -> nth i h 0 <> 0). { intros i Hi. destruct HS as [L HPos]. rewrite Forall_forall in HPos. apply Rgt_not_eq, HPos, nth_In. rewrite L. exact Hi. }
    assert (Q : forall i, (i < D)%nat -> Rsum D (fun c => q c c i + q c i c) = 0).
    { intros i Hi. pose proof (HDv (repeat 0 D) (repeat_length 0 D)) as Z0. pose proof (HDv (moved i 1 (repeat 0 D)) (moved_length D i 1 _ Hi (repeat_length 0 D))) as Z1.
      assert (B0 : Rsum D (fun c => b c c) = 0).
      { rewrite <- Z0. apply Rsum_ext. intros c _. unfold slope. rewrite (Rsum_ext D _ (fun _ => 0)); [rewrite Rsum_zero; ring|]. intros j Hj. rewrite nth_repeat. ring. }
      transitivity (Rsum D (fun c => slope D (b c) (q c) c (moved i 1 (repeat 0 D)) + -1 * b c c)); [|rewrite Rsum_plus, Z1, Rsum_scal, B0; ring].
      apply Rsum_ext. intros c _. unfold slope. rewrite (Rsum_single D i (fun j => (q c c j + q c j c) * nth j (moved i 1 (repeat 0 D)) 0) Hi); [rewrite (moved_same D i 1 (repeat 0 D) Hi (repeat_length 0 D)); ring|].
      intros j Hj Ne. rewrite (moved_other D i j 1 Hi Hj Ne). ring. }
    split; [|split].
    - intros n L. transitivity (Rsum D (fun c => slope D (b c) (q c) c (position h n))); [|apply HDv; rewrite position_length; rewrite ?Lh; auto; symmetry; exact L]. apply Rsum_ext. intros c Hc. unfold vstep. rewrite Lh. field. apply NZ, Hc.
    - intros i Hi. transitivity (Rsum D (fun d => nth i h 0 * (q d d i + q d i d))); [|rewrite Rsum_scal, Q by auto; ring]. apply Rsum_ext. intros d Hd. unfold vcurv. field. apply NZ, Hd.
    - intros i Hi. transitivity (Rsum D (fun c => q c c i + q c i c)); [|apply Q, Hi]. apply Rsum_ext. intros d Hd. unfold vcurv. field. split; apply NZ; auto.
  Qed.
  (** ** the rows *)
  Lemma vol_pos : volume h <> 0.
  Proof. destruct HS as [_ HPos]. unfold volume. clear - HPos. induction HPos as [|x l Hx Hl IH]; cbn [fold_right]; [lra|]. apply Rmult_integral_contrapositive. split; [lra|exact IH]. Qed.
  Lemma viscous_row (strain : bool) n c : inside mv per n -> (c < D)%nat ->
    (if strain then tensor_form mv per (E0 mv per) D (getMatElemStrainTensor h) (unit_field n c) xv else scalar_form mv per (E0 mv per) D (getMatElemLaplacian h) (unit_field n c) xv)
    - div_form mv mp per (E0 mp per) D (getMatElemPressure h) xp (unit_field n c) = volume h * f c.
  Proof.
    intros HI Hc. destruct coeffs as (a & b & q & pa & pb & Eu & Ep & Hq & Hm & Hdv). destruct (div_coeffs b q Hdv) as (_ & _ & DC). specialize (DC c Hc).
    assert (Ln : length n = D) by (rewrite (proj1 HI); apply Lv). pose proof HD as D23. pose proof Lh as LH.
    assert (TV : forall d k1 k2, (d < D)%nat -> xv (add (sub n (bits D k1)) (bits D k2)) d = tay D (poly2 D (a d) (b d) (q d) (position h n)) (vstep h (b d) (q d) n) (vcurv h (q d)) (sub (bits D k2) (bits D k1))).
    { intros d k1 k2 Hd. unfold xv. destruct (bits_ok D k1) as [_ B1]. destruct (bits_ok D k2) as [_ B2]. rewrite Eu; auto; [|rewrite position_length; rewrite length_add, length_sub; rewrite ?length_sub; lia].
      pose proof (poly2_tay h (a d) (b d) (q d) n (bits D k1) (bits D k2)) as T. rewrite LH in T. apply T; auto. }
    assert (TP : forall kv kp, par_ok n (digits D kv) = true -> xp (add (half n (digits D kv)) (bits D kp)) 0%nat = tay D (poly1 D pa pb (position h n)) (fun i => pb i * nth i h 0) (fun _ _ => 0) (sub (map (Z.mul 2) (bits D kp)) (digits D kv))).
    { intros kv kp HPar. unfold xp. destruct (digits_ok D kv) as [_ B1]. destruct (bits_ok D kp) as [_ B2]. rewrite Ep; [|rewrite position_length; rewrite ?map_length, length_add; unfold half; rewrite ?map_length, ?length_sub; lia].
      pose proof (poly1_tay h pa pb n (digits D kv) (bits D kp)) as T. rewrite LH in T. apply T; auto. }
    assert (GR : div_form mv mp per (E0 mp per) D (getMatElemPressure h) xp (unit_field n c) = Rsum (3 ^ D) (fun kv => if par_ok n (digits D kv) then Rsum (2 ^ D) (fun kp => getMatElemPressure h kp kv c * tay D (poly1 D pa pb (position h n)) (fun i => pb i * nth i h 0) (fun _ _ => 0) (sub (map (Z.mul 2) (bits D kp)) (digits D kv))) else 0)).
    { unfold mv. rewrite row_grad; auto; [|apply HG|apply HG|apply inv_p]. fold D. apply Rsum_ext. intros kv _. destruct (par_ok n (digits D kv)) eqn:E; [|reflexivity]. apply Rsum_ext. intros kp _. rewrite TP by exact E. reflexivity. }
    assert (VR : (if strain then tensor_form mv per (E0 mv per) D (getMatElemStrainTensor h) (unit_field n c) xv else scalar_form mv per (E0 mv per) D (getMatElemLaplacian h) (unit_field n c) xv)
      = if strain then Rsum (2 ^ D) (fun k1 => Rsum (2 ^ D) (fun k2 => Rsum D (fun d => getMatElemStrainTensor h k1 k2 c d * tay D (poly2 D (a d) (b d) (q d) (position h n)) (vstep h (b d) (q d) n) (vcurv h (q d)) (sub (bits D k2) (bits D k1)))))
        else Rsum (2 ^ D) (fun k1 => Rsum (2 ^ D) (fun k2 => getMatElemLaplacian h k1 k2 * tay D (poly2 D (a c) (b c) (q c) (position h n)) (vstep h (b c) (q c) n) (vcurv h (q c)) (sub (bits D k2) (bits D k1))))).
    { destruct strain.
      - rewrite row_tensor; auto; [|apply Lpv|apply Fv|apply inv_v]. rewrite Lv. apply Rsum_ext. intros k1 _. apply Rsum_ext. intros k2 _. apply Rsum_ext. intros d Hd. rewrite TV by auto. reflexivity.
      - rewrite row_scalar; auto; [|apply Lpv|apply Fv|apply inv_v, Hc]. rewrite Lv. apply Rsum_ext. intros k1 _. apply Rsum_ext. intros k2 _. rewrite TV by auto. reflexivity. }
    rewrite VR, GR. rewrite <- (Hm c Hc). clear VR GR TV TP Hm Hq Hdv Eu Ep. destruct HS as [_ HPos]. destruct D23 as [E|E]; rewrite E in *.
    - destruct h as [|h0 [|h1 [|]]]; try discriminate LH. inversion HPos as [|? ? P0 HP']; subst. inversion HP' as [|? ? P1 _]; subst. assert (h0 <> 0) by lra. assert (h1 <> 0) by lra.
      change (2 ^ 2)%nat with 4%nat. change (3 ^ 2)%nat with 9%nat. rewrite grad2 by auto.
      assert (VV : forall i, (i < 2)%nat -> vcurv [h0; h1] (q c) i i = q c i i * nth i [h0; h1] 0 * nth i [h0; h1] 0) by reflexivity.
      destruct strain; [rewrite strain2 by auto; rewrite DC|rewrite lap2 by auto]; rewrite !VV by lia; unfold volume; cbn [nth fold_right Rsum]; destruct c as [|[|c]]; try lia; cbn [nth]; field; auto.
    - destruct h as [|h0 [|h1 [|h2 [|]]]]; try discriminate LH. inversion HPos as [|? ? P0 HP']; subst. inversion HP' as [|? ? P1 HP2]; subst. inversion HP2 as [|? ? P2 _]; subst. assert (h0 <> 0) by lra. assert (h1 <> 0) by lra. assert (h2 <> 0) by lra.
      change (2 ^ 3)%nat with 8%nat. change (3 ^ 3)%nat with 27%nat. rewrite grad3 by auto.
      assert (VV : forall i, (i < 3)%nat -> vcurv [h0; h1; h2] (q c) i i = q c i i * nth i [h0; h1; h2] 0 * nth i [h0; h1; h2] 0) by reflexivity.
      destruct strain; [rewrite strain3 by auto; rewrite DC|rewrite lap3 by auto]; rewrite !VV by lia; unfold volume; cbn [nth fold_right Rsum]; destruct c as [|[|[|c]]]; try lia; cbn [nth]; field; auto.
  Qed.
  Lemma continuity w : div_form mv mp per (E0 mp per) D (getMatElemPressure h) w xv = 0.
  Proof.
    destruct coeffs as (a & b & q & pa & pb & Eu & Ep & Hq & Hm & Hdv). destruct (div_coeffs b q Hdv) as (D0 & DI & _). pose proof HD as D23. pose proof Lh as LH.
    unfold div_form. apply Lsum_all_zero. intros e He. apply E0_enum in He; [|apply HG]. assert (Le : length e = D) by (apply (cell_len mp per), He).
    rewrite (Rsum_ext _ _ (fun _ => 0)); [apply Rsum_zero|]. intros kp Hkp. fold D in Hkp |- *.
    assert (TV : forall d kv, (d < D)%nat -> gv3 mv per xv e kv d = tay D (poly2 D (a d) (b d) (q d) (position h (map (Z.mul 2) e))) (vstep h (b d) (q d) (map (Z.mul 2) e)) (vcurv h (q d)) (digits D kv)).
    { intros d kv Hd. unfold gv3. rewrite corner3_add, Le. destruct (digits_ok D kv) as [_ B1].
      assert (LA : length (add (map (Z.mul 2) e) (digits D kv)) = D) by (rewrite length_add; rewrite map_length; lia).
      rewrite (inv_v d Hd _ (add (map (Z.mul 2) e) (digits D kv))); [|rewrite length_wrap; rewrite ?Lv; [symmetry; apply HG|apply HG|exact LA]|apply wrap_off; rewrite Lv; [apply HG|exact LA]].
      unfold xv. rewrite Eu; auto; [|rewrite position_length; lia]. pose proof (poly2_tay3 h (a d) (b d) (q d) e (digits D kv)) as T. rewrite LH in T. apply T; auto. }
    transitivity (gv mp per w e kp 0 * Rsum (3 ^ D) (fun kv => Rsum D (fun d => getMatElemPressure h kp kv d * tay D (poly2 D (a d) (b d) (q d) (position h (map (Z.mul 2) e))) (vstep h (b d) (q d) (map (Z.mul 2) e)) (vcurv h (q d)) (digits D kv)))).
    { rewrite <- Rsum_scal. apply Rsum_ext. intros kv _. rewrite <- Rsum_scal. apply Rsum_ext. intros d Hd. rewrite TV by auto. ring. }
    specialize (D0 (map (Z.mul 2) e) ltac:(rewrite map_length; exact Le)). clear TV Eu Ep Hm Hdv. destruct HS as [_ HPos].
    assert (CC : forall d, (d < D)%nat -> vcurv h (q d) d d = 0) by (intros d Hd; unfold vcurv; rewrite (Hq d Hd); ring). clear Hq.
    destruct D23 as [E|E]; rewrite E in *.
    - destruct h as [|h0 [|h1 [|]]]; try discriminate LH. inversion HPos as [|? ? P0 HP']; subst. inversion HP' as [|? ? P1 _]; subst. assert (h0 <> 0) by lra. assert (h1 <> 0) by lra.
      change (3 ^ 2)%nat with 9%nat. rewrite (div2 h0 h1 (fun d => poly2 2 (a d) (b d) (q d) (position [h0; h1] (map (Z.mul 2) e))) (fun d => vstep [h0; h1] (b d) (q d) (map (Z.mul 2) e)) (fun d => vcurv [h0; h1] (q d)) kp); auto; [ring| |].
      + cbn [Rsum nth] in D0. lra.
      + intros i Hi. specialize (DI i Hi). cbn [Rsum nth] in DI. lra.
    - destruct h as [|h0 [|h1 [|h2 [|]]]]; try discriminate LH. inversion HPos as [|? ? P0 HP']; subst. inversion HP' as [|? ? P1 HP2]; subst. inversion HP2 as [|? ? P2 _]; subst. assert (h0 <> 0) by lra. assert (h1 <> 0) by lra. assert (h2 <> 0) by lra.
      change (3 ^ 3)%nat with 27%nat. rewrite (div3 h0 h1 h2 (fun d => poly2 3 (a d) (b d) (q d) (position [h0; h1; h2] (map (Z.mul 2) e))) (fun d => vstep [h0; h1; h2] (b d) (q d) (map (Z.mul 2) e)) (fun d => vcurv [h0; h1; h2] (q d)) kp); auto; [ring| |].
      + cbn [Rsum nth] in D0. lra.
      + intros i Hi. specialize (DI i Hi). cbn [Rsum nth] in DI. lra.
  Qed.
  (** the load: the mass matrix of a constant *)
  Lemma load_row n c (g : field) : inside mv per n -> (c < D)%nat -> (forall q d, in_grid_box (nodes_box mv) q -> (d < D)%nat -> g q d = f d) ->
    scalar_form mv per (E0 mv per) D (getMatElemMass h) (unit_field n c) g = volume h * f c.
  Proof.
    intros HI Hc Hg. pose proof HD as D23. pose proof Lh as LH. pose proof (refined_grid mp per HG) as HGv. fold mv in HGv.
    transitivity (scalar_form mv per (E0 mv per) D (getMatElemMass h) (unit_field n c) (fun _ d => f d)).
    { unfold scalar_form. apply Lsum_ext. intros e He. apply E0_enum in He; [|apply HGv]. apply Rsum_ext. intros d Hd. apply Rsum_ext. intros k1 _. apply Rsum_ext. intros k2 Hk2. f_equal. unfold gv. apply Hg; auto.
      assert (Le : length e = length mv) by (eapply cell_dim; eauto). apply (wrap_in_nodes mv per e); auto; [apply HGv|apply HGv|]. apply corner_near; rewrite Le; auto. apply HGv. }
    rewrite row_scalar; auto; [|apply Lpv|apply Fv|intros ? ? ? ?; reflexivity]. rewrite Lv. clear Hg. destruct D23 as [E|E]; rewrite E in *.
    - destruct h as [|h0 [|h1 [|]]]; try discriminate LH. change (2 ^ 2)%nat with 4%nat. rewrite mass2. unfold volume. cbn [fold_right]. ring.
    - destruct h as [|h0 [|h1 [|h2 [|]]]]; try discriminate LH. change (2 ^ 3)%nat with 8%nat. rewrite mass3. unfold volume. cbn [fold_right]. ring.
  Qed.
End Flow.
