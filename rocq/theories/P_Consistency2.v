(** The rows of the operators at an interior node, for the values of a smooth function. *)
From Coq Require Import FunctionalExtensionality.
From Coquelicot Require Import Coquelicot.
From Verif Require Import Base M_Geometry S_Geometry P_Geometry M_Particle S_Particle P_Particle M_Quadrature S_Fem P_Energy P_Precond M_MatElem P_MatElem M_Mesh M_Operator S_Operator P_Mesh P_Operator P_Operator2 P_Operator3 P_Global P_Stokes M_Bc S_Bc P_Flux Prop_Flux P_Gather P_Exact M_ParticleOp S_ParticleOp S_Accuracy P_Accuracy S_Consistency P_Consistency P_Stencil P_Stencil4.
Open Scope R_scope.
Lemma length_moved X i t : (i < length X)%nat -> length (moved X i t) = length X.
Proof. intros H. unfold moved. rewrite app_length. cbn [length]. rewrite firstn_length, skipn_length. lia. Qed.
Lemma co_moved_other X i j t : j <> i -> (i < length X)%nat -> co j (moved X i t) = co j X.
Proof. revert i j. induction X as [|x X IH]; intros [|i] [|j] N H; cbn [length] in H; try lia; try reflexivity. unfold moved, co in *. cbn [firstn skipn app nth]. apply (IH i j); lia. Qed.
Lemma within_moved h X Y i t : within 1 h X Y -> (i < length h)%nat -> Rabs (t - co i X) <= co i h -> within 1 h X (moved Y i t).
Proof.
  intros [L W] Hi Ht. split; [rewrite length_moved; lia|]. intros j Hj. destruct (Nat.eq_dec j i) as [->|N]; [rewrite co_moved by lia; lra|rewrite co_moved_other by (auto; lia); apply W, Hj].
Qed.
Definition AV (g : Z -> R) : R := (g (-1)%Z + 4 * g 0%Z + g 1%Z) / 6.
Lemma AV_close f g e : (forall b, (-1 <= b <= 1)%Z -> Rabs (f b - g b) <= e) -> Rabs (AV f - AV g) <= e.
Proof. intros H. unfold AV. apply avg_close; apply H; lia. Qed.
Lemma AV_avg f X i s : (i < length X)%nat -> AV (fun b => f (moved X i (co i X + IZR b * s))) = avg f X i s.
Proof. intros H. unfold AV, avg, line. replace (co i X + -1 * s) with (co i X - s) by ring. replace (co i X + 1 * s) with (co i X + s) by ring. replace (co i X + 0 * s) with (co i X) by ring. rewrite moved_co by exact H. reflexivity. Qed.
Lemma steps_b b s : (-1 <= b <= 1)%Z -> 0 < s -> Rabs (IZR b * s) <= s.
Proof. intros H Hs. assert (C : b = (-1)%Z \/ b = 0%Z \/ b = 1%Z) by lia. apply Rabs_le. destruct C as [->|[->| ->]]; lra. Qed.
Section Terms.
  Variables (f : vec -> R) (h X : vec) (M : nat -> nat -> R).
  Hypothesis Hp : forall i, (i < length h)%nat -> 0 < co i h.
  Hypothesis HX : length X = length h.
  Hypothesis HS : smooth4 f h X M.
  Lemma term1 Y j : within 1 h X Y -> (j < length h)%nat -> co j Y = co j X -> Rabs (dif f Y j (co j h) / co j h ^ 2 - second f j Y) <= co j h ^ 2 / 12 * M j j.
  Proof.
    intros HY Hj E. assert (L : length Y = length h) by apply HY. apply dif_err; [lia|auto|]. intros t Ht. apply HS; auto. apply within_moved; auto. apply Rabs_le. lra.
  Qed.
  Lemma term2 Y i j : within 1 h X Y -> (i < length h)%nat -> (j < length h)%nat -> i <> j -> co j Y = co j X -> co i Y = co i X ->
    Rabs (AV (fun b => dif f (moved Y i (co i Y + IZR b * co i h)) j (co j h) / co j h ^ 2) - second f j Y) <= co j h ^ 2 / 12 * M j j + co i h ^ 2 / 6 * M j i.
  Proof.
    intros HY Hi Hj N Ej Ei. assert (L : length Y = length h) by apply HY.
    assert (A : Rabs (AV (fun b => dif f (moved Y i (co i Y + IZR b * co i h)) j (co j h) / co j h ^ 2) - AV (fun b => second f j (moved Y i (co i Y + IZR b * co i h)))) <= co j h ^ 2 / 12 * M j j).
    { apply AV_close. intros b Hb. apply term1; auto; [|rewrite co_moved_other; auto; lia]. apply within_moved; auto. rewrite Ei. replace (co i X + IZR b * co i h - co i X) with (IZR b * co i h) by ring. apply steps_b; auto. }
    rewrite (AV_avg (second f j)) in A by lia.
    assert (B := avg_err (second f j) Y i (co i h) (M j i) ltac:(lia) (Hp i Hi)). assert (B' : Rabs (avg (second f j) Y i (co i h) - second f j Y) <= co i h ^ 2 / 6 * M j i).
    { apply B. intros t Ht. apply HS; auto. apply within_moved; auto. apply Rabs_le. lra. }
    apply Rabs_le_between in A. apply Rabs_le_between in B'. apply Rabs_le. lra.
  Qed.
  Lemma term3 Y i j k : within 1 h X Y -> (i < length h)%nat -> (j < length h)%nat -> (k < length h)%nat -> i <> j -> k <> j -> k <> i -> co j Y = co j X -> co i Y = co i X -> co k Y = co k X ->
    Rabs (AV (fun c => AV (fun b => dif f (moved (moved Y k (co k Y + IZR c * co k h)) i (co i Y + IZR b * co i h)) j (co j h) / co j h ^ 2)) - second f j Y) <= co j h ^ 2 / 12 * M j j + co i h ^ 2 / 6 * M j i + co k h ^ 2 / 6 * M j k.
  Proof.
    intros HY Hi Hj Hk N1 N2 N3 Ej Ei Ek. assert (L : length Y = length h) by apply HY.
    assert (A : Rabs (AV (fun c => AV (fun b => dif f (moved (moved Y k (co k Y + IZR c * co k h)) i (co i Y + IZR b * co i h)) j (co j h) / co j h ^ 2)) - AV (fun c => second f j (moved Y k (co k Y + IZR c * co k h)))) <= co j h ^ 2 / 12 * M j j + co i h ^ 2 / 6 * M j i).
    { apply AV_close. intros c Hc. set (Z := moved Y k (co k Y + IZR c * co k h)). assert (EZ : co i Z = co i Y) by (apply co_moved_other; [auto|lia]). rewrite <- EZ. apply term2; auto; try (rewrite EZ; exact Ei); [|unfold Z; rewrite co_moved_other by (auto; lia); exact Ej].
      apply within_moved; auto. rewrite Ek. replace (co k X + IZR c * co k h - co k X) with (IZR c * co k h) by ring. apply steps_b; auto. }
    rewrite (AV_avg (second f j)) in A by lia.
    assert (B : Rabs (avg (second f j) Y k (co k h) - second f j Y) <= co k h ^ 2 / 6 * M j k).
    { apply avg_err; [lia|auto|]. intros t Ht. apply HS; auto. apply within_moved; auto. apply Rabs_le. lra. }
    apply Rabs_le_between in A. apply Rabs_le_between in B. apply Rabs_le. lra.
  Qed.
End Terms.
Section Means.
  Variables (f : vec -> R) (h X : vec) (M : nat -> R).
  Hypothesis Hp : forall i, (i < length h)%nat -> 0 < co i h.
  Hypothesis HX : length X = length h.
  Hypothesis HS : smooth2 f h X M.
  Lemma mean1 Y i : within 1 h X Y -> (i < length h)%nat -> co i Y = co i X -> Rabs (AV (fun b => f (moved Y i (co i Y + IZR b * co i h))) - f Y) <= co i h ^ 2 / 6 * M i.
  Proof. intros HY Hi E. assert (L : length Y = length h) by apply HY. rewrite AV_avg by lia. apply avg_err; [lia|auto|]. intros t Ht. apply HS; auto. apply within_moved; auto. apply Rabs_le. lra. Qed.
  Lemma mean2 Y i k : within 1 h X Y -> (i < length h)%nat -> (k < length h)%nat -> k <> i -> co i Y = co i X -> co k Y = co k X ->
    Rabs (AV (fun c => AV (fun b => f (moved (moved Y k (co k Y + IZR c * co k h)) i (co i Y + IZR b * co i h)))) - f Y) <= co i h ^ 2 / 6 * M i + co k h ^ 2 / 6 * M k.
  Proof.
    intros HY Hi Hk N Ei Ek. assert (L : length Y = length h) by apply HY.
    assert (A : Rabs (AV (fun c => AV (fun b => f (moved (moved Y k (co k Y + IZR c * co k h)) i (co i Y + IZR b * co i h)))) - AV (fun c => f (moved Y k (co k Y + IZR c * co k h)))) <= co i h ^ 2 / 6 * M i).
    { apply AV_close. intros c Hc. set (Z := moved Y k (co k Y + IZR c * co k h)). assert (EZ : co i Z = co i Y) by (apply co_moved_other; [auto|lia]). rewrite <- EZ. apply mean1; auto; [|rewrite EZ; exact Ei].
      apply within_moved; auto. rewrite Ek. replace (co k X + IZR c * co k h - co k X) with (IZR c * co k h) by ring. apply steps_b; auto. }
    pose proof (mean1 Y k HY Hk Ek) as B. apply Rabs_le_between in A. apply Rabs_le_between in B. apply Rabs_le. lra.
  Qed.
  Lemma mean3 Y i k l : within 1 h X Y -> (i < length h)%nat -> (k < length h)%nat -> (l < length h)%nat -> k <> i -> l <> i -> l <> k -> co i Y = co i X -> co k Y = co k X -> co l Y = co l X ->
    Rabs (AV (fun d => AV (fun c => AV (fun b => f (moved (moved (moved Y l (co l Y + IZR d * co l h)) k (co k Y + IZR c * co k h)) i (co i Y + IZR b * co i h))))) - f Y) <= co i h ^ 2 / 6 * M i + co k h ^ 2 / 6 * M k + co l h ^ 2 / 6 * M l.
  Proof.
    intros HY Hi Hk Hl N1 N2 N3 Ei Ek El. assert (L : length Y = length h) by apply HY.
    assert (A : Rabs (AV (fun d => AV (fun c => AV (fun b => f (moved (moved (moved Y l (co l Y + IZR d * co l h)) k (co k Y + IZR c * co k h)) i (co i Y + IZR b * co i h))))) - AV (fun c => f (moved Y l (co l Y + IZR c * co l h)))) <= co i h ^ 2 / 6 * M i + co k h ^ 2 / 6 * M k).
    { apply AV_close. intros c Hc. set (Z := moved Y l (co l Y + IZR c * co l h)). assert (EZ : co i Z = co i Y) by (apply co_moved_other; [auto|lia]). assert (EK : co k Z = co k Y) by (apply co_moved_other; [auto|lia]). rewrite <- EZ, <- EK. apply mean2; auto; try (rewrite EZ; exact Ei); try (rewrite EK; exact Ek).
      apply within_moved; auto. rewrite El. replace (co l X + IZR c * co l h - co l X) with (IZR c * co l h) by ring. apply steps_b; auto. }
    pose proof (mean1 Y l HY Hl El) as B. apply Rabs_le_between in A. apply Rabs_le_between in B. apply Rabs_le. lra.
  Qed.
End Means.
Lemma within_refl h X : (forall i, (i < length h)%nat -> 0 < co i h) -> length X = length h -> within 1 h X X.
Proof. intros Hp L. split; [exact L|]. intros i Hi. rewrite Rminus_eq_0, Rabs_R0. specialize (Hp i Hi). lra. Qed.

(** ** rows *)
Lemma wrap_add m : forall per p b, length per = length m -> length p = length m -> length b = length m -> wrap m per (add (wrap m per p) b) = wrap m per (add p b).
Proof.
  induction m as [|z m IH]; intros [|q per] [|a p] [|b bs] L1 L2 L3; cbn [length] in *; try lia; [reflexivity|]. cbn [wrap add zip_with]. f_equal; [|apply IH; lia]. destruct q; [apply Zplus_mod_idemp_l|reflexivity].
Qed.
Lemma add_sub_add n a b : length n = length a -> length n = length b -> add (sub n a) b = add n (sub b a).
Proof. revert a b. induction n as [|x n IH]; intros [|y a] [|z b] L1 L2; cbn [length] in *; try lia; [reflexivity|]. unfold add, sub in *. cbn [zip_with]. f_equal; [lia|apply IH; lia]. Qed.
Lemma offset_ok D k1 k2 : length (sub (bits D k2) (bits D k1)) = D /\ Forall (fun a => (-1 <= a <= 1)%Z) (sub (bits D k2) (bits D k1)).
Proof.
  destruct (bits_ok D k1) as [F1 L1]. destruct (bits_ok D k2) as [F2 L2]. split; [rewrite length_sub; lia|]. revert F1 F2 L1 L2. generalize (bits D k1) (bits D k2). clear. intros a b F1. revert b D. induction F1 as [|x a Hx F1 IH]; intros [|y b] D F2 L1 L2; cbn [length] in *; subst; try lia; unfold sub; cbn [zip_with]; constructor; inversion F2; subst; [lia|]. eapply IH; auto.
Qed.
Lemma row_samples m per h dof M n c x f : length per = length m -> Forall (fun z => (1 <= z)%Z) m -> inside m per n -> (c < dof)%nat -> samples_near f m per h x n c ->
  scalar_form m per (E0 m per) dof M (S_Bc.unit_field n c) x
  = Rsum (2 ^ length m) (fun k1 => Rsum (2 ^ length m) (fun k2 => M k1 k2 * f (grid_point h (add n (sub (bits (length m) k2) (bits (length m) k1)))))).
Proof.
  intros HL HF HI Hc HX. unfold scalar_form.
  transitivity (Lsum (fun e => Rsum (2 ^ length m) (fun k1 => S_Bc.unit_field n c (wrap m per (corner e k1)) c * Rsum (2 ^ length m) (fun k2 => M k1 k2 * gv m per x e k2 c))) (E0 m per)).
  - apply Lsum_ext. intros e _. rewrite (Rsum_single dof c); auto.
    + apply Rsum_ext. intros k1 _. rewrite <- Rsum_scal. apply Rsum_ext. intros k2 _. unfold gv at 1. ring.
    + intros d Hd Ne. rewrite (Rsum_ext _ _ (fun _ => 0)); [apply Rsum_zero|]. intros k1 _. rewrite (Rsum_ext _ _ (fun _ => 0)); [apply Rsum_zero|]. intros k2 _. unfold gv at 1. rewrite unit_other by auto. ring.
  - rewrite Lsum_Rsum. apply Rsum_ext. intros k1 _. etransitivity; [apply (gather m per n c (fun k1 e => Rsum (2 ^ length m) (fun k2 => M k1 k2 * gv m per x e k2 c)) k1); auto|]. cbn beta.
    apply Rsum_ext. intros k2 _. f_equal. destruct (bits_ok (length m) k1) as [_ L1]. destruct (bits_ok (length m) k2) as [_ L2]. assert (LN : length n = length m) by apply HI. unfold gv. rewrite corner_add, length_wrap; [|auto|rewrite length_sub; lia].
    rewrite wrap_add; [|auto|rewrite length_sub; lia|lia]. rewrite add_sub_add by lia. apply HX; apply offset_ok.
Qed.
(** ** the Laplacian and mass rows in 2 and 3 dimensions *)
Lemma pos_co h m : steps_ok h m -> forall i, (i < length h)%nat -> 0 < co i h.
Proof. intros [_ H] i Hi. rewrite Forall_forall in H. apply H. apply nth_In, Hi. Qed.
Lemma unit_steps (x s : R) : x + 1 * s = x + s /\ x + -1 * s = x - s /\ x + 0 * s = x.
Proof. repeat split; ring. Qed.
Ltac normal := cbv [AV dif line moved co firstn skipn app nth]; repeat rewrite ?(fun x s => proj1 (unit_steps x s)), ?(fun x s => proj1 (proj2 (unit_steps x s))), ?(fun x s => proj2 (proj2 (unit_steps x s))).
Lemma grid_add2 f h0 h1 n0 n1 a b : f (grid_point [h0; h1] (add [n0; n1] [a; b])) = f [IZR n0 * h0 + IZR a * h0; IZR n1 * h1 + IZR b * h1] :> R.
Proof. f_equal. cbv [grid_point zip_with add]. rewrite !plus_IZR. f_equal; [|f_equal]; ring. Qed.
Lemma grid_add3 f h0 h1 h2 n0 n1 n2 a b c : f (grid_point [h0; h1; h2] (add [n0; n1; n2] [a; b; c])) = f [IZR n0 * h0 + IZR a * h0; IZR n1 * h1 + IZR b * h1; IZR n2 * h2 + IZR c * h2] :> R.
Proof. f_equal. cbv [grid_point zip_with add]. rewrite !plus_IZR. f_equal; [|f_equal; [|f_equal]]; ring. Qed.
Lemma lap_row2 f h0 h1 n0 n1 : 0 < h0 -> 0 < h1 -> let h := [h0; h1] in let X := grid_point h [n0; n1] in
  Rsum 4 (fun k1 => Rsum 4 (fun k2 => getMatElemLaplacian h k1 k2 * f (grid_point h (add [n0; n1] (sub (bits 2 k2) (bits 2 k1)))))) =
  - (h0 * h1) * (AV (fun b => dif f (moved X 1 (co 1 X + IZR b * co 1 h)) 0 (co 0 h) / co 0 h ^ 2) + AV (fun b => dif f (moved X 0 (co 0 X + IZR b * co 0 h)) 1 (co 1 h) / co 1 h ^ 2)).
Proof.
  intros P0 P1 h X. unfold h at 1. rewrite (lap2_all h0 h1 (fun o => f (grid_point h (add [n0; n1] o)))) by lra. cbv beta zeta. unfold h. rewrite !grid_add2. change X with [IZR n0 * h0; IZR n1 * h1]. clear. generalize (IZR n0 * h0) (IZR n1 * h1). intros x0 x1. normal. unfold Rdiv. ring.
Qed.
Lemma mass_row2 f h0 h1 n0 n1 : let h := [h0; h1] in let X := grid_point h [n0; n1] in
  Rsum 4 (fun k1 => Rsum 4 (fun k2 => getMatElemMass h k1 k2 * f (grid_point h (add [n0; n1] (sub (bits 2 k2) (bits 2 k1)))))) =
  h0 * h1 * AV (fun c => AV (fun b => f (moved (moved X 1 (co 1 X + IZR c * co 1 h)) 0 (co 0 X + IZR b * co 0 h)))).
Proof.
  intros h X. unfold h at 1. rewrite (mass2_all h0 h1 (fun o => f (grid_point h (add [n0; n1] o)))). cbv beta zeta. unfold h. rewrite !grid_add2. change X with [IZR n0 * h0; IZR n1 * h1]. clear. generalize (IZR n0 * h0) (IZR n1 * h1). intros x0 x1. normal. unfold Rdiv. ring.
Qed.
Lemma lap_row3 f h0 h1 h2 n0 n1 n2 : 0 < h0 -> 0 < h1 -> 0 < h2 -> let h := [h0; h1; h2] in let X := grid_point h [n0; n1; n2] in
  Rsum 8 (fun k1 => Rsum 8 (fun k2 => getMatElemLaplacian h k1 k2 * f (grid_point h (add [n0; n1; n2] (sub (bits 3 k2) (bits 3 k1)))))) =
  - (h0 * h1 * h2) * (AV (fun c => AV (fun b => dif f (moved (moved X 2 (co 2 X + IZR c * co 2 h)) 1 (co 1 X + IZR b * co 1 h)) 0 (co 0 h) / co 0 h ^ 2)) +
    AV (fun c => AV (fun b => dif f (moved (moved X 2 (co 2 X + IZR c * co 2 h)) 0 (co 0 X + IZR b * co 0 h)) 1 (co 1 h) / co 1 h ^ 2)) +
    AV (fun c => AV (fun b => dif f (moved (moved X 1 (co 1 X + IZR c * co 1 h)) 0 (co 0 X + IZR b * co 0 h)) 2 (co 2 h) / co 2 h ^ 2))).
Proof.
  intros P0 P1 P2 h X. unfold h at 1. rewrite (lap3_all h0 h1 h2 (fun o => f (grid_point h (add [n0; n1; n2] o)))) by lra. cbv beta zeta. unfold h. rewrite !grid_add3. change X with [IZR n0 * h0; IZR n1 * h1; IZR n2 * h2]. clear. generalize (IZR n0 * h0) (IZR n1 * h1) (IZR n2 * h2). intros x0 x1 x2. normal. unfold Rdiv. ring.
Qed.
Lemma mass_row3 f h0 h1 h2 n0 n1 n2 : let h := [h0; h1; h2] in let X := grid_point h [n0; n1; n2] in
  Rsum 8 (fun k1 => Rsum 8 (fun k2 => getMatElemMass h k1 k2 * f (grid_point h (add [n0; n1; n2] (sub (bits 3 k2) (bits 3 k1)))))) =
  h0 * h1 * h2 * AV (fun d => AV (fun c => AV (fun b => f (moved (moved (moved X 2 (co 2 X + IZR d * co 2 h)) 1 (co 1 X + IZR c * co 1 h)) 0 (co 0 X + IZR b * co 0 h))))).
Proof.
  intros h X. unfold h at 1. rewrite (mass3_all h0 h1 h2 (fun o => f (grid_point h (add [n0; n1; n2] o)))). cbv beta zeta. unfold h. rewrite !grid_add3. change X with [IZR n0 * h0; IZR n1 * h1; IZR n2 * h2]. clear. generalize (IZR n0 * h0) (IZR n1 * h1) (IZR n2 * h2). intros x0 x1 x2. normal. unfold Rdiv. ring.
Qed.
