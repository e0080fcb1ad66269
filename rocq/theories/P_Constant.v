(** A constant pressure does no work on a velocity without flux through the walls. *)
From Coq Require Import Permutation QArith Qreals.
From Coquelicot Require Import Coquelicot.
From Verif Require Import Base M_Geometry S_Geometry P_Geometry M_Particle S_Particle P_Particle M_Quadrature S_Fem M_MatElem P_MatElem P_Energy M_Mesh M_Operator M_Bc M_Assembly S_Operator S_Bc P_Mesh P_Operator P_Operator2 P_Global P_Stokes P_Operator3 P_Assembly P_Assembly2 P_Telescope.
Open Scope R_scope.

(** component d of v is null on the two sides of axis d, for each non-periodic axis *)
Definition no_flux (m : list Z) (per : list bool) (v : field) : Prop :=
  forall n s, in_grid_box (nodes_box m) n -> (fst s < length m)%nat -> on_side m per n s = true -> v n (fst s) = 0.

Section Press2.
  Variables (m0 m1 : Z) (q0 q1 : bool).
  Let mp := [m0; m1]. Let per := [q0; q1].
  Hypothesis HM : (1 <= m0 /\ 1 <= m1)%Z.
  Let mv := refined_size mp per.
  Let r (q : bool) (z : Z) := if q then (2 * z)%Z else (2 * z - 1)%Z.
  Lemma mv2 : mv = [r q0 m0; r q1 m1]. Proof. reflexivity. Qed.
  Lemma n2r q z : n2 q (r q z) = (if q then 2 * z else 2 * (z - 1))%Z. Proof. unfold n2, r; destruct q; lia. Qed.
  Lemma r_pos q z : (1 <= z)%Z -> (1 <= r q z)%Z. Proof. unfold r; destruct q; lia. Qed.
  Lemma n2_double q z : n2 q (r q z) = (2 * n2 q z)%Z. Proof. unfold n2, r; destruct q; lia. Qed.
  Variables (h0 h1 c : R) (v : field).
  Let W i j d := v (wrap mv per [i; j]) d.
  Let HX (i j : Z) : R := h1 * (W (2 * i) (2 * j) 0%nat / 2 + W (2 * i) (2 * j + 1) 0%nat + W (2 * i) (2 * j + 2) 0%nat / 2).
  Let HY (i j : Z) : R := h0 * (W (2 * i) (2 * j) 1%nat / 2 + W (2 * i + 1) (2 * j) 1%nat + W (2 * i + 2) (2 * j) 1%nat / 2).
  Lemma const_elem i j : Rsum 4 (fun kp => Rsum 9 (fun kv => Rsum 2 (fun d => c * getMatElemPressure [h0; h1] kp kv d * gv3 mv per v [i; j] kv d)))
    = c * (HX (i + 1) j - HX i j + HY i (j + 1) - HY i j).
  Proof.
    assert (C : forall k x, gv3 mv per x [i; j] k = x (wrap mv per [2 * i + Z.of_nat (k / 1 mod 3)%nat; 2 * j + Z.of_nat (k / 3 mod 3)%nat])%Z) by reflexivity.
    unfold HX, HY, W. replace (2 * (i + 1))%Z with (2 * i + 2)%Z by ring. replace (2 * (j + 1))%Z with (2 * j + 2)%Z by ring.
    cbn [Rsum]. rewrite !C. unfold getMatElemPressure, getMatElemPressure2, matElem2d_pdxu, matElem2d_pdyu, entry, matElem2d_pdxu_q, matElem2d_pdyu_q.
    cbn [nth Nat.div Nat.modulo Nat.divmod fst snd Nat.sub Z.of_nat Pos.of_succ_nat Pos.succ].
    rewrite !Z.add_0_r. unfold Q2R. cbn [Qnum Qden]. field.
  Qed.
  Hypothesis HV : no_flux mv per v.
  Lemma const_form E : enumerates E (cells_box mp per) -> div_form mv mp per E 2 (getMatElemPressure [h0; h1]) (fun _ _ => c) v = 0.
  Proof.
    intros HE.
    assert (HM' : (1 <= r q0 m0 /\ 1 <= r q1 m1)%Z) by (split; apply r_pos; lia).
    assert (NN : forall q z, (1 <= z)%Z -> (0 <= n2 q z)%Z) by (unfold n2; intros [] ? ?; lia).
    assert (SX : Lsum (fun e => HX (nth 0 e 0 + 1)%Z (nth 1 e 0%Z)) E = Lsum (fun e => HX (nth 0 e 0%Z) (nth 1 e 0%Z)) E).
    { apply (shift_x m0 m1 q0 q1 E HX HE). intros j Hj Hn.
      assert (T : forall y, (0 <= y <= n2 q1 (r q1 m1))%Z -> W (2 * n2 q0 m0) y 0%nat = W (2 * 0) y 0%nat).
      { intros y Hy. rewrite <- n2_double. destruct (bool_dec q0 true) as [Q|Q].
        - unfold W, mv. change (refined_size mp per) with [r q0 m0; r q1 m1]. unfold per. rewrite wrap_x by auto. reflexivity.
        - apply not_true_is_false in Q. destruct (ends_x (r q0 m0) (r q1 m1) q0 q1 y Hy (NN q0 _ (proj1 HM')) Q) as [S1 S2].
          transitivity 0; [apply (HV _ (0%nat, true))|symmetry; apply (HV _ (0%nat, false))]; try exact S1; try exact S2; try (cbn; lia);
            apply (nodes2 (r q0 m0) (r q1 m1) q0 q1 HM'); try lia; pose proof (NN q0 _ (proj1 HM')); lia. }
      unfold HX. rewrite !T; [reflexivity| | |]; rewrite n2_double; lia. }
    assert (SY : Lsum (fun e => HY (nth 0 e 0%Z) (nth 1 e 0 + 1)%Z) E = Lsum (fun e => HY (nth 0 e 0%Z) (nth 1 e 0%Z)) E).
    { apply (shift_y m0 m1 q0 q1 E HY HE). intros i Hi Hn.
      assert (T : forall y, (0 <= y <= n2 q0 (r q0 m0))%Z -> W y (2 * n2 q1 m1) 1%nat = W y (2 * 0) 1%nat).
      { intros y Hy. rewrite <- n2_double. destruct (bool_dec q1 true) as [Q|Q].
        - unfold W, mv. change (refined_size mp per) with [r q0 m0; r q1 m1]. unfold per. rewrite wrap_y by auto. reflexivity.
        - apply not_true_is_false in Q. destruct (ends_y (r q0 m0) (r q1 m1) q0 q1 y Hy (NN q1 _ (proj2 HM')) Q) as [S1 S2].
          transitivity 0; [apply (HV _ (1%nat, true))|symmetry; apply (HV _ (1%nat, false))]; try exact S1; try exact S2; try (cbn; lia);
            apply (nodes2 (r q0 m0) (r q1 m1) q0 q1 HM'); try lia; pose proof (NN q1 _ (proj2 HM')); lia. }
      unfold HY. rewrite !T; [reflexivity| | |]; rewrite n2_double; lia. }
    unfold div_form. change (2 ^ length mp)%nat with 4%nat. change (3 ^ length mp)%nat with 9%nat.
    transitivity (Lsum (fun e => c * (HX (nth 0 e 0 + 1)%Z (nth 1 e 0%Z)) + (- c) * (HX (nth 0 e 0%Z) (nth 1 e 0%Z)) + c * HY (nth 0 e 0%Z) (nth 1 e 0 + 1)%Z + (- c) * HY (nth 0 e 0%Z) (nth 1 e 0%Z)) E).
    { apply Lsum_ext. intros e He. apply HE in He. change (cells_box mp per) with (box0 [n2 q0 m0; n2 q1 m1]) in He. apply in_cells2 in He as (i & j & -> & _).
      etransitivity; [exact (const_elem i j)|]. cbn [nth]. ring. }
    rewrite !Lsum_plus, !Lsum_scal, SX, SY. ring.
  Qed.
End Press2.

Section Press3.
  Variables (m0 m1 m2 : Z) (q0 q1 q2 : bool).
  Let mp := [m0; m1; m2]. Let per := [q0; q1; q2].
  Hypothesis HM : (1 <= m0 /\ 1 <= m1 /\ 1 <= m2)%Z.
  Let mv := refined_size mp per.
  Let r (q : bool) (z : Z) := if q then (2 * z)%Z else (2 * z - 1)%Z.
  Variables (h0 h1 h2 c : R) (v : field).
  Let W i j k d := v (wrap mv per [i; j; k]) d.
  Definition w3 (f : Z -> Z -> R) : R := f 0%Z 0%Z / 4 + f 1%Z 0%Z / 2 + f 2%Z 0%Z / 4 + f 0%Z 1%Z / 2 + f 1%Z 1%Z + f 2%Z 1%Z / 2 + f 0%Z 2%Z / 4 + f 1%Z 2%Z / 2 + f 2%Z 2%Z / 4.
  Lemma w3_ext f g : (forall a b, (0 <= a <= 2)%Z -> (0 <= b <= 2)%Z -> f a b = g a b) -> w3 f = w3 g.
  Proof. intros H. unfold w3. rewrite !H by lia. reflexivity. Qed.
  Let HX (i j k : Z) : R := h1 * h2 * w3 (fun a b => W (2 * i) (2 * j + a) (2 * k + b) 0%nat).
  Let HY (i j k : Z) : R := h0 * h2 * w3 (fun a b => W (2 * i + a) (2 * j) (2 * k + b) 1%nat).
  Let HZ (i j k : Z) : R := h0 * h1 * w3 (fun a b => W (2 * i + a) (2 * j + b) (2 * k) 2%nat).
  Definition wt (a b d : nat) : R := (match d with 0%nat => -1 | 1%nat => 0 | _ => 1 end) * (match a with 1%nat => 1 | _ => /2 end) * (match b with 1%nat => 1 | _ => /2 end).
  Lemma col_x kv : (kv < 27)%nat -> Rsum 8 (fun kp => matElem3d_pdxu kp kv) = - wt (kv / 3 mod 3) (kv / 9) (kv mod 3).
  Proof. intros H. do 27 (destruct kv as [|kv]; [cbn -[Rplus Rmult Q2R]; unfold matElem3d_pdxu, entry, wt; cbn -[Rplus Rmult Q2R]; unfold Q2R; cbn; field|]). lia. Qed.
  Lemma col_y kv : (kv < 27)%nat -> Rsum 8 (fun kp => matElem3d_pdyu kp kv) = - wt (kv mod 3) (kv / 9) (kv / 3 mod 3).
  Proof. intros H. do 27 (destruct kv as [|kv]; [cbn -[Rplus Rmult Q2R]; unfold matElem3d_pdyu, entry, wt; cbn -[Rplus Rmult Q2R]; unfold Q2R; cbn; field|]). lia. Qed.
  Lemma col_z kv : (kv < 27)%nat -> Rsum 8 (fun kp => matElem3d_pdzu kp kv) = - wt (kv mod 3) (kv / 3 mod 3) (kv / 9).
  Proof. intros H. do 27 (destruct kv as [|kv]; [cbn -[Rplus Rmult Q2R]; unfold matElem3d_pdzu, entry, wt; cbn -[Rplus Rmult Q2R]; unfold Q2R; cbn; field|]). lia. Qed.
  Lemma const_elem3 i j k : Rsum 8 (fun kp => Rsum 27 (fun kv => Rsum 3 (fun d => c * getMatElemPressure [h0; h1; h2] kp kv d * gv3 mv per v [i; j; k] kv d)))
    = c * (HX (i + 1) j k - HX i j k + HY i (j + 1) k - HY i j k + HZ i j (k + 1) - HZ i j k).
  Proof.
    rewrite Rsum_swap.
    transitivity (Rsum 27 (fun kv => c * (h1 * h2 * wt (kv / 3 mod 3) (kv / 9) (kv mod 3) * gv3 mv per v [i; j; k] kv 0 + h0 * h2 * wt (kv mod 3) (kv / 9) (kv / 3 mod 3) * gv3 mv per v [i; j; k] kv 1 + h0 * h1 * wt (kv mod 3) (kv / 3 mod 3) (kv / 9) * gv3 mv per v [i; j; k] kv 2))).
    { apply Rsum_ext. intros kv Hk. rewrite Rsum_swap. cbn [Rsum].
      assert (X : forall (P : nat -> R) (w a : R), Rsum 8 P = - w -> 0 + c * (- a * P 0%nat) * 1 = 0 + c * (- a * P 0%nat) * 1) by reflexivity. clear X.
      pose proof (col_x kv Hk) as X. pose proof (col_y kv Hk) as Y. pose proof (col_z kv Hk) as Zz. cbn [Rsum] in X, Y, Zz. cbn [getMatElemPressure getMatElemPressure3].
      set (g0 := gv3 mv per v [i; j; k] kv 0). set (g1 := gv3 mv per v [i; j; k] kv 1). set (g2 := gv3 mv per v [i; j; k] kv 2).
      assert (Ex : wt (kv / 3 mod 3) (kv / 9) (kv mod 3) = - (0 + matElem3d_pdxu 0 kv + matElem3d_pdxu 1 kv + matElem3d_pdxu 2 kv + matElem3d_pdxu 3 kv + matElem3d_pdxu 4 kv + matElem3d_pdxu 5 kv + matElem3d_pdxu 6 kv + matElem3d_pdxu 7 kv)) by lra.
      assert (Ey : wt (kv mod 3) (kv / 9) (kv / 3 mod 3) = - (0 + matElem3d_pdyu 0 kv + matElem3d_pdyu 1 kv + matElem3d_pdyu 2 kv + matElem3d_pdyu 3 kv + matElem3d_pdyu 4 kv + matElem3d_pdyu 5 kv + matElem3d_pdyu 6 kv + matElem3d_pdyu 7 kv)) by lra.
      assert (Ez : wt (kv mod 3) (kv / 3 mod 3) (kv / 9) = - (0 + matElem3d_pdzu 0 kv + matElem3d_pdzu 1 kv + matElem3d_pdzu 2 kv + matElem3d_pdzu 3 kv + matElem3d_pdzu 4 kv + matElem3d_pdzu 5 kv + matElem3d_pdzu 6 kv + matElem3d_pdzu 7 kv)) by lra.
      rewrite Ex, Ey, Ez. ring. }
    assert (C : forall q x, gv3 mv per x [i; j; k] q = x (wrap mv per [2 * i + Z.of_nat (q / 1 mod 3)%nat; 2 * j + Z.of_nat (q / 3 mod 3)%nat; 2 * k + Z.of_nat (q / 9 mod 3)%nat])%Z) by reflexivity.
    unfold HX, HY, HZ, W, w3. replace (2 * (i + 1))%Z with (2 * i + 2)%Z by ring. replace (2 * (j + 1))%Z with (2 * j + 2)%Z by ring. replace (2 * (k + 1))%Z with (2 * k + 2)%Z by ring.
    cbn [Rsum]. rewrite !C. unfold wt. cbn [Nat.div Nat.modulo Nat.divmod fst snd Nat.sub Z.of_nat Pos.of_succ_nat Pos.succ].
    rewrite !Z.add_0_r. field.
  Qed.
  Hypothesis HV : no_flux mv per v.
  Let n := [n2 q0 m0; n2 q1 m1; n2 q2 m2].
  Lemma in_cells3 e : in_grid_box (box0 n) e -> exists i j k, e = [i; j; k] /\ (0 <= i < n2 q0 m0)%Z /\ (0 <= j < n2 q1 m1)%Z /\ (0 <= k < n2 q2 m2)%Z.
  Proof.
    unfold in_grid_box, box0, n. cbn [bottom_left upper_right map]. intros [A B]. inversion A as [|? i ? t A1 A2]; subst. inversion A2 as [|? j ? t' A3 A4]; subst. inversion A4 as [|? k ? t'' A5 A6]; subst. inversion A6; subst.
    inversion B as [|? ? ? ? B1 B2]; subst. inversion B2 as [|? ? ? ? B3 B4]; subst. inversion B4; subst. exists i, j, k. repeat split; auto.
  Qed.
  Lemma wr3 i j k : wrap mv per [i; j; k] = [if q0 then i mod r q0 m0 else i; if q1 then j mod r q1 m1 else j; if q2 then k mod r q2 m2 else k]%Z. Proof. reflexivity. Qed.
  Lemma in_ax (q : bool) x M : (1 <= M)%Z -> (0 <= x <= n2 q M)%Z -> (0 <= (if q then x mod M else x) < M)%Z.
  Proof. unfold n2. destruct q; intros; [apply Z.mod_pos_bound|]; lia. Qed.
  Lemma nodes3 i j k : (0 <= i <= 2 * n2 q0 m0)%Z -> (0 <= j <= 2 * n2 q1 m1)%Z -> (0 <= k <= 2 * n2 q2 m2)%Z -> in_grid_box (nodes_box mv) (wrap mv per [i; j; k]).
  Proof.
    intros Hi Hj Hk. rewrite wr3. assert (D : forall q z, n2 q (r q z) = (2 * n2 q z)%Z) by (unfold n2, r; intros [] ?; lia). assert (P : forall q z, (1 <= z)%Z -> (1 <= r q z)%Z) by (unfold r; intros [] ? ?; lia).
    pose proof (in_ax q0 i (r q0 m0) (P q0 m0 ltac:(lia)) ltac:(rewrite D; lia)). pose proof (in_ax q1 j (r q1 m1) (P q1 m1 ltac:(lia)) ltac:(rewrite D; lia)). pose proof (in_ax q2 k (r q2 m2) (P q2 m2 ltac:(lia)) ltac:(rewrite D; lia)).
    unfold in_grid_box, nodes_box. change mv with [r q0 m0; r q1 m1; r q2 m2]. cbn [bottom_left upper_right map]. split; repeat apply Forall2_cons; try apply Forall2_nil; lia.
  Qed.
  Lemma end_val (d : nat) (p p' : list Z) : (d < 3)%nat -> in_grid_box (nodes_box mv) (wrap mv per p) -> in_grid_box (nodes_box mv) (wrap mv per p') ->
    (nth d per false = true -> wrap mv per p = wrap mv per p') ->
    (nth d per false = false -> nth d (wrap mv per p) 0%Z = (nth d mv 0 - 1)%Z /\ nth d (wrap mv per p') 0%Z = 0%Z) ->
    v (wrap mv per p) d = v (wrap mv per p') d.
  Proof.
    intros Hd I1 I2 A B. destruct (nth d per false) eqn:Q; [rewrite A; reflexivity|]. destruct (B eq_refl) as [B1 B2].
    transitivity 0; [apply (HV _ (d, true))|symmetry; apply (HV _ (d, false))]; auto; try (change (length mv) with 3%nat; exact Hd); unfold on_side; cbn [fst snd]; rewrite Q; cbn [negb andb]; apply Z.eqb_eq; auto.
  Qed.
  Lemma same_mod (q : bool) M : q = true -> (1 <= M)%Z -> ((2 * n2 q M) mod r q M = 0 mod r q M)%Z.
  Proof. intros -> H. unfold n2, r. rewrite Z.mod_same, Z.mod_0_l by lia. reflexivity. Qed.
  Lemma const_form3 E : enumerates E (cells_box mp per) -> div_form mv mp per E 3 (getMatElemPressure [h0; h1; h2]) (fun _ _ => c) v = 0.
  Proof.
    intros HE. change (cells_box mp per) with (box0 n) in HE.
    assert (SX : Lsum (fun e => HX (nth 0 e 0 + 1)%Z (nth 1 e 0%Z) (nth 2 e 0%Z)) E = Lsum (fun e => HX (nth 0 e 0%Z) (nth 1 e 0%Z) (nth 2 e 0%Z)) E).
    { rewrite <- (shift_sum n 0 E (fun e => HX (nth 0 e 0%Z) (nth 1 e 0%Z) (nth 2 e 0%Z)) HE).
      - apply Lsum_ext. intros e He. apply HE in He. apply in_cells3 in He as (i & j & k & -> & _). reflexivity.
      - intros e He. apply in_cells3 in He as (i & j & k & -> & Hi & Hj & Hk). unfold n. cbn [bump roll nth]. intros Eq. rewrite Eq, Z.eqb_refl.
        unfold HX, W. f_equal. apply w3_ext. intros a b Ha Hb. apply (end_val 0%nat); try lia; try (apply nodes3; lia); change (nth 0 per false) with q0; intros Q; rewrite !wr3.
        + rewrite Q. replace (2 * 0)%Z with 0%Z by ring. rewrite <- Q. rewrite same_mod by (auto; lia). rewrite Q. reflexivity.
        + rewrite Q. change mv with [r q0 m0; r q1 m1; r q2 m2]. cbn [nth]. unfold n2, r. rewrite Q. lia. }
    assert (SY : Lsum (fun e => HY (nth 0 e 0%Z) (nth 1 e 0 + 1)%Z (nth 2 e 0%Z)) E = Lsum (fun e => HY (nth 0 e 0%Z) (nth 1 e 0%Z) (nth 2 e 0%Z)) E).
    { rewrite <- (shift_sum n 1 E (fun e => HY (nth 0 e 0%Z) (nth 1 e 0%Z) (nth 2 e 0%Z)) HE).
      - apply Lsum_ext. intros e He. apply HE in He. apply in_cells3 in He as (i & j & k & -> & _). reflexivity.
      - intros e He. apply in_cells3 in He as (i & j & k & -> & Hi & Hj & Hk). unfold n. cbn [bump roll nth]. intros Eq. rewrite Eq, Z.eqb_refl.
        unfold HY, W. f_equal. apply w3_ext. intros a b Ha Hb. apply (end_val 1%nat); try lia; try (apply nodes3; lia); change (nth 1 per false) with q1; intros Q; rewrite !wr3.
        + rewrite Q. replace (2 * 0)%Z with 0%Z by ring. rewrite <- Q. rewrite same_mod by (auto; lia). rewrite Q. reflexivity.
        + rewrite Q. change mv with [r q0 m0; r q1 m1; r q2 m2]. cbn [nth]. unfold n2, r. rewrite Q. lia. }
    assert (SZ : Lsum (fun e => HZ (nth 0 e 0%Z) (nth 1 e 0%Z) (nth 2 e 0 + 1)%Z) E = Lsum (fun e => HZ (nth 0 e 0%Z) (nth 1 e 0%Z) (nth 2 e 0%Z)) E).
    { rewrite <- (shift_sum n 2 E (fun e => HZ (nth 0 e 0%Z) (nth 1 e 0%Z) (nth 2 e 0%Z)) HE).
      - apply Lsum_ext. intros e He. apply HE in He. apply in_cells3 in He as (i & j & k & -> & _). reflexivity.
      - intros e He. apply in_cells3 in He as (i & j & k & -> & Hi & Hj & Hk). unfold n. cbn [bump roll nth]. intros Eq. rewrite Eq, Z.eqb_refl.
        unfold HZ, W. f_equal. apply w3_ext. intros a b Ha Hb. apply (end_val 2%nat); try lia; try (apply nodes3; lia); change (nth 2 per false) with q2; intros Q; rewrite !wr3.
        + rewrite Q. replace (2 * 0)%Z with 0%Z by ring. rewrite <- Q. rewrite same_mod by (auto; lia). rewrite Q. reflexivity.
        + rewrite Q. change mv with [r q0 m0; r q1 m1; r q2 m2]. cbn [nth]. unfold n2, r. rewrite Q. lia. }
    unfold div_form. change (2 ^ length mp)%nat with 8%nat. change (3 ^ length mp)%nat with 27%nat.
    transitivity (Lsum (fun e => c * HX (nth 0 e 0 + 1)%Z (nth 1 e 0%Z) (nth 2 e 0%Z) + (- c) * HX (nth 0 e 0%Z) (nth 1 e 0%Z) (nth 2 e 0%Z)
      + c * HY (nth 0 e 0%Z) (nth 1 e 0 + 1)%Z (nth 2 e 0%Z) + (- c) * HY (nth 0 e 0%Z) (nth 1 e 0%Z) (nth 2 e 0%Z)
      + c * HZ (nth 0 e 0%Z) (nth 1 e 0%Z) (nth 2 e 0 + 1)%Z + (- c) * HZ (nth 0 e 0%Z) (nth 1 e 0%Z) (nth 2 e 0%Z)) E).
    { apply Lsum_ext. intros e He. apply HE in He. apply in_cells3 in He as (i & j & k & -> & _).
      etransitivity; [exact (const_elem3 i j k)|]. cbn [nth]. ring. }
    rewrite !Lsum_plus, !Lsum_scal, SX, SY, SZ. ring.
  Qed.
End Press3.
(** both dimensions at once *)
Lemma const_pressure_form h mp per E c v : grid_ok mp per -> length h = length mp -> enumerates E (cells_box mp per) -> no_flux (refined_size mp per) per v ->
  div_form (refined_size mp per) mp per E (length mp) (getMatElemPressure h) (fun _ _ => c) v = 0.
Proof.
  intros (HD & HL & HF) Hh HE HV. destruct HD as [D|D].
  - destruct mp as [|m0 [|m1 [|]]]; try discriminate D. destruct per as [|q0 [|q1 [|]]]; try discriminate HL. destruct h as [|h0 [|h1 [|]]]; try discriminate Hh.
    inversion HF as [|? ? F0 F']; subst. inversion F' as [|? ? F1 _]; subst. exact (const_form m0 m1 q0 q1 (conj F0 F1) h0 h1 c v HV E HE).
  - destruct mp as [|m0 [|m1 [|m2 [|]]]]; try discriminate D. destruct per as [|q0 [|q1 [|q2 [|]]]]; try discriminate HL. destruct h as [|h0 [|h1 [|h2 [|]]]]; try discriminate Hh.
    inversion HF as [|? ? F0 F']; subst. inversion F' as [|? ? F1 F'']; subst. inversion F'' as [|? ? F2 _]; subst. exact (const_form3 m0 m1 m2 q0 q1 q2 (conj F0 (conj F1 F2)) h0 h1 h2 c v HV E HE).
Qed.
Close Scope R_scope.
