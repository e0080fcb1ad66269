(** Pressures that do no work against velocities vanishing on the walls are constant (3D). *)
From Coq Require Import QArith Qreals.
From Verif Require Import Base M_Geometry S_Geometry P_Geometry M_Shapes M_Particle S_Particle P_Particle M_Quadrature S_Fem P_Energy M_MatElem M_Mesh M_Operator S_Operator P_Mesh P_Operator P_Operator3 P_Global M_Bc S_Bc P_PressKer.
Local Open Scope R_scope.

Section PK3.
  Variables (m0 m1 m2 : Z) (q0 q1 q2 : bool) (h0 h1 h2 : R) (p : field).
  Let mp := [m0; m1; m2]. Let per := [q0; q1; q2]. Let mv := refined_size mp per.
  Hypothesis HM : (1 <= m0)%Z /\ (1 <= m1)%Z /\ (1 <= m2)%Z.
  Hypothesis Hh : 0 < h0 /\ 0 < h1 /\ 0 < h2.
  Hypothesis HZ : forall v : field, (forall n d, in_grid_box (nodes_box mv) n -> (exists s, In s (sides 3) /\ on_side mv per n s = true) -> v n d = 0) ->
    div_form mv mp per (E0 mp per) 3 (getMatElemPressure [h0; h1; h2]) p v = 0.
  Definition P3 (x y z : Z) : R := p [wr q0 m0 x; wr q1 m1 y; wr q2 m2 z] 0%nat.
  Definition fld3 (F : Z -> Z -> Z -> nat -> R) : field := fun n d => F (nth 0 n 0%Z) (nth 1 n 0%Z) (nth 2 n 0%Z) d.
  Definition invariant3 (F : Z -> Z -> Z -> nat -> R) : Prop := forall x y z d, F (wr q0 (rf q0 m0) x) (wr q1 (rf q1 m1) y) (wr q2 (rf q2 m2) z) d = F x y z d.
  (** work of the pressure of cell (i, j, k) at its kv-th velocity node, component d *)
  Definition G3 (i j k : Z) (kv d : nat) : R := Rsum 8 (fun kp => P3 (i + Z.of_nat (kp mod 2))%Z (j + Z.of_nat (kp / 2 mod 2))%Z (k + Z.of_nat (kp / 4))%Z * getMatElemPressure3 h0 h1 h2 kp kv d).
  Definition local3 (F : Z -> Z -> Z -> nat -> R) (i j k : Z) : R :=
    Rsum 27 (fun kv => Rsum 3 (fun d => G3 i j k kv d * F (2 * i + Z.of_nat (kv mod 3))%Z (2 * j + Z.of_nat (kv / 3 mod 3))%Z (2 * k + Z.of_nat (kv / 9))%Z d)).
  Lemma form_local3 F : invariant3 F -> div_form mv mp per (E0 mp per) 3 (getMatElemPressure [h0; h1; h2]) p (fld3 F) = Lsum (fun e => local3 F (nth 0 e 0%Z) (nth 1 e 0%Z) (nth 2 e 0%Z)) (E0 mp per).
  Proof.
    intros HF. unfold div_form. apply Lsum_ext. intros e He. assert (He' : in_grid_box (cells_box mp per) e) by (apply (proj2 (E0_enum mp per eq_refl)), He).
    destruct He' as [I _]. cbn in I. inversion I as [|? i ? e1 _ I']; subst. inversion I' as [|? j ? e2 _ I'']; subst. inversion I'' as [|? k ? e3 _ I3]; subst. inversion I3; subst. cbn [nth]. unfold local3. cbn [length mp].
    change (2 ^ 3)%nat with 8%nat. change (3 ^ 3)%nat with 27%nat. rewrite Rsum_swap. apply Rsum_ext. intros kv Hv. rewrite Rsum_swap. apply Rsum_ext. intros d Hd. unfold G3. rewrite <- Rsum_scal_r. apply Rsum_ext. intros kp Hp. f_equal; [f_equal|].
    - unfold gv, P3, corner. cbn [length seq zip_with wrap mp per]. unfold wr; do 8 (destruct kp as [|kp]; [reflexivity|]); lia.
    - unfold gv3, fld3, corner3. cbn [length seq zip_with wrap mp per mv refined_size nth]. rewrite <- (HF (2 * i + Z.of_nat (kv mod 3))%Z). f_equal; unfold wr, rf; do 27 (destruct kv as [|kv]; [reflexivity|]); lia.
  Qed.
  Definition vanishes3 (F : Z -> Z -> Z -> nat -> R) : Prop := forall x y z d, inn q0 m0 x = false \/ inn q1 m1 y = false \/ inn q2 m2 z = false -> F x y z d = 0.
  Lemma test3 F : invariant3 F -> vanishes3 F -> Lsum (fun e => local3 F (nth 0 e 0%Z) (nth 1 e 0%Z) (nth 2 e 0%Z)) (E0 mp per) = 0.
  Proof.
    intros HI HV. rewrite <- (form_local3 F HI). apply HZ. intros n d [Hn1 Hn2] (s & Hs & Ho). cbn in Hn1. inversion Hn1 as [|? x ? n1 X Hn1']; subst. inversion Hn1' as [|? y ? n2 Y Hn1'']; subst. inversion Hn1'' as [|? z ? n3 Y3 Hn3]; subst. inversion Hn3; subst. unfold fld3. cbn [nth].
    apply HV. assert (Emv : mv = [rf q0 m0; rf q1 m1; rf q2 m2]) by reflexivity. rewrite Emv in Ho. unfold per in Ho. unfold on_side in Ho. apply andb_true_iff in Ho. destruct Ho as [O1 O2]. apply negb_true_iff in O1. apply Z.eqb_eq in O2. unfold inn.
    cbn in Hs. destruct Hs as [<-|[<-|[<-|[<-|[<-|[<-|[]]]]]]]; cbn [fst snd nth] in O1, O2; rewrite O1 in *; cbn [orb]; [left|left|right;left|right;left|right;right|right;right]; apply andb_false_iff; rewrite !Z.ltb_ge; lia.
  Qed.
  Lemma P3_wr x y z o o' o'' : P3 (wr q0 (rf q0 m0) x / 2 + o)%Z (wr q1 (rf q1 m1) y / 2 + o')%Z (wr q2 (rf q2 m2) z / 2 + o'')%Z = P3 (x / 2 + o)%Z (y / 2 + o')%Z (z / 2 + o'')%Z.
  Proof. unfold P3. rewrite !wr_half by apply HM. reflexivity. Qed.
  Definition Fpar3 (sx sy sz : bool) (g : nat -> Z -> Z -> Z -> R) (x y z : Z) (d : nat) : R := if Bool.eqb (Z.odd x) sx && Bool.eqb (Z.odd y) sy && Bool.eqb (Z.odd z) sz && (inn q0 m0 x && inn q1 m1 y && inn q2 m2 z) then g d (x / 2)%Z (y / 2)%Z (z / 2)%Z else 0.
  Definition periodic_g3 (g : nat -> Z -> Z -> Z -> R) : Prop := forall d x y z, g d (wr q0 (rf q0 m0) x / 2)%Z (wr q1 (rf q1 m1) y / 2)%Z (wr q2 (rf q2 m2) z / 2)%Z = g d (x / 2)%Z (y / 2)%Z (z / 2)%Z.
  Lemma Fpar3_inv sx sy sz g : periodic_g3 g -> invariant3 (Fpar3 sx sy sz g).
  Proof. intros HP x y z d. unfold Fpar3. rewrite !wr_odd by apply HM. rewrite !inn_wr. rewrite HP. reflexivity. Qed.
  Lemma Fpar3_van sx sy sz g : vanishes3 (Fpar3 sx sy sz g).
  Proof. intros x y z d H. unfold Fpar3. destruct H as [-> | [-> | ->]]; rewrite ?andb_false_r; cbn [andb]; rewrite ?andb_false_r; reflexivity. Qed.
  Definition cell3 (i j k : Z) : Prop := in_grid_box (cells_box mp per) [i; j; k].
  Lemma cell3_bounds i j k : cell3 i j k -> (0 <= i < (if q0 then m0 else m0 - 1) /\ 0 <= j < (if q1 then m1 else m1 - 1) /\ 0 <= k < (if q2 then m2 else m2 - 1))%Z.
  Proof. intros [A B]. cbn in A, B. inversion A as [|? ? ? ? A0 A']; subst. inversion A' as [|? ? ? ? A1 A'']; subst. inversion A'' as [|? ? ? ? A2 _]; subst. inversion B as [|? ? ? ? B0 B']; subst. inversion B' as [|? ? ? ? B1 B'']; subst. inversion B'' as [|? ? ? ? B2 _]; subst. lia. Qed.
  Lemma all_local3 F : invariant3 F -> vanishes3 F -> (forall i j k, cell3 i j k -> 0 <= local3 F i j k) -> forall i j k, cell3 i j k -> local3 F i j k = 0.
  Proof.
    intros HI HV HP i j k Hc. pose proof (test3 F HI HV) as T.
    apply (Lsum_zero_all (fun e => local3 F (nth 0 e 0%Z) (nth 1 e 0%Z) (nth 2 e 0%Z)) (E0 mp per)) with (a := [i; j; k]) in T; [exact T| |apply (proj2 (E0_enum mp per eq_refl)), Hc].
    intros e He. apply (proj2 (E0_enum mp per eq_refl)) in He. pose proof He as [I _]. cbn in I. inversion I as [|? i' ? e1 _ I']; subst. inversion I' as [|? j' ? e2 _ I'']; subst. inversion I'' as [|? k' ? e3 _ I3]; subst. inversion I3; subst. apply HP, He.
  Qed.
  Ltac parities3 := rewrite ?Z.add_0_r, ?odd_even, ?odd_odd, ?odd_two, ?half_even, ?half_odd, ?half_two.
  Ltac indices3 := cbn [Nat.modulo Nat.divmod Nat.div Nat.sub fst snd Z.of_nat Pos.of_succ_nat Pos.succ].
  Ltac tables3 := unfold getMatElemPressure3, matElem3d_pdxu, matElem3d_pdyu, matElem3d_pdzu, entry, matElem3d_pdxu_q, matElem3d_pdyu_q, matElem3d_pdzu_q, Q2R; cbn [nth Qnum Qden].
  Lemma w01_ge b : 0 <= w01 b. Proof. unfold w01. destruct b; lra. Qed.
  Lemma local_ooo g i j k : cell3 i j k -> local3 (Fpar3 true true true g) i j k = (G3 i j k 13 0 * g 0%nat i j k + G3 i j k 13 1 * g 1%nat i j k + G3 i j k 13 2 * g 2%nat i j k).
  Proof.
    intros Hc. pose proof (cell3_bounds i j k Hc) as (B0 & B1 & B2). unfold local3, Fpar3. cbn [Rsum]. indices3. parities3. rewrite ?(inn_odd q0 m0 i B0), ?(inn_odd q1 m1 j B1), ?(inn_odd q2 m2 k B2). cbn [Bool.eqb andb]. rewrite ?andb_true_r. rewrite ?Rmult_0_r, ?Rplus_0_l, ?Rplus_0_r.
    unfold w01. ring.
  Qed.
  Lemma local_eoo g i j k : cell3 i j k -> local3 (Fpar3 false true true g) i j k = w01 (inn q0 m0 (2 * i)) * (G3 i j k 12 0 * g 0%nat i j k + G3 i j k 12 1 * g 1%nat i j k + G3 i j k 12 2 * g 2%nat i j k) + w01 (inn q0 m0 (2 * i + 2)) * (G3 i j k 14 0 * g 0%nat (i + 1)%Z j k + G3 i j k 14 1 * g 1%nat (i + 1)%Z j k + G3 i j k 14 2 * g 2%nat (i + 1)%Z j k).
  Proof.
    intros Hc. pose proof (cell3_bounds i j k Hc) as (B0 & B1 & B2). unfold local3, Fpar3. cbn [Rsum]. indices3. parities3. rewrite ?(inn_odd q0 m0 i B0), ?(inn_odd q1 m1 j B1), ?(inn_odd q2 m2 k B2). cbn [Bool.eqb andb]. rewrite ?andb_true_r. rewrite ?Rmult_0_r, ?Rplus_0_l, ?Rplus_0_r.
    unfold w01. repeat match goal with |- context [if ?b then _ else _] => destruct b end; ring.
  Qed.
  Lemma local_oeo g i j k : cell3 i j k -> local3 (Fpar3 true false true g) i j k = w01 (inn q1 m1 (2 * j)) * (G3 i j k 10 0 * g 0%nat i j k + G3 i j k 10 1 * g 1%nat i j k + G3 i j k 10 2 * g 2%nat i j k) + w01 (inn q1 m1 (2 * j + 2)) * (G3 i j k 16 0 * g 0%nat i (j + 1)%Z k + G3 i j k 16 1 * g 1%nat i (j + 1)%Z k + G3 i j k 16 2 * g 2%nat i (j + 1)%Z k).
  Proof.
    intros Hc. pose proof (cell3_bounds i j k Hc) as (B0 & B1 & B2). unfold local3, Fpar3. cbn [Rsum]. indices3. parities3. rewrite ?(inn_odd q0 m0 i B0), ?(inn_odd q1 m1 j B1), ?(inn_odd q2 m2 k B2). cbn [Bool.eqb andb]. rewrite ?andb_true_r. rewrite ?Rmult_0_r, ?Rplus_0_l, ?Rplus_0_r.
    unfold w01. repeat match goal with |- context [if ?b then _ else _] => destruct b end; ring.
  Qed.
  Lemma local_ooe g i j k : cell3 i j k -> local3 (Fpar3 true true false g) i j k = w01 (inn q2 m2 (2 * k)) * (G3 i j k 4 0 * g 0%nat i j k + G3 i j k 4 1 * g 1%nat i j k + G3 i j k 4 2 * g 2%nat i j k) + w01 (inn q2 m2 (2 * k + 2)) * (G3 i j k 22 0 * g 0%nat i j (k + 1)%Z + G3 i j k 22 1 * g 1%nat i j (k + 1)%Z + G3 i j k 22 2 * g 2%nat i j (k + 1)%Z).
  Proof.
    intros Hc. pose proof (cell3_bounds i j k Hc) as (B0 & B1 & B2). unfold local3, Fpar3. cbn [Rsum]. indices3. parities3. rewrite ?(inn_odd q0 m0 i B0), ?(inn_odd q1 m1 j B1), ?(inn_odd q2 m2 k B2). cbn [Bool.eqb andb]. rewrite ?andb_true_r. rewrite ?Rmult_0_r, ?Rplus_0_l, ?Rplus_0_r.
    unfold w01. repeat match goal with |- context [if ?b then _ else _] => destruct b end; ring.
  Qed.
  Lemma local_eeo g i j k : cell3 i j k -> local3 (Fpar3 false false true g) i j k = w01 (inn q0 m0 (2 * i) && inn q1 m1 (2 * j)) * (G3 i j k 9 0 * g 0%nat i j k + G3 i j k 9 1 * g 1%nat i j k + G3 i j k 9 2 * g 2%nat i j k) + w01 (inn q0 m0 (2 * i + 2) && inn q1 m1 (2 * j)) * (G3 i j k 11 0 * g 0%nat (i + 1)%Z j k + G3 i j k 11 1 * g 1%nat (i + 1)%Z j k + G3 i j k 11 2 * g 2%nat (i + 1)%Z j k) + w01 (inn q0 m0 (2 * i) && inn q1 m1 (2 * j + 2)) * (G3 i j k 15 0 * g 0%nat i (j + 1)%Z k + G3 i j k 15 1 * g 1%nat i (j + 1)%Z k + G3 i j k 15 2 * g 2%nat i (j + 1)%Z k) + w01 (inn q0 m0 (2 * i + 2) && inn q1 m1 (2 * j + 2)) * (G3 i j k 17 0 * g 0%nat (i + 1)%Z (j + 1)%Z k + G3 i j k 17 1 * g 1%nat (i + 1)%Z (j + 1)%Z k + G3 i j k 17 2 * g 2%nat (i + 1)%Z (j + 1)%Z k).
  Proof.
    intros Hc. pose proof (cell3_bounds i j k Hc) as (B0 & B1 & B2). unfold local3, Fpar3. cbn [Rsum]. indices3. parities3. rewrite ?(inn_odd q0 m0 i B0), ?(inn_odd q1 m1 j B1), ?(inn_odd q2 m2 k B2). cbn [Bool.eqb andb]. rewrite ?andb_true_r. rewrite ?Rmult_0_r, ?Rplus_0_l, ?Rplus_0_r.
    unfold w01. repeat match goal with |- context [if ?b then _ else _] => destruct b end; ring.
  Qed.
  Lemma local_eoe g i j k : cell3 i j k -> local3 (Fpar3 false true false g) i j k = w01 (inn q0 m0 (2 * i) && inn q2 m2 (2 * k)) * (G3 i j k 3 0 * g 0%nat i j k + G3 i j k 3 1 * g 1%nat i j k + G3 i j k 3 2 * g 2%nat i j k) + w01 (inn q0 m0 (2 * i + 2) && inn q2 m2 (2 * k)) * (G3 i j k 5 0 * g 0%nat (i + 1)%Z j k + G3 i j k 5 1 * g 1%nat (i + 1)%Z j k + G3 i j k 5 2 * g 2%nat (i + 1)%Z j k) + w01 (inn q0 m0 (2 * i) && inn q2 m2 (2 * k + 2)) * (G3 i j k 21 0 * g 0%nat i j (k + 1)%Z + G3 i j k 21 1 * g 1%nat i j (k + 1)%Z + G3 i j k 21 2 * g 2%nat i j (k + 1)%Z) + w01 (inn q0 m0 (2 * i + 2) && inn q2 m2 (2 * k + 2)) * (G3 i j k 23 0 * g 0%nat (i + 1)%Z j (k + 1)%Z + G3 i j k 23 1 * g 1%nat (i + 1)%Z j (k + 1)%Z + G3 i j k 23 2 * g 2%nat (i + 1)%Z j (k + 1)%Z).
  Proof.
    intros Hc. pose proof (cell3_bounds i j k Hc) as (B0 & B1 & B2). unfold local3, Fpar3. cbn [Rsum]. indices3. parities3. rewrite ?(inn_odd q0 m0 i B0), ?(inn_odd q1 m1 j B1), ?(inn_odd q2 m2 k B2). cbn [Bool.eqb andb]. rewrite ?andb_true_r. rewrite ?Rmult_0_r, ?Rplus_0_l, ?Rplus_0_r.
    unfold w01. repeat match goal with |- context [if ?b then _ else _] => destruct b end; ring.
  Qed.
  Lemma local_oee g i j k : cell3 i j k -> local3 (Fpar3 true false false g) i j k = w01 (inn q1 m1 (2 * j) && inn q2 m2 (2 * k)) * (G3 i j k 1 0 * g 0%nat i j k + G3 i j k 1 1 * g 1%nat i j k + G3 i j k 1 2 * g 2%nat i j k) + w01 (inn q1 m1 (2 * j + 2) && inn q2 m2 (2 * k)) * (G3 i j k 7 0 * g 0%nat i (j + 1)%Z k + G3 i j k 7 1 * g 1%nat i (j + 1)%Z k + G3 i j k 7 2 * g 2%nat i (j + 1)%Z k) + w01 (inn q1 m1 (2 * j) && inn q2 m2 (2 * k + 2)) * (G3 i j k 19 0 * g 0%nat i j (k + 1)%Z + G3 i j k 19 1 * g 1%nat i j (k + 1)%Z + G3 i j k 19 2 * g 2%nat i j (k + 1)%Z) + w01 (inn q1 m1 (2 * j + 2) && inn q2 m2 (2 * k + 2)) * (G3 i j k 25 0 * g 0%nat i (j + 1)%Z (k + 1)%Z + G3 i j k 25 1 * g 1%nat i (j + 1)%Z (k + 1)%Z + G3 i j k 25 2 * g 2%nat i (j + 1)%Z (k + 1)%Z).
  Proof.
    intros Hc. pose proof (cell3_bounds i j k Hc) as (B0 & B1 & B2). unfold local3, Fpar3. cbn [Rsum]. indices3. parities3. rewrite ?(inn_odd q0 m0 i B0), ?(inn_odd q1 m1 j B1), ?(inn_odd q2 m2 k B2). cbn [Bool.eqb andb]. rewrite ?andb_true_r. rewrite ?Rmult_0_r, ?Rplus_0_l, ?Rplus_0_r.
    unfold w01. repeat match goal with |- context [if ?b then _ else _] => destruct b end; ring.
  Qed.

  Ltac per3 := intros d x y z; repeat (destruct d as [|d]; [try reflexivity|]); try reflexivity.
  Definition gmid3 (d : nat) (i j k : Z) : R := G3 i j k 13 d.
  Lemma gmid3_per : periodic_g3 gmid3.
  Proof. intros d x y z. unfold gmid3, G3. apply Rsum_ext. intros kp _. rewrite P3_wr. reflexivity. Qed.
  Lemma sq_pos (a : R) : 0 <= a * a. Proof. pose proof (Rle_0_sqr a). exact H. Qed.
  Lemma sq_zero (a : R) : a * a = 0 -> a = 0. Proof. intros H. apply Rmult_integral in H. tauto. Qed.
  Lemma P3_wr0 x y z : P3 (wr q0 (rf q0 m0) x / 2)%Z (wr q1 (rf q1 m1) y / 2)%Z (wr q2 (rf q2 m2) z / 2)%Z = P3 (x / 2)%Z (y / 2)%Z (z / 2)%Z.
  Proof. pose proof (P3_wr x y z 0 0 0) as H. rewrite !Z.add_0_r in H. exact H. Qed.
  Lemma P3_wr1 x y z : P3 (wr q0 (rf q0 m0) x / 2 + 1)%Z (wr q1 (rf q1 m1) y / 2)%Z (wr q2 (rf q2 m2) z / 2)%Z = P3 (x / 2 + 1)%Z (y / 2)%Z (z / 2)%Z.
  Proof. pose proof (P3_wr x y z 1 0 0) as H. rewrite ?Z.add_0_r in H. exact H. Qed.
  Lemma P3_wr2 x y z : P3 (wr q0 (rf q0 m0) x / 2)%Z (wr q1 (rf q1 m1) y / 2 + 1)%Z (wr q2 (rf q2 m2) z / 2)%Z = P3 (x / 2)%Z (y / 2 + 1)%Z (z / 2)%Z.
  Proof. pose proof (P3_wr x y z 0 1 0) as H. rewrite ?Z.add_0_r in H. exact H. Qed.
  Lemma P3_wr3 x y z : P3 (wr q0 (rf q0 m0) x / 2 + 1)%Z (wr q1 (rf q1 m1) y / 2 + 1)%Z (wr q2 (rf q2 m2) z / 2)%Z = P3 (x / 2 + 1)%Z (y / 2 + 1)%Z (z / 2)%Z.
  Proof. pose proof (P3_wr x y z 1 1 0) as H. rewrite ?Z.add_0_r in H. exact H. Qed.
  Lemma P3_wr4 x y z : P3 (wr q0 (rf q0 m0) x / 2)%Z (wr q1 (rf q1 m1) y / 2)%Z (wr q2 (rf q2 m2) z / 2 + 1)%Z = P3 (x / 2)%Z (y / 2)%Z (z / 2 + 1)%Z.
  Proof. pose proof (P3_wr x y z 0 0 1) as H. rewrite ?Z.add_0_r in H. exact H. Qed.
  Lemma P3_wr5 x y z : P3 (wr q0 (rf q0 m0) x / 2 + 1)%Z (wr q1 (rf q1 m1) y / 2)%Z (wr q2 (rf q2 m2) z / 2 + 1)%Z = P3 (x / 2 + 1)%Z (y / 2)%Z (z / 2 + 1)%Z.
  Proof. pose proof (P3_wr x y z 1 0 1) as H. rewrite ?Z.add_0_r in H. exact H. Qed.
  Lemma P3_wr6 x y z : P3 (wr q0 (rf q0 m0) x / 2)%Z (wr q1 (rf q1 m1) y / 2 + 1)%Z (wr q2 (rf q2 m2) z / 2 + 1)%Z = P3 (x / 2)%Z (y / 2 + 1)%Z (z / 2 + 1)%Z.
  Proof. pose proof (P3_wr x y z 0 1 1) as H. rewrite ?Z.add_0_r in H. exact H. Qed.
  Lemma P3_wr7 x y z : P3 (wr q0 (rf q0 m0) x / 2 + 1)%Z (wr q1 (rf q1 m1) y / 2 + 1)%Z (wr q2 (rf q2 m2) z / 2 + 1)%Z = P3 (x / 2 + 1)%Z (y / 2 + 1)%Z (z / 2 + 1)%Z.
  Proof. pose proof (P3_wr x y z 1 1 1) as H. rewrite ?Z.add_0_r in H. exact H. Qed.
  Lemma centre3 i j k : cell3 i j k -> (P3 (i + 1)%Z j k + P3 (i + 1)%Z (j + 1)%Z k + P3 (i + 1)%Z j (k + 1)%Z + P3 (i + 1)%Z (j + 1)%Z (k + 1)%Z - P3 i j k - P3 i (j + 1)%Z k - P3 i j (k + 1)%Z - P3 i (j + 1)%Z (k + 1)%Z = 0) /\ (P3 i (j + 1)%Z k + P3 (i + 1)%Z (j + 1)%Z k + P3 i (j + 1)%Z (k + 1)%Z + P3 (i + 1)%Z (j + 1)%Z (k + 1)%Z - P3 i j k - P3 (i + 1)%Z j k - P3 i j (k + 1)%Z - P3 (i + 1)%Z j (k + 1)%Z = 0) /\ (P3 i j (k + 1)%Z + P3 (i + 1)%Z j (k + 1)%Z + P3 i (j + 1)%Z (k + 1)%Z + P3 (i + 1)%Z (j + 1)%Z (k + 1)%Z - P3 i j k - P3 (i + 1)%Z j k - P3 i (j + 1)%Z k - P3 (i + 1)%Z (j + 1)%Z k = 0).
  Proof.
    intros Hc. assert (Z0 : local3 (Fpar3 true true true gmid3) i j k = 0).
    { apply all_local3; auto; [apply Fpar3_inv, gmid3_per|apply Fpar3_van|]. intros i' j' k' Hc'. rewrite local_ooo by exact Hc'. unfold gmid3. pose proof (sq_pos (G3 i' j' k' 13 0)). pose proof (sq_pos (G3 i' j' k' 13 1)). pose proof (sq_pos (G3 i' j' k' 13 2)). lra. }
    rewrite local_ooo in Z0 by exact Hc. unfold gmid3 in Z0. pose proof (sq_pos (G3 i j k 13 0)). pose proof (sq_pos (G3 i j k 13 1)). pose proof (sq_pos (G3 i j k 13 2)).
    assert (G0 : G3 i j k 13 0 = 0) by (apply sq_zero; lra). assert (G1 : G3 i j k 13 1 = 0) by (apply sq_zero; lra). assert (G2 : G3 i j k 13 2 = 0) by (apply sq_zero; lra).
    clear - G0 G1 G2 Hh. revert G0 G1 G2. unfold G3. cbn [Rsum]. indices3. rewrite ?Z.add_0_r. tables3. intros G0 G1 G2. destruct Hh as (A & B & C).
    assert (K : forall a b s : R, 0 < a -> 0 < b -> a * b * s = 0 -> s = 0) by (intros a b s Ha Hb H; apply Rmult_integral in H; destruct H as [H|H]; [apply Rmult_integral in H; lra|exact H]).
    split; [apply (K h1 h2); auto; lra|]. split; [apply (K h0 h2); auto; lra|apply (K h0 h1); auto; lra].
  Qed.
  (** the middle of the faces normal to axis 0 *)
  Definition gf0 (d : nat) (i j k : Z) : R := match d with 1%nat => P3 i j k - P3 i (j + 1)%Z k + P3 i j (k + 1)%Z - P3 i (j + 1)%Z (k + 1)%Z | 2%nat => P3 i j k - P3 i j (k + 1)%Z + P3 i (j + 1)%Z k - P3 i (j + 1)%Z (k + 1)%Z | _ => 0 end.
  Lemma gf0_per : periodic_g3 gf0.
  Proof. intros d x y z. unfold gf0. rewrite ?P3_wr0, ?P3_wr1, ?P3_wr2, ?P3_wr3, ?P3_wr4, ?P3_wr5, ?P3_wr6, ?P3_wr7. reflexivity. Qed.
  Lemma face0 i j k : cell3 i j k -> local3 (Fpar3 false true true gf0) i j k = (w01 (inn q0 m0 (2 * i)) + w01 (inn q0 m0 (2 * i + 2))) * (h0 * h2 / 12 * (gf0 1 i j k * gf0 1 i j k) + h0 * h1 / 12 * (gf0 2 i j k * gf0 2 i j k)).
  Proof.
    intros Hc. destruct (centre3 i j k Hc) as (C0 & C1 & C2). rewrite local_eoo by exact Hc.
    assert (S1 : gf0 1 (i + 1)%Z j k = - gf0 1 i j k) by (unfold gf0; lra).
    assert (S2 : gf0 2 (i + 1)%Z j k = - gf0 2 i j k) by (unfold gf0; lra).
    assert (L1 : G3 i j k 12 1 = h0 * h2 / 12 * gf0 1 i j k).
    { transitivity (h0 * h2 * (5 / 48 * gf0 1 i j k + 1 / 48 * gf0 1 (i + 1)%Z j k)); [|rewrite S1; field]. unfold G3, gf0. cbn [Rsum]. indices3. rewrite ?Z.add_0_r. tables3. field. }
    assert (U1 : G3 i j k 14 1 = - (h0 * h2 / 12 * gf0 1 i j k)).
    { transitivity (h0 * h2 * (1 / 48 * gf0 1 i j k + 5 / 48 * gf0 1 (i + 1)%Z j k)); [|rewrite S1; field]. unfold G3, gf0. cbn [Rsum]. indices3. rewrite ?Z.add_0_r. tables3. field. }
    assert (L2 : G3 i j k 12 2 = h0 * h1 / 12 * gf0 2 i j k).
    { transitivity (h0 * h1 * (5 / 48 * gf0 2 i j k + 1 / 48 * gf0 2 (i + 1)%Z j k)); [|rewrite S2; field]. unfold G3, gf0. cbn [Rsum]. indices3. rewrite ?Z.add_0_r. tables3. field. }
    assert (U2 : G3 i j k 14 2 = - (h0 * h1 / 12 * gf0 2 i j k)).
    { transitivity (h0 * h1 * (1 / 48 * gf0 2 i j k + 5 / 48 * gf0 2 (i + 1)%Z j k)); [|rewrite S2; field]. unfold G3, gf0. cbn [Rsum]. indices3. rewrite ?Z.add_0_r. tables3. field. }
    rewrite S1, S2, L1, L2, U1, U2. change (gf0 0 i j k) with 0. change (gf0 0 (i + 1)%Z j k) with 0. ring.
  Qed.
  Lemma face0_zero i j k : (q0 = true \/ 3 <= m0)%Z -> cell3 i j k -> gf0 1 i j k = 0 /\ gf0 2 i j k = 0.
  Proof.
    intros HL Hc. pose proof (cell3_bounds i j k Hc) as B. destruct Hh as (A0 & A1 & A2).
    assert (Q : forall a b : R, 0 <= h0 * h2 / 12 * (a * a) + h0 * h1 / 12 * (b * b)).
    { intros a b. pose proof (sq_pos a). pose proof (sq_pos b). assert (0 < h0 * h2) by (apply Rmult_lt_0_compat; assumption). assert (0 < h0 * h1) by (apply Rmult_lt_0_compat; assumption). apply Rplus_le_le_0_compat; apply Rmult_le_pos; lra. }
    assert (Z0 : local3 (Fpar3 false true true gf0) i j k = 0).
    { apply all_local3; auto; [apply Fpar3_inv, gf0_per|apply Fpar3_van|]. intros i' j' k' Hc'. rewrite face0 by exact Hc'. apply Rmult_le_pos; [apply w01_pos|apply Q]. }
    rewrite face0 in Z0 by exact Hc. pose proof (inner_edge q0 m0 i HL ltac:(tauto)) as HW. apply Rmult_integral in Z0. destruct Z0 as [Z0|Z0]; [lra|].
    pose proof (sq_pos (gf0 1 i j k)) as Y0. pose proof (sq_pos (gf0 2 i j k)) as Y1. assert (P0 : 0 < h0 * h2) by (apply Rmult_lt_0_compat; assumption). assert (P1 : 0 < h0 * h1) by (apply Rmult_lt_0_compat; assumption).
    assert (Z1 : h0 * h2 / 12 * (gf0 1 i j k * gf0 1 i j k) = 0 /\ h0 * h1 / 12 * (gf0 2 i j k * gf0 2 i j k) = 0).
    { assert (0 <= h0 * h2 / 12 * (gf0 1 i j k * gf0 1 i j k)) by (apply Rmult_le_pos; lra). assert (0 <= h0 * h1 / 12 * (gf0 2 i j k * gf0 2 i j k)) by (apply Rmult_le_pos; lra). lra. }
    destruct Z1 as [Z1 Z2]. apply Rmult_integral in Z1, Z2. split; apply sq_zero; [destruct Z1; lra|destruct Z2; lra].
  Qed.
  (** the middle of the faces normal to axis 1 *)
  Definition gf1 (d : nat) (i j k : Z) : R := match d with 0%nat => P3 i j k - P3 (i + 1)%Z j k + P3 i j (k + 1)%Z - P3 (i + 1)%Z j (k + 1)%Z | 2%nat => P3 i j k - P3 i j (k + 1)%Z + P3 (i + 1)%Z j k - P3 (i + 1)%Z j (k + 1)%Z | _ => 0 end.
  Lemma gf1_per : periodic_g3 gf1.
  Proof. intros d x y z. unfold gf1. rewrite ?P3_wr0, ?P3_wr1, ?P3_wr2, ?P3_wr3, ?P3_wr4, ?P3_wr5, ?P3_wr6, ?P3_wr7. reflexivity. Qed.
  Lemma face1 i j k : cell3 i j k -> local3 (Fpar3 true false true gf1) i j k = (w01 (inn q1 m1 (2 * j)) + w01 (inn q1 m1 (2 * j + 2))) * (h1 * h2 / 12 * (gf1 0 i j k * gf1 0 i j k) + h0 * h1 / 12 * (gf1 2 i j k * gf1 2 i j k)).
  Proof.
    intros Hc. destruct (centre3 i j k Hc) as (C0 & C1 & C2). rewrite local_oeo by exact Hc.
    assert (S1 : gf1 0 i (j + 1)%Z k = - gf1 0 i j k) by (unfold gf1; lra).
    assert (S2 : gf1 2 i (j + 1)%Z k = - gf1 2 i j k) by (unfold gf1; lra).
    assert (L0 : G3 i j k 10 0 = h1 * h2 / 12 * gf1 0 i j k).
    { transitivity (h1 * h2 * (5 / 48 * gf1 0 i j k + 1 / 48 * gf1 0 i (j + 1)%Z k)); [|rewrite S1; field]. unfold G3, gf1. cbn [Rsum]. indices3. rewrite ?Z.add_0_r. tables3. field. }
    assert (U0 : G3 i j k 16 0 = - (h1 * h2 / 12 * gf1 0 i j k)).
    { transitivity (h1 * h2 * (1 / 48 * gf1 0 i j k + 5 / 48 * gf1 0 i (j + 1)%Z k)); [|rewrite S1; field]. unfold G3, gf1. cbn [Rsum]. indices3. rewrite ?Z.add_0_r. tables3. field. }
    assert (L2 : G3 i j k 10 2 = h0 * h1 / 12 * gf1 2 i j k).
    { transitivity (h0 * h1 * (5 / 48 * gf1 2 i j k + 1 / 48 * gf1 2 i (j + 1)%Z k)); [|rewrite S2; field]. unfold G3, gf1. cbn [Rsum]. indices3. rewrite ?Z.add_0_r. tables3. field. }
    assert (U2 : G3 i j k 16 2 = - (h0 * h1 / 12 * gf1 2 i j k)).
    { transitivity (h0 * h1 * (1 / 48 * gf1 2 i j k + 5 / 48 * gf1 2 i (j + 1)%Z k)); [|rewrite S2; field]. unfold G3, gf1. cbn [Rsum]. indices3. rewrite ?Z.add_0_r. tables3. field. }
    rewrite S1, S2, L0, L2, U0, U2. change (gf1 1 i j k) with 0. change (gf1 1 i (j + 1)%Z k) with 0. ring.
  Qed.
  Lemma face1_zero i j k : (q1 = true \/ 3 <= m1)%Z -> cell3 i j k -> gf1 0 i j k = 0 /\ gf1 2 i j k = 0.
  Proof.
    intros HL Hc. pose proof (cell3_bounds i j k Hc) as B. destruct Hh as (A0 & A1 & A2).
    assert (Q : forall a b : R, 0 <= h1 * h2 / 12 * (a * a) + h0 * h1 / 12 * (b * b)).
    { intros a b. pose proof (sq_pos a). pose proof (sq_pos b). assert (0 < h1 * h2) by (apply Rmult_lt_0_compat; assumption). assert (0 < h0 * h1) by (apply Rmult_lt_0_compat; assumption). apply Rplus_le_le_0_compat; apply Rmult_le_pos; lra. }
    assert (Z0 : local3 (Fpar3 true false true gf1) i j k = 0).
    { apply all_local3; auto; [apply Fpar3_inv, gf1_per|apply Fpar3_van|]. intros i' j' k' Hc'. rewrite face1 by exact Hc'. apply Rmult_le_pos; [apply w01_pos|apply Q]. }
    rewrite face1 in Z0 by exact Hc. pose proof (inner_edge q1 m1 j HL ltac:(tauto)) as HW. apply Rmult_integral in Z0. destruct Z0 as [Z0|Z0]; [lra|].
    pose proof (sq_pos (gf1 0 i j k)) as Y0. pose proof (sq_pos (gf1 2 i j k)) as Y1. assert (P0 : 0 < h1 * h2) by (apply Rmult_lt_0_compat; assumption). assert (P1 : 0 < h0 * h1) by (apply Rmult_lt_0_compat; assumption).
    assert (Z1 : h1 * h2 / 12 * (gf1 0 i j k * gf1 0 i j k) = 0 /\ h0 * h1 / 12 * (gf1 2 i j k * gf1 2 i j k) = 0).
    { assert (0 <= h1 * h2 / 12 * (gf1 0 i j k * gf1 0 i j k)) by (apply Rmult_le_pos; lra). assert (0 <= h0 * h1 / 12 * (gf1 2 i j k * gf1 2 i j k)) by (apply Rmult_le_pos; lra). lra. }
    destruct Z1 as [Z1 Z2]. apply Rmult_integral in Z1, Z2. split; apply sq_zero; [destruct Z1; lra|destruct Z2; lra].
  Qed.
  (** the middle of the faces normal to axis 2 *)
  Definition gf2 (d : nat) (i j k : Z) : R := match d with 0%nat => P3 i j k - P3 (i + 1)%Z j k + P3 i (j + 1)%Z k - P3 (i + 1)%Z (j + 1)%Z k | 1%nat => P3 i j k - P3 i (j + 1)%Z k + P3 (i + 1)%Z j k - P3 (i + 1)%Z (j + 1)%Z k | _ => 0 end.
  Lemma gf2_per : periodic_g3 gf2.
  Proof. intros d x y z. unfold gf2. rewrite ?P3_wr0, ?P3_wr1, ?P3_wr2, ?P3_wr3, ?P3_wr4, ?P3_wr5, ?P3_wr6, ?P3_wr7. reflexivity. Qed.
  Lemma face2 i j k : cell3 i j k -> local3 (Fpar3 true true false gf2) i j k = (w01 (inn q2 m2 (2 * k)) + w01 (inn q2 m2 (2 * k + 2))) * (h1 * h2 / 12 * (gf2 0 i j k * gf2 0 i j k) + h0 * h2 / 12 * (gf2 1 i j k * gf2 1 i j k)).
  Proof.
    intros Hc. destruct (centre3 i j k Hc) as (C0 & C1 & C2). rewrite local_ooe by exact Hc.
    assert (S1 : gf2 0 i j (k + 1)%Z = - gf2 0 i j k) by (unfold gf2; lra).
    assert (S2 : gf2 1 i j (k + 1)%Z = - gf2 1 i j k) by (unfold gf2; lra).
    assert (L0 : G3 i j k 4 0 = h1 * h2 / 12 * gf2 0 i j k).
    { transitivity (h1 * h2 * (5 / 48 * gf2 0 i j k + 1 / 48 * gf2 0 i j (k + 1)%Z)); [|rewrite S1; field]. unfold G3, gf2. cbn [Rsum]. indices3. rewrite ?Z.add_0_r. tables3. field. }
    assert (U0 : G3 i j k 22 0 = - (h1 * h2 / 12 * gf2 0 i j k)).
    { transitivity (h1 * h2 * (1 / 48 * gf2 0 i j k + 5 / 48 * gf2 0 i j (k + 1)%Z)); [|rewrite S1; field]. unfold G3, gf2. cbn [Rsum]. indices3. rewrite ?Z.add_0_r. tables3. field. }
    assert (L1 : G3 i j k 4 1 = h0 * h2 / 12 * gf2 1 i j k).
    { transitivity (h0 * h2 * (5 / 48 * gf2 1 i j k + 1 / 48 * gf2 1 i j (k + 1)%Z)); [|rewrite S2; field]. unfold G3, gf2. cbn [Rsum]. indices3. rewrite ?Z.add_0_r. tables3. field. }
    assert (U1 : G3 i j k 22 1 = - (h0 * h2 / 12 * gf2 1 i j k)).
    { transitivity (h0 * h2 * (1 / 48 * gf2 1 i j k + 5 / 48 * gf2 1 i j (k + 1)%Z)); [|rewrite S2; field]. unfold G3, gf2. cbn [Rsum]. indices3. rewrite ?Z.add_0_r. tables3. field. }
    rewrite S1, S2, L0, L1, U0, U1. change (gf2 2 i j k) with 0. change (gf2 2 i j (k + 1)%Z) with 0. ring.
  Qed.
  Lemma face2_zero i j k : (q2 = true \/ 3 <= m2)%Z -> cell3 i j k -> gf2 0 i j k = 0 /\ gf2 1 i j k = 0.
  Proof.
    intros HL Hc. pose proof (cell3_bounds i j k Hc) as B. destruct Hh as (A0 & A1 & A2).
    assert (Q : forall a b : R, 0 <= h1 * h2 / 12 * (a * a) + h0 * h2 / 12 * (b * b)).
    { intros a b. pose proof (sq_pos a). pose proof (sq_pos b). assert (0 < h1 * h2) by (apply Rmult_lt_0_compat; assumption). assert (0 < h0 * h2) by (apply Rmult_lt_0_compat; assumption). apply Rplus_le_le_0_compat; apply Rmult_le_pos; lra. }
    assert (Z0 : local3 (Fpar3 true true false gf2) i j k = 0).
    { apply all_local3; auto; [apply Fpar3_inv, gf2_per|apply Fpar3_van|]. intros i' j' k' Hc'. rewrite face2 by exact Hc'. apply Rmult_le_pos; [apply w01_pos|apply Q]. }
    rewrite face2 in Z0 by exact Hc. pose proof (inner_edge q2 m2 k HL ltac:(tauto)) as HW. apply Rmult_integral in Z0. destruct Z0 as [Z0|Z0]; [lra|].
    pose proof (sq_pos (gf2 0 i j k)) as Y0. pose proof (sq_pos (gf2 1 i j k)) as Y1. assert (P0 : 0 < h1 * h2) by (apply Rmult_lt_0_compat; assumption). assert (P1 : 0 < h0 * h2) by (apply Rmult_lt_0_compat; assumption).
    assert (Z1 : h1 * h2 / 12 * (gf2 0 i j k * gf2 0 i j k) = 0 /\ h0 * h2 / 12 * (gf2 1 i j k * gf2 1 i j k) = 0).
    { assert (0 <= h1 * h2 / 12 * (gf2 0 i j k * gf2 0 i j k)) by (apply Rmult_le_pos; lra). assert (0 <= h0 * h2 / 12 * (gf2 1 i j k * gf2 1 i j k)) by (apply Rmult_le_pos; lra). lra. }
    destruct Z1 as [Z1 Z2]. apply Rmult_integral in Z1, Z2. split; apply sq_zero; [destruct Z1; lra|destruct Z2; lra].
  Qed.
  (** the middle of the edges along axis 0 *)
  Definition ge0 (d : nat) (i j k : Z) : R := match d with 0%nat => P3 i j k - P3 (i + 1)%Z j k | _ => 0 end.
  Lemma ge0_per : periodic_g3 ge0.
  Proof. intros d x y z. unfold ge0. rewrite ?P3_wr0, ?P3_wr1, ?P3_wr2, ?P3_wr3, ?P3_wr4. reflexivity. Qed.
  Lemma edge0 i j k : (q1 = true \/ 3 <= m1)%Z -> (q2 = true \/ 3 <= m2)%Z -> cell3 i j k -> local3 (Fpar3 true false false ge0) i j k = (w01 (inn q1 m1 (2 * j) && inn q2 m2 (2 * k)) + w01 (inn q1 m1 (2 * j + 2) && inn q2 m2 (2 * k)) + w01 (inn q1 m1 (2 * j) && inn q2 m2 (2 * k + 2)) + w01 (inn q1 m1 (2 * j + 2) && inn q2 m2 (2 * k + 2))) * (h1 * h2 / 18 * (ge0 0 i j k * ge0 0 i j k)).
  Proof.
    intros HA HB Hc. destruct (centre3 i j k Hc) as (C0 & C1 & C2). destruct (face1_zero i j k HA Hc) as [F1 F2]. destruct (face2_zero i j k HB Hc) as [F3 F4]. rewrite local_oee by exact Hc. unfold gf1 in F1, F2. unfold gf2 in F3, F4.
    assert (S1 : ge0 0 i (j + 1)%Z k = - ge0 0 i j k) by (unfold ge0; lra). assert (S2 : ge0 0 i j (k + 1)%Z = - ge0 0 i j k) by (unfold ge0; lra). assert (S3 : ge0 0 i (j + 1)%Z (k + 1)%Z = ge0 0 i j k) by (unfold ge0; lra).
    assert (L0 : G3 i j k 1 0 = (h1 * h2 / 18 * ge0 0 i j k)).
    { transitivity (h1 * h2 * (25 / 288 * ge0 0 i j k + 5 / 288 * ge0 0 i (j + 1)%Z k + 5 / 288 * ge0 0 i j (k + 1)%Z + 1 / 288 * ge0 0 i (j + 1)%Z (k + 1)%Z)); [|rewrite S1, S2, S3; field]. unfold G3, ge0. cbn [Rsum]. indices3. rewrite ?Z.add_0_r. tables3. field. }
    assert (L1 : G3 i j k 7 0 = - (h1 * h2 / 18 * ge0 0 i j k)).
    { transitivity (h1 * h2 * (5 / 288 * ge0 0 i j k + 25 / 288 * ge0 0 i (j + 1)%Z k + 1 / 288 * ge0 0 i j (k + 1)%Z + 5 / 288 * ge0 0 i (j + 1)%Z (k + 1)%Z)); [|rewrite S1, S2, S3; field]. unfold G3, ge0. cbn [Rsum]. indices3. rewrite ?Z.add_0_r. tables3. field. }
    assert (L2 : G3 i j k 19 0 = - (h1 * h2 / 18 * ge0 0 i j k)).
    { transitivity (h1 * h2 * (5 / 288 * ge0 0 i j k + 1 / 288 * ge0 0 i (j + 1)%Z k + 25 / 288 * ge0 0 i j (k + 1)%Z + 5 / 288 * ge0 0 i (j + 1)%Z (k + 1)%Z)); [|rewrite S1, S2, S3; field]. unfold G3, ge0. cbn [Rsum]. indices3. rewrite ?Z.add_0_r. tables3. field. }
    assert (L3 : G3 i j k 25 0 = (h1 * h2 / 18 * ge0 0 i j k)).
    { transitivity (h1 * h2 * (1 / 288 * ge0 0 i j k + 5 / 288 * ge0 0 i (j + 1)%Z k + 5 / 288 * ge0 0 i j (k + 1)%Z + 25 / 288 * ge0 0 i (j + 1)%Z (k + 1)%Z)); [|rewrite S1, S2, S3; field]. unfold G3, ge0. cbn [Rsum]. indices3. rewrite ?Z.add_0_r. tables3. field. }
    rewrite S1, S2, S3, L0, L1, L2, L3. unfold ge0. ring.
  Qed.
  Lemma edge0_zero i j k : (q1 = true \/ 3 <= m1)%Z -> (q2 = true \/ 3 <= m2)%Z -> cell3 i j k -> ge0 0 i j k = 0.
  Proof.
    intros HA HB Hc. pose proof (cell3_bounds i j k Hc) as B. destruct Hh as (A0 & A1 & A2). assert (P0 : 0 < h1 * h2) by (apply Rmult_lt_0_compat; assumption).
    assert (Z0 : local3 (Fpar3 true false false ge0) i j k = 0).
    { apply all_local3; auto; [apply Fpar3_inv, ge0_per|apply Fpar3_van|]. intros i' j' k' Hc'. rewrite edge0 by assumption. apply Rmult_le_pos; [pose proof (w01_ge (inn q1 m1 (2 * j') && inn q2 m2 (2 * k'))); pose proof (w01_ge (inn q1 m1 (2 * j' + 2) && inn q2 m2 (2 * k'))); pose proof (w01_ge (inn q1 m1 (2 * j') && inn q2 m2 (2 * k' + 2))); pose proof (w01_ge (inn q1 m1 (2 * j' + 2) && inn q2 m2 (2 * k' + 2))); lra|apply Rmult_le_pos; [lra|apply sq_pos]]. }
    rewrite edge0 in Z0 by assumption. pose proof (inner_edge q1 m1 j HA ltac:(tauto)) as W1. pose proof (inner_edge q2 m2 k HB ltac:(tauto)) as W2.
    apply Rmult_integral in Z0. destruct Z0 as [Z0|Z0].
    - exfalso. revert Z0 W1 W2. generalize (inn q1 m1 (2 * j)), (inn q1 m1 (2 * j + 2)), (inn q2 m2 (2 * k)), (inn q2 m2 (2 * k + 2)). intros b1 b2 b3 b4. destruct b1, b2, b3, b4; cbn [andb]; unfold w01; lra.
    - apply Rmult_integral in Z0. apply sq_zero. destruct Z0; lra.
  Qed.
  (** the middle of the edges along axis 1 *)
  Definition ge1 (d : nat) (i j k : Z) : R := match d with 1%nat => P3 i j k - P3 i (j + 1)%Z k | _ => 0 end.
  Lemma ge1_per : periodic_g3 ge1.
  Proof. intros d x y z. unfold ge1. rewrite ?P3_wr0, ?P3_wr1, ?P3_wr2, ?P3_wr3, ?P3_wr4. reflexivity. Qed.
  Lemma edge1 i j k : (q0 = true \/ 3 <= m0)%Z -> (q2 = true \/ 3 <= m2)%Z -> cell3 i j k -> local3 (Fpar3 false true false ge1) i j k = (w01 (inn q0 m0 (2 * i) && inn q2 m2 (2 * k)) + w01 (inn q0 m0 (2 * i + 2) && inn q2 m2 (2 * k)) + w01 (inn q0 m0 (2 * i) && inn q2 m2 (2 * k + 2)) + w01 (inn q0 m0 (2 * i + 2) && inn q2 m2 (2 * k + 2))) * (h0 * h2 / 18 * (ge1 1 i j k * ge1 1 i j k)).
  Proof.
    intros HA HB Hc. destruct (centre3 i j k Hc) as (C0 & C1 & C2). destruct (face0_zero i j k HA Hc) as [F1 F2]. destruct (face2_zero i j k HB Hc) as [F3 F4]. rewrite local_eoe by exact Hc. unfold gf0 in F1, F2. unfold gf2 in F3, F4.
    assert (S1 : ge1 1 (i + 1)%Z j k = - ge1 1 i j k) by (unfold ge1; lra). assert (S2 : ge1 1 i j (k + 1)%Z = - ge1 1 i j k) by (unfold ge1; lra). assert (S3 : ge1 1 (i + 1)%Z j (k + 1)%Z = ge1 1 i j k) by (unfold ge1; lra).
    assert (L0 : G3 i j k 3 1 = (h0 * h2 / 18 * ge1 1 i j k)).
    { transitivity (h0 * h2 * (25 / 288 * ge1 1 i j k + 5 / 288 * ge1 1 (i + 1)%Z j k + 5 / 288 * ge1 1 i j (k + 1)%Z + 1 / 288 * ge1 1 (i + 1)%Z j (k + 1)%Z)); [|rewrite S1, S2, S3; field]. unfold G3, ge1. cbn [Rsum]. indices3. rewrite ?Z.add_0_r. tables3. field. }
    assert (L1 : G3 i j k 5 1 = - (h0 * h2 / 18 * ge1 1 i j k)).
    { transitivity (h0 * h2 * (5 / 288 * ge1 1 i j k + 25 / 288 * ge1 1 (i + 1)%Z j k + 1 / 288 * ge1 1 i j (k + 1)%Z + 5 / 288 * ge1 1 (i + 1)%Z j (k + 1)%Z)); [|rewrite S1, S2, S3; field]. unfold G3, ge1. cbn [Rsum]. indices3. rewrite ?Z.add_0_r. tables3. field. }
    assert (L2 : G3 i j k 21 1 = - (h0 * h2 / 18 * ge1 1 i j k)).
    { transitivity (h0 * h2 * (5 / 288 * ge1 1 i j k + 1 / 288 * ge1 1 (i + 1)%Z j k + 25 / 288 * ge1 1 i j (k + 1)%Z + 5 / 288 * ge1 1 (i + 1)%Z j (k + 1)%Z)); [|rewrite S1, S2, S3; field]. unfold G3, ge1. cbn [Rsum]. indices3. rewrite ?Z.add_0_r. tables3. field. }
    assert (L3 : G3 i j k 23 1 = (h0 * h2 / 18 * ge1 1 i j k)).
    { transitivity (h0 * h2 * (1 / 288 * ge1 1 i j k + 5 / 288 * ge1 1 (i + 1)%Z j k + 5 / 288 * ge1 1 i j (k + 1)%Z + 25 / 288 * ge1 1 (i + 1)%Z j (k + 1)%Z)); [|rewrite S1, S2, S3; field]. unfold G3, ge1. cbn [Rsum]. indices3. rewrite ?Z.add_0_r. tables3. field. }
    rewrite S1, S2, S3, L0, L1, L2, L3. unfold ge1. ring.
  Qed.
  Lemma edge1_zero i j k : (q0 = true \/ 3 <= m0)%Z -> (q2 = true \/ 3 <= m2)%Z -> cell3 i j k -> ge1 1 i j k = 0.
  Proof.
    intros HA HB Hc. pose proof (cell3_bounds i j k Hc) as B. destruct Hh as (A0 & A1 & A2). assert (P0 : 0 < h0 * h2) by (apply Rmult_lt_0_compat; assumption).
    assert (Z0 : local3 (Fpar3 false true false ge1) i j k = 0).
    { apply all_local3; auto; [apply Fpar3_inv, ge1_per|apply Fpar3_van|]. intros i' j' k' Hc'. rewrite edge1 by assumption. apply Rmult_le_pos; [pose proof (w01_ge (inn q0 m0 (2 * i') && inn q2 m2 (2 * k'))); pose proof (w01_ge (inn q0 m0 (2 * i' + 2) && inn q2 m2 (2 * k'))); pose proof (w01_ge (inn q0 m0 (2 * i') && inn q2 m2 (2 * k' + 2))); pose proof (w01_ge (inn q0 m0 (2 * i' + 2) && inn q2 m2 (2 * k' + 2))); lra|apply Rmult_le_pos; [lra|apply sq_pos]]. }
    rewrite edge1 in Z0 by assumption. pose proof (inner_edge q0 m0 i HA ltac:(tauto)) as W1. pose proof (inner_edge q2 m2 k HB ltac:(tauto)) as W2.
    apply Rmult_integral in Z0. destruct Z0 as [Z0|Z0].
    - exfalso. revert Z0 W1 W2. generalize (inn q0 m0 (2 * i)), (inn q0 m0 (2 * i + 2)), (inn q2 m2 (2 * k)), (inn q2 m2 (2 * k + 2)). intros b1 b2 b3 b4. destruct b1, b2, b3, b4; cbn [andb]; unfold w01; lra.
    - apply Rmult_integral in Z0. apply sq_zero. destruct Z0; lra.
  Qed.
  (** the middle of the edges along axis 2 *)
  Definition ge2 (d : nat) (i j k : Z) : R := match d with 2%nat => P3 i j k - P3 i j (k + 1)%Z | _ => 0 end.
  Lemma ge2_per : periodic_g3 ge2.
  Proof. intros d x y z. unfold ge2. rewrite ?P3_wr0, ?P3_wr1, ?P3_wr2, ?P3_wr3, ?P3_wr4. reflexivity. Qed.
  Lemma edge2 i j k : (q0 = true \/ 3 <= m0)%Z -> (q1 = true \/ 3 <= m1)%Z -> cell3 i j k -> local3 (Fpar3 false false true ge2) i j k = (w01 (inn q0 m0 (2 * i) && inn q1 m1 (2 * j)) + w01 (inn q0 m0 (2 * i + 2) && inn q1 m1 (2 * j)) + w01 (inn q0 m0 (2 * i) && inn q1 m1 (2 * j + 2)) + w01 (inn q0 m0 (2 * i + 2) && inn q1 m1 (2 * j + 2))) * (h0 * h1 / 18 * (ge2 2 i j k * ge2 2 i j k)).
  Proof.
    intros HA HB Hc. destruct (centre3 i j k Hc) as (C0 & C1 & C2). destruct (face0_zero i j k HA Hc) as [F1 F2]. destruct (face1_zero i j k HB Hc) as [F3 F4]. rewrite local_eeo by exact Hc. unfold gf0 in F1, F2. unfold gf1 in F3, F4.
    assert (S1 : ge2 2 (i + 1)%Z j k = - ge2 2 i j k) by (unfold ge2; lra). assert (S2 : ge2 2 i (j + 1)%Z k = - ge2 2 i j k) by (unfold ge2; lra). assert (S3 : ge2 2 (i + 1)%Z (j + 1)%Z k = ge2 2 i j k) by (unfold ge2; lra).
    assert (L0 : G3 i j k 9 2 = (h0 * h1 / 18 * ge2 2 i j k)).
    { transitivity (h0 * h1 * (25 / 288 * ge2 2 i j k + 5 / 288 * ge2 2 (i + 1)%Z j k + 5 / 288 * ge2 2 i (j + 1)%Z k + 1 / 288 * ge2 2 (i + 1)%Z (j + 1)%Z k)); [|rewrite S1, S2, S3; field]. unfold G3, ge2. cbn [Rsum]. indices3. rewrite ?Z.add_0_r. tables3. field. }
    assert (L1 : G3 i j k 11 2 = - (h0 * h1 / 18 * ge2 2 i j k)).
    { transitivity (h0 * h1 * (5 / 288 * ge2 2 i j k + 25 / 288 * ge2 2 (i + 1)%Z j k + 1 / 288 * ge2 2 i (j + 1)%Z k + 5 / 288 * ge2 2 (i + 1)%Z (j + 1)%Z k)); [|rewrite S1, S2, S3; field]. unfold G3, ge2. cbn [Rsum]. indices3. rewrite ?Z.add_0_r. tables3. field. }
    assert (L2 : G3 i j k 15 2 = - (h0 * h1 / 18 * ge2 2 i j k)).
    { transitivity (h0 * h1 * (5 / 288 * ge2 2 i j k + 1 / 288 * ge2 2 (i + 1)%Z j k + 25 / 288 * ge2 2 i (j + 1)%Z k + 5 / 288 * ge2 2 (i + 1)%Z (j + 1)%Z k)); [|rewrite S1, S2, S3; field]. unfold G3, ge2. cbn [Rsum]. indices3. rewrite ?Z.add_0_r. tables3. field. }
    assert (L3 : G3 i j k 17 2 = (h0 * h1 / 18 * ge2 2 i j k)).
    { transitivity (h0 * h1 * (1 / 288 * ge2 2 i j k + 5 / 288 * ge2 2 (i + 1)%Z j k + 5 / 288 * ge2 2 i (j + 1)%Z k + 25 / 288 * ge2 2 (i + 1)%Z (j + 1)%Z k)); [|rewrite S1, S2, S3; field]. unfold G3, ge2. cbn [Rsum]. indices3. rewrite ?Z.add_0_r. tables3. field. }
    rewrite S1, S2, S3, L0, L1, L2, L3. unfold ge2. ring.
  Qed.
  Lemma edge2_zero i j k : (q0 = true \/ 3 <= m0)%Z -> (q1 = true \/ 3 <= m1)%Z -> cell3 i j k -> ge2 2 i j k = 0.
  Proof.
    intros HA HB Hc. pose proof (cell3_bounds i j k Hc) as B. destruct Hh as (A0 & A1 & A2). assert (P0 : 0 < h0 * h1) by (apply Rmult_lt_0_compat; assumption).
    assert (Z0 : local3 (Fpar3 false false true ge2) i j k = 0).
    { apply all_local3; auto; [apply Fpar3_inv, ge2_per|apply Fpar3_van|]. intros i' j' k' Hc'. rewrite edge2 by assumption. apply Rmult_le_pos; [pose proof (w01_ge (inn q0 m0 (2 * i') && inn q1 m1 (2 * j'))); pose proof (w01_ge (inn q0 m0 (2 * i' + 2) && inn q1 m1 (2 * j'))); pose proof (w01_ge (inn q0 m0 (2 * i') && inn q1 m1 (2 * j' + 2))); pose proof (w01_ge (inn q0 m0 (2 * i' + 2) && inn q1 m1 (2 * j' + 2))); lra|apply Rmult_le_pos; [lra|apply sq_pos]]. }
    rewrite edge2 in Z0 by assumption. pose proof (inner_edge q0 m0 i HA ltac:(tauto)) as W1. pose proof (inner_edge q1 m1 j HB ltac:(tauto)) as W2.
    apply Rmult_integral in Z0. destruct Z0 as [Z0|Z0].
    - exfalso. revert Z0 W1 W2. generalize (inn q0 m0 (2 * i)), (inn q0 m0 (2 * i + 2)), (inn q1 m1 (2 * j)), (inn q1 m1 (2 * j + 2)). intros b1 b2 b3 b4. destruct b1, b2, b3, b4; cbn [andb]; unfold w01; lra.
    - apply Rmult_integral in Z0. apply sq_zero. destruct Z0; lra.
  Qed.
  Definition wide (q : bool) (m : Z) : Prop := (q = true \/ 3 <= m)%Z.
  Lemma cell_constant3 : (wide q0 m0 /\ wide q1 m1) \/ (wide q0 m0 /\ wide q2 m2) \/ (wide q1 m1 /\ wide q2 m2) -> forall i j k, cell3 i j k -> P3 (i + 1)%Z j k = P3 i j k /\ P3 i (j + 1)%Z k = P3 i j k /\ P3 (i + 1)%Z (j + 1)%Z k = P3 i j k /\ P3 i j (k + 1)%Z = P3 i j k /\ P3 (i + 1)%Z j (k + 1)%Z = P3 i j k /\ P3 i (j + 1)%Z (k + 1)%Z = P3 i j k /\ P3 (i + 1)%Z (j + 1)%Z (k + 1)%Z = P3 i j k.
  Proof.
    intros HL i j k Hc. destruct (centre3 i j k Hc) as (C0 & C1 & C2). destruct HL as [[H1 H2]|[[H1 H2]|[H1 H2]]].
    - destruct (face0_zero i j k H1 Hc) as [F1 F2]. destruct (face1_zero i j k H2 Hc) as [F3 F4]. pose proof (edge2_zero i j k H1 H2 Hc) as E. unfold gf0 in F1, F2. unfold gf1 in F3, F4. unfold ge2 in E. lra.
    - destruct (face0_zero i j k H1 Hc) as [F1 F2]. destruct (face2_zero i j k H2 Hc) as [F3 F4]. pose proof (edge1_zero i j k H1 H2 Hc) as E. unfold gf0 in F1, F2. unfold gf2 in F3, F4. unfold ge1 in E. lra.
    - destruct (face1_zero i j k H1 Hc) as [F1 F2]. destruct (face2_zero i j k H2 Hc) as [F3 F4]. pose proof (edge0_zero i j k H1 H2 Hc) as E. unfold gf1 in F1, F2. unfold gf2 in F3, F4. unfold ge0 in E. lra.
  Qed.
  Lemma pressure_constant3 : has_cells mp per -> (wide q0 m0 /\ wide q1 m1) \/ (wide q0 m0 /\ wide q2 m2) \/ (wide q1 m1 /\ wide q2 m2) -> forall n, in_grid_box (nodes_box mp) n -> p n 0%nat = p [0%Z; 0%Z; 0%Z] 0%nat.
  Proof.
    intros HC HL n Hn. apply (connected mp per (fun n => p n 0%nat)); auto.
    - split; [right; reflexivity|]. split; [reflexivity|]. destruct HM as (? & ? & ?). repeat constructor; assumption.
    - intros e w He Hz. pose proof He as [I _]. cbn in I. inversion I as [|? i ? e1 _ I']; subst. inversion I' as [|? j ? e2 _ I'']; subst. inversion I'' as [|? k ? e3 _ I3]; subst. inversion I3; subst. unfold near in Hz. inversion Hz as [|? x ? ? X Hz']; subst. inversion Hz' as [|? y ? ? Y Hz'']; subst. inversion Hz'' as [|? z ? ? Y3 Hz3]; subst. inversion Hz3; subst.
      destruct (cell_constant3 HL i j k He) as (K1 & K2 & K3 & K4 & K5 & K6 & K7). change (P3 x y z = P3 i j k).
      assert (Ex : x = i \/ x = (i + 1)%Z) by lia. assert (Ey : y = j \/ y = (j + 1)%Z) by lia. assert (Ez : z = k \/ z = (k + 1)%Z) by lia. destruct Ex as [-> | ->], Ey as [-> | ->], Ez as [-> | ->]; auto.
  Qed.
End PK3.
