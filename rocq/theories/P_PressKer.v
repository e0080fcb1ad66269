(** Pressures that do no work against velocities vanishing on the walls are constant (2D). *)
From Coq Require Import QArith Qreals.
From Verif Require Import Base M_Geometry S_Geometry P_Geometry M_Shapes M_Particle S_Particle P_Particle M_Quadrature S_Fem P_Energy M_MatElem M_Mesh M_Operator S_Operator P_Mesh P_Operator P_Operator3 P_Global M_Bc S_Bc.
Local Open Scope R_scope.

Definition wr (b : bool) (m z : Z) : Z := if b then (z mod m)%Z else z.
Definition rf (b : bool) (m : Z) : Z := if b then (2 * m)%Z else (2 * m - 1)%Z.
Lemma wr_odd b m z : (1 <= m)%Z -> Z.odd (wr b (rf b m) z) = Z.odd z.
Proof. intros H. unfold wr, rf. destruct b; [|reflexivity]. rewrite (Z.div_mod z (2 * m)) at 2 by lia. rewrite Z.odd_add, Z.odd_mul, Z.odd_mul. cbn. destruct (Z.odd _); reflexivity. Qed.
Lemma wr_half b m z o : (1 <= m)%Z -> wr b m (wr b (rf b m) z / 2 + o) = wr b m (z / 2 + o).
Proof.
  intros H. unfold wr, rf. destruct b; [|reflexivity]. rewrite <- (Zplus_mod_idemp_l (z / 2)). f_equal. f_equal.
  rewrite (Z.mul_comm 2 m), (Z.mul_comm m 2), Z.rem_mul_r by lia. rewrite Z.mul_comm, Z.div_add by lia. rewrite Z.div_small by (apply Z.mod_pos_bound; lia). lia.
Qed.
(** inside the walls of one axis, unless it is periodic *)
Definition inn (b : bool) (m z : Z) : bool := b || ((0 <? z) && (z <? rf b m - 1))%Z.
Lemma inn_wr b m z : inn b m (wr b (rf b m) z) = inn b m z. Proof. unfold inn, wr. destruct b; reflexivity. Qed.
Lemma half_even i : (2 * i / 2 = i)%Z. Proof. rewrite Z.mul_comm, Z.div_mul; lia. Qed.
Lemma half_odd i : ((2 * i + 1) / 2 = i)%Z. Proof. rewrite Z.add_comm, Z.mul_comm, Z.div_add by lia. reflexivity. Qed.
Lemma half_two i : ((2 * i + 2) / 2 = i + 1)%Z. Proof. replace (2 * i + 2)%Z with (2 * (i + 1))%Z by lia. apply half_even. Qed.
Lemma odd_even i : Z.odd (2 * i) = false. Proof. rewrite Z.odd_mul. reflexivity. Qed.
Lemma odd_odd i : Z.odd (2 * i + 1) = true. Proof. rewrite Z.odd_add, Z.odd_mul. reflexivity. Qed.
Lemma odd_two i : Z.odd (2 * i + 2) = false. Proof. rewrite Z.odd_add, Z.odd_mul. reflexivity. Qed.

Section PK2.
  Variables (m0 m1 : Z) (q0 q1 : bool) (h0 h1 : R) (p : field).
  Let mp := [m0; m1]. Let per := [q0; q1]. Let mv := refined_size mp per.
  Hypothesis HM : (1 <= m0)%Z /\ (1 <= m1)%Z.
  Hypothesis Hh : 0 < h0 /\ 0 < h1.
  Hypothesis HZ : forall v : field, (forall n d, in_grid_box (nodes_box mv) n -> (exists s, In s (sides 2) /\ on_side mv per n s = true) -> v n d = 0) ->
    div_form mv mp per (E0 mp per) 2 (getMatElemPressure [h0; h1]) p v = 0.
  Definition P2 (x y : Z) : R := p [wr q0 m0 x; wr q1 m1 y] 0%nat.
  (** a test field given by a function of the lattice that does not see the wrapping *)
  Definition fld (F : Z -> Z -> nat -> R) : field := fun n d => F (nth 0 n 0%Z) (nth 1 n 0%Z) d.
  Definition invariant (F : Z -> Z -> nat -> R) : Prop := forall x y d, F (wr q0 (rf q0 m0) x) (wr q1 (rf q1 m1) y) d = F x y d.
  Definition local (F : Z -> Z -> nat -> R) (i j : Z) : R :=
    Rsum 4 (fun kp => Rsum 9 (fun kv => Rsum 2 (fun d => P2 (i + Z.of_nat (kp mod 2))%Z (j + Z.of_nat (kp / 2))%Z * getMatElemPressure2 h0 h1 kp kv d * F (2 * i + Z.of_nat (kv mod 3))%Z (2 * j + Z.of_nat (kv / 3))%Z d))).
  Lemma form_local F : invariant F -> div_form mv mp per (E0 mp per) 2 (getMatElemPressure [h0; h1]) p (fld F) = Lsum (fun e => local F (nth 0 e 0%Z) (nth 1 e 0%Z)) (E0 mp per).
  Proof.
    intros HF. unfold div_form. apply Lsum_ext. intros e He. assert (He' : in_grid_box (cells_box mp per) e) by (apply (proj2 (E0_enum mp per eq_refl)), He).
    destruct He' as [I _]. cbn in I. inversion I as [|? i ? e1 _ I']; subst. inversion I' as [|? j ? e2 _ I'']; subst. inversion I''; subst. cbn [nth]. unfold local. cbn [length mp].
    change (2 ^ 2)%nat with 4%nat. change (3 ^ 2)%nat with 9%nat. apply Rsum_ext. intros kp Hp. apply Rsum_ext. intros kv Hv. apply Rsum_ext. intros d Hd. f_equal; [f_equal|].
    - unfold gv, P2, corner. cbn [length seq zip_with wrap mp per]. f_equal. f_equal; [|f_equal]; unfold wr; do 4 (destruct kp as [|kp]; [reflexivity|]); lia.
    - unfold gv3, fld, corner3. cbn [length seq zip_with wrap mp per mv refined_size nth]. rewrite <- (HF (2 * i + Z.of_nat (kv mod 3))%Z). f_equal; unfold wr, rf; do 9 (destruct kv as [|kv]; [reflexivity|]); lia.
  Qed.
  Definition vanishes (F : Z -> Z -> nat -> R) : Prop := forall x y d, (0 <= x)%Z -> (0 <= y)%Z -> inn q0 m0 x = false \/ inn q1 m1 y = false -> F x y d = 0.
  Lemma test F : invariant F -> vanishes F -> Lsum (fun e => local F (nth 0 e 0%Z) (nth 1 e 0%Z)) (E0 mp per) = 0.
  Proof.
    intros HI HV. rewrite <- (form_local F HI). apply HZ. intros n d [Hn1 Hn2] (s & Hs & Ho). cbn in Hn1. inversion Hn1 as [|? x ? n1 X Hn1']; subst. inversion Hn1' as [|? y ? n2 Y Hn1'']; subst. inversion Hn1''; subst. unfold fld. cbn [nth].
    apply HV; [exact X|exact Y|]. assert (Emv : mv = [rf q0 m0; rf q1 m1]) by reflexivity. rewrite Emv in Ho. unfold per in Ho. unfold on_side in Ho. apply andb_true_iff in Ho. destruct Ho as [O1 O2]. apply negb_true_iff in O1. apply Z.eqb_eq in O2. unfold inn.
    cbn in Hs. destruct Hs as [<-|[<-|[<-|[<-|[]]]]]; cbn [fst snd nth] in O1, O2; rewrite O1 in *; cbn [orb]; [left|left|right|right]; apply andb_false_iff; rewrite !Z.ltb_ge; lia.
  Qed.

  Lemma P2_wr x y o o' : P2 (wr q0 (rf q0 m0) x / 2 + o)%Z (wr q1 (rf q1 m1) y / 2 + o')%Z = P2 (x / 2 + o)%Z (y / 2 + o')%Z.
  Proof. unfold P2. rewrite !wr_half by apply HM. reflexivity. Qed.
  (** a test field living on one parity class *)
  Definition Fpar (sx sy : bool) (g : nat -> Z -> Z -> R) (x y : Z) (d : nat) : R := if Bool.eqb (Z.odd x) sx && Bool.eqb (Z.odd y) sy && inn q0 m0 x && inn q1 m1 y then g d (x / 2)%Z (y / 2)%Z else 0.
  Definition periodic_g (g : nat -> Z -> Z -> R) : Prop := forall d x y, g d (wr q0 (rf q0 m0) x / 2)%Z (wr q1 (rf q1 m1) y / 2)%Z = g d (x / 2)%Z (y / 2)%Z.
  Lemma Fpar_inv sx sy g : periodic_g g -> invariant (Fpar sx sy g).
  Proof. intros HP x y d. unfold Fpar. rewrite !wr_odd by apply HM. rewrite !inn_wr. rewrite HP. reflexivity. Qed.
  Lemma Fpar_van sx sy g : vanishes (Fpar sx sy g).
  Proof. intros x y d _ _ H. unfold Fpar. destruct H as [-> | ->]; rewrite ?andb_false_r; cbn; rewrite ?andb_false_r; reflexivity. Qed.
  Definition cell (i j : Z) : Prop := in_grid_box (cells_box mp per) [i; j].
  Lemma cell_bounds i j : cell i j -> (0 <= i < (if q0 then m0 else m0 - 1) /\ 0 <= j < (if q1 then m1 else m1 - 1))%Z.
  Proof. intros [A B]. cbn in A, B. inversion A as [|? ? ? ? A0 A']; subst. inversion A' as [|? ? ? ? A1 _]; subst. inversion B as [|? ? ? ? B0 B']; subst. inversion B' as [|? ? ? ? B1 _]; subst. lia. Qed.
  Lemma all_local F : invariant F -> vanishes F -> (forall i j, cell i j -> 0 <= local F i j) -> forall i j, cell i j -> local F i j = 0.
  Proof.
    intros HI HV HP i j Hc. pose proof (test F HI HV) as T. 
    apply (Lsum_zero_all (fun e => local F (nth 0 e 0%Z) (nth 1 e 0%Z)) (E0 mp per)) with (a := [i; j]) in T; [exact T| |apply (proj2 (E0_enum mp per eq_refl)), Hc].
    intros e He. apply (proj2 (E0_enum mp per eq_refl)) in He. pose proof He as [I _]. cbn in I. inversion I as [|? i' ? e1 _ I']; subst. inversion I' as [|? j' ? e2 _ I'']; subst. inversion I''; subst. apply HP, He.
  Qed.
  Lemma inn_odd (q : bool) (m i : Z) : (0 <= i < (if q then m else m - 1))%Z -> inn q m (2 * i + 1) = true.
  Proof. intros H. unfold inn, rf. destruct q; [reflexivity|]. cbn [orb]. apply andb_true_iff. rewrite !Z.ltb_lt. lia. Qed.

  (** the middle of the cells *)
  Definition gmid (d : nat) (i j : Z) : R := Rsum 4 (fun kp => P2 (i + Z.of_nat (kp mod 2))%Z (j + Z.of_nat (kp / 2))%Z * getMatElemPressure2 h0 h1 kp 4 d).
  Lemma gmid_per : periodic_g gmid.
  Proof. intros d x y. unfold gmid. apply Rsum_ext. intros kp _. rewrite P2_wr. reflexivity. Qed.
  Ltac parities := rewrite ?Z.add_0_r, ?odd_even, ?odd_odd, ?odd_two, ?half_even, ?half_odd, ?half_two.
  Lemma local_mid i j : cell i j -> local (Fpar true true gmid) i j = gmid 0 i j * gmid 0 i j + gmid 1 i j * gmid 1 i j.
  Proof.
    intros Hc. pose proof (cell_bounds i j Hc) as [B0 B1]. unfold local, Fpar. cbn [Rsum]. cbn [Nat.modulo Nat.divmod Nat.div Nat.sub fst snd Z.of_nat Pos.of_succ_nat Pos.succ].
    parities. rewrite ?(inn_odd q0 m0 i B0), ?(inn_odd q1 m1 j B1). cbn [Bool.eqb andb]. unfold gmid. cbn [Rsum]. cbn [Nat.modulo Nat.divmod Nat.div Nat.sub fst snd Z.of_nat Pos.of_succ_nat Pos.succ]. parities. ring.
  Qed.
  Ltac tables := unfold getMatElemPressure2, matElem2d_pdxu, matElem2d_pdyu, entry, matElem2d_pdxu_q, matElem2d_pdyu_q, Q2R; cbn [nth Qnum Qden].
  Ltac indices := cbn [Nat.modulo Nat.divmod Nat.div Nat.sub fst snd Z.of_nat Pos.of_succ_nat Pos.succ].
  Lemma crossed i j : cell i j -> (P2 i j = P2 (i + 1)%Z (j + 1)%Z /\ P2 (i + 1)%Z j = P2 i (j + 1)%Z).
  Proof.
    intros Hc. assert (Z0 : local (Fpar true true gmid) i j = 0).
    { apply all_local; auto; [apply Fpar_inv, gmid_per|apply Fpar_van|]. intros i' j' Hc'. rewrite local_mid by exact Hc'. pose proof (Rle_0_sqr (gmid 0 i' j')). pose proof (Rle_0_sqr (gmid 1 i' j')). unfold Rsqr in *. lra. }
    rewrite local_mid in Z0 by exact Hc. pose proof (Rle_0_sqr (gmid 0 i j)) as S0. pose proof (Rle_0_sqr (gmid 1 i j)) as S1. unfold Rsqr in *.
    assert (G0 : gmid 0 i j = 0) by (assert (Q : gmid 0 i j * gmid 0 i j = 0) by lra; apply Rmult_integral in Q; tauto).
    assert (G1 : gmid 1 i j = 0) by (assert (Q : gmid 1 i j * gmid 1 i j = 0) by lra; apply Rmult_integral in Q; tauto).
    unfold gmid in G0, G1. cbn [Rsum] in G0, G1. revert G0 G1. indices. rewrite !Z.add_0_r. tables. intros G0 G1.
    assert (K0 : h1 * (P2 (i + 1)%Z j + P2 (i + 1)%Z (j + 1)%Z - P2 i j - P2 i (j + 1)%Z) = 0) by lra. assert (K1 : h0 * (P2 i (j + 1)%Z + P2 (i + 1)%Z (j + 1)%Z - P2 i j - P2 (i + 1)%Z j) = 0) by lra.
    apply Rmult_integral in K0, K1. destruct Hh. destruct K0; [lra|]. destruct K1; [lra|]. lra.
  Qed.
  (** the middle of the vertical edges *)
  Definition gver (d : nat) (i j : Z) : R := match d with 1%nat => P2 i j - P2 i (j + 1)%Z | _ => 0 end.
  Definition ghor (d : nat) (i j : Z) : R := match d with 0%nat => P2 i j - P2 (i + 1)%Z j | _ => 0 end.
  Lemma gver_per : periodic_g gver.
  Proof. intros d x y. unfold gver. destruct d as [|[|d]]; try reflexivity. rewrite <- (Z.add_0_r (wr q0 (rf q0 m0) x / 2)), <- (Z.add_0_r (wr q1 (rf q1 m1) y / 2)) at 1. rewrite P2_wr. rewrite <- (Z.add_0_r (wr q0 (rf q0 m0) x / 2)), P2_wr. rewrite !Z.add_0_r. reflexivity. Qed.
  Lemma ghor_per : periodic_g ghor.
  Proof. intros d x y. unfold ghor. destruct d as [|d]; try reflexivity. rewrite <- (Z.add_0_r (wr q0 (rf q0 m0) x / 2)), <- (Z.add_0_r (wr q1 (rf q1 m1) y / 2)) at 1. rewrite P2_wr. rewrite <- (Z.add_0_r (wr q1 (rf q1 m1) y / 2)), P2_wr. rewrite !Z.add_0_r. reflexivity. Qed.
  Definition w01 (b : bool) : R := if b then 1 else 0.
  Lemma local_ver i j : cell i j -> local (Fpar false true gver) i j = h0 / 6 * (w01 (inn q0 m0 (2 * i)) + w01 (inn q0 m0 (2 * i + 2))) * ((P2 i j - P2 (i + 1)%Z j) * (P2 i j - P2 (i + 1)%Z j)).
  Proof.
    intros Hc. pose proof (cell_bounds i j Hc) as [B0 B1]. destruct (crossed i j Hc) as [C0 C1]. unfold local, Fpar. cbn [Rsum]. indices.
    parities. rewrite ?(inn_odd q1 m1 j B1). cbn [Bool.eqb andb]. unfold gver. rewrite ?Z.add_0_r, ?andb_true_r. tables. rewrite <- ?C0, <- ?C1. destruct (inn q0 m0 (2 * i)), (inn q0 m0 (2 * i + 2)); unfold w01; field.
  Qed.
  Lemma local_hor i j : cell i j -> local (Fpar true false ghor) i j = h1 / 6 * (w01 (inn q1 m1 (2 * j)) + w01 (inn q1 m1 (2 * j + 2))) * ((P2 i j - P2 (i + 1)%Z j) * (P2 i j - P2 (i + 1)%Z j)).
  Proof.
    intros Hc. pose proof (cell_bounds i j Hc) as [B0 B1]. destruct (crossed i j Hc) as [C0 C1]. unfold local, Fpar. cbn [Rsum]. indices.
    parities. rewrite ?(inn_odd q0 m0 i B0). cbn [Bool.eqb andb]. unfold ghor. rewrite ?Z.add_0_r, ?andb_true_r. tables. rewrite <- ?C0, <- ?C1. destruct (inn q1 m1 (2 * j)), (inn q1 m1 (2 * j + 2)); unfold w01; field.
  Qed.
  Lemma w01_pos b b' : 0 <= w01 b + w01 b'. Proof. unfold w01. destruct b, b'; lra. Qed.
  Lemma inner_edge (q : bool) (m i : Z) : (q = true \/ 3 <= m)%Z -> (0 <= i < (if q then m else m - 1))%Z -> 1 <= w01 (inn q m (2 * i)) + w01 (inn q m (2 * i + 2)).
  Proof.
    intros H B. unfold inn, rf. destruct q; [cbn; unfold w01; lra|]. destruct H as [|H]; [discriminate|]. cbn [orb]. unfold w01.
    destruct (Z.ltb_spec 0 (2 * i)), (Z.ltb_spec (2 * i) (2 * m - 1 - 1)), (Z.ltb_spec 0 (2 * i + 2)), (Z.ltb_spec (2 * i + 2) (2 * m - 1 - 1)); cbn [andb]; try lra; lia.
  Qed.
  Lemma cell_constant : (q0 = true \/ 3 <= m0)%Z \/ (q1 = true \/ 3 <= m1)%Z -> forall i j, cell i j -> P2 (i + 1)%Z j = P2 i j /\ P2 i (j + 1)%Z = P2 i j /\ P2 (i + 1)%Z (j + 1)%Z = P2 i j.
  Proof.
    intros HL i j Hc. pose proof (cell_bounds i j Hc) as [B0 B1]. destruct (crossed i j Hc) as [C0 C1]. enough (P2 i j = P2 (i + 1)%Z j) by (rewrite <- C0, <- C1; lra). destruct Hh as [H0 H1].
    destruct HL as [HL|HL].
    - assert (Z0 : local (Fpar false true gver) i j = 0).
      { apply all_local; auto; [apply Fpar_inv, gver_per|apply Fpar_van|]. intros i' j' Hc'. rewrite local_ver by exact Hc'. pose proof (Rle_0_sqr (P2 i' j' - P2 (i' + 1)%Z j')) as S. unfold Rsqr in S. apply Rmult_le_pos; [|exact S]. apply Rmult_le_pos; [lra|apply w01_pos]. }
      rewrite local_ver in Z0 by exact Hc. pose proof (inner_edge q0 m0 i HL B0). apply Rmult_integral in Z0. destruct Z0 as [Z0|Z0]; apply Rmult_integral in Z0; destruct Z0; lra.
    - assert (Z0 : local (Fpar true false ghor) i j = 0).
      { apply all_local; auto; [apply Fpar_inv, ghor_per|apply Fpar_van|]. intros i' j' Hc'. rewrite local_hor by exact Hc'. pose proof (Rle_0_sqr (P2 i' j' - P2 (i' + 1)%Z j')) as S. unfold Rsqr in S. apply Rmult_le_pos; [|exact S]. apply Rmult_le_pos; [lra|apply w01_pos]. }
      rewrite local_hor in Z0 by exact Hc. pose proof (inner_edge q1 m1 j HL B1). apply Rmult_integral in Z0. destruct Z0 as [Z0|Z0]; apply Rmult_integral in Z0; destruct Z0; lra.
  Qed.
  Lemma pressure_constant2 : has_cells mp per -> (q0 = true \/ 3 <= m0)%Z \/ (q1 = true \/ 3 <= m1)%Z -> forall n, in_grid_box (nodes_box mp) n -> p n 0%nat = p [0%Z; 0%Z] 0%nat.
  Proof.
    intros HC HL n Hn. apply (connected mp per (fun n => p n 0%nat)); auto.
    - split; [left; reflexivity|]. split; [reflexivity|]. destruct HM. repeat constructor; assumption.
    - intros e z He Hz. pose proof He as [I _]. cbn in I. inversion I as [|? i ? e1 _ I']; subst. inversion I' as [|? j ? e2 _ I'']; subst. inversion I''; subst. unfold near in Hz. inversion Hz as [|? x ? ? X Hz']; subst. inversion Hz' as [|? y ? ? Y Hz'']; subst. inversion Hz''; subst.
      destruct (cell_constant HL i j He) as (K1 & K2 & K3). change (P2 x y = P2 i j).
      assert (Ex : x = i \/ x = (i + 1)%Z) by lia. assert (Ey : y = j \/ y = (j + 1)%Z) by lia. destruct Ex as [-> | ->], Ey as [-> | ->]; auto.
  Qed.
End PK2.
