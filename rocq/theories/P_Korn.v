(** A velocity without strain that vanishes on one side of the domain is null. *)
From Verif Require Import Base M_Geometry S_Geometry P_Geometry M_Shapes M_Particle S_Particle P_Particle M_Quadrature S_Fem P_Energy M_MatElem M_Mesh M_Operator S_Operator P_Mesh P_Operator P_Operator2 P_Operator3 P_Global M_Bc S_Bc.
Local Open Scope R_scope.

Lemma mul_zero (w h : R) : 0 < h -> w * h = 0 -> w = 0. Proof. intros H E. apply Rmult_integral in E. destruct E; lra. Qed.
Definition bit (k a : nat) : Z := Z.of_nat (k / 2 ^ a mod 2).
Definition up01 (up : bool) : Z := if up then 1%Z else 0%Z.
Lemma rigid2_face h0 h1 U (a : nat) (up : bool) : 0 < h0 -> 0 < h1 -> (a < 2)%nat -> rigid2 h0 h1 U ->
  (forall k d, (k < 4)%nat -> (d < 2)%nat -> bit k a = up01 up -> U k d = 0) -> forall k d, (k < 4)%nat -> (d < 2)%nat -> U k d = 0.
Proof.
  intros H0 H1 Ha (t0 & t1 & w & HR) HF.
  assert (W : w = 0 /\ t0 = 0 /\ t1 = 0).
  { destruct (HR 0%nat ltac:(lia)) as [R00 R01]. destruct (HR 1%nat ltac:(lia)) as [R10 R11]. destruct (HR 2%nat ltac:(lia)) as [R20 R21]. destruct (HR 3%nat ltac:(lia)) as [R30 R31].
    unfold node2, vertices2 in *. cbn [nth fst snd b2r] in *.
    destruct a as [|[|]]; [| |lia]; destruct up.
    - pose proof (HF 1%nat 0%nat ltac:(lia) ltac:(lia) eq_refl). pose proof (HF 1%nat 1%nat ltac:(lia) ltac:(lia) eq_refl). pose proof (HF 3%nat 0%nat ltac:(lia) ltac:(lia) eq_refl).
      assert (w = 0) by (apply (mul_zero w h1); lra). subst w. lra.
    - pose proof (HF 0%nat 0%nat ltac:(lia) ltac:(lia) eq_refl). pose proof (HF 0%nat 1%nat ltac:(lia) ltac:(lia) eq_refl). pose proof (HF 2%nat 0%nat ltac:(lia) ltac:(lia) eq_refl).
      assert (w = 0) by (apply (mul_zero w h1); lra). subst w. lra.
    - pose proof (HF 2%nat 0%nat ltac:(lia) ltac:(lia) eq_refl). pose proof (HF 2%nat 1%nat ltac:(lia) ltac:(lia) eq_refl). pose proof (HF 3%nat 1%nat ltac:(lia) ltac:(lia) eq_refl).
      assert (w = 0) by (apply (mul_zero w h0); lra). subst w. lra.
    - pose proof (HF 0%nat 0%nat ltac:(lia) ltac:(lia) eq_refl). pose proof (HF 0%nat 1%nat ltac:(lia) ltac:(lia) eq_refl). pose proof (HF 1%nat 1%nat ltac:(lia) ltac:(lia) eq_refl).
      assert (w = 0) by (apply (mul_zero w h0); lra). subst w. lra. }
  destruct W as (-> & -> & ->). intros k d Hk Hd. destruct (HR k Hk) as [R0 R1]. destruct d as [|[|]]; [rewrite R0; ring|rewrite R1; ring|lia].
Qed.
Lemma rigid3_face h0 h1 h2 U (a : nat) (up : bool) : 0 < h0 -> 0 < h1 -> 0 < h2 -> (a < 3)%nat -> rigid3 h0 h1 h2 U ->
  (forall k d, (k < 8)%nat -> (d < 3)%nat -> bit k a = up01 up -> U k d = 0) -> forall k d, (k < 8)%nat -> (d < 3)%nat -> U k d = 0.
Proof.
  intros H0 H1 H2 Ha (t0 & t1 & t2 & w0 & w1 & w2 & HR) HF.
  assert (W : w0 = 0 /\ w1 = 0 /\ w2 = 0 /\ t0 = 0 /\ t1 = 0 /\ t2 = 0).
  { destruct (HR 0%nat ltac:(lia)) as (R00 & R01 & R02). destruct (HR 1%nat ltac:(lia)) as (R10 & R11 & R12). destruct (HR 2%nat ltac:(lia)) as (R20 & R21 & R22). destruct (HR 3%nat ltac:(lia)) as (R30 & R31 & R32).
    destruct (HR 4%nat ltac:(lia)) as (R40 & R41 & R42). destruct (HR 5%nat ltac:(lia)) as (R50 & R51 & R52). destruct (HR 6%nat ltac:(lia)) as (R60 & R61 & R62). destruct (HR 7%nat ltac:(lia)) as (R70 & R71 & R72). clear HR.
    unfold node3, vertices3 in *. cbn [nth fst snd b2r] in *.
    assert (K : forall k, (k < 8)%nat -> bit k a = up01 up -> U k 0%nat = 0 /\ U k 1%nat = 0 /\ U k 2%nat = 0) by (intros k Hk B; repeat split; apply HF; auto; lia).
    destruct a as [|[|[|]]]; [| | |lia]; destruct up.
    - destruct (K 1%nat ltac:(lia) eq_refl) as (A0 & A1 & A2). destruct (K 3%nat ltac:(lia) eq_refl) as (B0 & B1 & B2). destruct (K 5%nat ltac:(lia) eq_refl) as (C0 & C1 & C2).
      assert (w2 = 0) by (apply (mul_zero w2 h1); lra). assert (w1 = 0) by (apply (mul_zero w1 h2); lra). assert (w0 = 0) by (apply (mul_zero w0 h1); lra). subst. lra.
    - destruct (K 0%nat ltac:(lia) eq_refl) as (A0 & A1 & A2). destruct (K 2%nat ltac:(lia) eq_refl) as (B0 & B1 & B2). destruct (K 4%nat ltac:(lia) eq_refl) as (C0 & C1 & C2).
      assert (w2 = 0) by (apply (mul_zero w2 h1); lra). assert (w1 = 0) by (apply (mul_zero w1 h2); lra). assert (w0 = 0) by (apply (mul_zero w0 h1); lra). subst. lra.
    - destruct (K 2%nat ltac:(lia) eq_refl) as (A0 & A1 & A2). destruct (K 3%nat ltac:(lia) eq_refl) as (B0 & B1 & B2). destruct (K 6%nat ltac:(lia) eq_refl) as (C0 & C1 & C2).
      assert (w2 = 0) by (apply (mul_zero w2 h0); lra). assert (w1 = 0) by (apply (mul_zero w1 h0); lra). assert (w0 = 0) by (apply (mul_zero w0 h2); lra). subst. lra.
    - destruct (K 0%nat ltac:(lia) eq_refl) as (A0 & A1 & A2). destruct (K 1%nat ltac:(lia) eq_refl) as (B0 & B1 & B2). destruct (K 4%nat ltac:(lia) eq_refl) as (C0 & C1 & C2).
      assert (w2 = 0) by (apply (mul_zero w2 h0); lra). assert (w1 = 0) by (apply (mul_zero w1 h0); lra). assert (w0 = 0) by (apply (mul_zero w0 h2); lra). subst. lra.
    - destruct (K 4%nat ltac:(lia) eq_refl) as (A0 & A1 & A2). destruct (K 5%nat ltac:(lia) eq_refl) as (B0 & B1 & B2). destruct (K 6%nat ltac:(lia) eq_refl) as (C0 & C1 & C2).
      assert (w2 = 0) by (apply (mul_zero w2 h0); lra). assert (w1 = 0) by (apply (mul_zero w1 h0); lra). assert (w0 = 0) by (apply (mul_zero w0 h1); lra). subst. lra.
    - destruct (K 0%nat ltac:(lia) eq_refl) as (A0 & A1 & A2). destruct (K 1%nat ltac:(lia) eq_refl) as (B0 & B1 & B2). destruct (K 2%nat ltac:(lia) eq_refl) as (C0 & C1 & C2).
      assert (w2 = 0) by (apply (mul_zero w2 h0); lra). assert (w1 = 0) by (apply (mul_zero w1 h0); lra). assert (w0 = 0) by (apply (mul_zero w0 h1); lra). subst. lra. }
  destruct W as (-> & -> & -> & -> & -> & ->). intros k d Hk Hd. destruct (HR k Hk) as (R0 & R1 & R2). destruct d as [|[|[|]]]; [rewrite R0; ring|rewrite R1; ring|rewrite R2; ring|lia].
Qed.
Lemma strain_face h m U (a : nat) (up : bool) : steps_ok h m -> (length m = 2%nat \/ length m = 3%nat) -> (a < length m)%nat -> vform (2 ^ length m) (length m) (getMatElemStrainTensor h) U = 0 ->
  (forall k d, (k < 2 ^ length m)%nat -> (d < length m)%nat -> bit k a = up01 up -> U k d = 0) -> forall k d, (k < 2 ^ length m)%nat -> (d < length m)%nat -> U k d = 0.
Proof.
  intros Hs Hd Ha HV. destruct (steps_cases h m Hs Hd) as [[E (b & c & -> & Hb & Hc)]|[E (b & c & e & -> & Hb & Hc & He)]]; rewrite E in *;
    change (2 ^ 2)%nat with 4%nat in *; change (2 ^ 3)%nat with 8%nat in *.
  - apply (rigid2_face b c U a up); auto. apply (proj2 (strain2_psd b c U Hb Hc)). exact HV.
  - apply (rigid3_face b c e U a up); auto. apply (proj2 (strain3_psd b c e U Hb Hc He)). exact HV.
Qed.
(** the cell on a given side of a node *)
Lemma node_in_cell_at m : forall per n (a : nat) (c : Z), length per = length m -> has_cells m per -> in_grid_box (nodes_box m) n -> (a < length m)%nat -> nth a per false = false ->
  (0 <= c < nth a m 0 - 1)%Z -> (c <= nth a n 0 <= c + 1)%Z -> exists e, in_grid_box (cells_box m per) e /\ near e n /\ nth a e 0%Z = c.
Proof.
  induction m as [|z m IH]; intros [|b per] n a c HL HC Hn Ha Hp Hc Hna; cbn [length] in *; try lia.
  unfold has_cells in HC. inversion HC as [|? ? ? ? HZ HC']; subst. destruct Hn as [H1 H2]. cbn [nodes_box bottom_left upper_right map] in H1, H2. inversion H1 as [|? y ? n' K1 K1']; subst. inversion H2 as [|? ? ? ? K2 K2']; subst.
  destruct a as [|a].
  - cbn [nth] in *. subst b. destruct (node_in_cell m per n') as (e & [I1 I2] & I3); auto; [|]. { split; assumption. }
    exists (c :: e). split; [|split; [|reflexivity]].
    + split; cbn [cells_box bottom_left upper_right map zip_with]; constructor; auto; lia.
    + constructor; [lia|exact I3].
  - cbn [nth] in *. destruct (IH per n' a c) as (e & [I1 I2] & I3 & I4); auto; try lia. { split; assumption. }
    exists ((if Z.eqb y (z - 1) && negb b then (y - 1)%Z else y) :: e). split; [|split; [|exact I4]].
    + split; cbn [cells_box bottom_left upper_right map zip_with]; constructor; auto; destruct (Z.eqb_spec y (z - 1)), b; cbn [andb negb]; try lia; destruct HZ; try discriminate; lia.
    + constructor; [|exact I3]. destruct (Z.eqb_spec y (z - 1)), b; cbn [andb negb]; lia.
Qed.
Lemma nth_corner e k (a : nat) : (a < length e)%nat -> nth a (corner e k) 0%Z = (nth a e 0%Z + bit k a)%Z.
Proof.
  intros Ha. unfold corner. assert (G : forall (l : list Z) (s a0 : nat), (a0 < length l)%nat -> nth a0 (zip_with (fun x i => (x + Z.of_nat (k / 2 ^ i mod 2))%Z) l (seq s (length l))) 0%Z = (nth a0 l 0%Z + bit k (s + a0))%Z).
  { induction l as [|x l IH]; intros s a0 H0; cbn [length] in *; [lia|]. cbn [seq zip_with]. destruct a0 as [|a0]; [cbn [nth]; rewrite Nat.add_0_r; reflexivity|]. cbn [nth]. rewrite IH by lia. do 2 f_equal. lia. }
  rewrite G by exact Ha. reflexivity.
Qed.
Lemma nth_wrap_open m : forall per p (a : nat), length per = length m -> length p = length m -> (a < length m)%nat -> nth a per false = false -> nth a (wrap m per p) 0%Z = nth a p 0%Z.
Proof. induction m as [|z m IH]; intros [|b per] [|y p] a H1 H2 Ha Hp; cbn [length] in *; try lia. cbn [wrap]. destruct a as [|a]; cbn [nth] in *; [rewrite Hp; reflexivity|apply IH; auto; lia]. Qed.

Section Korn.
  Variables (h : list R) (m : list Z) (per : list bool) (x : field).
  Hypothesis HG : grid_ok m per.
  Hypothesis HS : steps_ok h m.
  Hypothesis HC : has_cells m per.
  Hypothesis HZ : tensor_form m per (E0 m per) (length m) (getMatElemStrainTensor h) x x = 0.
  Let HL : length per = length m := proj1 (proj2 HG).
  Lemma cell_no_strain e : in_grid_box (cells_box m per) e -> vform (2 ^ length m) (length m) (getMatElemStrainTensor h) (fun k d => gv m per x e k d) = 0.
  Proof.
    intros He. rewrite tensor_form_v in HZ. apply (Lsum_zero_all (fun e => vform (2 ^ length m) (length m) (getMatElemStrainTensor h) (fun k d => gv m per x e k d)) (E0 m per)); auto.
    - intros. apply strain_nonneg; auto. apply HG.
    - apply E0_enum; auto.
  Qed.
  Definition level_zero (a : nat) (c : Z) : Prop := forall n d, in_grid_box (nodes_box m) n -> nth a n 0%Z = c -> (d < length m)%nat -> x n d = 0.
  Lemma across (a : nat) (c : Z) (up : bool) : (a < length m)%nat -> nth a per false = false -> (0 <= c < nth a m 0 - 1)%Z -> level_zero a (c + up01 up) -> level_zero a c /\ level_zero a (c + 1).
  Proof.
    intros Ha Hp Hc HV. assert (K : forall n d, in_grid_box (nodes_box m) n -> (c <= nth a n 0 <= c + 1)%Z -> (d < length m)%nat -> x n d = 0).
    { intros n d Hn Hna Hd. destruct (node_in_cell_at m per n a c HL HC Hn Ha Hp Hc Hna) as (e & He & Hne & Ec). assert (Le : length e = length m) by (eapply cell_dim; eauto). pose proof (proj1 HG) as Hdim. pose proof Hdim as Hdim'. rewrite <- Le in Hdim.
      destruct (near_corner e n Hdim Hne) as [k [Hk En]]. rewrite Le in Hk. rewrite <- (wrap_id m per n HL Hn), En.
      refine (strain_face h m (fun k d => gv m per x e k d) a up HS Hdim' Ha (cell_no_strain e He) _ k d Hk Hd). intros k' d' Hk' Hd' B. unfold gv.
      assert (NE : near e (corner e k')) by (apply corner_near; auto; rewrite Le; auto).
      apply HV; auto; [apply (wrap_in_nodes m per e); auto; apply HG|]. assert (Lc : length (corner e k') = length m) by (unfold near in NE; apply Forall2_len in NE; lia).
      rewrite nth_wrap_open; auto. rewrite nth_corner by lia. rewrite Ec, B. reflexivity. }
    split; intros n d Hn E Hd; apply K; auto; lia.
  Qed.
  Lemma korn (a : nat) (up : bool) : (a < length m)%nat -> nth a per false = false -> level_zero a (if up then nth a m 0 - 1 else 0)%Z -> forall n d, in_grid_box (nodes_box m) n -> (d < length m)%nat -> x n d = 0.
  Proof.
    intros Ha Hp HV n d Hn Hd.
    assert (HR : (0 <= nth a n 0 < nth a m 0)%Z).
    { destruct Hn as [N1 N2]. cbn [nodes_box bottom_left upper_right] in N1, N2. clear - N1 N2 Ha. revert n a N1 N2 Ha. induction m as [|z l IH]; intros n a N1 N2 Ha; cbn [length] in Ha; [lia|]. cbn [map] in N1. inversion N1; subst. inversion N2; subst. destruct a; cbn [nth]; [lia|]. apply IH; auto; lia. }
    assert (A : forall c, (0 <= c < nth a m 0)%Z -> level_zero a c).
    { destruct up.
      - assert (B : forall k : nat, (Z.of_nat k < nth a m 0)%Z -> level_zero a (nth a m 0 - 1 - Z.of_nat k)%Z).
        { induction k as [|k IH]; intros Hk; [rewrite Z.sub_0_r; exact HV|]. apply (across a (nth a m 0 - 1 - Z.of_nat (S k))%Z true); auto; try lia. cbn [up01]. replace (nth a m 0 - 1 - Z.of_nat (S k) + 1)%Z with (nth a m 0 - 1 - Z.of_nat k)%Z by lia. apply IH. lia. }
        intros c Hc. replace c with (nth a m 0 - 1 - Z.of_nat (Z.to_nat (nth a m 0 - 1 - c)))%Z by lia. apply B. lia.
      - assert (B : forall k : nat, (Z.of_nat k < nth a m 0)%Z -> level_zero a (Z.of_nat k)).
        { induction k as [|k IH]; intros Hk; [exact HV|]. replace (Z.of_nat (S k)) with (Z.of_nat k + 1)%Z by lia. apply (across a (Z.of_nat k) false); auto; try lia. cbn [up01]. rewrite Z.add_0_r. apply IH. lia. }
        intros c Hc. replace c with (Z.of_nat (Z.to_nat c)) by lia. apply B. lia. }
    apply (A (nth a n 0%Z) HR); auto.
  Qed.
End Korn.
