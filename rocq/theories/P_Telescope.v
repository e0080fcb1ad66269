(** Summation by parts on a grid: shifting a sum by one cell along an axis. *)
From Coq Require Import Permutation QArith Qreals.
From Coquelicot Require Import Coquelicot.
From Verif Require Import Base M_Geometry S_Geometry P_Geometry M_Particle S_Particle P_Particle M_Quadrature S_Fem M_MatElem P_MatElem P_Energy M_Mesh M_Operator M_Bc M_Assembly S_Operator S_Bc P_Mesh P_Operator P_Operator2 P_Global P_Stokes P_Operator3 P_Assembly P_Assembly2.

Fixpoint bump (d : nat) (e : list Z) : list Z :=
  match e, d with [], _ => [] | a :: t, O => (a + 1)%Z :: t | a :: t, S d' => a :: bump d' t end.
Fixpoint roll (d : nat) (n e : list Z) : list Z :=
  match e, n, d with
  | a :: t, n0 :: _, O => (if (a + 1 =? n0)%Z then 0%Z else (a + 1)%Z) :: t
  | a :: t, _ :: n', S d' => a :: roll d' n' t
  | _, _, _ => e
  end.
Definition box0 (n : list Z) : box Z := mkbox (map (fun _ => 0%Z) n) n.
Lemma cells_box0 m per : cells_box m per = mkbox (map (fun _ => 0%Z) m) (zip_with (fun n (p : bool) => if p then n else (n - 1)%Z) m per). Proof. reflexivity. Qed.

Lemma roll_in n : forall d e, in_grid_box (box0 n) e -> in_grid_box (box0 n) (roll d n e).
Proof.
  unfold in_grid_box, box0. cbn [bottom_left upper_right]. induction n as [|n0 n IH]; intros d e [A B]; cbn [map] in *.
  - inversion A; subst. destruct d; split; constructor.
  - inversion A as [|? a ? t A1 A2]; subst. inversion B as [|? ? ? ? B1 B2]; subst. destruct d as [|d]; cbn [roll].
    + split; constructor; auto; destruct (Z.eqb_spec (a + 1) n0); lia.
    + destruct (IH d t (conj A2 B2)). split; constructor; auto.
Qed.
Lemma roll_inj n : forall d e e', in_grid_box (box0 n) e -> in_grid_box (box0 n) e' -> roll d n e = roll d n e' -> e = e'.
Proof.
  unfold in_grid_box, box0. cbn [bottom_left upper_right]. induction n as [|n0 n IH]; intros d e e' [A B] [A' B'] H; cbn [map] in *.
  - inversion A; inversion A'; subst. reflexivity.
  - inversion A as [|? a ? t A1 A2]; subst. inversion B as [|? ? ? ? B1 B2]; subst. inversion A' as [|? a' ? t' A1' A2']; subst. inversion B' as [|? ? ? ? B1' B2']; subst.
    destruct d as [|d]; cbn [roll] in H; injection H as H1 H3.
    + f_equal; auto. destruct (Z.eqb_spec (a + 1) n0), (Z.eqb_spec (a' + 1) n0); lia.
    + f_equal; auto. eapply IH; eauto.
Qed.
Lemma roll_perm n d E : enumerates E (box0 n) -> Permutation (map (roll d n) E) E.
Proof.
  intros [HN HE]. apply NoDup_Permutation_bis.
  - assert (HI : forall e, In e E -> in_grid_box (box0 n) e) by (intros; apply HE; auto). clear HE.
    induction E as [|e E IH]; [constructor|]. inversion HN; subst. cbn [map]. constructor; [|apply IH; auto; intros; apply HI; right; auto].
    intros Hin. apply in_map_iff in Hin as [e' [H Hin]]. apply roll_inj in H; [subst; contradiction| |]; apply HI; [right; auto|left; auto].
  - rewrite map_length. lia.
  - intros x Hx. apply in_map_iff in Hx as [e [<- He]]. apply HE, roll_in, HE, He.
Qed.
(** f shifted by one along axis d sums to the same, provided f takes the same value on the
    two end slices *)
Lemma shift_sum n d E (f : list Z -> R) : enumerates E (box0 n) ->
  (forall e, in_grid_box (box0 n) e -> nth d (bump d e) 0%Z = nth d n 0%Z -> f (bump d e) = f (roll d n e)) ->
  Lsum (fun e => f (bump d e)) E = Lsum f E.
Proof.
  intros HE H. rewrite <- (Lsum_perm f _ _ (roll_perm n d E HE)), Lsum_map. apply Lsum_ext. intros e He. apply HE in He.
  destruct (Z.eq_dec (nth d (bump d e) 0%Z) (nth d n 0%Z)) as [Eq|Ne]; [apply H; auto|].
  f_equal. clear H HE. destruct He as [A _]. revert d e A Ne. unfold box0. cbn [bottom_left]. induction n as [|n0 n IH]; intros d e A Ne; cbn [map] in A.
  - inversion A; subst. destruct d; reflexivity.
  - inversion A as [|? a ? t A1 A2]; subst. destruct d as [|d]; cbn [bump roll nth] in *.
    + destruct (Z.eqb_spec (a + 1) n0); [contradiction|reflexivity].
    + f_equal. apply IH; auto.
Qed.

(** a field that is null on the non-periodic sides *)
Definition null_on_sides (m : list Z) (per : list bool) (D : nat) (v : field) (c : nat) : Prop :=
  forall n s, in_grid_box (nodes_box m) n -> (fst s < D)%nat -> on_side m per n s = true -> v n c = 0%R.
Open Scope R_scope.
Section Two.
  Variables (m0 m1 : Z) (q0 q1 : bool).
  Let m := [m0; m1]. Let per := [q0; q1].
  Hypothesis HM : (1 <= m0 /\ 1 <= m1)%Z.
  Definition n2 (q : bool) (z : Z) : Z := if q then z else (z - 1)%Z.
  Lemma cells2 : cells_box m per = box0 [n2 q0 m0; n2 q1 m1]. Proof. reflexivity. Qed.
  Lemma in_cells2 e : in_grid_box (box0 [n2 q0 m0; n2 q1 m1]) e -> exists i j, e = [i; j] /\ (0 <= i < n2 q0 m0)%Z /\ (0 <= j < n2 q1 m1)%Z.
  Proof.
    unfold in_grid_box, box0. cbn [bottom_left upper_right map]. intros [A B]. inversion A as [|? i ? t A1 A2]; subst. inversion A2 as [|? j ? t' A3 A4]; subst. inversion A4; subst.
    inversion B as [|? ? ? ? B1 B2]; subst. inversion B2; subst. exists i, j. repeat split; auto.
  Qed.
  Lemma wr2 i j : wrap m per [i; j] = [if q0 then i mod m0 else i; if q1 then j mod m1 else j]%Z. Proof. reflexivity. Qed.
  Lemma nodes2 i j : (0 <= i <= n2 q0 m0)%Z -> (0 <= j <= n2 q1 m1)%Z -> in_grid_box (nodes_box m) (wrap m per [i; j]).
  Proof.
    intros Hi Hj. rewrite wr2. unfold in_grid_box, nodes_box, m, n2 in *. cbn [bottom_left upper_right map].
    split; repeat apply Forall2_cons; try apply Forall2_nil; destruct q0, q1; try lia; apply Z.mod_pos_bound; lia.
  Qed.
  (** value of a nodal field on the two end slices *)
  Lemma ends_x j : (0 <= j <= n2 q1 m1)%Z -> (0 <= n2 q0 m0)%Z -> q0 = false ->
    on_side m per (wrap m per [n2 q0 m0; j]) (0%nat, true) = true /\ on_side m per (wrap m per [0%Z; j]) (0%nat, false) = true.
  Proof. intros Hj Hn E. rewrite !wr2. unfold on_side, m, per, n2. cbn [nth fst snd]. rewrite E. rewrite !Z.eqb_refl. split; reflexivity. Qed.
  Lemma ends_y i : (0 <= i <= n2 q0 m0)%Z -> (0 <= n2 q1 m1)%Z -> q1 = false ->
    on_side m per (wrap m per [i; n2 q1 m1]) (1%nat, true) = true /\ on_side m per (wrap m per [i; 0%Z]) (1%nat, false) = true.
  Proof. intros Hj Hn E. rewrite !wr2. unfold on_side, m, per, n2. cbn [nth fst snd]. rewrite E. rewrite !Z.eqb_refl. split; reflexivity. Qed.
  Lemma wrap_x j : q0 = true -> wrap m per [n2 q0 m0; j] = wrap m per [0%Z; j].
  Proof. intros E. rewrite !wr2. unfold n2. rewrite E. rewrite Z.mod_same, Z.mod_0_l by lia. reflexivity. Qed.
  Lemma wrap_y i : q1 = true -> wrap m per [i; n2 q1 m1] = wrap m per [i; 0%Z].
  Proof. intros E. rewrite !wr2. unfold n2. rewrite E. rewrite Z.mod_same, Z.mod_0_l by lia. reflexivity. Qed.

  (** shifting a sum along x resp. y: f is a function of the wrapped nodes around e that
      vanishes when the test field does *)
  Lemma shift_x E (f : Z -> Z -> R) : enumerates E (cells_box m per) ->
    (forall j, (0 <= j < n2 q1 m1)%Z -> (0 < n2 q0 m0)%Z -> f (n2 q0 m0) j = f 0%Z j) ->
    Lsum (fun e => f (nth 0 e 0 + 1) (nth 1 e 0))%Z E = Lsum (fun e => f (nth 0 e 0) (nth 1 e 0))%Z E.
  Proof.
    intros HE H. rewrite cells2 in HE. pose proof (shift_sum [n2 q0 m0; n2 q1 m1] 0 E (fun e => f (nth 0 e 0) (nth 1 e 0))%Z HE) as K. cbv beta in K.
    rewrite <- K.
    - apply Lsum_ext. intros e He. apply HE in He. apply in_cells2 in He as (i & j & -> & _). reflexivity.
    - intros e He. apply in_cells2 in He as (i & j & -> & Hi & Hj). cbn [bump roll nth]. intros Eq. rewrite Eq, Z.eqb_refl. apply H; lia.
  Qed.
  Lemma shift_y E (f : Z -> Z -> R) : enumerates E (cells_box m per) ->
    (forall i, (0 <= i < n2 q0 m0)%Z -> (0 < n2 q1 m1)%Z -> f i (n2 q1 m1) = f i 0%Z) ->
    Lsum (fun e => f (nth 0 e 0) (nth 1 e 0 + 1))%Z E = Lsum (fun e => f (nth 0 e 0) (nth 1 e 0))%Z E.
  Proof.
    intros HE H. rewrite cells2 in HE. pose proof (shift_sum [n2 q0 m0; n2 q1 m1] 1 E (fun e => f (nth 0 e 0) (nth 1 e 0))%Z HE) as K. cbv beta in K.
    rewrite <- K.
    - apply Lsum_ext. intros e He. apply HE in He. apply in_cells2 in He as (i & j & -> & _). reflexivity.
    - intros e He. apply in_cells2 in He as (i & j & -> & Hi & Hj). cbn [bump roll nth]. intros Eq. rewrite Eq, Z.eqb_refl. apply H; lia.
  Qed.

  Definition Kd (k1 k2 : nat) : R := matElem2d_dxudyu k2 k1 - matElem2d_dxudyu k1 k2.
  Lemma strainA_split h0 h1 k1 k2 d1 d2 : (k1 < 4)%nat -> (k2 < 4)%nat -> (d1 < 2)%nat -> (d2 < 2)%nat ->
    strainA h0 h1 k1 k2 d1 d2 = getMatElemStrainTensor [h0; h1] k1 k2 d1 d2 + (if Nat.eqb d1 0 && Nat.eqb d2 1 then Kd k1 k2 else 0).
  Proof.
    intros A B C D. cbn [getMatElemStrainTensor]. destruct d1 as [|[|]]; [| |lia]; destruct d2 as [|[|]]; try lia; cbn [strainA getMatElemStrainTensor2 Nat.eqb andb]; unfold Kd.
    - rewrite (tab_dxudxu2 k2 k1), (tab_dxudxu2 k1 k2), (tab_dyudyu2 k2 k1), (tab_dyudyu2 k1 k2) by auto. rewrite Rplus_0_r. f_equal; f_equal; destruct (vx2 k1), (vx2 k2), (vy2 k1), (vy2 k2); reflexivity.
    - ring.
    - ring.
    - rewrite (tab_dxudxu2 k2 k1), (tab_dxudxu2 k1 k2), (tab_dyudyu2 k2 k1), (tab_dyudyu2 k1 k2) by auto. rewrite Rplus_0_r. f_equal; f_equal; destruct (vx2 k1), (vx2 k2), (vy2 k1), (vy2 k2); reflexivity.
  Qed.
  Section Diff.
    Variables (u v : field).
    Let V i j := v (wrap m per [i; j]) 0%nat.
    Let U i j := u (wrap m per [i; j]) 1%nat.
    Definition edge_x (i j : Z) : R := (V i j * U (i + 1)%Z j - V (i + 1)%Z j * U i j) / 2.
    Definition edge_y (i j : Z) : R := (V i j * U i (j + 1)%Z - V i (j + 1)%Z * U i j) / 2.
    Lemma Kd_sum i j : Rsum 4 (fun k1 => Rsum 4 (fun k2 => gv m per v [i; j] k1 0 * Kd k1 k2 * gv m per u [i; j] k2 1))
      = edge_x i j - edge_x i (j + 1) + edge_y (i + 1) j - edge_y i j.
    Proof.
      assert (C : forall k x, gv m per x [i; j] k = x (wrap m per [i + Z.of_nat (k / 1 mod 2)%nat; j + Z.of_nat (k / 2 mod 2)%nat])%Z) by reflexivity.
      cbn [Rsum]. rewrite !C. unfold Kd, matElem2d_dxudyu, entry, matElem2d_dxudyu_q. cbn [nth Nat.div Nat.modulo Nat.divmod fst snd Nat.sub Z.of_nat Pos.of_succ_nat].
      rewrite !Z.add_0_r. unfold edge_x, edge_y, V, U, Q2R. cbn [Qnum Qden]. field.
    Qed.
    Hypothesis HV : null_on_sides m per 2 v 0.
    Lemma strain_same h0 h1 E : enumerates E (cells_box m per) ->
      tensor_form m per E 2 (strainA h0 h1) v u = tensor_form m per E 2 (getMatElemStrainTensor [h0; h1]) v u.
    Proof.
      intros HE.
      transitivity (tensor_form m per E 2 (getMatElemStrainTensor [h0; h1]) v u + Lsum (fun e => Rsum 4 (fun k1 => Rsum 4 (fun k2 => gv m per v e k1 0 * Kd k1 k2 * gv m per u e k2 1))) E).
      { unfold tensor_form. rewrite <- Lsum_plus. apply Lsum_ext. intros e _. change (2 ^ length m)%nat with 4%nat. rewrite <- Rsum_plus. apply Rsum_ext. intros k1 H1. rewrite <- Rsum_plus. apply Rsum_ext. intros k2 H2.
        cbn [Rsum]. rewrite !strainA_split by (auto; lia). cbn [Nat.eqb andb]. ring. }
      match goal with |- _ + ?X = _ => assert (Z0 : X = 0) end; [|rewrite Z0; ring].
      assert (EX : Lsum (fun e => edge_x (nth 0 e 0%Z) (nth 1 e 0 + 1)%Z) E = Lsum (fun e => edge_x (nth 0 e 0%Z) (nth 1 e 0%Z)) E).
      { apply shift_y; auto. intros i Hi Hn. destruct (bool_dec q1 true) as [Q|Q].
        - unfold edge_x, V, U. rewrite !wrap_y by auto. reflexivity.
        - apply not_true_is_false in Q. pose proof (fun x Hx => ends_y x Hx ltac:(lia) Q) as S.
          assert (T : forall x, (0 <= x <= n2 q0 m0)%Z -> V x (n2 q1 m1) = 0 /\ V x 0%Z = 0).
          { intros x Hx. split; [apply (HV _ (1%nat, true))|apply (HV _ (1%nat, false))]; try (cbn; lia); try (apply S; lia); apply nodes2; lia. }
          unfold edge_x. rewrite !(fun x Hx => proj1 (T x Hx)), !(fun x Hx => proj2 (T x Hx)) by lia. field. }
      assert (EY : Lsum (fun e => edge_y (nth 0 e 0 + 1)%Z (nth 1 e 0%Z)) E = Lsum (fun e => edge_y (nth 0 e 0%Z) (nth 1 e 0%Z)) E).
      { apply shift_x; auto. intros j Hj Hn. destruct (bool_dec q0 true) as [Q|Q].
        - unfold edge_y, V, U. rewrite !wrap_x by auto. reflexivity.
        - apply not_true_is_false in Q. pose proof (fun x Hx => ends_x x Hx ltac:(lia) Q) as S.
          assert (T : forall x, (0 <= x <= n2 q1 m1)%Z -> V (n2 q0 m0) x = 0 /\ V 0%Z x = 0).
          { intros x Hx. split; [apply (HV _ (0%nat, true))|apply (HV _ (0%nat, false))]; try (cbn; lia); try (apply S; lia); apply nodes2; lia. }
          unfold edge_y. rewrite !(fun x Hx => proj1 (T x Hx)), !(fun x Hx => proj2 (T x Hx)) by lia. field. }
      transitivity (Lsum (fun e => edge_x (nth 0 e 0%Z) (nth 1 e 0%Z)) E - Lsum (fun e => edge_x (nth 0 e 0%Z) (nth 1 e 0 + 1)%Z) E
        + Lsum (fun e => edge_y (nth 0 e 0 + 1)%Z (nth 1 e 0%Z)) E - Lsum (fun e => edge_y (nth 0 e 0%Z) (nth 1 e 0%Z)) E).
      2:{ rewrite EX, EY. ring. }
      transitivity (Lsum (fun e => edge_x (nth 0 e 0%Z) (nth 1 e 0%Z) + -1 * edge_x (nth 0 e 0%Z) (nth 1 e 0 + 1)%Z + edge_y (nth 0 e 0 + 1)%Z (nth 1 e 0%Z) + -1 * edge_y (nth 0 e 0%Z) (nth 1 e 0%Z)) E).
      { apply Lsum_ext. intros e He. apply HE in He. rewrite cells2 in He. apply in_cells2 in He as (i & j & -> & _). rewrite Kd_sum. cbn [nth]. ring. }
      rewrite !Lsum_plus, !Lsum_scal. ring.
    Qed.
  End Diff.
End Two.
