(** Linear algebra in finitely many real unknowns: an injective linear operator is onto; the Fredholm alternative with a one-dimensional kernel. *)
From Coq Require Import FunctionalExtensionality.
From Verif Require Import Base S_Fem P_Energy P_Operator.
Local Open Scope R_scope.

Definition skip (p j : nat) : nat := if (j <? p)%nat then j else S j.
Lemma skip_neq p j : skip p j <> p. Proof. unfold skip. destruct (Nat.ltb_spec j p); lia. Qed.
Lemma Rsum_skip n p f : (p <= n)%nat -> Rsum (S n) f = f p + Rsum n (fun j => f (skip p j)).
Proof.
  revert p. induction n as [|n IH]; intros p Hp.
  - replace p with 0%nat by lia. cbn. ring.
  - destruct (Nat.eq_dec p (S n)) as [->|Hn].
    + cbn [Rsum]. replace (skip (S n) n) with n by (unfold skip; destruct (Nat.ltb_spec n (S n)); lia). assert (E : Rsum n (fun j => f (skip (S n) j)) = Rsum n f). { apply Rsum_ext. intros i Hi. unfold skip. destruct (Nat.ltb_spec i (S n)); [reflexivity|lia]. } rewrite E. ring.
    + change (Rsum (S (S n)) f) with (Rsum (S n) f + f (S n)). rewrite (IH p ltac:(lia)). cbn [Rsum]. replace (skip p n) with (S n) by (unfold skip; destruct (Nat.ltb_spec n p); lia). ring.
Qed.
Definition unskip (p j : nat) : nat := if (j <? p)%nat then j else pred j.
Lemma unskip_skip p j : unskip p (skip p j) = j.
Proof. unfold unskip, skip. destruct (Nat.ltb_spec j p); [destruct (Nat.ltb_spec j p); lia|destruct (Nat.ltb_spec (S j) p); lia]. Qed.
Lemma all_zero_dec n (f : nat -> R) : (forall j, (j < n)%nat -> f j = 0) \/ exists j, (j < n)%nat /\ f j <> 0.
Proof.
  induction n as [|n [IH|(j & Hj & Hf)]]; [left; lia| |right; exists j; split; [lia|exact Hf]].
  destruct (Req_dec (f n) 0) as [E|E]; [left; intros j Hj; destruct (Nat.eq_dec j n) as [->|]; [exact E|apply IH; lia]|right; exists n; split; [lia|exact E]].
Qed.
(** n homogeneous equations in n+1 unknowns *)
Lemma homogeneous n : forall A : nat -> nat -> R, exists x : nat -> R, (exists j, (j <= n)%nat /\ x j <> 0) /\ forall i, (i < n)%nat -> Rsum (S n) (fun j => A i j * x j) = 0.
Proof.
  induction n as [|n IH]; intros A.
  - exists (fun _ => 1). split; [exists 0%nat; split; [lia|lra]|lia].
  - destruct (all_zero_dec (S (S n)) (A n)) as [Z0|(p & Hp & Hnz)].
    + destruct (IH A) as (x & (j & Hj & Hx) & E). exists (fun k => if (k <=? n)%nat then x k else 0). split.
      * exists j. split; [lia|]. destruct (Nat.leb_spec j n); [exact Hx|lia].
      * intros i Hi. destruct (Nat.eq_dec i n) as [->|Hn].
        { transitivity (Rsum (S (S n)) (fun _ => 0)); [|apply Rsum_zero]. apply Rsum_ext. intros k Hk. rewrite Z0 by lia. ring. }
        change (Rsum (S n) (fun j0 => A i j0 * (if (j0 <=? n)%nat then x j0 else 0)) + A i (S n) * (if (S n <=? n)%nat then x (S n) else 0) = 0).
        destruct (Nat.leb_spec (S n) n); [lia|]. rewrite Rmult_0_r, Rplus_0_r. rewrite <- (E i ltac:(lia)). apply Rsum_ext. intros k Hk. destruct (Nat.leb_spec k n); [reflexivity|lia].
    + destruct (IH (fun i j => A i (skip p j) - A i p / A n p * A n (skip p j))) as (x & (j & Hj & Hx) & E).
      set (s := Rsum (S n) (fun j => A n (skip p j) * x j)).
      exists (fun k => if Nat.eqb k p then - s / A n p else x (unskip p k)). split.
      * exists (skip p j). split; [unfold skip; destruct (Nat.ltb_spec j p); lia|]. destruct (Nat.eqb_spec (skip p j) p) as [Q|_]; [destruct (skip_neq p j Q)|]. rewrite unskip_skip. exact Hx.
      * intros i Hi. rewrite (Rsum_skip (S n) p) by lia. rewrite Nat.eqb_refl.
        assert (R1 : Rsum (S n) (fun j0 => A i (skip p j0) * (if Nat.eqb (skip p j0) p then - s / A n p else x (unskip p (skip p j0)))) = Rsum (S n) (fun j => A i (skip p j) * x j)).
        { apply Rsum_ext. intros k Hk. destruct (Nat.eqb_spec (skip p k) p) as [Q|_]; [destruct (skip_neq p k Q)|]. rewrite unskip_skip. reflexivity. }
        rewrite R1. destruct (Nat.eq_dec i n) as [->|Hn]; [fold s; field; exact Hnz|].
        specialize (E i ltac:(lia)). assert (R2 : Rsum (S n) (fun j0 => (A i (skip p j0) - A i p / A n p * A n (skip p j0)) * x j0) = Rsum (S n) (fun j => A i (skip p j) * x j) - A i p / A n p * s).
        { unfold s. rewrite <- Rsum_scal. rewrite <- (Rplus_0_r (Rsum _ _ - _)). unfold Rminus. rewrite <- (Rmult_1_l (- Rsum _ _)). replace (1 * - Rsum (S n) (fun i0 => A i p / A n p * (A n (skip p i0) * x i0))) with (-1 * Rsum (S n) (fun i0 => A i p / A n p * (A n (skip p i0) * x i0))) by ring.
          rewrite <- Rsum_scal, <- Rsum_plus, Rplus_0_r. apply Rsum_ext. intros k Hk. ring. }
        rewrite R2 in E. unfold Rdiv in *. lra.
Qed.

Section Operator.
  Context {I : Type} (eqd : forall a b : I, {a = b} + {a <> b}).
  Definition delta (i j : I) : R := if eqd i j then 1 else 0.
  Definition comb (d : I) (L : list I) (y : nat -> R) : I -> R := fun i => Rsum (length L) (fun k => y k * delta (nth k L d) i).
  Definition linear_on (L : list I) (G : (I -> R) -> I -> R) : Prop := forall a b x y i, In i L -> G (fun j => a * x j + b * y j) i = a * G x i + b * G y i.
  Lemma lin_zero L G : linear_on L G -> forall i, In i L -> G (fun _ => 0) i = 0.
  Proof. intros H i Hi. specialize (H 0 0 (fun _ => 0) (fun _ => 0) i Hi). cbv beta in H. replace (fun _ : I => 0 * 0 + 0 * 0) with (fun _ : I => 0) in H by (apply functional_extensionality; intros; ring). rewrite H. ring. Qed.
  Lemma lin_sum L G (v : nat -> I -> R) (y : nat -> R) : linear_on L G -> forall n i, In i L -> G (fun j => Rsum n (fun k => y k * v k j)) i = Rsum n (fun k => y k * G (v k) i).
  Proof.
    intros H n i Hi. induction n as [|n IH]; [cbn; apply (lin_zero L G H i Hi)|]. cbn [Rsum]. rewrite <- IH. rewrite <- (Rmult_1_l (G (fun j => Rsum n _) i)). rewrite <- H by exact Hi. f_equal. apply functional_extensionality. intros j. ring.
  Qed.
  Lemma comb_nth d L y k : NoDup L -> (k < length L)%nat -> comb d L y (nth k L d) = y k.
  Proof.
    intros HN Hk. unfold comb. transitivity (Rsum (length L) (fun i => if Nat.eqb k i then y i else 0)); [|apply Rsum_pick; exact Hk]. apply Rsum_ext. intros i Hi. unfold delta. destruct (eqd (nth i L d) (nth k L d)) as [E|E].
    - apply (proj1 (NoDup_nth L d) HN) in E; try assumption. subst. rewrite Nat.eqb_refl. ring.
    - destruct (Nat.eqb_spec k i) as [->|]; [destruct E; reflexivity|ring].
  Qed.
  Theorem injective_onto L G : NoDup L -> linear_on L G -> (forall x, (forall i, In i L -> G x i = 0) -> forall i, In i L -> x i = 0) -> forall b, exists x, forall i, In i L -> G x i = b i.
  Proof.
    intros HN HL HI b. destruct L as [|d L0] eqn:EL; [exists (fun _ => 0); intros i []|]. rewrite <- EL in *. clear EL L0. set (n := length L).
    destruct (homogeneous n (fun i j => if (j <? n)%nat then G (delta (nth j L d)) (nth i L d) else - b (nth i L d))) as (y & (j & Hj & Hy) & E).
    assert (E' : forall i, In i L -> G (comb d L y) i = y n * b i).
    { intros i Hi. unfold comb. rewrite (lin_sum L G (fun k => delta (nth k L d)) y HL (length L) i Hi). destruct (In_nth L i d Hi) as (k & Hk & <-). specialize (E k Hk). cbn [Rsum] in E. rewrite Nat.ltb_irrefl in E.
      assert (Q : Rsum n (fun j0 => (if (j0 <? n)%nat then G (delta (nth j0 L d)) (nth k L d) else - b (nth k L d)) * y j0) = Rsum (length L) (fun k0 => y k0 * G (delta (nth k0 L d)) (nth k L d))).
      { apply Rsum_ext. intros i Hin. destruct (Nat.ltb_spec i n); [ring|lia]. }
      rewrite Q in E. lra. }
    destruct (Req_dec (y n) 0) as [Y0|Y0].
    - exfalso. apply Hy. destruct (Nat.eq_dec j n) as [->|Hn]; [exact Y0|]. rewrite <- (comb_nth d L y j HN) by (unfold n in *; lia). apply HI; [|apply nth_In; unfold n in *; lia]. intros i Hi. rewrite E', Y0 by exact Hi. ring.
    - exists (fun i => / y n * comb d L y i + 0 * 0). intros i Hi. rewrite (HL (/ y n) 0 (comb d L y) (fun _ => 0) i Hi), E' by exact Hi. field. exact Y0.
  Qed.
End Operator.

Definition dotL {I} (L : list I) (x y : I -> R) : R := fold_right (fun i s => x i * y i + s) 0 L.
Lemma dotL_lin {I} (L : list I) a b (w x y : I -> R) : dotL L w (fun j => a * x j + b * y j) = a * dotL L w x + b * dotL L w y.
Proof. unfold dotL. induction L as [|i L IH]; cbn [fold_right]; [ring|rewrite IH; ring]. Qed.
Lemma dotL_ext {I} (L : list I) (w w' x y : I -> R) : (forall i, In i L -> w i = w' i) -> (forall i, In i L -> x i = y i) -> dotL L w x = dotL L w' y.
Proof. unfold dotL. intros H H'. induction L as [|i L IH]; cbn [fold_right]; [reflexivity|]. rewrite (H i), (H' i) by (left; reflexivity). rewrite IH; [reflexivity| |]; intros k Hk; [apply H|apply H']; right; exact Hk. Qed.
Lemma dotL_pos {I} (L : list I) (w : I -> R) : 0 <= dotL L w w. Proof. unfold dotL. induction L as [|i L IH]; cbn [fold_right]; [lra|]. pose proof (Rle_0_sqr (w i)). unfold Rsqr in *. lra. Qed.
Lemma dotL_zero {I} (L : list I) (w : I -> R) : dotL L w w = 0 -> forall i, In i L -> w i = 0.
Proof.
  induction L as [|a L IH]; [intros _ i []|]. intros H i [<-|Hi]; unfold dotL in *; cbn [fold_right] in H; pose proof (dotL_pos L w) as P; unfold dotL in P; pose proof (Rle_0_sqr (w a)) as Q; unfold Rsqr in Q.
  - assert (w a * w a = 0) by lra. apply Rmult_integral in H0. tauto.
  - apply IH; [lra|exact Hi].
Qed.
(** the kernel is spanned by z, the range is orthogonal to w: every right-hand side orthogonal to w is reached *)
Theorem fredholm1 {I} (eqd : forall a b : I, {a = b} + {a <> b}) (L : list I) (G : (I -> R) -> I -> R) (z w : I -> R) :
  NoDup L -> linear_on L G -> (exists i, In i L /\ z i <> 0) -> (exists i, In i L /\ w i <> 0) ->
  (forall x, (forall i, In i L -> G x i = 0) -> exists c, forall i, In i L -> x i = c * z i) -> (forall x, dotL L w (G x) = 0) ->
  forall b, dotL L w b = 0 -> exists x, forall i, In i L -> G x i = b i.
Proof.
  intros HN HL (iz & Hz & Nz) (iw & Hw & Nw) HK HW b Hb.
  assert (eqo : forall a b : option I, {a = b} + {a <> b}) by (decide equality).
  set (L' := None :: map Some L).
  set (G' := fun (x : option I -> R) (i : option I) => match i with Some i => G (fun j => x (Some j)) i + x None * w i | None => dotL L z (fun j => x (Some j)) end).
  assert (In' : forall i, In (Some i) L' <-> In i L). { intros i. unfold L'. cbn [In]. rewrite in_map_iff. split; [intros [Q|(k & E & H)]; [discriminate|injection E as ->; exact H]|intros H; right; exists i; auto]. }
  destruct (injective_onto eqo L' G') with (b := fun i => match i with Some i => b i | None => 0 end) as (x & Hx).
  - unfold L'. constructor; [rewrite in_map_iff; intros (k & E & _); discriminate|]. apply FinFun.Injective_map_NoDup; [intros a a' E; injection E; auto|exact HN].
  - intros a c x y [i|] Hi; unfold G'; [|apply dotL_lin]. apply In' in Hi. rewrite (HL a c (fun j => x (Some j)) (fun j => y (Some j)) i Hi). ring.
  - intros x H0.
    assert (S0 : x None = 0).
    { assert (K : dotL L w (fun i => 1 * G (fun j => x (Some j)) i + x None * w i) = 0). { transitivity (dotL L w (fun _ => 0)); [apply dotL_ext; [reflexivity|]; intros i Hi; specialize (H0 (Some i) (proj2 (In' i) Hi)); cbn in H0; lra|]. clear. unfold dotL. induction L as [|a L IH]; [reflexivity|]. cbn [fold_right]. rewrite IH. ring. }
      rewrite dotL_lin, HW in K. destruct (Req_dec (x None) 0) as [E|E]; [exact E|exfalso]. apply Nw. apply (dotL_zero L w); [|exact Hw]. apply (Rmult_eq_reg_l (x None)); [lra|exact E]. }
    destruct (HK (fun j => x (Some j))) as (c & Hc). { intros i Hi. specialize (H0 (Some i) (proj2 (In' i) Hi)). cbn in H0. rewrite S0 in H0. lra. }
    assert (C0 : c = 0). { specialize (H0 None (or_introl eq_refl)). cbn in H0. rewrite (dotL_ext L z z _ (fun j => c * z j + 0 * z j)), dotL_lin in H0; [|reflexivity|intros i Hi; rewrite (Hc i Hi); ring]. destruct (Req_dec c 0) as [E|E]; [exact E|exfalso]. apply Nz. apply (dotL_zero L z); [|exact Hz]. apply (Rmult_eq_reg_l c); [lra|exact E]. }
    intros [i|] Hi; [|exact S0]. rewrite (Hc i (proj1 (In' i) Hi)), C0. ring.
  - exists (fun j => x (Some j)).
    assert (S0 : x None = 0).
    { assert (K : dotL L w (fun i => 1 * G (fun j => x (Some j)) i + x None * w i) = 0). { rewrite <- Hb. apply dotL_ext; [reflexivity|]. intros i Hi. specialize (Hx (Some i) (proj2 (In' i) Hi)). cbn in Hx. lra. }
      rewrite dotL_lin, HW in K. destruct (Req_dec (x None) 0) as [E|E]; [exact E|exfalso]. apply Nw. apply (dotL_zero L w); [|exact Hw]. apply (Rmult_eq_reg_l (x None)); [lra|exact E]. }
    intros i Hi. specialize (Hx (Some i) (proj2 (In' i) Hi)). cbn in Hx. rewrite S0 in Hx. lra.
Qed.
