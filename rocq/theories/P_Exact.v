(** Rows of the operators on polynomial fields. *)
From Coq Require Import Permutation QArith Qreals.
From Coquelicot Require Import Coquelicot.
From Verif Require Import Base M_Geometry S_Geometry P_Geometry M_Particle S_Particle P_Particle M_Quadrature S_Fem P_Energy M_MatElem P_MatElem M_Mesh M_Operator S_Operator P_Mesh P_Operator P_Operator2 P_Operator3 P_Global P_Stokes M_Bc S_Bc P_Flux Prop_Flux.
From Verif Require Import P_Gather.
Local Open Scope R_scope.

(** the field takes the same value when a coordinate of a periodic axis changes *)
Definition same_off (per : list bool) (n n' : list Z) : Prop := length n = length n' /\ forall d, nth d per false = false -> nth d n 0%Z = nth d n' 0%Z.
Definition invariant (per : list bool) (x : field) (c : nat) : Prop := forall n n', length n = length per -> same_off per n n' -> x n c = x n' c.
Lemma wrap_off m : forall per p, length per = length m -> length p = length m -> same_off per (wrap m per p) p.
Proof.
  intros per p L1 L2. split; [rewrite length_wrap; lia|]. revert per p L1 L2. induction m as [|z m IH]; intros [|q per] [|x p] L1 L2 d Hd; cbn [length] in *; try lia; [reflexivity|]. cbn [wrap]. destruct d as [|d]; cbn [nth] in *; [rewrite Hd; reflexivity|apply IH; auto].
Qed.
Lemma add_off per : forall a b n n', same_off per n n' -> a = b -> length a = length n -> same_off per (add n a) (add n' b).
Proof.
  intros a b n n' [L H] <- LA. split; [unfold add; rewrite !length_zip_with; lia|]. intros d Hd. unfold add.
  destruct (Nat.lt_ge_cases d (length n)) as [Hl|Hl].
  - rewrite !(nth_zip_with Z.add _ _ d 0%Z 0%Z 0%Z) by lia. rewrite (H d Hd). reflexivity.
  - rewrite !nth_overflow; auto; rewrite length_zip_with; lia.
Qed.
Lemma same_off_sym per a b : same_off per a b -> same_off per b a.
Proof. intros [L H]. split; [auto|]. intros d Hd. symmetry. auto. Qed.
Lemma same_off_trans per a b c : same_off per a b -> same_off per b c -> same_off per a c.
Proof. intros [L H] [L' H']. split; [congruence|]. intros d Hd. rewrite H; auto. Qed.
Lemma length_add n o : length n = length o -> length (add n o) = length n.
Proof. intros. unfold add. apply length_zip_with. exact H. Qed.
(** value at a corner of a wrapped cell *)
Lemma at_corner m per x c p k : length per = length m -> length p = length m -> invariant per x c -> gv m per x (wrap m per p) k c = x (add p (bits (length m) k)) c.
Proof.
  intros L1 L2 HX. unfold gv. rewrite corner_add, length_wrap by auto. destruct (bits_ok (length m) k) as [_ LB].
  assert (LW : length (wrap m per p) = length m) by (apply length_wrap; auto).
  assert (LA : length (add (wrap m per p) (bits (length m) k)) = length m) by (rewrite length_add; lia).
  apply HX; [rewrite length_wrap; lia|]. eapply same_off_trans; [apply wrap_off; lia|]. apply add_off; auto; [apply wrap_off; auto|lia].
Qed.
Lemma unit_other n c d q : d <> c -> unit_field n c q d = 0.
Proof. intros H. unfold unit_field. destruct (Nat.eqb_spec c d); [congruence|]. rewrite andb_false_r. reflexivity. Qed.
Lemma Rsum_single N c (f : nat -> R) : (c < N)%nat -> (forall d, (d < N)%nat -> d <> c -> f d = 0) -> Rsum N f = f c.
Proof.
  intros Hc H. induction N as [|N IH]; [lia|]. cbn [Rsum]. destruct (Nat.eq_dec c N) as [->|Ne].
  - rewrite (Rsum_ext N f (fun _ => 0)); [rewrite Rsum_zero; ring|]. intros d Hd. apply H; lia.
  - rewrite IH; [|lia|intros; apply H; lia]. rewrite (H N); [ring|lia|lia].
Qed.
Lemma row_scalar m per dof M n c x : length per = length m -> Forall (fun z => (1 <= z)%Z) m -> inside m per n -> (c < dof)%nat -> invariant per x c ->
  scalar_form m per (E0 m per) dof M (unit_field n c) x
  = Rsum (2 ^ length m) (fun k1 => Rsum (2 ^ length m) (fun k2 => M k1 k2 * x (add (sub n (bits (length m) k1)) (bits (length m) k2)) c)).
Proof.
  intros HL HF HI Hc HX. unfold scalar_form.
  transitivity (Lsum (fun e => Rsum (2 ^ length m) (fun k1 => unit_field n c (wrap m per (corner e k1)) c * Rsum (2 ^ length m) (fun k2 => M k1 k2 * gv m per x e k2 c))) (E0 m per)).
  - apply Lsum_ext. intros e _. rewrite (Rsum_single dof c); auto.
    + apply Rsum_ext. intros k1 _. rewrite <- Rsum_scal. apply Rsum_ext. intros k2 _. unfold gv at 1. ring.
    + intros d Hd Ne. rewrite (Rsum_ext _ _ (fun _ => 0)); [apply Rsum_zero|]. intros k1 _. rewrite (Rsum_ext _ _ (fun _ => 0)); [apply Rsum_zero|]. intros k2 _. unfold gv at 1. rewrite unit_other by auto. ring.
  - rewrite Lsum_Rsum. apply Rsum_ext. intros k1 _. etransitivity; [apply (gather m per n c (fun k1 e => Rsum (2 ^ length m) (fun k2 => M k1 k2 * gv m per x e k2 c)) k1); auto|]. cbn beta.
    apply Rsum_ext. intros k2 _. f_equal. destruct (bits_ok (length m) k1) as [_ LB]. apply at_corner; auto. rewrite length_sub; [apply HI|]. rewrite LB. apply HI.
Qed.
Lemma row_tensor m per dof M n c x : length per = length m -> Forall (fun z => (1 <= z)%Z) m -> inside m per n -> (c < dof)%nat -> (forall d, (d < dof)%nat -> invariant per x d) ->
  tensor_form m per (E0 m per) dof M (unit_field n c) x
  = Rsum (2 ^ length m) (fun k1 => Rsum (2 ^ length m) (fun k2 => Rsum dof (fun d => M k1 k2 c d * x (add (sub n (bits (length m) k1)) (bits (length m) k2)) d))).
Proof.
  intros HL HF HI Hc HX. unfold tensor_form.
  transitivity (Lsum (fun e => Rsum (2 ^ length m) (fun k1 => unit_field n c (wrap m per (corner e k1)) c * Rsum (2 ^ length m) (fun k2 => Rsum dof (fun d => M k1 k2 c d * gv m per x e k2 d)))) (E0 m per)).
  - apply Lsum_ext. intros e _. apply Rsum_ext. intros k1 _. rewrite <- Rsum_scal. apply Rsum_ext. intros k2 _. rewrite (Rsum_single dof c); auto.
    + rewrite <- Rsum_scal. apply Rsum_ext. intros d _. unfold gv at 1. ring.
    + intros d Hd Ne. rewrite (Rsum_ext _ _ (fun _ => 0)); [apply Rsum_zero|]. intros d2 _. unfold gv at 1. rewrite unit_other by auto. ring.
  - rewrite Lsum_Rsum. apply Rsum_ext. intros k1 _. etransitivity; [apply (gather m per n c (fun k1 e => Rsum (2 ^ length m) (fun k2 => Rsum dof (fun d => M k1 k2 c d * gv m per x e k2 d))) k1); auto|]. cbn beta.
    apply Rsum_ext. intros k2 _. apply Rsum_ext. intros d Hd. f_equal. destruct (bits_ok (length m) k1) as [_ LB]. apply at_corner; auto. rewrite length_sub; [apply HI|]. rewrite LB. apply HI.
Qed.
Lemma row_grad m per dof M n c q : length per = length m -> Forall (fun z => (1 <= z)%Z) m -> inside (refined_size m per) per n -> (c < dof)%nat -> invariant per q 0 ->
  div_form (refined_size m per) m per (E0 m per) dof M q (unit_field n c)
  = Rsum (3 ^ length m) (fun kv => if par_ok n (digits (length m) kv) then Rsum (2 ^ length m) (fun kp => M kp kv c * q (add (half n (digits (length m) kv)) (bits (length m) kp)) 0%nat) else 0).
Proof.
  intros HL HF HI Hc HX. unfold div_form. assert (LN : length n = length m) by (destruct HI as [L _]; rewrite L; unfold refined_size; rewrite length_zip_with; lia).
  transitivity (Lsum (fun e => Rsum (3 ^ length m) (fun kv => unit_field n c (wrap (refined_size m per) per (corner3 e kv)) c * Rsum (2 ^ length m) (fun kp => M kp kv c * gv m per q e kp 0%nat))) (E0 m per)).
  - apply Lsum_ext. intros e _. rewrite Rsum_swap. apply Rsum_ext. intros kv _. rewrite <- Rsum_scal. apply Rsum_ext. intros kp _. rewrite (Rsum_single dof c); auto.
    + unfold gv3. ring.
    + intros d Hd Ne. unfold gv3. rewrite unit_other by auto. ring.
  - rewrite Lsum_Rsum. apply Rsum_ext. intros kv _. rewrite (gather3 m per n c (fun e => Rsum (2 ^ length m) (fun kp => M kp kv c * gv m per q e kp 0%nat)) kv) by auto.
    destruct (par_ok _ _); [|reflexivity]. apply Rsum_ext. intros kp _. f_equal. destruct (digits_ok (length m) kv) as [_ LB]. apply at_corner; auto. unfold half. rewrite map_length, length_sub; lia.
Qed.
