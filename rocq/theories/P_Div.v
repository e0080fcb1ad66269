(** Divergence against viscous energy and mass. *)
From Coq Require Import QArith Qreals Permutation.
From Coquelicot Require Import Coquelicot.
From Verif Require Import Base M_Geometry S_Geometry P_Geometry M_Particle S_Particle P_Particle M_Quadrature S_Fem P_Energy M_MatElem P_MatElem M_Mesh M_Operator M_Bc S_Operator S_Bc P_Mesh P_Operator P_Operator2 P_Global P_Stokes P_Operator3.
From Verif Require Import P_Precond P_QuadTab.
Local Open Scope R_scope.

Definition vol (h : list R) : R := fold_right Rmult 1 h.
Definition st (h : list R) (d : nat) : R := nth d h 0.
Ltac dims Hs Hd := destruct (steps_cases _ _ Hs Hd) as [[-> (a & b & -> & Ha & Hb)]|[-> (a & b & c & -> & Ha & Hb & Hc)]].

Lemma e_lap h m i j : steps_ok h m -> (length m = 2%nat \/ length m = 3%nat) -> (i < 2 ^ length m)%nat -> (j < 2 ^ length m)%nat ->
  getMatElemLaplacian h i j = vol h * Rsum (length m) (fun d => / st h d ^ 2 * cross (length m) d d i j).
Proof.
  intros Hs Hd. dims Hs Hd; intros Hi Hj; cbn [getMatElemLaplacian vol fold_right Rsum]; unfold st; cbn [nth].
  - unfold getMatElemLaplacian2. rewrite q_dx2, q_dy2 by assumption. field. lra.
  - unfold getMatElemLaplacian3. rewrite q_dx3, q_dy3, q_dz3 by assumption. field. lra.
Qed.
Lemma e_strain h m i j p q : steps_ok h m -> (length m = 2%nat \/ length m = 3%nat) -> (i < 2 ^ length m)%nat -> (j < 2 ^ length m)%nat -> (p < length m)%nat -> (q < length m)%nat ->
  getMatElemStrainTensor h i j p q = vol h * (dl p q * Rsum (length m) (fun d => / st h d ^ 2 * cross (length m) d d i j) + / (st h p * st h q) * cross (length m) q p i j).
Proof.
  assert (CS : forall D a b i j, cross D a b i j = cross D b a j i) by (intros; unfold cross; apply Lsum_ext; intros; ring).
  intros Hs Hd. dims Hs Hd; intros Hi Hj Hp Hq; cbn [getMatElemStrainTensor vol fold_right Rsum]; unfold st, dl.
  - destruct p as [|[|]]; try lia; destruct q as [|[|]]; try lia; cbn [nth Nat.eqb]; unfold getMatElemStrainTensor2; rewrite ?q_dx2, ?q_dy2, ?q_xy2 by assumption; try rewrite (CS 2%nat 1%nat 0%nat j i); field; lra.
  - destruct p as [|[|[|]]]; try lia; destruct q as [|[|[|]]]; try lia; cbn [nth Nat.eqb]; unfold getMatElemStrainTensor3; rewrite ?q_dx3, ?q_dy3, ?q_dz3, ?q_xy3, ?q_xz3, ?q_yz3 by assumption; try rewrite (CS 3%nat 1%nat 0%nat j i); try rewrite (CS 3%nat 2%nat 0%nat j i); try rewrite (CS 3%nat 2%nat 1%nat j i); field; lra.
Qed.
Lemma e_mass h m i j : steps_ok h m -> (length m = 2%nat \/ length m = 3%nat) -> (i < 2 ^ length m)%nat -> (j < 2 ^ length m)%nat ->
  getMatElemMass (map (fun s => 2 * s) h) i j = vol h * massF (length m) i j.
Proof.
  intros Hs Hd. dims Hs Hd; intros Hi Hj; cbn [map getMatElemMass vol fold_right].
  - unfold getMatElemMass2. rewrite q_m2 by assumption. field.
  - unfold getMatElemMass3. rewrite q_m3 by assumption. field.
Qed.
Lemma e_press h m i v d : steps_ok h m -> (length m = 2%nat \/ length m = 3%nat) -> (i < 2 ^ length m)%nat -> (v < 3 ^ length m)%nat -> (d < length m)%nat ->
  getMatElemPressure h i v d = vol h * (/ st h d * press (length m) d i v).
Proof.
  intros Hs Hd. dims Hs Hd; intros Hi Hv Hdd; cbn [getMatElemPressure vol fold_right]; unfold st.
  - destruct d as [|[|]]; try lia; cbn [nth]; unfold getMatElemPressure2; rewrite ?q_px2, ?q_py2 by assumption; field; lra.
  - destruct d as [|[|[|]]]; try lia; cbn [nth]; unfold getMatElemPressure3; rewrite ?q_px3, ?q_py3, ?q_pz3 by assumption; field; lra.
Qed.
Lemma vol_pos h m : steps_ok h m -> 0 < vol h.
Proof. intros [_ H]. induction H as [|s l Hs _ IH]; cbn; [lra|apply Rmult_lt_0_compat; assumption]. Qed.

(** sums over the quadrature points *)
Lemma Rsum_Lsum {A} n (f : nat -> A -> R) l : Rsum n (fun i => Lsum (f i) l) = Lsum (fun a => Rsum n (fun i => f i a)) l.
Proof. induction n as [|n IH]; cbn [Rsum]; [symmetry; apply Lsum_all_zero; reflexivity|]. rewrite IH, <- Lsum_plus. reflexivity. Qed.
Lemma Rsum_prod n n' (f g : nat -> R) : Rsum n (fun i => Rsum n' (fun j => f i * g j)) = Rsum n f * Rsum n' g.
Proof. rewrite <- Rsum_scal_r. apply Rsum_ext. intros i _. apply Rsum_scal. Qed.
Lemma cross_bil D n a b x y : Rsum n (fun i => Rsum n (fun j => x i * cross D a b i j * y j)) = Lsum (fun p => W p * (Rsum n (fun i => G D a i p * x i) * Rsum n (fun j => G D b j p * y j))) (pts D).
Proof.
  transitivity (Rsum n (fun i => Lsum (fun p => Rsum n (fun j => W p * ((G D a i p * x i) * (G D b j p * y j)))) (pts D))).
  - apply Rsum_ext. intros i _. rewrite <- Rsum_Lsum. apply Rsum_ext. intros j _. unfold cross. rewrite <- Lsum_scal, <- Lsum_scal_r. apply Lsum_ext. intros p _. ring.
  - rewrite Rsum_Lsum. apply Lsum_ext. intros p _. rewrite <- Rsum_prod, <- Rsum_scal. apply Rsum_ext. intros i _. rewrite <- Rsum_scal. reflexivity.
Qed.
Definition du D (V : nat -> nat -> R) (c d : nat) p : R := Rsum (2 ^ D) (fun k => G D d k p * V k c).
Definition gr h D V p (c d : nat) : R := / st h d * du D V c d p.
Definition dv h D V p : R := Rsum D (fun d => gr h D V p d d).
Section Elem.
  Variables (h : list R) (m : list Z).
  Hypothesis Hs : steps_ok h m.
  Hypothesis Hd : length m = 2%nat \/ length m = 3%nat.
  Let D := length m. Let n := (2 ^ D)%nat.
  Lemma lap_quad V : Rsum D (fun c => qform n (getMatElemLaplacian h) (fun k => V k c)) = vol h * Lsum (fun p => W p * Rsum D (fun c => Rsum D (fun d => gr h D V p c d ^ 2))) (pts D).
  Proof.
    transitivity (Rsum D (fun c => vol h * Rsum D (fun d => Lsum (fun p => W p * gr h D V p c d ^ 2) (pts D)))).
    - apply Rsum_ext. intros c _. unfold qform. transitivity (Rsum n (fun i => Rsum n (fun j => vol h * Rsum D (fun d => / st h d ^ 2 * (V i c * cross D d d i j * V j c))))).
      + apply Rsum_ext. intros i Hi. apply Rsum_ext. intros j Hj. rewrite (e_lap h m i j Hs Hd Hi Hj). fold D. rewrite <- !Rsum_scal, <- Rsum_scal_r. apply Rsum_ext. intros d _. ring.
      + transitivity (vol h * Rsum D (fun d => / st h d ^ 2 * Rsum n (fun i => Rsum n (fun j => V i c * cross D d d i j * V j c)))).
        * transitivity (Rsum n (fun i => vol h * Rsum D (fun d => / st h d ^ 2 * Rsum n (fun j => V i c * cross D d d i j * V j c)))).
          -- apply Rsum_ext. intros i _. rewrite Rsum_scal. f_equal. rewrite Rsum_swap. apply Rsum_ext. intros d _. apply Rsum_scal.
          -- rewrite Rsum_scal. f_equal. rewrite Rsum_swap. apply Rsum_ext. intros d _. apply Rsum_scal.
        * f_equal. apply Rsum_ext. intros d _. rewrite cross_bil. rewrite <- Lsum_scal. apply Lsum_ext. intros p _. unfold gr, du. fold n. rewrite Rpow_mult_distr, <- pow_inv. ring.
    - rewrite Rsum_scal. f_equal. transitivity (Rsum D (fun c => Lsum (fun p => W p * Rsum D (fun d => gr h D V p c d ^ 2)) (pts D))).
      + apply Rsum_ext. intros c _. rewrite Rsum_Lsum. apply Lsum_ext. intros p _. apply Rsum_scal.
      + rewrite Rsum_Lsum. apply Lsum_ext. intros p _. apply Rsum_scal.
  Qed.
  Lemma strain_quad V : vform n D (getMatElemStrainTensor h) V = vol h * Lsum (fun p => W p * Rsum D (fun a => Rsum D (fun b => gr h D V p a b ^ 2 + gr h D V p a b * gr h D V p b a))) (pts D).
  Proof.
    transitivity (Rsum D (fun c => qform n (getMatElemLaplacian h) (fun k => V k c)) + vol h * Rsum D (fun a => Rsum D (fun b => / (st h a * st h b) * Rsum n (fun i => Rsum n (fun j => V i a * cross D b a i j * V j b))))).
    - transitivity (Rsum D (fun a => Rsum D (fun b => Rsum n (fun i => Rsum n (fun j => V i a * getMatElemStrainTensor h i j a b * V j b))))).
      { unfold vform. transitivity (Rsum n (fun i => Rsum D (fun a => Rsum D (fun b => Rsum n (fun j => V i a * getMatElemStrainTensor h i j a b * V j b))))).
        - apply Rsum_ext. intros i _. rewrite Rsum_swap. apply Rsum_ext. intros a _. apply Rsum_swap.
        - rewrite Rsum_swap. apply Rsum_ext. intros a _. apply Rsum_swap. }
      rewrite <- Rsum_scal, <- Rsum_plus. apply Rsum_ext. intros a Ha.
      rewrite <- (Rsum_dl D a (fun c => qform n (getMatElemLaplacian h) (fun k => V k c)) Ha), <- Rsum_scal, <- Rsum_plus. apply Rsum_ext. intros b Hb.
      unfold qform. rewrite <- !Rsum_scal, <- Rsum_plus. apply Rsum_ext. intros i Hi. rewrite <- !Rsum_scal, <- Rsum_plus. apply Rsum_ext. intros j Hj.
      rewrite (e_lap h m i j Hs Hd Hi Hj), (e_strain h m i j a b Hs Hd Hi Hj Ha Hb). fold D. unfold dl. destruct (Nat.eqb_spec a b) as [<-|]; ring.
    - rewrite lap_quad, <- Rmult_plus_distr_l. f_equal.
      transitivity (Lsum (fun p => W p * Rsum D (fun c => Rsum D (fun d => gr h D V p c d ^ 2))) (pts D) + Lsum (fun p => W p * Rsum D (fun a => Rsum D (fun b => gr h D V p a b * gr h D V p b a))) (pts D)).
      + f_equal. transitivity (Rsum D (fun a => Lsum (fun p => W p * Rsum D (fun b => gr h D V p a b * gr h D V p b a)) (pts D))).
        * apply Rsum_ext. intros a _. transitivity (Rsum D (fun b => Lsum (fun p => W p * (gr h D V p a b * gr h D V p b a)) (pts D))).
          -- apply Rsum_ext. intros b _. rewrite cross_bil, <- Lsum_scal. apply Lsum_ext. intros p _. unfold gr, du. fold n. rewrite Rinv_mult. ring.
          -- rewrite Rsum_Lsum. apply Lsum_ext. intros p _. apply Rsum_scal.
        * rewrite Rsum_Lsum. apply Lsum_ext. intros p _. apply Rsum_scal.
      + rewrite <- Lsum_plus. apply Lsum_ext. intros p _. rewrite <- Rmult_plus_distr_l. f_equal. rewrite <- Rsum_plus. apply Rsum_ext. intros a _. rewrite <- Rsum_plus. reflexivity.
  Qed.
  (** the square of a trace *)
  Lemma trace_lap (e : nat -> nat -> R) : Rsum D (fun d => e d d) ^ 2 <= INR D * Rsum D (fun c => Rsum D (fun d => e c d ^ 2)).
  Proof.
    unfold D. destruct Hd as [->| ->]; cbn [Rsum INR].
    - pose proof (pow2_ge_0 (e 0%nat 0%nat - e 1%nat 1%nat)). pose proof (pow2_ge_0 (e 0%nat 1%nat)). pose proof (pow2_ge_0 (e 1%nat 0%nat)). nra.
    - pose proof (pow2_ge_0 (e 0%nat 0%nat - e 1%nat 1%nat)). pose proof (pow2_ge_0 (e 0%nat 0%nat - e 2%nat 2%nat)). pose proof (pow2_ge_0 (e 1%nat 1%nat - e 2%nat 2%nat)).
      pose proof (pow2_ge_0 (e 0%nat 1%nat)). pose proof (pow2_ge_0 (e 1%nat 0%nat)). pose proof (pow2_ge_0 (e 0%nat 2%nat)). pose proof (pow2_ge_0 (e 2%nat 0%nat)). pose proof (pow2_ge_0 (e 1%nat 2%nat)). pose proof (pow2_ge_0 (e 2%nat 1%nat)). nra.
  Qed.
  Lemma trace_strain (e : nat -> nat -> R) : Rsum D (fun d => e d d) ^ 2 <= INR D / 2 * Rsum D (fun a => Rsum D (fun b => e a b ^ 2 + e a b * e b a)).
  Proof.
    unfold D. destruct Hd as [->| ->]; cbn [Rsum INR].
    - pose proof (pow2_ge_0 (e 0%nat 0%nat - e 1%nat 1%nat)). pose proof (pow2_ge_0 (e 0%nat 1%nat + e 1%nat 0%nat)). nra.
    - pose proof (pow2_ge_0 (e 0%nat 0%nat - e 1%nat 1%nat)). pose proof (pow2_ge_0 (e 0%nat 0%nat - e 2%nat 2%nat)). pose proof (pow2_ge_0 (e 1%nat 1%nat - e 2%nat 2%nat)).
      pose proof (pow2_ge_0 (e 0%nat 1%nat + e 1%nat 0%nat)). pose proof (pow2_ge_0 (e 0%nat 2%nat + e 2%nat 0%nat)). pose proof (pow2_ge_0 (e 1%nat 2%nat + e 2%nat 1%nat)). nra.
  Qed.
  Definition div2 V : R := vol h * Lsum (fun p => W p * dv h D V p ^ 2) (pts D).
  Definition visc_elem (strain : bool) V : R := if strain then vform n D (getMatElemStrainTensor h) V else Rsum D (fun c => qform n (getMatElemLaplacian h) (fun k => V k c)).
  Definition kappa (strain : bool) : R := if strain then INR D / 2 else INR D.
  Lemma div2_le strain V : div2 V <= kappa strain * visc_elem strain V.
  Proof.
    unfold div2, visc_elem, kappa. pose proof (vol_pos h m Hs) as HV. destruct strain; [rewrite strain_quad|rewrite lap_quad].
    - apply Rle_trans with (vol h * Lsum (fun p => W p * (INR D / 2 * Rsum D (fun a => Rsum D (fun b => gr h D V p a b ^ 2 + gr h D V p a b * gr h D V p b a)))) (pts D)).
      + apply Rmult_le_compat_l; [lra|]. apply Lsum_le. intros p Hp. apply Rmult_le_compat_l; [apply (W_pos D), Hp|]. apply trace_strain.
      + apply Req_le. rewrite (Rmult_comm (INR D / 2)), Rmult_assoc. f_equal. rewrite <- Lsum_scal_r. apply Lsum_ext. intros p _. ring.
    - apply Rle_trans with (vol h * Lsum (fun p => W p * (INR D * Rsum D (fun a => Rsum D (fun b => gr h D V p a b ^ 2)))) (pts D)).
      + apply Rmult_le_compat_l; [lra|]. apply Lsum_le. intros p Hp. apply Rmult_le_compat_l; [apply (W_pos D), Hp|]. apply trace_lap.
      + apply Req_le. rewrite (Rmult_comm (INR D)), Rmult_assoc. f_equal. rewrite <- Lsum_scal_r. apply Lsum_ext. intros p _. ring.
  Qed.
  (** the coarse element: its pressure Q and the velocities of its fine elements *)
  Definition pq (Q : nat -> R) (s : nat) p : R := Rsum n (fun kp => F D kp s p * Q kp).
  Definition sub_cell (U : nat -> nat -> R) (s : nat) : nat -> nat -> R := fun k c => U (idx D s k) c.
  Lemma mass_quad Q : qform n (getMatElemMass (map (fun s => 2 * s) h)) Q = vol h * Rsum n (fun s => Lsum (fun p => W p * pq Q s p ^ 2) (pts D)).
  Proof.
    unfold qform. transitivity (vol h * Rsum n (fun s => Rsum n (fun i => Rsum n (fun j => Q i * Lsum (fun p => W p * (F D i s p * F D j s p)) (pts D) * Q j)))).
    - rewrite (Rsum_swap n n (fun s i => Rsum n (fun j => Q i * Lsum (fun p => W p * (F D i s p * F D j s p)) (pts D) * Q j))). rewrite <- Rsum_scal. apply Rsum_ext. intros i Hi. rewrite Rsum_swap, <- Rsum_scal. apply Rsum_ext. intros j Hj.
      rewrite (e_mass h m i j Hs Hd Hi Hj). fold D. unfold massF. fold n. rewrite <- !Rsum_scal, <- !Rsum_scal_r. apply Rsum_ext. intros s _. ring.
    - f_equal. apply Rsum_ext. intros s _. transitivity (Rsum n (fun i => Lsum (fun p => Rsum n (fun j => W p * ((F D i s p * Q i) * (F D j s p * Q j)))) (pts D))).
      + apply Rsum_ext. intros i _. rewrite <- Rsum_Lsum. apply Rsum_ext. intros j _. rewrite <- Lsum_scal, <- Lsum_scal_r. apply Lsum_ext. intros p _. ring.
      + rewrite Rsum_Lsum. apply Lsum_ext. intros p _. transitivity (W p * (pq Q s p * pq Q s p)); [|ring]. unfold pq. rewrite <- Rsum_prod, <- Rsum_scal. apply Rsum_ext. intros i _. rewrite <- Rsum_scal. reflexivity.
  Qed.
  Lemma idx_lt s k : (idx D s k < 3 ^ D)%nat.
  Proof.
    unfold D, idx. pose proof (fun k i => Nat.mod_upper_bound (k / 2 ^ i) 2 ltac:(lia)) as B. destruct Hd as [->| ->]; cbn [seq fold_right]; unfold dig.
    - pose proof (B s 0%nat). pose proof (B s 1%nat). pose proof (B k 0%nat). pose proof (B k 1%nat). change (3 ^ 0)%nat with 1%nat. change (3 ^ 1)%nat with 3%nat. change (3 ^ 2)%nat with 9%nat. lia.
    - pose proof (B s 0%nat). pose proof (B s 1%nat). pose proof (B k 0%nat). pose proof (B k 1%nat). pose proof (B s 2%nat). pose proof (B k 2%nat). change (3 ^ 0)%nat with 1%nat. change (3 ^ 1)%nat with 3%nat. change (3 ^ 2)%nat with 9%nat. change (3 ^ 3)%nat with 27%nat. lia.
  Qed.
  Lemma press_quad Q U : Rsum n (fun kp => Rsum (3 ^ D) (fun kv => Rsum D (fun d => Q kp * getMatElemPressure h kp kv d * U kv d))) =
    vol h * Rsum n (fun s => Lsum (fun p => W p * (pq Q s p * dv h D (sub_cell U s) p)) (pts D)).
  Proof.
    transitivity (vol h * Rsum n (fun kp => Rsum D (fun d => Rsum n (fun s => Rsum n (fun k => / st h d * (Q kp * Lsum (fun p => W p * (F D kp s p * G D d k p)) (pts D) * U (idx D s k) d)))))).
    - rewrite <- Rsum_scal. apply Rsum_ext. intros kp Hkp. rewrite Rsum_swap, <- Rsum_scal. apply Rsum_ext. intros d Hdd.
      transitivity (Rsum (3 ^ D) (fun kv => vol h * Rsum n (fun s => Rsum n (fun k => dl (idx D s k) kv * (/ st h d * (Q kp * Lsum (fun p => W p * (F D kp s p * G D d k p)) (pts D) * U kv d)))))).
      + apply Rsum_ext. intros kv Hkv. rewrite (e_press h m kp kv d Hs Hd Hkp Hkv Hdd). fold D. unfold press. fold n. rewrite <- !Rsum_scal, <- !Rsum_scal_r. apply Rsum_ext. intros s _. rewrite <- !Rsum_scal, <- !Rsum_scal_r. apply Rsum_ext. intros k _. unfold dl. destruct (Nat.eqb _ _); ring.
      + rewrite Rsum_scal. f_equal. rewrite Rsum_swap. apply Rsum_ext. intros s _. rewrite Rsum_swap. apply Rsum_ext. intros k _. apply (Rsum_dl (3 ^ D) (idx D s k) (fun kv => / st h d * (Q kp * Lsum (fun p => W p * (F D kp s p * G D d k p)) (pts D) * U kv d))), idx_lt.
    - f_equal. transitivity (Rsum n (fun kp => Rsum n (fun s => Rsum D (fun d => Rsum n (fun k => / st h d * (Q kp * Lsum (fun p => W p * (F D kp s p * G D d k p)) (pts D) * U (idx D s k) d)))))).
      { apply Rsum_ext. intros kp _. apply Rsum_swap. }
      rewrite Rsum_swap. apply Rsum_ext. intros s _.
      transitivity (Rsum n (fun kp => Lsum (fun p => W p * ((F D kp s p * Q kp) * dv h D (sub_cell U s) p)) (pts D))).
      + apply Rsum_ext. intros kp _. unfold dv. transitivity (Rsum D (fun d => Lsum (fun p => W p * (F D kp s p * Q kp) * gr h D (sub_cell U s) p d d) (pts D))).
        * apply Rsum_ext. intros d _. transitivity (Rsum n (fun k => Lsum (fun p => W p * (F D kp s p * Q kp) * (/ st h d * (G D d k p * sub_cell U s k d))) (pts D))).
          -- apply Rsum_ext. intros k _. rewrite <- Lsum_scal, <- Lsum_scal_r, <- Lsum_scal. apply Lsum_ext. intros p _. unfold sub_cell. ring.
          -- rewrite Rsum_Lsum. apply Lsum_ext. intros p _. rewrite !Rsum_scal. unfold gr, du. fold n. reflexivity.
        * rewrite Rsum_Lsum. apply Lsum_ext. intros p _. rewrite Rsum_scal. ring.
      + rewrite Rsum_Lsum. apply Lsum_ext. intros p _. rewrite Rsum_scal, Rsum_scal_r. reflexivity.
  Qed.
  Lemma elem_square (t : R) Q U : 0 <= t ^ 2 * qform n (getMatElemMass (map (fun s => 2 * s) h)) Q + 2 * t * Rsum n (fun kp => Rsum (3 ^ D) (fun kv => Rsum D (fun d => Q kp * getMatElemPressure h kp kv d * U kv d))) + Rsum n (fun s => div2 (sub_cell U s)).
  Proof.
    rewrite mass_quad, press_quad. unfold div2. rewrite Rsum_scal.
    apply Rle_trans with (vol h * Rsum n (fun s => Lsum (fun p => W p * (t * pq Q s p + dv h D (sub_cell U s) p) ^ 2) (pts D))).
    - apply Rmult_le_pos; [apply Rlt_le, (vol_pos h m Hs)|]. apply Rsum_nonneg. intros s _. apply Lsum_nonneg. intros p Hp. apply Rmult_le_pos; [apply (W_pos D), Hp|apply pow2_ge_0].
    - apply Req_le. transitivity (vol h * (t ^ 2 * Rsum n (fun s => Lsum (fun p => W p * pq Q s p ^ 2) (pts D)) + 2 * t * Rsum n (fun s => Lsum (fun p => W p * (pq Q s p * dv h D (sub_cell U s) p)) (pts D)) + Rsum n (fun s => Lsum (fun p => W p * dv h D (sub_cell U s) p ^ 2) (pts D)))); [|ring].
      f_equal. rewrite <- !Rsum_scal, <- !Rsum_plus. apply Rsum_ext. intros s _. rewrite <- !Lsum_scal, <- !Lsum_plus. apply Lsum_ext. intros p _. ring.
  Qed.
End Elem.

(** ** The fine cells of the coarse cells *)
Definition fine (e : list Z) (s : nat) : list Z := zip_with (fun a i => (2 * a + Z.of_nat (dig 2 s i))%Z) e (seq 0 (length e)).
Lemma dec2 p q : (p < 3)%nat -> (q < 3)%nat -> ((p * 3 ^ 0 + (q * 3 ^ 1 + 0)) / 3 ^ 0 mod 3)%nat = p /\ ((p * 3 ^ 0 + (q * 3 ^ 1 + 0)) / 3 ^ 1 mod 3)%nat = q.
Proof. intros Hp Hq. destruct p as [|[|[|p]]]; try lia; destruct q as [|[|[|q]]]; try lia; split; reflexivity. Qed.
Lemma dec3 p q r : (p < 3)%nat -> (q < 3)%nat -> (r < 3)%nat -> ((p * 3 ^ 0 + (q * 3 ^ 1 + (r * 3 ^ 2 + 0))) / 3 ^ 0 mod 3)%nat = p /\ ((p * 3 ^ 0 + (q * 3 ^ 1 + (r * 3 ^ 2 + 0))) / 3 ^ 1 mod 3)%nat = q /\ ((p * 3 ^ 0 + (q * 3 ^ 1 + (r * 3 ^ 2 + 0))) / 3 ^ 2 mod 3)%nat = r.
Proof. intros Hp Hq Hr. destruct p as [|[|[|p]]]; try lia; destruct q as [|[|[|q]]]; try lia; destruct r as [|[|[|r]]]; try lia; repeat split; reflexivity. Qed.
Lemma corner_fine e s k : (length e = 2%nat \/ length e = 3%nat) -> corner (fine e s) k = corner3 e (idx (length e) s k).
Proof.
  assert (B : forall k i, (dig 2 k i < 2)%nat) by (intros; apply Nat.mod_upper_bound; lia).
  intros Hl. assert (A : forall a b, (a < 2)%nat -> (b < 2)%nat -> (a + b < 3)%nat) by (intros; lia).
  destruct Hl as [Hl|Hl]; destruct e as [|x [|y [|z [|]]]]; try discriminate Hl; unfold fine, corner, corner3, idx; cbn [length seq zip_with fold_right Nat.add].
  - pose proof (A _ _ (B s 0%nat) (B k 0%nat)) as A0. pose proof (A _ _ (B s 1%nat) (B k 1%nat)) as A1.
    destruct (dec2 _ _ A0 A1) as [-> ->]. fold (dig 2 k 0). fold (dig 2 k 1). f_equal; [|f_equal]; lia.
  - pose proof (A _ _ (B s 0%nat) (B k 0%nat)) as A0. pose proof (A _ _ (B s 1%nat) (B k 1%nat)) as A1. pose proof (A _ _ (B s 2%nat) (B k 2%nat)) as A2.
    destruct (dec3 _ _ _ A0 A1 A2) as (-> & -> & ->). fold (dig 2 k 0). fold (dig 2 k 1). fold (dig 2 k 2). f_equal; [|f_equal; [|f_equal]]; lia.
Qed.
Lemma fine_inj e e' s s' : (length e = 2%nat \/ length e = 3%nat) -> length e' = length e -> (s < 2 ^ length e)%nat -> (s' < 2 ^ length e)%nat -> fine e s = fine e' s' -> e = e' /\ s = s'.
Proof.
  assert (B : forall k i, (dig 2 k i < 2)%nat) by (intros; apply Nat.mod_upper_bound; lia).
  assert (K : forall a a' k k', (k < 2)%nat -> (k' < 2)%nat -> (2 * a + Z.of_nat k = 2 * a' + Z.of_nat k')%Z -> a = a' /\ k = k') by (intros; lia).
  intros [Hl|Hl] Hl' H H' E; destruct e as [|x [|y [|z [|]]]]; try discriminate Hl; destruct e' as [|x' [|y' [|z' [|]]]]; try discriminate Hl'; unfold fine in E; cbn [length seq zip_with] in *.
  - pose proof (f_equal (fun l => nth 0 l 0%Z) E) as E0. pose proof (f_equal (fun l => nth 1 l 0%Z) E) as E1. clear E. cbn [nth] in E0, E1. apply K in E0; auto. apply K in E1; auto. destruct E0 as [-> D0], E1 as [-> D1]. split; [reflexivity|]. change (2 ^ 2)%nat with 4%nat in *. destruct s as [|[|[|[|s]]]]; try lia; destruct s' as [|[|[|[|s']]]]; try lia; cbv in D0, D1; congruence || reflexivity.
  - pose proof (f_equal (fun l => nth 0 l 0%Z) E) as E0. pose proof (f_equal (fun l => nth 1 l 0%Z) E) as E1. pose proof (f_equal (fun l => nth 2 l 0%Z) E) as E2. clear E. cbn [nth] in E0, E1, E2. apply K in E0; auto. apply K in E1; auto. apply K in E2; auto. destruct E0 as [-> D0], E1 as [-> D1], E2 as [-> D2]. split; [reflexivity|]. change (2 ^ 3)%nat with 8%nat in *. destruct s as [|[|[|[|[|[|[|[|s]]]]]]]]; try lia; destruct s' as [|[|[|[|[|[|[|[|s']]]]]]]]; try lia; cbv in D0, D1, D2; congruence || reflexivity.
Qed.
Lemma half_dig z : exists b, (b < 2)%nat /\ z = (2 * (z / 2) + Z.of_nat b)%Z.
Proof. exists (Z.to_nat (z mod 2)). pose proof (Z.mod_pos_bound z 2 ltac:(lia)). pose proof (Z.div_mod z 2 ltac:(lia)). lia. Qed.
Lemma fine_surj f : (length f = 2%nat \/ length f = 3%nat) -> exists s, (s < 2 ^ length f)%nat /\ f = fine (map (fun z => (z / 2)%Z) f) s.
Proof.
  intros [Hl|Hl]; destruct f as [|x [|y [|z [|]]]]; try discriminate Hl; destruct (half_dig x) as (p & Hp & Ex), (half_dig y) as (q & Hq & Ey).
  - exists (p + 2 * q)%nat. cbn [length]. change (2 ^ 2)%nat with 4%nat. split; [lia|]. unfold fine. cbn [map length seq zip_with]. destruct p as [|[|p]]; try lia; destruct q as [|[|q]]; try lia; cbn [Nat.mul Nat.add]; unfold dig;
    match goal with |- _ = [(_ + Z.of_nat ?u)%Z; (_ + Z.of_nat ?v)%Z] => let u' := eval cbv in u in let v' := eval cbv in v in change u with u'; change v with v' end; (f_equal; [lia|]); (f_equal; lia).
  - destruct (half_dig z) as (r & Hr & Ez). exists (p + 2 * q + 4 * r)%nat. cbn [length]. change (2 ^ 3)%nat with 8%nat. split; [lia|]. unfold fine. cbn [map length seq zip_with]. destruct p as [|[|p]]; try lia; destruct q as [|[|q]]; try lia; destruct r as [|[|r]]; try lia; cbn [Nat.mul Nat.add]; unfold dig;
    match goal with |- _ = [(_ + Z.of_nat ?u)%Z; (_ + Z.of_nat ?v)%Z; (_ + Z.of_nat ?w)%Z] => let u' := eval cbv in u in let v' := eval cbv in v in let w' := eval cbv in w in change u with u'; change v with v'; change w with w' end; (f_equal; [lia|]); (f_equal; [lia|]); (f_equal; lia).
Qed.
Lemma fine_len e s : length (fine e s) = length e.
Proof. unfold fine. rewrite length_zip_with; [reflexivity|]. rewrite seq_length. reflexivity. Qed.
Lemma fc2 {A B} (P : A -> B -> Prop) a l b l' : Forall2 P (a :: l) (b :: l') -> P a b /\ Forall2 P l l'.
Proof. inversion 1; auto. Qed.
(** a cell of the refined grid is a fine cell of a coarse one *)
Lemma fine_box_aux m : forall per e f, length per = length m -> Forall2 (fun a b => (2 * a <= b <= 2 * a + 1)%Z) e f ->
  (in_grid_box (cells_box (refined_size m per) per) f <-> in_grid_box (cells_box m per) e).
Proof.
  unfold in_grid_box, cells_box, refined_size. cbn [bottom_left upper_right]. induction m as [|z m IH]; intros [|q per] e f HL HF; cbn [length] in HL; try lia; cbn [zip_with map].
  - split; intros [H1 H2]; inversion H1; subst; inversion HF; subst; split; constructor.
  - destruct HF as [|a b e f Hab HF]; [split; intros [H1 _]; inversion H1|]. specialize (IH per e f ltac:(lia) HF). split; intros [H1 H2]; apply fc2 in H1, H2; destruct H1 as [A1 B1], H2 as [A2 B2].
    + destruct (proj1 IH (conj B1 B2)) as [K1 K2]. split; constructor; auto; [lia|destruct q; cbv iota in *; lia].
    + destruct (proj2 IH (conj B1 B2)) as [K1 K2]. split; constructor; auto; [lia|destruct q; cbv iota in *; lia].
Qed.
Lemma fine_near e s : Forall2 (fun a b => (2 * a <= b <= 2 * a + 1)%Z) e (fine e s).
Proof.
  unfold fine. enough (K : forall i, Forall2 (fun a b => (2 * a <= b <= 2 * a + 1)%Z) e (zip_with (fun a i => (2 * a + Z.of_nat (dig 2 s i))%Z) e (seq i (length e)))) by apply K.
  induction e as [|x e IH]; intros i; cbn [length seq zip_with]; constructor; [|apply IH]. pose proof (Nat.mod_upper_bound (s / 2 ^ i) 2 ltac:(lia)) as H. fold (dig 2 s i) in H. lia.
Qed.
Lemma nodup_map {A B} (f : A -> B) l : NoDup l -> (forall a b, In a l -> In b l -> f a = f b -> a = b) -> NoDup (map f l).
Proof.
  induction 1 as [|a l Ha _ IH]; intros H; cbn [map]; constructor.
  - intros K. apply in_map_iff in K. destruct K as (b & E & Hb). apply Ha. rewrite <- (H b a); [exact Hb|right; exact Hb|left; reflexivity|exact E].
  - apply IH. intros; apply H; auto; right; auto.
Qed.
Lemma fine_enum m per : grid_ok m per -> enumerates (flat_map (fun e => map (fine e) (seq 0 (2 ^ length m))) (E0 m per)) (cells_box (refined_size m per) per).
Proof.
  intros HG. destruct (E0_enum m per (proj1 (proj2 HG))) as [ND IN]. assert (LE : forall e, In e (E0 m per) -> length e = length m) by (intros e He; apply IN in He; eapply cell_dim; eauto). pose proof (proj1 HG) as Hd. split.
  - assert (LE' : forall e, In e (E0 m per) -> length e = length m) by exact LE. clear IN LE. revert ND LE'. generalize (E0 m per). induction l as [|e l IH]; intros ND LE; cbn [flat_map]; [constructor|]. inversion ND; subst.
    apply NoDup_app_intro.
    + apply nodup_map; [apply seq_NoDup|]. intros s s' Hs Hs' E. apply in_seq in Hs, Hs'. rewrite <- (LE e (or_introl eq_refl)) in *. apply (fine_inj e e s s'); auto; lia.
    + apply IH; auto. intros; apply LE; right; auto.
    + intros f Hf Hf'. apply in_map_iff in Hf. destruct Hf as (s & <- & Hs). apply in_flat_map in Hf'. destruct Hf' as (e' & He' & Hf'). apply in_map_iff in Hf'. destruct Hf' as (s' & E & Hs'). apply in_seq in Hs, Hs'.
      assert (L1 : length e = length m) by (apply LE; left; auto). assert (L2 : length e' = length m) by (apply LE; right; auto).
      destruct (fine_inj e' e s' s) as [-> _]; rewrite ?L2; auto; try lia. 
  - intros f. rewrite in_flat_map. split.
    + intros (e & He & Hf). apply in_map_iff in Hf. destruct Hf as (s & <- & Hs). apply (fine_box_aux m per e); [apply HG|apply fine_near|apply IN, He].
    + intros Hf. assert (Lf : length f = length m). { pose proof (refined_grid m per HG) as HGv. transitivity (length (refined_size m per)); [eapply cell_dim; eauto|]. unfold refined_size. rewrite length_zip_with; auto. symmetry; apply HG. }
      destruct (fine_surj f) as (s & Hs & E); [rewrite Lf; exact Hd|]. exists (map (fun z => (z / 2)%Z) f). split.
      * apply IN. apply (fine_box_aux m per _ f); [apply HG| |exact Hf]. rewrite E at 2. apply fine_near.
      * rewrite E at 1. apply in_map. apply in_seq. rewrite Lf in Hs. lia.
Qed.

(** ** On the grid *)
Section Global.
  Variables (strain : bool) (h : list R) (mp : list Z) (per : list bool).
  Let D := length mp. Let mv := refined_size mp per.
  Hypothesis HG : grid_ok mp per.
  Hypothesis Hs : steps_ok h mp.
  Let Hd := proj1 HG.
  Let hp := map (fun s => 2 * s) h.
  Lemma mv_len : length mv = D.
  Proof. unfold mv, refined_size. rewrite length_zip_with; auto. symmetry. apply HG. Qed.
  Definition energy (u : field) : R := if strain then tensor_form mv per (E0 mv per) D (getMatElemStrainTensor h) u u else scalar_form mv per (E0 mv per) D (getMatElemLaplacian h) u u.
  Lemma energy_cells u : energy u = Lsum (fun e => Rsum (2 ^ D) (fun s => visc_elem h mp strain (sub_cell mp (fun kv c => gv3 mv per u e kv c) s))) (E0 mp per).
  Proof.
    assert (HGv : grid_ok mv per) by (apply refined_grid, HG).
    transitivity (Lsum (fun f => visc_elem h mp strain (fun k c => gv mv per u f k c)) (E0 mv per)).
    - unfold energy, visc_elem. fold D. rewrite <- mv_len. destruct strain; reflexivity.
    - transitivity (Lsum (fun f => visc_elem h mp strain (fun k c => gv mv per u f k c)) (flat_map (fun e => map (fine e) (seq 0 (2 ^ D))) (E0 mp per))).
      { apply Lsum_perm, (enum_perm _ _ (cells_box mv per)); [apply E0_enum, HGv|apply fine_enum, HG]. }
      rewrite Lsum_flat_map. apply Lsum_ext. intros e He. apply E0_enum in He; [|apply HG]. assert (Le : length e = D) by (eapply cell_dim; eauto). rewrite Lsum_map, Lsum_seq. apply Rsum_ext. intros s _.
      assert (K : forall k c, gv mv per u (fine e s) k c = sub_cell mp (fun kv c => gv3 mv per u e kv c) s k c).
      { intros k c. unfold sub_cell, gv, gv3. rewrite (corner_fine e s k) by (rewrite Le; exact Hd). rewrite Le. reflexivity. }
      unfold visc_elem. destruct strain; [unfold vform|unfold qform]; repeat (apply Rsum_ext; intros ? _); rewrite !K; reflexivity.
  Qed.
  Lemma square (t : R) q u : 0 <= t ^ 2 * scalar_form mp per (E0 mp per) 1 (getMatElemMass hp) q q + 2 * t * div_form mv mp per (E0 mp per) D (getMatElemPressure h) q u + kappa mp strain * energy u.
  Proof.
    rewrite energy_cells, scalar_form_q. unfold div_form. rewrite <- !Lsum_scal, <- !Lsum_plus. apply Lsum_nonneg. intros e _. cbn [Rsum]. rewrite Rplus_0_l.
    eapply Rle_trans; [apply (elem_square h mp Hs Hd t (fun k => gv mp per q e k 0) (fun kv c => gv3 mv per u e kv c))|]. apply Rplus_le_compat_l. fold D. rewrite <- Rsum_scal. apply Rsum_le. intros s _. apply div2_le; assumption.
  Qed.
  (** b(q,u)^2 <= kappa a(u,u) m(q,q) *)
  Lemma div_bound q u : 0 <= energy u -> 0 <= scalar_form mp per (E0 mp per) 1 (getMatElemMass hp) q q ->
    div_form mv mp per (E0 mp per) D (getMatElemPressure h) q u ^ 2 <= kappa mp strain * energy u * scalar_form mp per (E0 mp per) 1 (getMatElemMass hp) q q.
  Proof.
    pose proof (fun t => square t q u) as S. set (b := div_form _ _ _ _ _ _ _ _) in *. set (a := energy u) in *. set (m := scalar_form _ _ _ _ _ _ _) in *. clearbody a b m. intros Ha Hm.
    assert (Hk : 0 < kappa mp strain) by (unfold kappa; destruct Hd as [-> | ->]; destruct strain; cbn; lra). set (k := kappa mp strain) in *. clearbody k.
    destruct (Req_dec m 0) as [Z|Z].
    - subst m. assert (b = 0). { destruct (Req_dec b 0) as [|N]; [auto|]. exfalso. specialize (S (- (k * a + 1) / (2 * b))). replace (2 * (- (k * a + 1) / (2 * b)) * b) with (- (k * a + 1)) in S by (field; auto). lra. } subst b. lra.
    - assert (0 < m) by lra. specialize (S (- b / m)). apply (Rmult_le_compat_r m) in S; [|lra]. replace (((- b / m) ^ 2 * m + 2 * (- b / m) * b + k * a) * m) with (- b ^ 2 + k * a * m) in S by (field; lra). lra.
  Qed.
End Global.
