(** The row of one interior node gathers the contributions of the cells around it. *)
From Coq Require Import Permutation.
From Coquelicot Require Import Coquelicot.
From Verif Require Import Base M_Geometry S_Geometry P_Geometry M_Particle S_Particle P_Particle M_Quadrature S_Fem P_Energy M_MatElem M_Mesh M_Operator S_Operator P_Mesh P_Operator P_Operator2 P_Operator3 P_Global P_Stokes M_Bc S_Bc P_Flux Prop_Flux.
Open Scope Z_scope.

(** n is a node, and not on a side of a non-periodic axis *)
Definition inside (m : list Z) (per : list bool) (n : list Z) : Prop :=
  length n = length m /\ forall d : nat, (d < length m)%nat -> if nth d per false then 0 <= nth d n 0 < nth d m 0 else 0 < nth d n 0 < nth d m 0 - 1.
Definition wr (m : Z) (p : bool) (a : Z) := if p then a mod m else a.
Lemma wr_back m (p : bool) n o : 1 <= m -> (if p then 0 <= n < m else 0 < n < m - 1) -> wr m p (wr m p (n - o) + o) = n.
Proof. unfold wr. destruct p; [|lia]. intros H Hn. rewrite Zplus_mod_idemp_l. replace (n - o + o) with n by ring. apply Z.mod_small. lia. Qed.
Lemma wr_unique m (p : bool) n o e : 1 <= m -> 0 <= e < (if p then m else m - 1) -> wr m p (e + o) = n -> e = wr m p (n - o).
Proof. unfold wr. destruct p; [|lia]. intros H He <-. rewrite Zminus_mod_idemp_l. replace (e + o - o) with e by ring. symmetry. apply Z.mod_small. lia. Qed.
Lemma wr_cell m (p : bool) n o : 1 <= m -> 0 <= o <= 1 -> (if p then 0 <= n < m else 0 < n < m - 1) -> 0 <= wr m p (n - o) < (if p then m else m - 1).
Proof. unfold wr. destruct p; [|lia]. intros H Ho Hn. apply Z.mod_pos_bound. lia. Qed.

Definition sub (n o : list Z) : list Z := zip_with Z.sub n o.
Definition add (n o : list Z) : list Z := zip_with Z.add n o.
Lemma inside_cons z m q per x n : inside (z :: m) (q :: per) (x :: n) -> (if q then 0 <= x < z else 0 < x < z - 1) /\ inside m per n.
Proof. intros [L H]. split; [apply (H 0%nat); cbn; lia|]. split; [cbn in L; lia|]. intros d Hd. apply (H (S d)). cbn. lia. Qed.
Lemma gather_cell m : forall per n o, length per = length m -> Forall (fun z => 1 <= z) m -> inside m per n -> Forall (fun a => 0 <= a <= 1) o -> length o = length m ->
  in_grid_box (cells_box m per) (wrap m per (sub n o)) /\ wrap m per (add (wrap m per (sub n o)) o) = n /\
  forall e, in_grid_box (cells_box m per) e -> wrap m per (add e o) = n -> e = wrap m per (sub n o).
Proof.
  induction m as [|z m IH]; intros [|q per] n o HL HF HI HO LO; cbn [length] in HL; try lia; destruct HI as [LN HI']; destruct n as [|x n]; cbn [length] in LN; try lia; destruct o as [|a o]; cbn [length] in LO; try lia.
  - split; [split; constructor|]. split; [reflexivity|]. intros e [H1 _] _. cbn in H1. inversion H1. reflexivity.
  - assert (HI : inside (z :: m) (q :: per) (x :: n)) by (split; [cbn [length]; lia|exact HI']). apply inside_cons in HI as [Hx HI]. inversion HF as [|? ? F1 F2]; subst. inversion HO as [|? ? O1 O2]; subst.
    destruct (IH per n o) as ([I1 I2] & I3 & I4); auto. cbn [sub zip_with wrap add]. change (zip_with Z.sub n o) with (sub n o). change (zip_with Z.add (wrap m per (sub n o)) o) with (add (wrap m per (sub n o)) o).
    change (if q then (x - a) mod z else x - a) with (wr z q (x - a)). pose proof (wr_cell z q x a F1 O1 Hx) as C.
    split; [|split].
    + split; cbn [cells_box bottom_left upper_right map zip_with]; constructor; try exact I1; try exact I2; destruct q; lia.
    + rewrite I3. f_equal. apply (wr_back z q x a F1 Hx).
    + intros e [H1 H2] HE. cbn [cells_box bottom_left upper_right map zip_with] in H1, H2. inversion H1 as [|? y ? e' X1 X2]; subst. inversion H2 as [|? ? ? ? Y1 Y2]; subst. cbn [zip_with add wrap] in HE. change (if q then (y + a) mod z else y + a) with (wr z q (y + a)) in HE. injection HE as E1 E2. apply f_equal2; [exact (wr_unique z q x a y F1 (conj X1 Y1) E1)|]. apply I4; [split; assumption|exact E2].
Qed.
(** the bits of k, one per axis *)
Definition bits (D k : nat) : list Z := map (fun i => Z.of_nat (k / 2 ^ i mod 2)) (seq 0 D).
Definition digits (D k : nat) : list Z := map (fun i => Z.of_nat (k / 3 ^ i mod 3)) (seq 0 D).
Lemma zip_map_add (f : nat -> Z) e : forall s, zip_with (fun a i => a + f i) e (seq s (length e)) = add e (map f (seq s (length e))).
Proof. induction e as [|x e IH]; intros s; cbn [length seq zip_with map add]; [reflexivity|]. f_equal. apply IH. Qed.
Lemma zip_map_add2 (f : nat -> Z) e : forall s, zip_with (fun a i => 2 * a + f i) e (seq s (length e)) = add (map (Z.mul 2) e) (map f (seq s (length e))).
Proof. induction e as [|x e IH]; intros s; cbn [length seq zip_with map add]; [reflexivity|]. f_equal. apply IH. Qed.
Lemma corner_add e k : corner e k = add e (bits (length e) k).
Proof. apply (zip_map_add (fun i => Z.of_nat (k / 2 ^ i mod 2))). Qed.
Lemma corner3_add e k : corner3 e k = add (map (Z.mul 2) e) (digits (length e) k).
Proof. apply (zip_map_add2 (fun i => Z.of_nat (k / 3 ^ i mod 3))). Qed.
Lemma bits_ok D k : Forall (fun a => 0 <= a <= 1) (bits D k) /\ length (bits D k) = D.
Proof. unfold bits. split; [|rewrite map_length; apply seq_length]. apply Forall_forall. intros a H. apply in_map_iff in H as (i & <- & _). pose proof (Nat.mod_upper_bound (k / 2 ^ i) 2 ltac:(lia)). lia. Qed.
Lemma digits_ok D k : Forall (fun a => 0 <= a <= 2) (digits D k) /\ length (digits D k) = D.
Proof. unfold digits. split; [|rewrite map_length; apply seq_length]. apply Forall_forall. intros a H. apply in_map_iff in H as (i & <- & _). pose proof (Nat.mod_upper_bound (k / 3 ^ i) 3 ltac:(lia)). lia. Qed.

(** coarse cells: velocity node n of the refined grid is node o of a pressure cell only when n - o is even on every axis *)
Definition rsz (m : Z) (p : bool) : Z := if p then 2 * m else 2 * m - 1.
Definition par_ok (n o : list Z) : bool := forallb (fun a => Z.even a) (sub n o).
Definition half (n o : list Z) : list Z := map (fun a => a / 2) (sub n o).
Lemma wr2_unique m (p : bool) n o e : 1 <= m -> 0 <= e < (if p then m else m - 1) -> wr (rsz m p) p (2 * e + o) = n -> Z.even (n - o) = true /\ e = wr m p ((n - o) / 2).
Proof.
  unfold wr, rsz. intros H He E. destruct p.
  - assert (K : n - o = 2 * (e - m * ((2 * e + o) / (2 * m)))). { pose proof (Z.div_mod (2 * e + o) (2 * m) ltac:(lia)). lia. }
    rewrite K. split; [rewrite Z.even_mul; reflexivity|]. rewrite (Z.mul_comm 2), Z.div_mul by lia. replace (e - m * ((2 * e + o) / (2 * m))) with (e + (- ((2 * e + o) / (2 * m))) * m) by ring. rewrite Z.mod_add by lia. symmetry. apply Z.mod_small. lia.
  - replace (n - o) with (2 * e) by lia. split; [rewrite Z.even_mul; reflexivity|]. rewrite (Z.mul_comm 2), Z.div_mul; lia.
Qed.
Lemma wr2_back m (p : bool) n o : 1 <= m -> (if p then 0 <= n < rsz m p else 0 < n < rsz m p - 1) -> Z.even (n - o) = true -> wr (rsz m p) p (2 * wr m p ((n - o) / 2) + o) = n.
Proof.
  unfold wr, rsz. intros H Hn E. apply Z.even_spec in E as [k E]. rewrite E, (Z.mul_comm 2 k), Z.div_mul by lia. destruct p; [|lia].
  assert (K : 2 * (k mod m) + o = n + (- (k / m)) * (2 * m)) by (pose proof (Z.div_mod k m ltac:(lia)); nia). rewrite K, Z.mod_add by lia. apply Z.mod_small. lia.
Qed.
Lemma wr2_cell m (p : bool) n o : 1 <= m -> 0 <= o <= 2 -> (if p then 0 <= n < rsz m p else 0 < n < rsz m p - 1) -> Z.even (n - o) = true -> 0 <= wr m p ((n - o) / 2) < (if p then m else m - 1).
Proof.
  unfold wr, rsz. intros H Ho Hn E. apply Z.even_spec in E as [k E]. rewrite E, (Z.mul_comm 2 k), Z.div_mul by lia. destruct p; [|lia]. apply Z.mod_pos_bound. lia.
Qed.
Lemma gather_cell3 m : forall per n o, length per = length m -> Forall (fun z => 1 <= z) m -> inside (refined_size m per) per n -> Forall (fun a => 0 <= a <= 2) o -> length o = length m ->
  (par_ok n o = true -> in_grid_box (cells_box m per) (wrap m per (half n o)) /\ wrap (refined_size m per) per (add (map (Z.mul 2) (wrap m per (half n o))) o) = n) /\
  forall e, in_grid_box (cells_box m per) e -> wrap (refined_size m per) per (add (map (Z.mul 2) e) o) = n -> par_ok n o = true /\ e = wrap m per (half n o).
Proof.
  induction m as [|z m IH]; intros [|q per] n o HL HF HI HO LO; cbn [length] in HL; try lia; destruct HI as [LN HI']; change (refined_size (z :: m) (q :: per)) with (rsz z q :: refined_size m per) in * || idtac; cbn [refined_size zip_with] in LN; destruct n as [|x n]; cbn [length] in LN; try lia; destruct o as [|a o]; cbn [length] in LO; try lia.
  - split; [intros _; split; [split; constructor|reflexivity]|]. intros e [H1 _] _. cbn in H1. inversion H1. split; reflexivity.
  - assert (HI : inside (rsz z q :: refined_size m per) (q :: per) (x :: n)) by (split; [cbn [length]; exact LN|exact HI']). apply inside_cons in HI as [Hx HI]. inversion HF as [|? ? F1 F2]; subst. inversion HO as [|? ? O1 O2]; subst.
    destruct (IH per n o) as (I1 & I4); auto. unfold par_ok, half. cbn [sub zip_with forallb map wrap add]. change (zip_with Z.sub n o) with (sub n o). fold (par_ok n o) (half n o).
    change (if q then ((x - a) / 2) mod z else (x - a) / 2) with (wr z q ((x - a) / 2)). split.
    + intros P. apply andb_true_iff in P as [P1 P2]. destruct (I1 P2) as ([J1 J2] & J3). pose proof (wr2_cell z q x a F1 O1 Hx P1) as C. split.
      * split; cbn [cells_box bottom_left upper_right map zip_with]; constructor; try exact J1; try exact J2; destruct q; lia.
      * f_equal; [apply (wr2_back z q x a F1 Hx P1)|exact J3].
    + intros e [H1 H2] HE. cbn [cells_box bottom_left upper_right map zip_with] in H1, H2. inversion H1 as [|? y ? e' X1 X2]; subst. inversion H2 as [|? ? ? ? Y1 Y2]; subst. cbn [map zip_with add wrap] in HE.
      change (wr (rsz z q) q (2 * y + a) :: wrap (refined_size m per) per (add (map (Z.mul 2) e') o) = x :: n) in HE. injection HE as E1 E2.
      destruct (wr2_unique z q x a y F1 (conj X1 Y1) E1) as [K1 K2]. destruct (I4 e') as [K3 K4]; [split; assumption|exact E2|]. split; [rewrite K1, K3; reflexivity|]. f_equal; assumption.
Qed.
Local Open Scope R_scope.
Lemma length_wrap m : forall per p, length per = length m -> length p = length m -> length (wrap m per p) = length m.
Proof. induction m as [|z m IH]; intros [|q per] [|x p]; cbn; intros; try lia. rewrite IH; lia. Qed.
Lemma length_sub n o : length n = length o -> length (sub n o) = length n.
Proof. intros. unfold sub. apply length_zip_with. exact H. Qed.

Lemma cell_len m per e : in_grid_box (cells_box m per) e -> length e = length m.
Proof. intros [H _]. apply Forall2_len in H. cbn [cells_box bottom_left] in H. rewrite map_length in H. lia. Qed.
(** gathering over the cells of the grid *)
Lemma gather m per n c (F : nat -> list Z -> R) (k : nat) : length per = length m -> Forall (fun z => (1 <= z)%Z) m -> inside m per n ->
  Lsum (fun e => unit_field n c (wrap m per (corner e k)) c * F k e) (E0 m per) = F k (wrap m per (sub n (bits (length m) k))).
Proof.
  intros HL HF HI. destruct (bits_ok (length m) k) as [B1 B2]. destruct (gather_cell m per n (bits (length m) k) HL HF HI B1 B2) as (G1 & G2 & G3). destruct (E0_enum m per HL) as [ND IN].
  assert (C : forall e, In e (E0 m per) -> corner e k = add e (bits (length m) k)). { intros e He. apply IN in He. rewrite corner_add, (cell_len m per e He). reflexivity. }
  assert (I0 : In (wrap m per (sub n (bits (length m) k))) (E0 m per)) by (apply IN; exact G1).
  rewrite (Lsum_at _ (wrap m per (sub n (bits (length m) k))) _ ND I0).
  - rewrite C by exact I0. rewrite G2. unfold unit_field. destruct (same_node_spec n n) as [_|N]; [|congruence]. rewrite Nat.eqb_refl. cbn [andb]. ring.
  - intros e He Ne. rewrite C by exact He. unfold unit_field. destruct (same_node_spec n (wrap m per (add e (bits (length m) k)))) as [E|_]; [|cbn [andb]; ring]. exfalso. apply Ne, G3; [apply IN, He|symmetry; exact E].
Qed.
Lemma gather3 m per n c (F : list Z -> R) (k : nat) : length per = length m -> Forall (fun z => (1 <= z)%Z) m -> inside (refined_size m per) per n ->
  Lsum (fun e => unit_field n c (wrap (refined_size m per) per (corner3 e k)) c * F e) (E0 m per) = if par_ok n (digits (length m) k) then F (wrap m per (half n (digits (length m) k))) else 0.
Proof.
  intros HL HF HI. destruct (digits_ok (length m) k) as [B1 B2]. destruct (gather_cell3 m per n (digits (length m) k) HL HF HI B1 B2) as (G1 & G3). destruct (E0_enum m per HL) as [ND IN].
  assert (C : forall e, In e (E0 m per) -> corner3 e k = add (map (Z.mul 2) e) (digits (length m) k)). { intros e He. apply IN in He. rewrite corner3_add, (cell_len m per e He). reflexivity. }
  destruct (par_ok n (digits (length m) k)) eqn:P.
  - destruct (G1 eq_refl) as [J1 J2]. assert (I0 : In (wrap m per (half n (digits (length m) k))) (E0 m per)) by (apply IN; exact J1).
    rewrite (Lsum_at _ (wrap m per (half n (digits (length m) k))) _ ND I0).
    + rewrite C by exact I0. rewrite J2. unfold unit_field. destruct (same_node_spec n n) as [_|N]; [|congruence]. rewrite Nat.eqb_refl. cbn [andb]. ring.
    + intros e He Ne. rewrite C by exact He. unfold unit_field. destruct (same_node_spec n (wrap (refined_size m per) per (add (map (Z.mul 2) e) (digits (length m) k)))) as [E|_]; [|cbn [andb]; ring]. exfalso. apply Ne. apply G3; [apply IN, He|symmetry; exact E].
  - apply Lsum_all_zero. intros e He. rewrite C by exact He. unfold unit_field. destruct (same_node_spec n (wrap (refined_size m per) per (add (map (Z.mul 2) e) (digits (length m) k)))) as [E|_]; [|cbn [andb]; ring]. exfalso. destruct (G3 e) as [K _]; [apply IN, He|symmetry; exact E|]. congruence.
Qed.
