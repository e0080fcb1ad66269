(** Discrete Poincaré inequality for the Q1 energy of the Laplacian. *)
From Coq Require Import QArith Qreals Permutation FunctionalExtensionality.
From Coquelicot Require Import Coquelicot.
From Verif Require Import Base M_Geometry S_Geometry P_Geometry M_Particle S_Particle P_Particle M_Quadrature S_Fem P_Energy P_Precond M_MatElem P_MatElem M_Mesh M_Operator S_Operator P_Mesh P_Operator P_Operator2 P_Operator3 P_Global P_Gather P_Stencil.
Open Scope R_scope.
(** ** one cell *)
Definition edge (D d : nat) (U : nat -> R) : R := Rsum (2 ^ D) (fun k => if Nat.even (k / 2 ^ d) then (U (k + 2 ^ d)%nat - U k) ^ 2 else 0).
Definition E2 (a b : R) : R := (a ^ 2 + b ^ 2 + (a + b) ^ 2) / 6.
Definition E4 (a b c d : R) : R := (a ^ 2 + b ^ 2 + c ^ 2 + d ^ 2 + (a + b) ^ 2 + (c + d) ^ 2 + (a + c) ^ 2 + (b + d) ^ 2 + (a + b + c + d) ^ 2) / 36.
Lemma lapq2 h0 h1 U : h0 <> 0 -> h1 <> 0 -> qform 4 (getMatElemLaplacian [h0; h1]) U =
  h0 * h1 * (E2 (U 1%nat - U 0%nat) (U 3%nat - U 2%nat) / h0 ^ 2 + E2 (U 2%nat - U 0%nat) (U 3%nat - U 1%nat) / h1 ^ 2).
Proof. intros H0 H1. unfold qform, E2. stencil. field. auto. Qed.
Lemma lapq3 h0 h1 h2 U : h0 <> 0 -> h1 <> 0 -> h2 <> 0 -> qform 8 (getMatElemLaplacian [h0; h1; h2]) U =
  h0 * h1 * h2 * (E4 (U 1%nat - U 0%nat) (U 3%nat - U 2%nat) (U 5%nat - U 4%nat) (U 7%nat - U 6%nat) / h0 ^ 2
    + E4 (U 2%nat - U 0%nat) (U 3%nat - U 1%nat) (U 6%nat - U 4%nat) (U 7%nat - U 5%nat) / h1 ^ 2
    + E4 (U 4%nat - U 0%nat) (U 5%nat - U 1%nat) (U 6%nat - U 2%nat) (U 7%nat - U 3%nat) / h2 ^ 2).
Proof. intros H0 H1 H2. unfold qform, E4. stencil. field. auto. Qed.
Definition thick (D : nat) : R := match D with 2%nat => 6 | _ => 36 end.
Lemma thick_pos D : 0 < thick D. Proof. unfold thick. destruct D as [|[|[|]]]; lra. Qed.
Lemma E2_low a b : (a ^ 2 + b ^ 2) / 6 <= E2 a b. Proof. unfold E2. pose proof (pow2_ge_0 (a + b)). lra. Qed.
Lemma E4_low a b c d : (a ^ 2 + b ^ 2 + c ^ 2 + d ^ 2) / 36 <= E4 a b c d.
Proof. unfold E4. pose proof (pow2_ge_0 (a + b)). pose proof (pow2_ge_0 (c + d)). pose proof (pow2_ge_0 (a + c)). pose proof (pow2_ge_0 (b + d)). pose proof (pow2_ge_0 (a + b + c + d)). lra. Qed.
Lemma frac_le v k x y : 0 < v -> 0 < k -> x <= y -> v / k * x <= v * (y / k).
Proof. intros Hv Hk H. replace (v * (y / k)) with (v / k * y) by (field; lra). apply Rmult_le_compat_l; [|exact H]. apply Rlt_le, Rdiv_lt_0_compat; auto. Qed.
Lemma pos_term v k y : 0 < v -> 0 < k -> 0 <= y -> 0 <= v * (y / k).
Proof. intros Hv Hk H. apply Rmult_le_pos; [lra|]. unfold Rdiv. apply Rmult_le_pos; [exact H|]. apply Rlt_le, Rinv_0_lt_compat, Hk. Qed.
Lemma E2_nonneg a b : 0 <= E2 a b. Proof. unfold E2. pose proof (pow2_ge_0 (a + b)). pose proof (pow2_ge_0 a). pose proof (pow2_ge_0 b). lra. Qed.
Lemma E4_nonneg a b c d : 0 <= E4 a b c d. Proof. pose proof (E4_low a b c d). pose proof (pow2_ge_0 a). pose proof (pow2_ge_0 b). pose proof (pow2_ge_0 c). pose proof (pow2_ge_0 d). lra. Qed.
Definition volume (h : list R) : R := fold_right Rmult 1 h.
Lemma cell_energy h m d U : steps_ok h m -> (length m = 2 \/ length m = 3)%nat -> (d < length m)%nat ->
  volume h / (nth d h 0) ^ 2 * (edge (length m) d U / thick (length m)) <= qform (2 ^ length m) (getMatElemLaplacian h) U.
Proof.
  intros [Lh HP] HD Hd. destruct HD as [E|E]; rewrite E in *.
  - destruct h as [|h0 [|h1 [|]]]; try discriminate Lh. inversion HP as [|? ? P0 HP1]; subst. inversion HP1 as [|? ? P1 _]; subst. change (2 ^ 2)%nat with 4%nat. rewrite lapq2 by lra.
    assert (V : 0 < h0 * h1) by (apply Rmult_lt_0_compat; auto). assert (S0 : 0 < h0 ^ 2) by (apply pow_lt, P0). assert (S1 : 0 < h1 ^ 2) by (apply pow_lt, P1).
    unfold volume. cbn [fold_right]. rewrite Rmult_1_r. rewrite Rmult_plus_distr_l. set (A := E2 (U 1%nat - U 0%nat) (U 3%nat - U 2%nat)). set (B := E2 (U 2%nat - U 0%nat) (U 3%nat - U 1%nat)).
    pose proof (pos_term _ _ _ V S0 (E2_nonneg (U 1%nat - U 0%nat) (U 3%nat - U 2%nat))) as N0. fold A in N0. pose proof (pos_term _ _ _ V S1 (E2_nonneg (U 2%nat - U 0%nat) (U 3%nat - U 1%nat))) as N1. fold B in N1.
    destruct d as [|[|d]]; [| |lia]; cbn [nth].
    + assert (L : edge 2 0 U / thick 2 <= A) by (eapply Rle_trans; [|apply E2_low]; apply Req_le; unfold edge, thick; cbn [Rsum Nat.pow Nat.div Nat.divmod Nat.even Nat.mul Nat.add fst snd Nat.sub]; field). pose proof (frac_le _ _ _ _ V S0 L). lra.
    + assert (L : edge 2 1 U / thick 2 <= B) by (eapply Rle_trans; [|apply E2_low]; apply Req_le; unfold edge, thick; cbn [Rsum Nat.pow Nat.div Nat.divmod Nat.even Nat.mul Nat.add fst snd Nat.sub]; field). pose proof (frac_le _ _ _ _ V S1 L). lra.
  - destruct h as [|h0 [|h1 [|h2 [|]]]]; try discriminate Lh. inversion HP as [|? ? P0 HP1]; subst. inversion HP1 as [|? ? P1 HP2]; subst. inversion HP2 as [|? ? P2 _]; subst. change (2 ^ 3)%nat with 8%nat. rewrite lapq3 by lra.
    assert (V : 0 < h0 * h1 * h2) by (repeat apply Rmult_lt_0_compat; auto). assert (S0 : 0 < h0 ^ 2) by (apply pow_lt, P0). assert (S1 : 0 < h1 ^ 2) by (apply pow_lt, P1). assert (S2 : 0 < h2 ^ 2) by (apply pow_lt, P2).
    unfold volume. cbn [fold_right]. rewrite Rmult_1_r. rewrite <- !Rmult_assoc. rewrite !Rmult_plus_distr_l.
    match goal with |- _ <= _ * (?a / _) + _ * (?b / _) + _ * (?c / _) => set (A := a); set (B := b); set (C := c) end.
    assert (N0 : 0 <= h0 * h1 * h2 * (A / h0 ^ 2)) by (apply pos_term; auto; apply E4_nonneg). assert (N1 : 0 <= h0 * h1 * h2 * (B / h1 ^ 2)) by (apply pos_term; auto; apply E4_nonneg). assert (N2 : 0 <= h0 * h1 * h2 * (C / h2 ^ 2)) by (apply pos_term; auto; apply E4_nonneg).
    destruct d as [|[|[|d]]]; [| | |lia]; cbn [nth].
    + assert (L : edge 3 0 U / thick 3 <= A) by (eapply Rle_trans; [|apply E4_low]; apply Req_le; unfold edge, thick; cbn [Rsum Nat.pow Nat.div Nat.divmod Nat.even Nat.mul Nat.add fst snd Nat.sub]; field). pose proof (frac_le _ _ _ _ V S0 L). lra.
    + assert (L : edge 3 1 U / thick 3 <= B) by (eapply Rle_trans; [|apply E4_low]; apply Req_le; unfold edge, thick; cbn [Rsum Nat.pow Nat.div Nat.divmod Nat.even Nat.mul Nat.add fst snd Nat.sub]; field). pose proof (frac_le _ _ _ _ V S1 L). lra.
    + assert (L : edge 3 2 U / thick 3 <= C) by (eapply Rle_trans; [|apply E4_low]; apply Req_le; unfold edge, thick; cbn [Rsum Nat.pow Nat.div Nat.divmod Nat.even Nat.mul Nat.add fst snd Nat.sub]; field). pose proof (frac_le _ _ _ _ V S2 L). lra.
Qed.
(** ** along a line *)
Lemma line_aux (f : nat -> R) n : (Rsum n f) ^ 2 <= INR n * Rsum n (fun j => f j ^ 2).
Proof.
  induction n as [|n IH]; [cbn; lra|]. rewrite S_INR. cbn [Rsum]. set (S := Rsum n f) in *. set (Q := Rsum n (fun j => f j ^ 2)) in *. set (g := f n).
  destruct n as [|n]; [subst S Q; cbn; lra|]. assert (P : 1 <= INR (Datatypes.S n)) by (rewrite S_INR; pose proof (pos_INR n); lra). set (k := INR (Datatypes.S n)) in *. clearbody S Q g k.
  assert (K : 0 <= (S - k * g) ^ 2) by apply pow2_ge_0.
  assert (W : k * (2 * S * g) <= k * (Q + k * g ^ 2)) by nra.
  apply Rmult_le_reg_l in W; [|lra]. nra.
Qed.
Lemma Rsum_mono_n n M f : (n <= M)%nat -> (forall i, 0 <= f i) -> Rsum n f <= Rsum M f.
Proof. intros H P. induction H; [lra|]. cbn [Rsum]. pose proof (P m). lra. Qed.
Lemma line (V : nat -> R) i M : V 0%nat = 0 -> (i <= M)%nat -> V i ^ 2 <= INR M * Rsum M (fun j => (V (S j) - V j) ^ 2).
Proof.
  intros V0 Hi. assert (T : V i = Rsum i (fun j => V (S j) - V j)). { clear Hi. induction i as [|i IH]; cbn [Rsum]; [exact V0|]. rewrite <- IH. ring. }
  rewrite T. eapply Rle_trans; [apply line_aux|]. apply Rmult_le_compat; [apply pos_INR| |apply le_INR, Hi|].
  - apply P_Energy.Rsum_nonneg. intros; apply pow2_ge_0.
  - apply Rsum_mono_n; [exact Hi|]. intros; apply pow2_ge_0.
Qed.
(** ** the other points of a line of cells *)
Fixpoint set_at (e : list Z) (d : nat) (j : Z) : list Z :=
  match e, d with [], _ => [] | a :: e', 0%nat => j :: e' | a :: e', S d' => a :: set_at e' d' j end.
Lemma set_at_same e : forall d, set_at e d (nth d e 0%Z) = e.
Proof. induction e as [|a e IH]; intros [|d]; cbn; auto. f_equal. apply IH. Qed.
Lemma set_at_len e : forall d j, length (set_at e d j) = length e.
Proof. induction e as [|a e IH]; intros [|d] j; cbn; auto. Qed.
Lemma set_at_at e : forall d j, (d < length e)%nat -> nth d (set_at e d j) 0%Z = j.
Proof. induction e as [|a e IH]; intros [|d] j H; cbn in *; auto; try lia. apply IH. lia. Qed.
Lemma set_at_twice e : forall d j i, set_at (set_at e d j) d i = set_at e d i.
Proof. induction e as [|a e IH]; intros [|d] j i; cbn; auto. f_equal. apply IH. Qed.
Lemma set_at_rel (P : Z -> Z -> Prop) lo e : forall d j, Forall2 P lo e -> (d < length e)%nat -> P (nth d lo 0%Z) j -> Forall2 P lo (set_at e d j).
Proof. intros d j H. revert d. induction H as [|a b lo e H0 H IH]; intros [|d] Hd Hj; cbn in *; constructor; auto; try lia. apply IH; auto. lia. Qed.
Lemma set_at_rel' (P : Z -> Z -> Prop) hi e : forall d j, Forall2 P e hi -> (d < length e)%nat -> P j (nth d hi 0%Z) -> Forall2 P (set_at e d j) hi.
Proof. intros d j H. revert d. induction H as [|a b e hi H0 H IH]; intros [|d] Hd Hj; cbn in *; constructor; auto; try lia. apply IH; auto. lia. Qed.
Lemma zeros_at (m : list Z) d : nth d (map (fun _ => 0%Z) m) 0%Z = 0%Z.
Proof. revert d. induction m as [|a m IH]; intros [|d]; cbn; auto. Qed.
Lemma walled_at m : forall per d, length per = length m -> (d < length m)%nat -> nth d per false = false -> nth d (zip_with (fun n (p : bool) => if p then n else (n - 1)%Z) m per) 0%Z = (nth d m 0 - 1)%Z.
Proof. induction m as [|a m IH]; intros [|p per] [|d] H Hd E; cbn in *; try lia; [subst; reflexivity|]. apply IH; auto; lia. Qed.
Lemma cell_len m per e : in_grid_box (cells_box m per) e -> length e = length m.
Proof. intros [H _]. apply Forall2_len in H. cbn [bottom_left cells_box] in H. rewrite map_length in H. lia. Qed.
Lemma set_at_cell m per e d j : length per = length m -> (d < length m)%nat -> nth d per false = false -> in_grid_box (cells_box m per) e -> (0 <= j < nth d m 0 - 1)%Z -> in_grid_box (cells_box m per) (set_at e d j).
Proof.
  intros HL Hd Hp He Hj. pose proof (cell_len m per e He) as Le. destruct He as [H1 H2]. unfold cells_box, in_grid_box in *. cbn [bottom_left upper_right] in *. split.
  - apply set_at_rel; auto; [lia|]. rewrite zeros_at. lia.
  - apply set_at_rel'; auto; [lia|]. rewrite walled_at by auto. lia.
Qed.
Lemma cell_coord m per e d : length per = length m -> (d < length m)%nat -> nth d per false = false -> in_grid_box (cells_box m per) e -> (0 <= nth d e 0 < nth d m 0 - 1)%Z.
Proof.
  intros HL Hd Hp He. pose proof (cell_len m per e He) as Le. destruct He as [H1 H2]. unfold cells_box in *. cbn [bottom_left upper_right] in *. split.
  - rewrite <- (zeros_at m d). clear - H1 Hd. revert d Hd. remember (map (fun _ => 0%Z) m) as lo eqn:E. revert m E. induction H1 as [|a b lo e H0 H IH]; intros [|z m] E [|d] Hd; cbn in *; try discriminate; try lia. injection E as -> E. apply (IH m E). lia.
  - rewrite <- (walled_at m per d HL Hd Hp). assert (K : (d < length e)%nat) by lia. clear - H2 K. revert d K. induction H2 as [|a b e hi H0 H IH]; intros [|d] Hd; cbn in *; try lia. apply IH. lia.
Qed.
Lemma corner_step e d k j : (length e = 2 \/ length e = 3)%nat -> (d < length e)%nat -> (k < 2 ^ length e)%nat -> Nat.even (k / 2 ^ d) = true ->
  corner (set_at e d j) (k + 2 ^ d) = corner (set_at e d (j + 1)) k.
Proof.
  intros [E|E] Hd Hk Ev; rewrite E in *.
  - destruct e as [|a [|b [|]]]; try discriminate E. change (2 ^ 2)%nat with 4%nat in Hk.
    destruct d as [|[|d]]; [| |lia]; do 4 (destruct k as [|k]; [try discriminate Ev; cbn -[Z.add]; repeat (apply f_equal2; [lia|]); reflexivity|]); lia.
  - destruct e as [|a [|b [|c [|]]]]; try discriminate E. change (2 ^ 3)%nat with 8%nat in Hk.
    destruct d as [|[|[|d]]]; [| | |lia]; do 8 (destruct k as [|k]; [try discriminate Ev; cbn -[Z.add]; repeat (apply f_equal2; [lia|]); reflexivity|]); lia.
Qed.
Lemma corner_start m per e d k j : length per = length m -> length e = length m -> (length e = 2 \/ length e = 3)%nat -> (d < length e)%nat -> (k < 2 ^ length e)%nat -> Nat.even (k / 2 ^ d) = true -> nth d per false = false ->
  nth d (wrap m per (corner (set_at e d j) k)) 0%Z = j.
Proof.
  intros HL Le [E|E] Hd Hk Ev Hp; rewrite E in *.
  - destruct e as [|a [|b [|]]]; try discriminate E. destruct m as [|m0 [|m1 [|]]]; try discriminate Le. destruct per as [|p0 [|p1 [|]]]; try discriminate HL. change (2 ^ 2)%nat with 4%nat in Hk.
    destruct d as [|[|d]]; [| |lia]; cbn [nth] in Hp; subst; do 4 (destruct k as [|k]; [try discriminate Ev; cbn; lia|]); lia.
  - destruct e as [|a [|b [|c [|]]]]; try discriminate E. destruct m as [|m0 [|m1 [|m2 [|]]]]; try discriminate Le. destruct per as [|p0 [|p1 [|p2 [|]]]]; try discriminate HL. change (2 ^ 3)%nat with 8%nat in Hk.
    destruct d as [|[|[|d]]]; [| | |lia]; cbn [nth] in Hp; subst; do 8 (destruct k as [|k]; [try discriminate Ev; cbn; lia|]); lia.
Qed.
Lemma pair_up D d (G : nat -> R) : (D = 2 \/ D = 3)%nat -> (d < D)%nat -> Rsum (2 ^ D) G = Rsum (2 ^ D) (fun k => if Nat.even (k / 2 ^ d) then G k + G (k + 2 ^ d)%nat else 0).
Proof.
  intros [->| ->] Hd; [destruct d as [|[|d]]; [| |lia]|destruct d as [|[|[|d]]]; [| | |lia]]; cbn [Rsum Nat.pow Nat.div Nat.divmod Nat.even Nat.mul Nat.add fst snd Nat.sub]; ring.
Qed.
Lemma in_list_prod_Lsum {A B} (f : A * B -> R) (l : list A) (k : list B) : Lsum f (list_prod l k) = Lsum (fun a => Lsum (fun b => f (a, b)) k) l.
Proof. induction l as [|a l IH]; [reflexivity|]. cbn [list_prod]. rewrite P_Operator.Lsum_app, P_Operator.Lsum_map, IH. reflexivity. Qed.
Lemma vol_pos h m : steps_ok h m -> 0 < volume h.
Proof. intros [_ F]. unfold volume. induction F as [|s h' Hs F IH]; cbn; [lra|]. apply Rmult_lt_0_compat; auto. Qed.
Section Poincare.
  Variables (h : list R) (m : list Z) (per : list bool) (x : field) (c d : nat).
  Hypothesis HG : grid_ok m per.
  Hypothesis HC : has_cells m per.
  Hypothesis HS : steps_ok h m.
  Hypothesis Hd : (d < length m)%nat.
  Hypothesis Hp : nth d per false = false.
  Hypothesis H0 : forall n, in_grid_box (nodes_box m) n -> nth d n 0%Z = 0%Z -> x n c = 0.
  Let D := length m.
  Let HL : length per = length m := proj1 (proj2 HG).
  Let M := Z.to_nat (nth d m 0 - 1)%Z.
  Definition verts (e : list Z) : R := Rsum (2 ^ D) (fun k => gv m per x e k c ^ 2).
  Definition edges (e : list Z) : R := edge D d (fun k => gv m per x e k c).
  Lemma verts_le e : in_grid_box (cells_box m per) e -> verts e <= 2 * INR M * Rsum M (fun j => edges (set_at e d (Z.of_nat j))).
  Proof.
    intros He. pose proof (cell_coord m per e d HL Hd Hp He) as Hc. pose proof (cell_len m per e He) as Le. assert (D23 : (D = 2 \/ D = 3)%nat) by apply HG.
    unfold verts. rewrite (pair_up D d _ D23 Hd). unfold edges, edge. rewrite Rsum_swap, <- Rsum_scal. apply Rsum_le. intros k Hk. destruct (Nat.even (k / 2 ^ d)) eqn:Ev.
    - set (V := fun j : nat => x (wrap m per (corner (set_at e d (Z.of_nat j)) k)) c).
      assert (VS : forall j, gv m per x (set_at e d (Z.of_nat j)) (k + 2 ^ d) c = V (S j)). { intros j. unfold gv, V. rewrite corner_step; rewrite ?set_at_len, ?Le; auto. do 4 f_equal. lia. }
      assert (V0 : V 0%nat = 0). { unfold V. apply H0; [|apply (corner_start m per e d k); rewrite ?Le; auto]. apply (wrap_in_nodes m per (set_at e d (Z.of_nat 0))); auto; [apply HG|apply set_at_cell; auto; cbn; lia|]. apply corner_near; rewrite set_at_len, Le; auto. }
      set (a := Z.to_nat (nth d e 0%Z)). assert (Ea : set_at e d (Z.of_nat a) = e) by (unfold a; rewrite Z2Nat.id by lia; apply set_at_same).
      assert (G0 : gv m per x e k c = V a) by (unfold V; rewrite Ea; reflexivity). assert (G1 : gv m per x e (k + 2 ^ d) c = V (S a)) by (rewrite <- Ea at 1; apply VS).
      rewrite G0, G1. pose proof (line V a M V0 ltac:(unfold a, M; lia)) as L0. pose proof (line V (S a) M V0 ltac:(unfold a, M; lia)) as L1.
      rewrite (Rsum_ext M _ (fun j => (V (S j) - V j) ^ 2)) by (intros j _; rewrite VS; reflexivity). lra.
    - rewrite Rsum_zero. lra.
  Qed.
  (** every cell of a line occurs once for each cell of the line *)
  Lemma lines f : Lsum (fun e => Rsum M (fun j => f (set_at e d (Z.of_nat j)))) (E0 m per) = INR M * Lsum f (E0 m per).
  Proof.
    pose proof (E0_enum m per HL) as [ND HI]. set (J := map Z.of_nat (seq 0 M)). assert (NJ : NoDup J) by (apply FinFun.Injective_map_NoDup; [intros u v E; apply Nat2Z.inj, E|apply seq_NoDup]).
    assert (IJ : forall j, In j J <-> (0 <= j < nth d m 0 - 1)%Z). { intros j. unfold J. rewrite in_map_iff. split; [intros (k & <- & Hk); apply in_seq in Hk; unfold M in Hk; lia|]. intros Hj. exists (Z.to_nat j). split; [lia|]. apply in_seq. unfold M. lia. }
    assert (SJ : forall g, Lsum g J = Rsum M (fun j => g (Z.of_nat j))) by (intros g; unfold J; rewrite P_Operator.Lsum_map; apply P_Operator.Lsum_seq).
    transitivity (Lsum (fun p => f (set_at (fst p) d (snd p))) (list_prod (E0 m per) J)); [rewrite in_list_prod_Lsum; apply P_Operator.Lsum_ext; intros e _; rewrite SJ; reflexivity|].
    transitivity (Lsum (fun p => f (fst p)) (list_prod (E0 m per) J)).
    2:{ rewrite in_list_prod_Lsum, <- P_Operator.Lsum_scal. apply P_Operator.Lsum_ext. intros e _. rewrite SJ. cbn [fst]. clear. induction M as [|n IH]; [cbn; ring|]. cbn [Rsum]. rewrite IH, S_INR. ring. }
    set (phi := fun p : list Z * Z => (set_at (fst p) d (snd p), nth d (fst p) 0%Z)).
    rewrite <- (P_Operator.Lsum_map (fun p => f (fst p)) phi). apply P_Operator.Lsum_perm.
    assert (NP : NoDup (list_prod (E0 m per) J)).
    { clear IJ SJ HI phi. induction ND as [|a l Ha ND IH]; cbn [list_prod]; [constructor|]. assert (N1 : NoDup (map (fun y => (a, y)) J)) by (apply FinFun.Injective_map_NoDup; [intros u v E; congruence|exact NJ]).
      assert (DJ : forall p, In p (map (fun y => (a, y)) J) -> ~ In p (list_prod l J)). { intros [u v] H1 H2. apply in_map_iff in H1 as (w & E & _). injection E as <- <-. apply in_prod_iff in H2 as [H2 _]. apply Ha, H2. }
      revert N1 DJ. generalize (map (fun y => (a, y)) J) as s. intros s N1 DJ. induction N1 as [|b s Hb N1 IH1]; [exact IH|]. cbn [app]. constructor; [|apply IH1; intros p Hp'; apply DJ; right; exact Hp']. intros Hin. apply in_app_or in Hin as [Hin|Hin]; [apply Hb, Hin|]. apply (DJ b); [left; reflexivity|exact Hin]. }
    assert (INV : forall p, In p (list_prod (E0 m per) J) -> In (phi p) (list_prod (E0 m per) J) /\ phi (phi p) = p).
    { intros [e j] Hin. apply in_prod_iff in Hin as [He Hj]. apply HI in He. apply IJ in Hj. unfold phi. cbn [fst snd]. pose proof (cell_len m per e He) as Le. split.
      - apply in_prod_iff. split; [apply HI, set_at_cell; auto|apply IJ, (cell_coord m per); auto].
      - rewrite set_at_twice, set_at_same, set_at_at by (rewrite Le; exact Hd). reflexivity. }
    apply NoDup_Permutation.
    - clear - NP INV. revert NP INV. generalize (list_prod (E0 m per) J) as l. intros l NP INV. assert (K : forall s, incl s l -> NoDup s -> NoDup (map phi s)).
      { intros s Hs NS. induction NS as [|p s Hp' NS IH]; [constructor|]. cbn [map]. constructor; [|apply IH; intros q Hq; apply Hs; right; exact Hq]. intros Hin. apply in_map_iff in Hin as (q & E & Hq). apply Hp'.
        rewrite <- (proj2 (INV p (Hs p (or_introl eq_refl)))), <- E, (proj2 (INV q (Hs q (or_intror Hq)))). exact Hq. }
      apply K; [intros p; auto|exact NP].
    - exact NP.
    - intros p. rewrite in_map_iff. split; [intros (q & <- & Hq); apply INV, Hq|]. intros Hq. exists (phi p). split; apply INV; auto.
  Qed.
  (** every node is a vertex *)
  Lemma nodes_verts : Lsum (fun n => x n c ^ 2) (N0 m) <= Lsum verts (E0 m per).
  Proof.
    pose proof (E0_enum m per HL) as [NE IE]. pose proof (N0_enum m) as [NN IN]. assert (D23 : (D = 2 \/ D = 3)%nat) by apply HG.
    set (at_ := fun (n p : list Z) => if list_eq_dec Z.eq_dec n p then x n c ^ 2 else 0).
    assert (P0 : forall n p, 0 <= at_ n p) by (intros n p; unfold at_; destruct (list_eq_dec Z.eq_dec n p); [apply pow2_ge_0|lra]).
    assert (VE : Lsum verts (E0 m per) = Lsum (fun n => Lsum (fun e => Rsum (2 ^ D) (fun k => at_ n (wrap m per (corner e k)))) (E0 m per)) (N0 m)).
    { rewrite P_Operator.Lsum_swap. apply P_Operator.Lsum_ext. intros e He. apply IE in He. rewrite P_Operator.Lsum_Rsum. unfold verts. apply Rsum_ext. intros k Hk. assert (Le : length e = length m) by (eapply cell_len; eauto).
      assert (Hn : In (wrap m per (corner e k)) (N0 m)). { apply IN. apply (wrap_in_nodes m per e); auto; [apply HG|]. apply corner_near; rewrite Le; auto. }
      pose proof (P_Operator.Lsum_pick (list_eq_dec Z.eq_dec) (wrap m per (corner e k)) (fun n => x n c ^ 2) (N0 m) NN Hn) as PK. cbv beta in PK. unfold gv. rewrite <- PK. apply P_Operator.Lsum_ext. intros n _. unfold at_. destruct (list_eq_dec Z.eq_dec n (wrap m per (corner e k))), (list_eq_dec Z.eq_dec (wrap m per (corner e k)) n); congruence. }
    rewrite VE. apply Lsum_le. intros n Hn. apply IN in Hn. destruct (node_in_cell m per n HL HC Hn) as (e & He & Hnear). assert (Le : length e = length m) by (eapply cell_len; eauto).
    assert (De : (length e = 2 \/ length e = 3)%nat) by (rewrite Le; exact D23). destruct (near_corner e n De Hnear) as (k & Hk & En). rewrite Le in Hk.
    assert (Wn : wrap m per (corner e k) = n).
    { rewrite <- En. apply wrap_id; auto. }
    assert (T : x n c ^ 2 = at_ n (wrap m per (corner e k))) by (rewrite Wn; unfold at_; destruct (list_eq_dec Z.eq_dec n n); congruence). rewrite T at 1.
    assert (S1 : at_ n (wrap m per (corner e k)) <= Rsum (2 ^ D) (fun k => at_ n (wrap m per (corner e k)))).
    { fold D in Hk. clear - Hk P0. revert Hk. generalize (2 ^ D)%nat as N. induction N as [|N IH]; intros Hk; [lia|]. cbn [Rsum]. assert (NN : 0 <= Rsum N (fun k => at_ n (wrap m per (corner e k)))) by (apply P_Energy.Rsum_nonneg; intros; apply P0). destruct (Nat.eq_dec k N) as [->|Ne]; [lra|]. pose proof (P0 n (wrap m per (corner e N))). specialize (IH ltac:(lia)). lra. }
    eapply Rle_trans; [exact S1|]. apply IE in He. set (F := fun e => Rsum (2 ^ D) (fun k => at_ n (wrap m per (corner e k)))).
    assert (PF : forall e, 0 <= F e) by (intros; apply P_Energy.Rsum_nonneg; intros; apply P0). change (F e <= Lsum F (E0 m per)). clear - He PF. induction (E0 m per) as [|b l IH]; [destruct He|]. rewrite P_Operator.Lsum_cons.
    assert (0 <= Lsum F l) by (apply P_Operator.Lsum_nonneg; auto). destruct He as [->|He]; [lra|]. specialize (IH He). pose proof (PF b). lra.
  Qed.
  Lemma poincare : Lsum (fun n => x n c ^ 2) (N0 m) * volume h <= 2 * thick D * (nth d h 0 * INR M) ^ 2 * Lsum (fun e => qform (2 ^ D) (getMatElemLaplacian h) (fun k => gv m per x e k c)) (E0 m per).
  Proof.
    pose proof (E0_enum m per HL) as [NE IE]. assert (D23 : (D = 2 \/ D = 3)%nat) by apply HG.
    assert (Vp : 0 < volume h). { exact (vol_pos h m HS). }
    assert (hp : 0 < nth d h 0). { destruct HS as [Lh F]. pose proof (proj1 (Forall_nth _ _) F d 0) as K. apply K. rewrite Lh. exact Hd. } pose proof (thick_pos D) as TP.
    set (Q := Lsum (fun e => qform (2 ^ D) (getMatElemLaplacian h) (fun k => gv m per x e k c)) (E0 m per)).
    assert (A1 : Lsum verts (E0 m per) <= 2 * INR M * (INR M * Lsum edges (E0 m per))).
    { rewrite <- lines, <- P_Operator.Lsum_scal. apply Lsum_le. intros e He. apply verts_le, IE, He. }
    assert (A2 : volume h / nth d h 0 ^ 2 / thick D * Lsum edges (E0 m per) <= Q).
    { unfold Q. rewrite <- P_Operator.Lsum_scal. apply Lsum_le. intros e _. unfold edges. pose proof (cell_energy h m d (fun k => gv m per x e k c) HS D23 Hd) as CE. fold D in CE. eapply Rle_trans; [|exact CE]. apply Req_le. field. split; lra. }
    pose proof nodes_verts as A3. set (S := Lsum (fun n => x n c ^ 2) (N0 m)) in *. set (Ed := Lsum edges (E0 m per)) in *. set (Ve := Lsum verts (E0 m per)) in *. set (v := volume h) in *. set (s := nth d h 0) in *. set (t := thick D) in *. pose proof (pos_INR M) as MP. set (i := INR M) in *. clearbody S Ed Ve v s t i Q.
    assert (B : v * Ed <= t * s ^ 2 * Q). { apply (Rmult_le_compat_l (t * s ^ 2)) in A2; [|apply Rmult_le_pos; [lra|apply pow2_ge_0]]. replace (t * s ^ 2 * (v / s ^ 2 / t * Ed)) with (v * Ed) in A2 by (field; split; lra). exact A2. }
    apply Rle_trans with (v * (2 * i * (i * Ed))); [rewrite Rmult_comm; apply Rmult_le_compat_l; lra|]. replace (v * (2 * i * (i * Ed))) with (2 * i ^ 2 * (v * Ed)) by ring. replace (2 * t * (s * i) ^ 2 * Q) with (2 * i ^ 2 * (t * s ^ 2 * Q)) by ring. apply Rmult_le_compat_l; [|exact B]. pose proof (pow2_ge_0 i). lra.
  Qed.
End Poincare.
