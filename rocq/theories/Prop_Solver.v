(** C46, C48, C52: multigrid levels, XDMF description, options and mesh steps. *)
From Verif Require Import Base M_Geometry M_Mesh S_Operator M_Solver S_Solver.
Open Scope Z_scope.

(** ** C46 *)
Lemma level_loop_stuck D nx : (2 <= D) -> forall fuel x level, 0 <= x < nx -> level_loop fuel D x nx level = OutOfFuel.
Proof.
  intros HD. induction fuel as [|fuel IH]; intros x level Hx; [reflexivity|]. cbn [level_loop]. rewrite (proj2 (Z.eqb_neq x nx)) by lia. apply IH.
  split; [apply Z.div_pos; lia|]. assert ((x + 1) / D <= x); [|lia]. destruct (Z.eq_dec x 0) as [->|]; [rewrite Z.div_small; lia|]. apply Z.div_le_upper_bound; nia.
Qed.
Lemma coarsened_cells per n : (2 | axis_cells per n) -> axis_cells per (coarsened per n) = axis_cells per n / 2 /\ (n + 1) / 2 = coarsened per n.
Proof.
  intros [q E]. unfold axis_cells, coarsened in *. destruct per.
  - subst n. split; [reflexivity|]. rewrite Z.div_add_l by lia. rewrite Z.div_mul by lia. change (1 / 2) with 0. lia.
  - assert (n = q * 2 + 1) by lia. subst n. replace (q * 2 + 1 - 1) with (q * 2) by lia. rewrite Z.div_mul by lia. replace (q * 2 + 1 + 1) with ((q + 1) * 2) by lia. rewrite Z.div_mul by lia. lia.
Qed.
Lemma coarsens_S l per n : coarsens (S l) per n -> (2 | axis_cells per n) /\ coarsens l per (coarsened per n).
Proof.
  intros [P [q E]]. rewrite Nat2Z.inj_succ, Z.pow_succ_r in E by lia. assert (D2 : (2 | axis_cells per n)) by (exists (q * 2 ^ Z.of_nat l); lia). split; [exact D2|].
  destruct (coarsened_cells per n D2) as [C _]. unfold coarsens. rewrite C. assert (EQ : axis_cells per n / 2 = q * 2 ^ Z.of_nat l) by (rewrite E; replace (q * (2 * 2 ^ Z.of_nat l)) with (q * 2 ^ Z.of_nat l * 2) by lia; apply Z.div_mul; lia).
  rewrite EQ. split; [|exists q; reflexivity]. lia.
Qed.
Lemma coarsened_by_S l per n : coarsened_by (S l) per n = coarsened_by l per (coarsened per n).
Proof. induction l as [|l IH]; [reflexivity|]. change (coarsened per (coarsened_by (S l) per n) = coarsened per (coarsened_by l per (coarsened per n))). rewrite IH. reflexivity. Qed.
Lemma coarsened_by_lt l : forall per n, (0 < l)%nat -> coarsens l per n -> coarsened_by l per n < n.
Proof.
  induction l as [|l IH]; intros per n Hl H; [lia|]. rewrite coarsened_by_S. destruct (coarsens_S l per n H) as [D2 H']. assert (coarsened per n < n).
  { destruct H as [P _]. unfold axis_cells, coarsened in *. destruct per.
    - apply Z.div_lt; lia.
    - destruct D2 as [q E]. assert ((n - 1) / 2 < n - 1) by (apply Z.div_lt; lia). lia. }
  destruct l as [|l]; [exact H0|]. specialize (IH per (coarsened per n) ltac:(lia) H'). lia.
Qed.
Lemma loop_finds l : forall per n level, coarsens l per n -> returns (fun fuel => level_loop fuel 2 n (coarsened_by l per n) level) (level + Z.of_nat l).
Proof.
  induction l as [|l IH]; intros per n level H.
  - exists 1%nat. intros [|fuel] Hf; [lia|]. cbn [level_loop coarsened_by Nat.iter]. rewrite Z.eqb_refl. f_equal. simpl. lia.
  - destruct (coarsens_S l per n H) as [D2 H']. destruct (coarsened_cells per n D2) as [_ E]. destruct (IH per (coarsened per n) (level + 1) H') as [f0 F]. exists (S f0). intros [|fuel] Hf; [lia|]. cbn [level_loop].
    rewrite (proj2 (Z.eqb_neq n _)) by (pose proof (coarsened_by_lt (S l) per n ltac:(lia) H); lia). rewrite E, coarsened_by_S, F by lia. f_equal. lia.
Qed.
Lemma nx_square n : 0 <= n -> nx_of 2 [n; n] = n.
Proof. intros Hn. unfold nx_of, total_size. cbn [fold_right]. replace (2 * (n * (n * 1))) with (n * n * 2) by lia. rewrite Z.div_mul by lia. apply Z.sqrt_square, Hn. Qed.
Lemma coarsened_by_pos l : forall per n, coarsens l per n -> 0 < axis_cells per (coarsened_by l per n) /\ axis_cells per (coarsened_by l per n) * 2 ^ Z.of_nat l = axis_cells per n.
Proof.
  induction l as [|l IH]; intros per n H.
  - cbn. destruct H as [P _]. lia.
  - rewrite coarsened_by_S. destruct (coarsens_S l per n H) as [[q E] H']. destruct (coarsened_cells per n (ex_intro _ q E)) as [C _]. destruct (IH per _ H') as [P Q]. split; [exact P|].
    rewrite Nat2Z.inj_succ, Z.pow_succ_r by lia. rewrite C in Q. rewrite E in Q. rewrite Z.div_mul in Q by lia. lia.
Qed.
(** 2D square grids with the same periodicity on both axes: the step of the level that was coarsened l times is h*2^l, which is the size of
    its cells: cells * step does not change *)
Theorem C46_square_2d : forall l per n h0 h1, coarsens l per n ->
  let nl := coarsened_by l per n in
  returns (fun fuel => level_step fuel 2 [n; n] [nl; nl] [h0; h1]) [(h0 * IZR (2 ^ Z.of_nat l))%R; (h1 * IZR (2 ^ Z.of_nat l))%R] /\
  forall h, (IZR (axis_cells per nl) * (h * IZR (2 ^ Z.of_nat l)) = IZR (axis_cells per n) * h)%R.
Proof.
  intros l per n h0 h1 H nl. destruct (coarsened_by_pos l per n H) as [P Q]. fold nl in P, Q. split.
  - assert (N0 : 0 <= n) by (destruct H as [P' _]; unfold axis_cells in P'; destruct per; lia). assert (N1 : 0 <= nl) by (unfold axis_cells in P; destruct per; lia).
    destruct (loop_finds l per n 0 H) as [f0 F]. exists f0. intros fuel Hf. unfold level_step. rewrite !nx_square by assumption. unfold nl. rewrite F by exact Hf. cbn [bind map]. rewrite Z.add_0_l. reflexivity.
  - intros h. rewrite <- Q, mult_IZR. ring.
Qed.
Print Assumptions C46_square_2d.
(** the default grid (33 x 33 velocity points) and its three levels *)
Example C46_default_grid : coarsens 2 false 33 /\ coarsened_by 1 false 33 = 17 /\ coarsened_by 2 false 33 = 9 /\ MGlevels 10 33 33 1 = Ok 3.
Proof. split; [split; [reflexivity|exists 8; reflexivity]|]. split; [reflexivity|]. split; reflexivity. Qed.

(** the number of levels: the least number of halvings that brings the smallest axis to 8 or less *)
Lemma mg_loop_spec : forall L i lev, 0 < i -> i / 2 ^ Z.of_nat L <= 8 -> (forall k, (k < L)%nat -> 8 < i / 2 ^ Z.of_nat k) -> returns (fun fuel => mg_loop fuel i lev) (lev + Z.of_nat L).
Proof.
  induction L as [|L IH]; intros i lev Hi H8 HK.
  - exists 1%nat. intros [|fuel] Hf; [lia|]. cbn [mg_loop]. change (2 ^ Z.of_nat 0) with 1 in H8. rewrite Z.div_1_r in H8. rewrite (proj2 (Z.ltb_ge 8 i)) by lia. f_equal. simpl. lia.
  - assert (B : 8 < i) by (specialize (HK 0%nat ltac:(lia)); change (2 ^ Z.of_nat 0) with 1 in HK; rewrite Z.div_1_r in HK; exact HK).
    assert (DD : forall k, i / 2 / 2 ^ Z.of_nat k = i / 2 ^ Z.of_nat (S k)). { intros k. rewrite Z.div_div by lia. f_equal. rewrite Nat2Z.inj_succ, Z.pow_succ_r by lia. reflexivity. }
    destruct (IH (i / 2) (lev + 1)) as [f0 F].
    + apply Z.div_str_pos. lia.
    + rewrite DD. exact H8.
    + intros k Hk. rewrite DD. apply HK. lia.
    + exists (S f0). intros [|fuel] Hf; [lia|]. cbn [mg_loop]. rewrite (proj2 (Z.ltb_lt 8 i) B). rewrite Z.shiftr_div_pow2 by lia. change (2 ^ 1) with 2. rewrite F by lia. f_equal. lia.
Qed.
Lemma smallest_is mx my mz : 1 <= mz -> smallest mx my mz = if mz =? 1 then Z.min mx my else Z.min mx (Z.min my mz).
Proof. intros Hz. unfold smallest. destruct (Z.ltb_spec mx my), (Z.eqb_spec mz 1); cbn [orb]; [lia| |lia|]; destruct (Z.ltb_spec mx mz), (Z.ltb_spec my mz); lia. Qed.
Theorem C46_number_of_levels : forall mx my mz, 1 <= mx -> 1 <= my -> 1 <= mz ->
  let i := if mz =? 1 then Z.min mx my else Z.min mx (Z.min my mz) in
  exists L : nat, returns (fun fuel => MGlevels fuel mx my mz) (1 + Z.of_nat L) /\ i / 2 ^ Z.of_nat L <= 8 /\ forall k, (k < L)%nat -> 8 < i / 2 ^ Z.of_nat k.
Proof.
  intros mx my mz Hx Hy Hz i. assert (Hi : 1 <= i) by (unfold i; destruct (Z.eqb_spec mz 1); lia).
  assert (EX : exists L : nat, i / 2 ^ Z.of_nat L <= 8).
  { exists (Z.to_nat i). rewrite Z2Nat.id by lia. rewrite Z.div_small; [lia|]. split; [lia|]. apply Z.pow_gt_lin_r; lia. }
  assert (MIN : exists L : nat, i / 2 ^ Z.of_nat L <= 8 /\ forall k, (k < L)%nat -> 8 < i / 2 ^ Z.of_nat k).
  { destruct EX as [L HL]. revert HL. induction L as [L IH] using lt_wf_ind. intros HL. destruct L as [|L]; [exists 0%nat; split; [exact HL|intros; lia]|].
    destruct (Z_le_dec (i / 2 ^ Z.of_nat L) 8) as [Hle|Hgt]; [apply (IH L); [lia|exact Hle]|]. exists (S L). split; [exact HL|]. intros k Hk.
    assert (i / 2 ^ Z.of_nat L <= i / 2 ^ Z.of_nat k); [|lia]. apply Z.div_le_compat_l; [lia|]. split; [apply Z.pow_pos_nonneg; lia|apply Z.pow_le_mono_r; lia]. }
  destruct MIN as (L & H1 & H2). exists L. split; [|split; assumption]. destruct (mg_loop_spec L i 1 ltac:(lia) H1 H2) as [f0 F]. exists f0. intros fuel Hf. unfold MGlevels. rewrite smallest_is by exact Hz. fold i. apply F, Hf.
Qed.
Print Assumptions C46_number_of_levels.
(** Square 2D grids of q*2^k cells per axis, q <= 8 (non-periodic): every level PETSc asks for is an exact
    coarsening, so every level gets the step of its grid *)
Theorem C46_hierarchy_square_2d : forall q k h0 h1, 1 <= q <= 8 -> let n := q * 2 ^ Z.of_nat k + 1 in
  exists L : nat, returns (fun fuel => MGlevels fuel n n 1) (1 + Z.of_nat L) /\
    forall l, (l <= L)%nat -> let nl := coarsened_by l false n in
      nl - 1 = (n - 1) / 2 ^ Z.of_nat l /\ returns (fun fuel => level_step fuel 2 [n; n] [nl; nl] [h0; h1]) [(h0 * IZR (2 ^ Z.of_nat l))%R; (h1 * IZR (2 ^ Z.of_nat l))%R].
Proof.
  intros q k h0 h1 Hq n. assert (P2 : forall j, 0 < 2 ^ Z.of_nat j) by (intros; apply Z.pow_pos_nonneg; lia). assert (Hn : 1 <= n) by (unfold n; specialize (P2 k); nia).
  destruct (C46_number_of_levels n n 1 Hn Hn ltac:(lia)) as (L & HR & H1 & H2). change (1 =? 1) with true in H1, H2. cbv iota in H1, H2. rewrite Z.min_id in H1, H2. exists L. split; [exact HR|].
  assert (LK : (L <= Nat.max k 1)%nat).
  { destruct (Nat.le_gt_cases L (Nat.max k 1)) as [|Hg]; [assumption|]. specialize (H2 (Nat.max k 1) Hg). exfalso. destruct k as [|k].
    - assert (E : n = q + 1) by (unfold n; change (2 ^ Z.of_nat 0) with 1; lia). rewrite E in H2. change (2 ^ Z.of_nat (Nat.max 0 1)) with 2 in H2. assert ((q + 1) / 2 < 8); [|lia]. apply Z.div_lt_upper_bound; lia.
    - replace (Nat.max (S k) 1) with (S k) in H2 by lia. assert (n / 2 ^ Z.of_nat (S k) <= q); [|lia]. unfold n. rewrite Z.div_add_l by (specialize (P2 (S k)); lia). rewrite (Z.div_small 1); [lia|]. split; [lia|]. apply Z.pow_gt_1; lia. }
  intros l Hl nl. assert (CO : coarsens l false n).
  { split; [unfold axis_cells, n; specialize (P2 k); nia|]. unfold axis_cells, n. replace (q * 2 ^ Z.of_nat k + 1 - 1) with (q * 2 ^ Z.of_nat k) by lia. destruct (Nat.le_gt_cases l k) as [Hlk|Hlk].
    - exists (q * 2 ^ Z.of_nat (k - l)). rewrite <- Z.mul_assoc, <- Z.pow_add_r by lia. f_equal. f_equal. lia.
    - assert (k = 0%nat /\ l = 1%nat /\ L = 1%nat) as (-> & -> & ->) by lia. specialize (H2 0%nat ltac:(lia)). change (2 ^ Z.of_nat 0) with 1 in *. rewrite Z.div_1_r in H2. unfold n in H2. assert (q = 8) by lia. subst q. exists 4. reflexivity. }
  destruct (C46_square_2d l false n h0 h1 CO) as [R _]. split; [|exact R]. destruct (coarsened_by_pos l false n CO) as [_ Q]. fold nl in Q. unfold axis_cells in Q. rewrite <- Q. rewrite Z.div_mul by (specialize (P2 l); lia). reflexivity.
Qed.
Print Assumptions C46_hierarchy_square_2d.
(** A grid of 19 x 19 velocity points (10 x 10 pressure points) is given three levels, but 18 cells cannot be halved
    twice *)
Theorem C46_inexact_hierarchy_refuted : MGlevels 10 19 19 1 = Ok 3 /\ ~ coarsens 2 false 19.
Proof. split; [reflexivity|]. intros [_ [q E]]. unfold axis_cells in E. change (2 ^ Z.of_nat 2) with 4 in E. lia. Qed.
(** Rectangular 2D grids: the search compares square roots of products; on every 9 x (2q+1) grid, q >= 156, two levels are built and the
    search for the second never returns *)
Theorem C46_rectangle_refuted : forall q h, 156 <= q ->
  MGlevels 10 9 (2 * q + 1) 1 = Ok 2 /\ coarsened_by 1 false 9 = 5 /\ coarsened_by 1 false (2 * q + 1) = q + 1 /\
  never_returns (fun fuel => level_step fuel 2 [9; 2 * q + 1] [5; q + 1] h).
Proof.
  intros q h Hq. split.
  { unfold MGlevels. rewrite smallest_is by lia. change (1 =? 1) with true. cbv iota. rewrite Z.min_l by lia. reflexivity. }
  split; [reflexivity|]. split. { change (coarsened_by 1 false (2 * q + 1)) with (1 + (2 * q + 1 - 1) / 2). replace (2 * q + 1 - 1) with (q * 2) by lia. rewrite Z.div_mul by lia. lia. }
  intros fuel. unfold level_step, nx_of, total_size. cbn [fold_right]. replace (2 * (9 * ((2 * q + 1) * 1))) with (9 * (2 * q + 1) * 2) by lia. replace (2 * (5 * ((q + 1) * 1))) with (5 * (q + 1) * 2) by lia. rewrite !Z.div_mul by lia.
  destruct (Z.sqrt_spec (9 * (2 * q + 1)) ltac:(lia)) as [A1 A2]. destruct (Z.sqrt_spec (5 * (q + 1)) ltac:(lia)) as [S1 S2]. pose proof (Z.sqrt_nonneg (9 * (2 * q + 1))) as A0. pose proof (Z.sqrt_nonneg (5 * (q + 1))) as S0.
  set (a := Z.sqrt (9 * (2 * q + 1))) in *. set (s := Z.sqrt (5 * (q + 1))) in *. clearbody a s. unfold Z.succ in *.
  assert (Hs : 28 <= s) by nia. assert (Ha : a + 1 < 2 * s) by nia.
  destruct fuel as [|fuel]; [reflexivity|]. cbn [level_loop]. assert (AS : a <> s) by nia. rewrite (proj2 (Z.eqb_neq a s) AS). rewrite level_loop_stuck; [reflexivity|lia|]. split; [apply Z.div_pos; lia|apply Z.div_lt_upper_bound; lia].
Qed.
Print Assumptions C46_rectangle_refuted.
(** 3D: the loop divides by Dim = 3; on every cube with an odd number n >= 5 of points (so on every non-periodic velocity cube that has more than
    one level, n >= 9) the search for the first coarse level never returns *)
Theorem C46_cube_3d_refuted : forall p h, 2 <= p -> let n := 2 * p + 1 in
  coarsened_by 1 false n = p + 1 /\ (4 <= p -> exists L, (1 < L) /\ returns (fun fuel => MGlevels fuel n n n) L) /\
  never_returns (fun fuel => level_step fuel 3 [n; n; n] [p + 1; p + 1; p + 1] h).
Proof.
  intros p h Hp n. split; [|split].
  - change (coarsened_by 1 false n) with (1 + (2 * p + 1 - 1) / 2). replace (2 * p + 1 - 1) with (p * 2) by lia. rewrite Z.div_mul by lia. lia.
  - intros H4. destruct (C46_number_of_levels n n n ltac:(unfold n; lia) ltac:(unfold n; lia) ltac:(unfold n; lia)) as (L & HR & H1 & _). exists (1 + Z.of_nat L). split; [|exact HR].
    destruct L as [|L]; [|lia]. exfalso. rewrite (proj2 (Z.eqb_neq n 1)) in H1 by (unfold n; lia). rewrite !Z.min_id in H1. change (2 ^ Z.of_nat 0) with 1 in H1. rewrite Z.div_1_r in H1. unfold n in H1. lia.
  - intros fuel. unfold level_step, nx_of, total_size. cbn [fold_right]. unfold n.
    set (N0 := 3 * ((2 * p + 1) * ((2 * p + 1) * ((2 * p + 1) * 1)))). set (N1 := 3 * ((p + 1) * ((p + 1) * ((p + 1) * 1)))).
    assert (P0 : 0 <= N0 / 2) by (apply Z.div_pos; unfold N0; nia). assert (P1 : 0 <= N1 / 2) by (apply Z.div_pos; unfold N1; nia).
    destruct (Z.sqrt_spec (N0 / 2) P0) as [A1 A2]. destruct (Z.sqrt_spec (N1 / 2) P1) as [S1 S2]. pose proof (Z.sqrt_nonneg (N0 / 2)) as A0. pose proof (Z.sqrt_nonneg (N1 / 2)) as S0.
    set (a := Z.sqrt (N0 / 2)) in *. set (s := Z.sqrt (N1 / 2)) in *.
    assert (B0 : 2 * (N0 / 2) <= N0) by (apply Z.mul_div_le; lia). assert (B1 : N1 <= 2 * (N1 / 2) + 1) by (pose proof (Z.div_mod N1 2 ltac:(lia)); pose proof (Z.mod_pos_bound N1 2 ltac:(lia)); lia).
    assert (B2 : N0 <= 2 * (N0 / 2) + 1) by (pose proof (Z.div_mod N0 2 ltac:(lia)); pose proof (Z.mod_pos_bound N0 2 ltac:(lia)); lia). assert (B3 : 2 * (N1 / 2) <= N1) by (apply Z.mul_div_le; lia).
    clearbody a s. generalize dependent (N0 / 2). intros u. generalize dependent (N1 / 2). intros v. intros. unfold Z.succ in *.
    assert (E0 : N0 = 24 * (p * p * p) + 36 * (p * p) + 18 * p + 3) by (unfold N0; ring). assert (E1 : N1 = 3 * (p * p * p) + 9 * (p * p) + 9 * p + 3) by (unfold N1; ring).
    assert (Ha : a + 1 < 3 * s). { assert (X : a + 2 <= 3 * s \/ 3 * s - 1 <= a) by lia. destruct X as [X|X]; [lia|]. exfalso.
      assert (S9 : 1 <= s) by (destruct (Z.eq_dec s 0) as [->|]; [|lia]; nia). assert (Y : (3 * s - 1) * (3 * s - 1) <= a * a) by (apply Z.mul_le_mono_nonneg; lia).
      assert (W : 2 * ((3 * s - 1) * (3 * s - 1)) <= 24 * (p * p * p) + 36 * (p * p) + 18 * p + 3) by lia.
      assert (V : 3 * (p * p * p) + 9 * (p * p) + 9 * p + 3 <= 2 * ((s + 1) * (s + 1)) - 1) by lia.
      assert (Q : 0 <= (s - 11) * (s - 11)) by apply Z.square_nonneg. assert (R : 4 <= p * p) by nia. ring_simplify in W. ring_simplify in V. ring_simplify in Q. nia. }
    destruct fuel as [|fuel]; [reflexivity|]. cbn [level_loop]. assert (AS : s < a). { destruct (Z_lt_le_dec s a) as [|X]; [assumption|exfalso]. assert (Y : (a + 1) * (a + 1) <= (s + 1) * (s + 1)) by (apply Z.mul_le_mono_nonneg; lia). assert (Q : 0 <= (s - 2) * (s - 2)) by apply Z.square_nonneg. ring_simplify in Y. ring_simplify in Q. assert (R : 2 * (p * p) <= p * p * p) by nia. assert (R2 : 2 * p <= p * p) by nia. lia. } rewrite (proj2 (Z.eqb_neq a s)) by lia. rewrite level_loop_stuck; [reflexivity|lia|]. split; [apply Z.div_pos; lia|apply Z.div_lt_upper_bound; lia].
Qed.
Print Assumptions C46_cube_3d_refuted.

(** ** C48 *)
(** velocity: the announced sizes are those of the array written exactly when the grid is square *)
Theorem C48_velocity : forall mx my h, x_topology (xdmf_velocity mx my h) ++ [2] = x_data (xdmf_velocity mx my h) /\ (x_data (xdmf_velocity mx my h) = hdf5_dims mx my 2 <-> mx = my).
Proof.
  intros mx my h. split; [reflexivity|]. unfold xdmf_velocity, hdf5_dims. change (2 =? 1) with false. cbv iota. cbn [x_data]. split; [intros E; injection E; intros; lia|intros ->; reflexivity].
Qed.
(** on a square grid the reader shows, at the point (i h0, j h1), the value of node (i, j) *)
Theorem C48_velocity_square : forall m h i j, 0 <= i < m -> 0 <= j < m ->
  shown_entry (x_topology (xdmf_velocity m m h)) i j = hdf5_entry m i j /\ x_origin (xdmf_velocity m m h) = [0; 0]%R /\ x_spacing (xdmf_velocity m m h) = [nth 0 h 0; nth 1 h 0]%R.
Proof. intros. repeat split. Qed.
(** on any other grid, every node of every row but the first is shown somewhere else *)
Theorem C48_velocity_rectangle_refuted : forall mx my h i j, mx <> my -> 0 < j ->
  shown_entry (x_topology (xdmf_velocity mx my h)) i j <> hdf5_entry mx i j.
Proof. intros mx my h i j Hm Hj. unfold shown_entry, xdmf_velocity, hdf5_entry. cbn [x_topology nth]. nia. Qed.
(** pressure, [mp] points per axis, velocity grid refined once: the topology and the data item never agree; without periodicity the topology
    is right (up to the order of the axes) and the data item misses one point per axis; with it the data item is right and the topology has
    one point too many *)
Theorem C48_pressure_refuted : forall mx my h, x_topology (xdmf_pressure mx my h) <> x_data (xdmf_pressure mx my h).
Proof. intros mx my h E. unfold xdmf_pressure in E. cbn [x_topology x_data] in E. injection E. intros. lia. Qed.
Lemma refined_half mp0 mp1 per0 per1 : 1 <= mp0 -> 1 <= mp1 ->
  exists mx my, refined_size [mp0; mp1] [per0; per1] = [mx; my] /\ mx / 2 = (if per0 then mp0 else mp0 - 1) /\ my / 2 = (if per1 then mp1 else mp1 - 1).
Proof.
  intros H0 H1. unfold refined_size. cbn [zip_with]. eexists. eexists. split; [reflexivity|]. split.
  - destruct per0; [replace (2 * mp0) with (mp0 * 2) by lia; apply Z.div_mul; lia|]. symmetry. apply (Z.div_unique _ 2 _ 1); lia.
  - destruct per1; [replace (2 * mp1) with (mp1 * 2) by lia; apply Z.div_mul; lia|]. symmetry. apply (Z.div_unique _ 2 _ 1); lia.
Qed.
Theorem C48_pressure : forall mp0 mp1 per0 per1 h, 1 <= mp0 -> 1 <= mp1 -> exists mx my, refined_size [mp0; mp1] [per0; per1] = [mx; my] /\
  x_topology (xdmf_pressure mx my h) = [mp0 + (if per0 then 1 else 0); mp1 + (if per1 then 1 else 0)] /\
  x_data (xdmf_pressure mx my h) = [mp0 - (if per0 then 0 else 1); mp1 - (if per1 then 0 else 1)].
Proof.
  intros mp0 mp1 per0 per1 h H0 H1. destruct (refined_half mp0 mp1 per0 per1 H0 H1) as (mx & my & E & E0 & E1). exists mx, my. split; [exact E|]. unfold xdmf_pressure. cbn [x_topology x_data]. rewrite E0, E1.
  split; (apply f_equal2; [destruct per0; lia|apply f_equal2; [destruct per1; lia|reflexivity]]).
Qed.
(** so on a non-periodic grid of at least two points the data item names fewer values than the file holds, and read by its sizes the row j >= 1 starts on a
    value of another row, or of another column of the same one *)
Theorem C48_pressure_data_refuted : forall mp h i j, 2 <= mp -> 0 <= i < mp - 1 -> 0 < j < mp - 1 -> exists mv, refined_size [mp; mp] [false; false] = [mv; mv] /\
  shown_entry (x_data (xdmf_pressure mv mv h)) i j <> hdf5_entry mp i j /\ shown_entry (x_topology (xdmf_pressure mv mv h)) i j = hdf5_entry mp i j.
Proof.
  intros mp h i j H0 Hi Hj. exists (2 * mp - 1). split; [reflexivity|]. assert (E : (2 * mp - 1) / 2 = mp - 1) by (symmetry; apply (Z.div_unique _ 2 _ 1); lia).
  unfold shown_entry, xdmf_pressure, hdf5_entry. cbn [x_topology x_data nth]. rewrite E. split; [nia|f_equal; f_equal; lia].
Qed.
(** the announced pressure steps are the pressure steps *)
Theorem C48_pressure_spacing : forall L0 L1 m0 m1 mx my per, let o := mkoptions [m0; m1] [L0; L1] per false false false in
  x_spacing (xdmf_pressure mx my (velocity_steps o)) = pressure_steps o.
Proof. intros. unfold xdmf_pressure, velocity_steps, pressure_steps, o. cbn [x_spacing map zip_with o_lx o_mx nth]. apply f_equal2; [lra|apply f_equal2; [lra|reflexivity]]. Qed.
Print Assumptions C48_pressure_spacing.
Print Assumptions C48_pressure.

(** ** C52 *)
(** without any option: 17 points per axis, length 1, no periodicity, Laplacian, matrix-free, no PMM; step 1/16 for the pressure, 1/32 for the velocity *)
Definition nothing_given : command_line := mkcommand (fun _ => None) (fun _ => None) (fun _ => None) None None None.
Lemma map_nth_seq {A} (d : A) (l : list A) : map (fun k => nth k l d) (seq 0 (length l)) = l.
Proof. induction l as [|a l IH]; [reflexivity|]. cbn [length seq map nth]. rewrite <- seq_shift, map_map. cbn [nth]. rewrite IH. reflexivity. Qed.
Theorem C52_defaults : forall D, let o := process_options D nothing_given (default_options D) in
  o_mx o = repeat 17 D /\ o_lx o = repeat 1%R D /\ o_period o = repeat false D /\ o_strain o = false /\ o_assembling o = false /\ o_pmm o = false /\
  pressure_steps o = repeat (1 / 16)%R D /\ velocity_steps o = repeat (1 / 32)%R D.
Proof.
  intros D o. assert (E : o = default_options D).
  { unfold o, process_options, nothing_given, default_options. cbn [c_m c_L c_per c_strain c_assembling c_pmm or_else o_mx o_lx o_period o_strain o_assembling o_pmm].
    f_equal; [pose proof (map_nth_seq 0 (repeat 17 D)) as M|pose proof (map_nth_seq 0%R (repeat 1%R D)) as M|pose proof (map_nth_seq false (repeat false D)) as M]; rewrite repeat_length in M; exact M. }
  rewrite E. assert (P : pressure_steps (default_options D) = repeat (1 / 16)%R D). { unfold pressure_steps, default_options. cbn [o_lx o_mx]. clear. induction D as [|D IH]; [reflexivity|]. cbn [repeat zip_with]. rewrite IH. reflexivity. }
  repeat split; try reflexivity; [exact P|]. unfold velocity_steps. rewrite P. clear. induction D as [|D IH]; [reflexivity|]. cbn [repeat map]. rewrite IH. apply f_equal2; [lra|reflexivity].
Qed.
(** each option given replaces exactly the value of its axis *)
Theorem C52_options : forall D c o k, (k < D)%nat -> let o' := process_options D c o in
  nth k (o_mx o') 0 = match c_m c k with Some m => m | None => nth k (o_mx o) 0 end /\
  nth k (o_lx o') 0%R = match c_L c k with Some l => l | None => nth k (o_lx o) 0%R end /\
  nth k (o_period o') false = match c_per c k with Some b => b | None => nth k (o_period o) false end /\
  length (o_mx o') = D /\ length (o_lx o') = D /\ length (o_period o') = D.
Proof.
  intros D c o k Hk o'. unfold o', process_options. cbn [o_mx o_lx o_period]. assert (N : forall A (f : nat -> A) d, nth k (map f (seq 0 D)) d = f k).
  { intros A f d. rewrite (nth_indep _ d (f 0%nat)) by (rewrite map_length, seq_length; exact Hk). rewrite map_nth, seq_nth by exact Hk. reflexivity. }
  rewrite !N, !map_length, !seq_length. repeat split.
Qed.
(** non-periodic axes: both grids cover exactly the length asked for, and the velocity step is half the pressure step *)
Lemma steps_nth : forall o k, length (o_mx o) = length (o_lx o) -> (k < length (o_mx o))%nat ->
  nth k (pressure_steps o) 0%R = (nth k (o_lx o) 0 / IZR (nth k (o_mx o) 0%Z - 1))%R /\ nth k (velocity_steps o) 0%R = (nth k (pressure_steps o) 0 / 2)%R.
Proof.
  intros o k HL Hk. assert (P : nth k (pressure_steps o) 0%R = (nth k (o_lx o) 0 / IZR (nth k (o_mx o) 0%Z - 1))%R).
  { unfold pressure_steps. revert HL Hk. generalize (o_mx o) (o_lx o). intros m l. revert l k. induction m as [|a m IH]; intros [|b l] k HL Hk; cbn [length] in *; [lia..|]. destruct k as [|k]; [reflexivity|]. cbn [zip_with nth]. apply IH; lia. }
  split; [exact P|]. unfold velocity_steps. replace 0%R with (/ 2 * 0)%R at 1 by lra. rewrite map_nth. lra.
Qed.
Theorem C52_lengths : forall o k, length (o_mx o) = length (o_lx o) -> (k < length (o_mx o))%nat -> 2 <= nth k (o_mx o) 0 ->
  let m := nth k (o_mx o) 0 in let L := nth k (o_lx o) 0%R in let hp := nth k (pressure_steps o) 0%R in let hu := nth k (velocity_steps o) 0%R in
  hu = (hp / 2)%R /\ (forall per mv, refined_size [m] [per] = [mv] -> axis_length per mv hu = axis_length per m hp) /\ axis_length false m hp = L.
Proof.
  intros o k HL Hk Hm m L hp hu. destruct (steps_nth o k HL Hk) as [P V]. fold m L in P. fold hp in P, V. fold hu in V. split; [exact V|]. split.
  - intros per mv E. unfold refined_size in E. cbn [zip_with] in E. assert (EM : mv = if per then 2 * m else 2 * m - 1) by (symmetry; exact (f_equal (fun l => hd 0 l) E)). clear E. rewrite EM. unfold axis_length, axis_cells. rewrite V. clearbody m. destruct per; [rewrite (mult_IZR 2 m); lra|]. replace (2 * m - 1 - 1) with (2 * (m - 1)) by lia. rewrite (mult_IZR 2 (m - 1)). lra.
  - unfold axis_length, axis_cells. rewrite P. assert (0 < IZR (m - 1))%R by (apply IZR_lt; unfold m; lia). field. lra.
Qed.
Example C52_lengths_case : let o := process_options 2 (mkcommand (fun k => match k with 0%nat => Some 5 | _ => None end) (fun _ => Some 2%R) (fun _ => None) None None None) (default_options 2) in
  length (o_mx o) = length (o_lx o) /\ nth 0 (o_mx o) 0 = 5 /\ nth 1 (o_mx o) 0 = 17 /\ nth 1 (o_lx o) 0%R = 2%R.
Proof. repeat split. Qed.
(** periodic axes: the m cells of the pressure grid have step L/(m-1), so the box is longer than asked *)
Theorem C52_periodic_refuted : forall o k, length (o_mx o) = length (o_lx o) -> (k < length (o_mx o))%nat -> 2 <= nth k (o_mx o) 0 -> (0 < nth k (o_lx o) 0)%R ->
  axis_length true (nth k (o_mx o) 0) (nth k (pressure_steps o) 0%R) = (nth k (o_lx o) 0 + nth k (pressure_steps o) 0)%R /\ (nth k (o_lx o) 0 < axis_length true (nth k (o_mx o) 0%Z) (nth k (pressure_steps o) 0))%R.
Proof.
  intros o k HL Hk Hm HP. destruct (C52_lengths o k HL Hk Hm) as (_ & _ & E). destruct (steps_nth o k HL Hk) as [P _]. unfold axis_length, axis_cells in *. rewrite minus_IZR in E.
  assert (0 < IZR (nth k (o_mx o) 0%Z - 1))%R by (apply IZR_lt; lia). assert (0 < nth k (pressure_steps o) 0)%R by (rewrite P; apply Rdiv_lt_0_compat; lra). split; lra.
Qed.
Print Assumptions C52_lengths.
Print Assumptions C52_defaults.
Print Assumptions C52_periodic_refuted.
