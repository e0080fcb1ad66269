(** C81: the matrix-free operators in double arithmetic. *)
From Coq Require Import Permutation FunctionalExtensionality QArith.
From Coquelicot Require Import Coquelicot.
From Flocq Require Import Core BinarySingleNaN.
From Verif Require Import Base M_Geometry S_Geometry P_Geometry M_Particle S_Particle P_Particle M_Quadrature S_Fem M_MatElem P_MatElem P_Energy M_Mesh M_Operator S_Operator P_Mesh P_Operator P_Operator2 P_Operator3 P_Stokes Prop_Operator.
From Verif Require Import M_Double S_Double P_Double P_Double2 P_Double3 P_Double4.
From Verif Require Import M_DoubleOp S_DoubleOp P_DoubleOp P_DoubleOp2 P_DoubleOp3 P_DoubleOp4 P_DoubleOp5 P_DoubleElem.
Open Scope R_scope.

Lemma tiny_eta : tiny64 = eta64. Proof. reflexivity. Qed.
Lemma approx_rounded c fin K Y y a : (c <= 20)%nat -> (K <= 3000)%nat -> (forall n d, exists k, approx c fin (Y n d) (y n d) (a n d) k /\ k <= INR K) -> rounded (K + c + 1) (K + 1) fin Y y a.
Proof.
  intros Hc HK H n d. destruct (H n d) as (k & A & Hk). assert (BK : INR K <= 2 ^ 20) by (apply Rle_trans with (INR 3000); [apply le_INR, HK|rewrite INR_IZR_INZ; apply Rle_trans with (2 ^ 12); [simpl; lra|apply pow_le_1; lia]]). split.
  - intros F. pose proof (approx_bound c fin _ _ _ _ K BK Hc A Hk F) as B. rewrite !plus_INR in *. cbn [INR] in *. rewrite tiny_eta. exact B.
  - intros Hf Ha. destruct A as (m & -> & _ & _ & A). apply A. right. repeat split; try assumption. lra.
Qed.
Lemma pow4 n : (4 ^ n = 2 ^ n * 2 ^ n)%nat.
Proof. change 4%nat with (2 * 2)%nat. apply Nat.pow_mul_l. Qed.
Lemma pow6 n : (6 ^ n = 3 ^ n * 2 ^ n)%nat.
Proof. change 6%nat with (3 * 2)%nat. apply Nat.pow_mul_l. Qed.
Lemma dim_le3 (m : list Z) per : grid_ok m per -> (2 ^ length m <= 8 /\ 3 ^ length m <= 27 /\ length m <= 3)%nat.
Proof. intros [[H|H] _]; rewrite H; simpl; lia. Qed.

Section Ops.
  Variables (m : list Z) (per : list bool) (dof : nat) (dms : list dmda) (x : dfield).
  Hypothesis HG : grid_ok m per.
  Hypothesis HD : distributes m per dof dms.
  Let fin := finite_on m dof x.
  Lemma diag_rounded c M r am : (c <= 20)%nat -> (forall i j, factor c (M i j) (r i j) (am i j) /\ finite (M i j)) ->
    (exists Y, ddiag_block_matrix_raw (ddiag_block_mult (dkernel_diag_block M)) dms x Y) /\
    exists y a, diag_block_matrix_raw (diag_block_mult (kernel_diag_block r)) dms (exact x) = Ok y /\ diag_block_matrix_raw (diag_block_mult (kernel_diag_block am)) dms (absolute x) = Ok a /\
      forall Y, ddiag_block_matrix_raw (ddiag_block_mult (dkernel_diag_block M)) dms x Y -> rounded (2 ^ length m * 2 ^ length m + c + 1) (2 ^ length m * 2 ^ length m + 1) fin Y y a.
  Proof.
    intros Hc HM. destruct (diag_main c fin Hc m per dof dms HG HD x (fun f => f) M r am) as (E & y & a & H1 & H2 & H3).
    { intros i j. destruct (HM i j). split; [assumption|intros _; assumption]. }
    split; [exact E|]. exists y, a. split; [exact H1|]. split; [exact H2|]. intros Y HY. apply approx_rounded; [exact Hc| |exact (H3 Y HY)]. pose proof (dim_le3 m per HG). nia.
  Qed.
  Lemma tens_rounded c M r am : (c <= 20)%nat -> (dof <= 3)%nat -> (forall i j a b, factor c (M i j a b) (r i j a b) (am i j a b) /\ finite (M i j a b)) ->
    (exists Y, ddiag_block_matrix_raw (ddiag_block_mult (dkernel_tensor_block M)) dms x Y) /\
    exists y a, diag_block_matrix_raw (diag_block_mult (kernel_tensor_block r)) dms (exact x) = Ok y /\ diag_block_matrix_raw (diag_block_mult (kernel_tensor_block am)) dms (absolute x) = Ok a /\
      forall Y, ddiag_block_matrix_raw (ddiag_block_mult (dkernel_tensor_block M)) dms x Y -> rounded (2 ^ length m * (2 ^ length m * dof) + c + 1) (2 ^ length m * (2 ^ length m * dof) + 1) fin Y y a.
  Proof.
    intros Hc Hd HM. destruct (tens_main c fin Hc m per dof dms HG HD x (fun f => f) M r am) as (E & y & a & H1 & H2 & H3).
    { intros i j a b. destruct (HM i j a b). split; [assumption|intros _; assumption]. }
    split; [exact E|]. exists y, a. split; [exact H1|]. split; [exact H2|]. intros Y HY. apply approx_rounded; [exact Hc| |exact (H3 Y HY)]. pose proof (dim_le3 m per HG). nia.
  Qed.
End Ops.

(** The scalar operators. *)
Theorem C81_laplacian_in_doubles : forall h m per dof dms x, good_steps h -> length h = length m -> grid_ok m per -> distributes m per dof dms ->
  (exists Y, ddiag_block_matrix_raw (dlaplacian_mult h) dms x Y) /\
  exists y a, diag_block_matrix_raw (laplacian_mult (map dval h)) dms (exact x) = Ok y /\
    diag_block_matrix_raw (diag_block_mult (kernel_diag_block (size_laplacian (map dval h)))) dms (absolute x) = Ok a /\
    forall Y, ddiag_block_matrix_raw (dlaplacian_mult h) dms x Y -> rounded (4 ^ length m + 7) (4 ^ length m + 1) (finite_on m dof x) Y y a.
Proof.
  intros h m per dof dms x Hh HL HG HD. replace (4 ^ length m + 7)%nat with (2 ^ length m * 2 ^ length m + 6 + 1)%nat by (rewrite pow4; lia). replace (4 ^ length m)%nat with (2 ^ length m * 2 ^ length m)%nat by (rewrite pow4; lia).
  apply (diag_rounded m per dof dms x HG HD 6 (dMatElemLaplacian h)); [lia|]. intros i j. apply laplacian_ok, Hh.
Qed.
Theorem C81_mass_in_doubles : forall h m per dof dms x, good_steps h -> length h = length m -> grid_ok m per -> distributes m per dof dms ->
  (exists Y, ddiag_block_matrix_raw (dmass_mult h) dms x Y) /\
  exists y a, diag_block_matrix_raw (mass_mult (map dval h)) dms (exact x) = Ok y /\
    diag_block_matrix_raw (diag_block_mult (kernel_diag_block (size_mass (map dval h)))) dms (absolute x) = Ok a /\
    forall Y, ddiag_block_matrix_raw (dmass_mult h) dms x Y -> rounded (4 ^ length m + 5) (4 ^ length m + 1) (finite_on m dof x) Y y a.
Proof.
  intros h m per dof dms x Hh HL HG HD. replace (4 ^ length m + 5)%nat with (2 ^ length m * 2 ^ length m + 4 + 1)%nat by (rewrite pow4; lia). replace (4 ^ length m)%nat with (2 ^ length m * 2 ^ length m)%nat by (rewrite pow4; lia).
  apply (diag_rounded m per dof dms x HG HD 4 (dMatElemMass h)); [lia|]. intros i j. apply mass_ok, Hh.
Qed.
(** The strain tensor. *)
Theorem C81_strain_in_doubles : forall h m per dms x, good_steps h -> length h = length m -> grid_ok m per -> distributes m per (length m) dms ->
  (exists Y, ddiag_block_matrix_raw (dstrain_tensor_mult h) dms x Y) /\
  exists y a, diag_block_matrix_raw (strain_tensor_mult (map dval h)) dms (exact x) = Ok y /\
    diag_block_matrix_raw (diag_block_mult (kernel_tensor_block (size_strain (map dval h)))) dms (absolute x) = Ok a /\
    forall Y, ddiag_block_matrix_raw (dstrain_tensor_mult h) dms x Y -> rounded (4 ^ length m * length m + 8) (4 ^ length m * length m + 1) (finite_on m (length m) x) Y y a.
Proof.
  intros h m per dms x Hh HL HG HD. pose proof (dim_le3 m per HG) as (_ & _ & D3). assert (E4 : (4 ^ length m * length m = 2 ^ length m * (2 ^ length m * length m))%nat) by (change 4%nat with (2 * 2)%nat; rewrite Nat.pow_mul_l; lia). rewrite E4.
  replace (2 ^ length m * (2 ^ length m * length m) + 8)%nat with (2 ^ length m * (2 ^ length m * length m) + 7 + 1)%nat by lia.
  apply (tens_rounded m per (length m) dms x HG HD 7 (dMatElemStrainTensor h)); [lia|exact D3|]. intros i j a b. apply strain_ok, Hh.
Qed.
(** Any element matrix of finite doubles. *)
Theorem C81_any_element_matrix : forall M m per dof dms x, (forall i j, finite (M i j)) -> grid_ok m per -> distributes m per dof dms ->
  (exists Y, ddiag_block_matrix_raw (ddiag_block_mult (dkernel_diag_block M)) dms x Y) /\
  exists y a, diag_block_matrix_raw (diag_block_mult (kernel_diag_block (fun i j => dval (M i j)))) dms (exact x) = Ok y /\
    diag_block_matrix_raw (diag_block_mult (kernel_diag_block (fun i j => Rabs (dval (M i j))))) dms (absolute x) = Ok a /\
    forall Y, ddiag_block_matrix_raw (ddiag_block_mult (dkernel_diag_block M)) dms x Y -> rounded (4 ^ length m + 1) (4 ^ length m + 1) (finite_on m dof x) Y y a.
Proof.
  intros M m per dof dms x HM HG HD. pose proof (diag_rounded m per dof dms x HG HD 0 M (fun i j => dval (M i j)) (fun i j => Rabs (dval (M i j))) ltac:(lia)) as T. rewrite Nat.add_0_r in T. rewrite pow4. apply T. intros i j. split; [apply factor_exact|apply HM].
Qed.
(** Two distributions over processes. *)
Theorem C81_two_partitions : forall h m per dof dms dms' x, good_steps h -> length h = length m -> grid_ok m per -> distributes m per dof dms -> distributes m per dof dms' ->
  exists a, diag_block_matrix_raw (diag_block_mult (kernel_diag_block (size_laplacian (map dval h)))) dms (absolute x) = Ok a /\
    forall Y Y', ddiag_block_matrix_raw (dlaplacian_mult h) dms x Y -> ddiag_block_matrix_raw (dlaplacian_mult h) dms' x Y' ->
    forall n d, in_grid_box (nodes_box m) n -> (d < dof)%nat -> finite (Y n d) -> finite (Y' n d) ->
      Rabs (dval (Y n d) - dval (Y' n d)) <= 2 * (INR (4 ^ length m + 7) * u64 * a n d + INR (4 ^ length m + 1) * tiny64).
Proof.
  intros h m per dof dms dms' x Hh HL HG HD HD'.
  destruct (C81_laplacian_in_doubles h m per dof dms x Hh HL HG HD) as (_ & y & a & Ey & Ea & H). destruct (C81_laplacian_in_doubles h m per dof dms' x Hh HL HG HD') as (_ & y' & a' & Ey' & Ea' & H').
  assert (S1 : same_field m dof y y'). { destruct (C25_laplacian (map dval h) m per dof dms dms' (exact x) HG HD HD') as (z & z' & Z1 & Z2 & S). rewrite Ey in Z1. rewrite Ey' in Z2. injection Z1 as <-. injection Z2 as <-. exact S. }
  assert (S2 : same_field m dof a a').
  { assert (L : exists z z', diag_block_matrix_raw (diag_block_mult (kernel_diag_block (size_laplacian (map dval h)))) dms (absolute x) = Ok z /\ diag_block_matrix_raw (diag_block_mult (kernel_diag_block (size_laplacian (map dval h)))) dms' (absolute x) = Ok z' /\ same_field m dof z z') by (eapply rep_layout; eauto; apply rep_diag; auto).
    destruct L as (z & z' & Z1 & Z2 & S). rewrite Ea in Z1. rewrite Ea' in Z2. injection Z1 as <-. injection Z2 as <-. exact S. }
  exists a. split; [exact Ea|]. intros Y Y' HY HY' n d Hn Hd F F'. pose proof (proj1 (H Y HY n d) F) as B. pose proof (proj1 (H' Y' HY' n d) F') as B'. rewrite <- S1, <- S2 in B' by assumption.
  replace (dval (Y n d) - dval (Y' n d)) with ((dval (Y n d) - y n d) + - (dval (Y' n d) - y n d)) by ring. eapply Rle_trans; [apply Rabs_triang|]. rewrite Rabs_Ropp. lra.
Qed.
(** The Stokes operator, with the strain tensor and with the Laplacian. *)
Theorem C81_stokes_in_doubles : forall h mp per dms xv xp, good_steps h -> length h = length mp -> grid_ok mp per -> stokes_layout mp per (length mp) dms ->
  let D := length mp in
  let fin := finite_on (refined_size mp per) D xv /\ finite_on mp 1 xp in
  (exists Yv Yp, dstokes_matrix_raw (dstrain_tensor_mult h) (dMatElemPressure h) dms xv xp Yv Yp) /\
  exists yv yp av ap, stokes_matrix_raw (strain_tensor_mult (map dval h)) (map dval h) dms (exact xv) (exact xp) = Ok (yv, yp) /\
    stokes_matrix_M (diag_block_mult (kernel_tensor_block (size_strain (map dval h)))) (size_pressure (map dval h)) dms (absolute xv) (minus_abs xp) = Ok (av, ap) /\
    forall Yv Yp, dstokes_matrix_raw (dstrain_tensor_mult h) (dMatElemPressure h) dms xv xp Yv Yp ->
      rounded (4 ^ D * D + 6 ^ D + 8) (4 ^ D * D + 6 ^ D + 1) fin Yv yv av /\ rounded (6 ^ D * D + 8) (6 ^ D * D + 1) fin Yp yp ap.
Proof.
  intros h mp per dms xv xp Hh HL HG HS D fin. pose proof (dim_le3 mp per HG) as (B2 & B3 & D3). fold D in B2, B3, D3.
  destruct (tens_stokes 7 fin ltac:(lia) mp per (length mp) dms HG HS xv xp) with (M := dMatElemPressure h) (r := getMatElemPressure (map dval h)) (am := size_pressure (map dval h)) (A := dMatElemStrainTensor h) (ra := getMatElemStrainTensor (map dval h)) (aa := size_strain (map dval h))
    as (E & yv & yp & av & ap & H1 & H2 & H3).
  - intros F; apply F.
  - intros F; apply F.
  - intros i j d. destruct (pressure_ok h i j d Hh) as [P1 P2]. split; [apply (factor_weak 3); [lia|exact P1]|intros _; exact P2].
  - intros i j a b. destruct (strain_ok h i j a b Hh) as [P1 P2]. split; [exact P1|intros _; exact P2].
  - split; [exact E|]. exists yv, yp, av, ap. split; [exact H1|]. split; [exact H2|]. intros Yv Yp HY. fold D in H3.
    assert (E4 : (4 ^ D * D + 6 ^ D = 2 ^ D * (2 ^ D * D) + 3 ^ D * 2 ^ D)%nat) by (rewrite pow4, pow6; ring).
    assert (E6 : (6 ^ D * D = 2 ^ D * (3 ^ D * D))%nat) by (rewrite pow6; ring).
    rewrite E4, E6. split.
    + replace (2 ^ D * (2 ^ D * D) + 3 ^ D * 2 ^ D + 8)%nat with (2 ^ D * (2 ^ D * D) + 3 ^ D * 2 ^ D + 7 + 1)%nat by lia. apply approx_rounded; [lia|nia|]. intros n d. exact (proj1 (H3 Yv Yp HY n d)).
    + replace (2 ^ D * (3 ^ D * D) + 8)%nat with (2 ^ D * (3 ^ D * D) + 7 + 1)%nat by lia. apply approx_rounded; [lia|nia|]. intros n d. exact (proj2 (H3 Yv Yp HY n d)).
Qed.
Theorem C81_stokes_laplacian_in_doubles : forall h mp per dms xv xp, good_steps h -> length h = length mp -> grid_ok mp per -> stokes_layout mp per (length mp) dms ->
  let D := length mp in
  let fin := finite_on (refined_size mp per) D xv /\ finite_on mp 1 xp in
  (exists Yv Yp, dstokes_matrix_raw (dlaplacian_mult h) (dMatElemPressure h) dms xv xp Yv Yp) /\
  exists yv yp av ap, stokes_matrix_raw (laplacian_mult (map dval h)) (map dval h) dms (exact xv) (exact xp) = Ok (yv, yp) /\
    stokes_matrix_M (diag_block_mult (kernel_diag_block (size_laplacian (map dval h)))) (size_pressure (map dval h)) dms (absolute xv) (minus_abs xp) = Ok (av, ap) /\
    forall Yv Yp, dstokes_matrix_raw (dlaplacian_mult h) (dMatElemPressure h) dms xv xp Yv Yp ->
      rounded (4 ^ D + 6 ^ D + 7) (4 ^ D + 6 ^ D + 1) fin Yv yv av /\ rounded (6 ^ D * D + 7) (6 ^ D * D + 1) fin Yp yp ap.
Proof.
  intros h mp per dms xv xp Hh HL HG HS D fin. pose proof (dim_le3 mp per HG) as (B2 & B3 & D3). fold D in B2, B3, D3.
  destruct (diag_stokes 6 fin ltac:(lia) mp per (length mp) dms HG HS xv xp) with (M := dMatElemPressure h) (r := getMatElemPressure (map dval h)) (am := size_pressure (map dval h)) (A := dMatElemLaplacian h) (ra := getMatElemLaplacian (map dval h)) (aa := size_laplacian (map dval h))
    as (E & yv & yp & av & ap & H1 & H2 & H3).
  - intros F; apply F.
  - intros F; apply F.
  - intros i j d. destruct (pressure_ok h i j d Hh) as [P1 P2]. split; [apply (factor_weak 3); [lia|exact P1]|intros _; exact P2].
  - intros i j. destruct (laplacian_ok h i j Hh) as [P1 P2]. split; [exact P1|intros _; exact P2].
  - split; [exact E|]. exists yv, yp, av, ap. split; [exact H1|]. split; [exact H2|]. intros Yv Yp HY. fold D in H3.
    assert (E4 : (4 ^ D + 6 ^ D = 2 ^ D * 2 ^ D + 3 ^ D * 2 ^ D)%nat) by (rewrite pow4, pow6; ring).
    assert (E6 : (6 ^ D * D = 2 ^ D * (3 ^ D * D))%nat) by (rewrite pow6; ring).
    rewrite E4, E6. split.
    + replace (2 ^ D * 2 ^ D + 3 ^ D * 2 ^ D + 7)%nat with (2 ^ D * 2 ^ D + 3 ^ D * 2 ^ D + 6 + 1)%nat by lia. apply approx_rounded; [lia|nia|]. intros n d. exact (proj1 (H3 Yv Yp HY n d)).
    + replace (2 ^ D * (3 ^ D * D) + 7)%nat with (2 ^ D * (3 ^ D * D) + 6 + 1)%nat by lia. apply approx_rounded; [lia|nia|]. intros n d. exact (proj2 (H3 Yv Yp HY n d)).
Qed.

(** The diagonals, for the Jacobi preconditioner: relative errors. *)
Lemma diag_entry_pos T i : forallb (fun k => Qle_bool 0 (nth k (nth k T []) 0%Q)) (seq 0 (length T)) = true -> 0 <= entry T i i.
Proof.
  intros H. unfold entry. destruct (Nat.lt_ge_cases i (length T)) as [Hi|Hi].
  - rewrite forallb_forall in H. assert (Hin : In i (seq 0 (length T))) by (apply in_seq; lia); specialize (H i Hin). apply Qle_bool_iff, Qreals.Qle_Rle in H. replace (Q2R 0) with 0 in H by (unfold Q2R; simpl; lra). exact H.
  - rewrite (nth_overflow T) by exact Hi. replace (nth i [] 0%Q) with 0%Q by (destruct i; reflexivity). replace (Q2R 0) with 0 by (unfold Q2R; simpl; lra). lra.
Qed.
Lemma size_lap_diag h i : good_steps h -> size_laplacian (map dval h) i i = getMatElemLaplacian (map dval h) i i.
Proof.
  intros H. assert (P : forall s, finite s /\ moderate (dval s) -> 0 < dval s) by (intros s [_ [M _]]; eapply Rlt_le_trans; [|exact M]; apply Rinv_0_lt_compat, pow_lt; lra).
  destruct (steps_cases h H) as [(h0 & h1 & -> & A & B)|(h0 & h1 & h2 & -> & A & B & C)]; cbn [map size_laplacian getMatElemLaplacian].
  - unfold getMatElemLaplacian2. apply P in A, B. assert (0 < dval h0 / dval h1) by (apply Rdiv_lt_0_compat; assumption). assert (0 < dval h1 / dval h0) by (apply Rdiv_lt_0_compat; assumption).
    rewrite !Rabs_pos_eq; [reflexivity| |]; (apply Rmult_le_pos; [lra|apply diag_entry_pos; vm_compute; reflexivity]).
  - unfold getMatElemLaplacian3. apply P in A, B, C. assert (0 < dval h0 * dval h1 / dval h2) by (apply Rdiv_lt_0_compat; [apply Rmult_lt_0_compat|]; assumption). assert (0 < dval h1 * dval h2 / dval h0) by (apply Rdiv_lt_0_compat; [apply Rmult_lt_0_compat|]; assumption). assert (0 < dval h0 * dval h2 / dval h1) by (apply Rdiv_lt_0_compat; [apply Rmult_lt_0_compat|]; assumption).
    rewrite !Rabs_pos_eq; [reflexivity| | |]; (apply Rmult_le_pos; [lra|apply diag_entry_pos; vm_compute; reflexivity]).
Qed.
Lemma size_mass_diag h i : good_steps h -> size_mass (map dval h) i i = getMatElemMass (map dval h) i i.
Proof.
  intros H. assert (P : forall s, finite s /\ moderate (dval s) -> 0 < dval s) by (intros s [_ [M _]]; eapply Rlt_le_trans; [|exact M]; apply Rinv_0_lt_compat, pow_lt; lra).
  unfold size_mass. apply Rabs_pos_eq. destruct (steps_cases h H) as [(h0 & h1 & -> & A & B)|(h0 & h1 & h2 & -> & A & B & C)]; cbn [map getMatElemMass].
  - unfold getMatElemMass2. apply P in A, B. apply Rmult_le_pos; [|apply diag_entry_pos; vm_compute; reflexivity]. apply Rmult_le_pos; lra.
  - unfold getMatElemMass3. apply P in A, B, C. apply Rmult_le_pos; [|apply diag_entry_pos; vm_compute; reflexivity]. apply Rmult_le_pos; [apply Rmult_le_pos|]; lra.
Qed.
Lemma dd_rounded c M r am m per dof dms : grid_ok m per -> distributes m per dof dms -> (c <= 20)%nat -> (forall i j, factor c (M i j) (r i j) (am i j) /\ finite (M i j)) -> (forall i, am i i = r i i) ->
  (exists Y, ddiag_diag_block_matrix (ddiag_diag_block_mult (dkernel_diag_diag_block M)) dms Y) /\
  exists y, diag_diag_block_matrix (diag_diag_block_mult (kernel_diag_diag_block r)) dms = Ok y /\
    forall Y, ddiag_diag_block_matrix (ddiag_diag_block_mult (dkernel_diag_diag_block M)) dms Y -> rounded (2 ^ length m + c + 1) (2 ^ length m + 1) True Y y y.
Proof.
  intros HG HD Hc HM Hr.
  destruct (dd_main c True Hc m per dof dms HG HD (fun _ _ => dzero) M r am) as (E & y & a & H1 & H2 & H3).
  { intros i j. destruct (HM i j). split; [assumption|intros _; assumption]. }
  assert (K : kernel_diag_diag_block am = kernel_diag_diag_block r).
  { apply functional_extensionality. intros pos. apply functional_extensionality. intros x. unfold kernel_diag_diag_block. f_equal. apply functional_extensionality. intros ie. rewrite Hr. reflexivity. }
  rewrite K, H1 in H2. injection H2 as <-. split; [exact E|]. exists y. split; [exact H1|]. intros Y HY. apply approx_rounded; [exact Hc| |exact (H3 Y HY)]. pose proof (dim_le3 m per HG). nia.
Qed.
Theorem C81_diagonals_in_doubles : forall h m per dof dms, good_steps h -> length h = length m -> grid_ok m per -> distributes m per dof dms ->
  ((exists Y, ddiag_diag_block_matrix (ddiag_laplacian_mult h) dms Y) /\
   exists y, diag_diag_block_matrix (diag_laplacian_mult (map dval h)) dms = Ok y /\
    forall Y, ddiag_diag_block_matrix (ddiag_laplacian_mult h) dms Y -> rounded (2 ^ length m + 7) (2 ^ length m + 1) True Y y y) /\
  ((exists Y, ddiag_diag_block_matrix (ddiag_mass_mult h) dms Y) /\
   exists y, diag_diag_block_matrix (diag_mass_mult (map dval h)) dms = Ok y /\
    forall Y, ddiag_diag_block_matrix (ddiag_mass_mult h) dms Y -> rounded (2 ^ length m + 5) (2 ^ length m + 1) True Y y y).
Proof.
  intros h m per dof dms Hh HL HG HD. replace (2 ^ length m + 7)%nat with (2 ^ length m + 6 + 1)%nat by lia. replace (2 ^ length m + 5)%nat with (2 ^ length m + 4 + 1)%nat by lia. split.
  - apply (dd_rounded 6 (dMatElemLaplacian h) _ (size_laplacian (map dval h)) m per dof dms HG HD); [lia|intros i j; apply laplacian_ok, Hh|intros i; apply size_lap_diag, Hh].
  - apply (dd_rounded 4 (dMatElemMass h) _ (size_mass (map dval h)) m per dof dms HG HD); [lia|intros i j; apply mass_ok, Hh|intros i; apply size_mass_diag, Hh].
Qed.

(** The result in doubles does depend on the distribution over the processes: the mass operator with steps 1 on a pressure grid of 3 x 2 points. *)
Definition pres_one : list dmda := map snd (createMesh [3; 2]%Z [false; false] [[3]; [2]]%Z).
Definition pres_two : list dmda := map snd (createMesh [3; 2]%Z [false; false] [[1; 2]; [2]]%Z).
Definition unit_steps : list double := [dint 1; dint 1].
Definition ramp : dfield := fun n _ => dint (nth 0 n 0 + 3 * nth 1 n 0)%Z.
Example C81_example : good_steps unit_steps /\ grid_ok [3; 2]%Z [false; false] /\ distributes [3; 2]%Z [false; false] 1 pres_one /\ distributes [3; 2]%Z [false; false] 1 pres_two /\ length pres_two = 2%nat /\ finite_on [3; 2]%Z 1 ramp.
Proof.
  split; [split; [left; reflexivity|]|].
  { assert (G : finite (dint 1) /\ moderate (dval (dint 1))). { destruct (dint_ok 1 ltac:(simpl; lia)) as [F V]. split; [exact F|]. rewrite V. unfold moderate. split; [rewrite <- Rinv_1; apply Rinv_le_contravar; [lra|]|]; apply pow_R1_Rle; lra. }
    constructor; [exact G|constructor; [exact G|constructor]]. }
  split; [repeat split; simpl; auto; repeat constructor; lia|].
  assert (RO : ranges_ok (mesh_pres [3; 2]%Z [false; false]) [[3]; [2]]%Z) by (repeat constructor; simpl; try lia; try discriminate).
  assert (RO2 : ranges_ok (mesh_pres [3; 2]%Z [false; false]) [[1; 2]; [2]]%Z) by (repeat constructor; simpl; try lia; try discriminate).
  split; [apply (C28_createMesh_layout [3; 2]%Z [false; false] [[3]; [2]]%Z eq_refl RO)|]. split; [apply (C28_createMesh_layout [3; 2]%Z [false; false] [[1; 2]; [2]]%Z eq_refl RO2)|].
  split; [reflexivity|]. intros n d Hn _. unfold ramp.
  assert (B : (0 <= nth 0 n 0 < 3 /\ 0 <= nth 1 n 0 < 2)%Z).
  { apply in_grid_box_nth in Hn as [HL Hn]. cbn in HL. pose proof (Hn 0%nat ltac:(lia)) as H0. pose proof (Hn 1%nat ltac:(lia)) as H1. cbn in H0, H1. lia. }
  destruct B as [B0 B1]. set (a := nth 0 n 0%Z) in *. set (b := nth 1 n 0%Z) in *. apply dint_ok. change (2 ^ 53)%Z with 9007199254740992%Z. lia.
Qed.

Definition runs_of (dms : list dmda) : list dlvec := match on_all (fun dm => dmass_mult unit_steps dm (dglobal_to_local dm ramp) (dfill0 dm)) dms with Ok ys => ys | _ => [] end.

Definition nonzero (x : double) : bool := match x with B754_zero _ => false | _ => true end.
Example C81_example_stokes : length unit_steps = length [3; 2]%Z /\ stokes_layout [3; 2]%Z [false; false] 2 (createMesh [3; 2]%Z [false; false] [[1; 2]; [2]]%Z).
Proof.
  split; [reflexivity|]. assert (RO2 : ranges_ok (mesh_pres [3; 2]%Z [false; false]) [[1; 2]; [2]]%Z) by (repeat constructor; simpl; try lia; try discriminate).
  exact (C28_createMesh_layout [3; 2]%Z [false; false] [[1; 2]; [2]]%Z eq_refl RO2).
Qed.
Lemma dplus_0 z x : nonzero z = false -> nonzero x = true -> dplus z x = x /\ dplus x z = x.
Proof. destruct z; cbn; intros Hz; try discriminate. destruct x; cbn; intros H; try discriminate; split; reflexivity. Qed.
Lemma dplus_00 z x : nonzero z = false -> nonzero x = false -> nonzero (dplus z x) = false.
Proof. destruct z as [s| | |]; cbn; intros Hz; try discriminate. destruct x as [s'| | |]; cbn; intros H; try discriminate. destruct s, s'; reflexivity. Qed.
Lemma dplus_0_val z x : nonzero z = false -> finite x -> (finite (dplus z x) /\ dval (dplus z x) = dval x) /\ (finite (dplus x z) /\ dval (dplus x z) = dval x).
Proof.
  intros Hz Fx. destruct (nonzero x) eqn:E; [destruct (dplus_0 z x Hz E) as [-> ->]; tauto|]. destruct z as [s| | |]; try discriminate. destruct x as [s'| | |]; try discriminate. destruct s, s'; repeat split; reflexivity.
Qed.
Lemma perm_two {A} (l l' : list A) : Permutation l l' -> (length l <= 2)%nat -> l = l' \/ exists a b, l = [a; b] /\ l' = [b; a].
Proof.
  intros P HL. destruct l as [|a [|b [|c l]]]; cbn in HL; try lia.
  - left. symmetry. apply Permutation_nil, P.
  - left. symmetry. apply Permutation_length_1_inv, P.
  - apply Permutation_length_2_inv in P as [->| ->]; [left; reflexivity|right; eauto].
Qed.
Lemma filter_perm {A} (f : A -> bool) l l' : Permutation l l' -> Permutation (filter f l) (filter f l').
Proof. induction 1; cbn; try destruct (f x); try destruct (f y); eauto using Permutation; apply Permutation_refl. Qed.
(** the sum of two nonzero doubles and zeros, in any order *)
Lemma summed_two l v : summed l v ->
  match filter nonzero l with [] => nonzero v = false | [a] => v = a | [a; b] => exists s, (s = dplus a b \/ s = dplus b a) /\ (finite s -> finite v /\ dval v = dval s) | _ => True end.
Proof.
  induction 1 as [v|l1 l2 v1 v2 H1 IH1 H2 IH2|l l' v P H IH].
  - cbn. destruct (nonzero v) eqn:E; reflexivity.
  - rewrite filter_app.
    assert (N1 : forall a, In a (filter nonzero l1) -> nonzero a = true) by (intros a Ha; apply filter_In in Ha; apply Ha). assert (N2 : forall a, In a (filter nonzero l2) -> nonzero a = true) by (intros a Ha; apply filter_In in Ha; apply Ha).
    destruct (filter nonzero l1) as [|a1 [|b1 [|c1 r1]]], (filter nonzero l2) as [|a2 [|b2 [|c2 r2]]]; cbn [app]; try exact I; subst.
    + apply dplus_00; assumption.
    + apply dplus_0; [exact IH1|apply N2; left; reflexivity].
    + destruct IH2 as (s & Hs & Fs). exists s. split; [exact Hs|]. intros F. destruct (Fs F) as [F2 V2]. rewrite <- V2. apply dplus_0_val; assumption.
    + apply dplus_0; [exact IH2|apply N1; left; reflexivity].
    + exists (dplus a1 a2). split; [left; reflexivity|]. tauto.
    + destruct IH1 as (s & Hs & Fs). exists s. split; [exact Hs|]. intros F. destruct (Fs F) as [F2 V2]. rewrite <- V2. apply dplus_0_val; assumption.
  - pose proof (filter_perm nonzero l l' P) as PF. destruct (filter nonzero l) as [|a [|b [|c r]]].
    + apply Permutation_nil in PF. rewrite PF. exact IH.
    + apply Permutation_length_1_inv in PF. rewrite PF. exact IH.
    + apply Permutation_length_2_inv in PF as [->| ->]; [exact IH|]. destruct IH as (s & Hs & Fs). exists s. split; [tauto|exact Fs].
    + pose proof (Permutation_length PF) as L. cbn in L. destruct (filter nonzero l') as [|a' [|b' [|c' r']]]; cbn in L; solve [lia|exact I].
Qed.
Lemma same_runs dms Y : ddiag_block_matrix_raw (dmass_mult unit_steps) dms ramp Y -> dlocal_to_global dms (runs_of dms) [1; 0]%Z 0 (Y [1; 0]%Z 0%nat).
Proof. intros (ys & E & H). unfold runs_of. rewrite E. apply H. Qed.
Lemma scaled_val m e f : B2SF f = SpecFloat.S754_finite false m e -> finite f /\ dval f = IZR (Zpos m) * bpow radix2 e.
Proof. destruct f as [| | |s m' e' H]; cbn; try discriminate. intros E. injection E as -> -> ->. split; [reflexivity|]. unfold dval, B2R, F2R. reflexivity. Qed.
Lemma summed_1 l v f : summed l v -> map B2SF (filter nonzero l) = [f] -> B2SF v = f.
Proof. intros H E. apply summed_two in H. destruct (filter nonzero l) as [|a [|b r]]; try discriminate. subst v. injection E. auto. Qed.
Lemma summed_2 l v m e : summed l v -> match filter nonzero l with [a; b] => B2SF (dplus a b) = SpecFloat.S754_finite false m e /\ B2SF (dplus b a) = SpecFloat.S754_finite false m e | _ => False end -> dval v = IZR (Zpos m) * bpow radix2 e.
Proof.
  intros H E. apply summed_two in H. destruct (filter nonzero l) as [|a [|b [|c r]]]; try contradiction. destruct E as [E2 E3]. apply scaled_val in E2 as [F2 V2], E3 as [F3 V3].
  destruct H as (s & [-> | ->] & Fs); [destruct (Fs F2) as [_ ->]|destruct (Fs F3) as [_ ->]]; assumption.
Qed.
Theorem C81_depends_on_the_partition_refuted : forall Y Y',
  ddiag_block_matrix_raw (dmass_mult unit_steps) pres_one ramp Y -> ddiag_block_matrix_raw (dmass_mult unit_steps) pres_two ramp Y' ->
  dval (Y [1; 0]%Z 0%nat) = 1 /\ dval (Y' [1; 0]%Z 0%nat) = 1 - u64.
Proof.
  intros Y Y' H H'. apply same_runs in H, H'. split.
  - assert (E : map B2SF (filter nonzero (dzero :: l2g_entries pres_one (runs_of pres_one) [1; 0]%Z 0)) = [SpecFloat.S754_finite false 4503599627370496 (-52)]) by (vm_compute; reflexivity).
    pose proof (summed_1 _ _ _ H E) as Ea. apply scaled_val in Ea as [_ ->]. replace (bpow radix2 (-52)) with (/ 4503599627370496); [field|]. reflexivity.
  - rewrite (summed_2 _ _ 9007199254740991 (-53) H'); [|vm_compute; split; reflexivity].
    unfold u64. rewrite <- (pow2 53). change (bpow radix2 (Z.of_nat 53)) with 9007199254740992. change (bpow radix2 (-53)) with (/ 9007199254740992). field.
Qed.
Close Scope R_scope.
