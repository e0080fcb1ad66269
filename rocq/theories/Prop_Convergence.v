(** C87: the solution of the constrained Laplace system converges, to second order, to that of the continuous problem. *)
From Coq Require Import FunctionalExtensionality.
From Coquelicot Require Import Coquelicot.
From Verif Require Import Base M_Geometry S_Geometry P_Geometry M_Particle S_Particle P_Particle M_Quadrature S_Fem P_Energy P_Precond M_MatElem P_MatElem M_Mesh M_Operator S_Operator P_Mesh P_Operator P_Operator2 P_Operator3 P_Global P_Stokes M_Bc S_Bc P_Flux Prop_Flux P_Gather P_Exact M_ParticleOp S_ParticleOp S_Accuracy P_Accuracy S_Consistency P_Consistency P_Consistency2 P_Conv S_Convergence P_Diag Prop_Exact Prop_Operator Prop_Operator2 Prop_Assembly Prop_WellPosed Prop_StokesUnique Prop_Consistency.
Open Scope R_scope.
Lemma in_sides d up D : (d < D)%nat -> In (d, up) (sides D).
Proof. intros H. unfold sides. apply in_flat_map. exists d. split; [apply in_seq; lia|destruct up; cbn; auto]. Qed.
Lemma free_interior m per bc dof n c : grid_ok m per -> all_conditions (length m) dof per bc -> (c < dof)%nat -> in_grid_box (nodes_box m) n -> prescribed (length m) m per bc n c = None -> interior m per n.
Proof.
  intros HG HA Hc Hn HP. assert (Ln : length n = length m). { destruct Hn as [_ H]. apply Forall2_len in H. exact H. } split; [exact Ln|]. intros d Hd.
  assert (B : (0 <= nth d n 0 < nth d m 0)%Z). { destruct Hn as [H1 H2]. cbn [nodes_box bottom_left upper_right] in *. clear - H1 H2 Hd Ln. revert n m d H1 H2 Hd Ln. induction n as [|x n IH]; intros [|z m] d H1 H2 Hd Ln; cbn in *; try lia. inversion H1; subst. inversion H2; subst. destruct d as [|d]; [lia|]. apply IH; auto; lia. }
  destruct (nth d per false) eqn:E; [exact B|].
  assert (Q : forall up : bool, nth d n 0%Z <> (if up then nth d m 0 - 1 else 0)%Z). { intros up K. assert (prescribed (length m) m per bc n c <> None); [|congruence]. apply C30_constrained_iff. exists d, up. split; [exact Hd|]. split; [exact E|]. split; [exact K|]. exact (HA (d, up) c (in_sides d up _ Hd) E Hc). }
  pose proof (Q true). pose proof (Q false). cbv iota in *. lia.
Qed.
Lemma stab D : (D = 2 \/ D = 3)%nat -> stability D = 2 * thick D.
Proof. intros [->| ->]; unfold stability, thick; ring. Qed.
Lemma laplace_errors : forall h m per dof dms bc conds (u f : nat -> vec -> R) b x y d c M K N,
  grid_ok m per -> has_cells m per -> steps_ok h m -> distributes m per dof dms -> nonempty_views dms -> table_ok (length m) dof bc -> all_conditions (length m) dof per bc ->
  (d < length m)%nat -> nth d per false = false -> (c < dof)%nat -> length conds = dof ->
  continuous_problem h m per bc conds u f c -> smooth_problem h m per u f c M K ->
  setup_RHS (length m) conds (map Some bc) h dms zero_field = Ok b ->
  diag_block_matrix (laplacian_mult h) (length m) (Some (map Some bc)) dms x = Ok y -> same_field m dof y b -> enumerates N (nodes_box m) ->
  Lsum (fun n => (x n c - u c (grid_point h n)) ^ 2) N <= INR (length N) * (stability (length m) * distance h m d ^ 2 * (laplacian_error h M + mass_error h K)) ^ 2 /\
  exists w, diag_block_matrix_raw (laplacian_mult h) dms (fun n c => x n c - u c (grid_point h n)) = Ok w /\
    Lsum (fun n => w n c * (x n c - u c (grid_point h n))) N <= cell_volume h * INR (length N) * (stability (length m) * distance h m d ^ 2 * (laplacian_error h M + mass_error h K) ^ 2).
Proof.
  intros h m per dof dms bc conds u f b x y d c M K N HG HC HS HD HN HT HA Hd Hp Hc HLc (HF & HB & HE & HU) HM Eb Ey Hyb EN. rewrite (stab (length m) (proj1 HG)).
  assert (LP : length per = length m) by apply HG. assert (D23 : (length m = 2 \/ length m = 3)%nat) by apply HG.
  set (U := fun (n : list Z) (c : nat) => u c (grid_point h n)) in *. set (e := lin 1 (-1) x U).
  destruct (C31_laplacian h m per dof bc dms x HG HD HN HT) as (r & y1 & Er & Ey1 & V). rewrite Ey in Ey1. injection Ey1 as <-.
  destruct (C24_laplacian_linear h m per dof dms 1 (-1) x U HG HD) as (r1 & rU & re & E1 & EU & Ee & L). rewrite Er in E1. injection E1 as <-. fold e in Ee.
  set (eps := laplacian_error h M + mass_error h K). set (vol := cell_volume h). assert (VP : 0 < vol) by (eapply volume_pos; eauto).
  set (F := fun n c => match nth c conds None with Some g => g (zip_with (fun i s => IZR i * s) n h) | None => 0 end).
  assert (FE : forall n c, F n c = f c (grid_point h n)).
  { intros n c'. unfold F. specialize (HF c' (zip_with (fun i s => IZR i * s) n h)). unfold grid_point.
    replace (zip_with (fun x h0 => IZR x * h0) n h) with (zip_with (fun i s => IZR i * s) n h) by reflexivity. destruct (nth c' conds None); lra. }
  (* the right-hand side *)
  assert (B : forall n, in_grid_box (nodes_box m) n -> match prescribed (length m) m per bc n c with
     | Some g => b n c = g (grid_point h n) | None => interior m per n -> Rabs (b n c / vol - f c (grid_point h n)) <= mass_error h K end).
  { destruct (loaded_dec conds) as [H|H].
    - destruct (C45_first_call m per dof dms conds bc h zero_field HG HD HN HT HLc H) as (b' & mf & Eb' & Em & Vb). rewrite Eb in Eb'. injection Eb' as <-. intros n Hn. specialize (Vb n c Hn Hc).
      destruct (prescribed (length m) m per bc n c); [exact Vb|]. intros HI. rewrite Vb. unfold zero_field. rewrite Rplus_0_l.
      destruct (C86_mass h m per dof dms F n c (f c) K HG HS HD HI Hc) as (mf' & Em' & B'); [|apply HM, HI|].
      + intros o Lo Fo. rewrite FE. apply (proj2 (HU n HI)); auto.
      + assert (Q : Ok mf = Ok mf') by (transitivity (diag_block_matrix_raw (mass_mult h) dms F); [symmetry; exact Em|exact Em']). injection Q as <-. exact B'.
    - destruct (C30_on_rhs m per dof bc h dms zero_field HG HD HN HT) as (b' & Eb' & Vb). unfold setup_RHS in Eb. rewrite (has_condition_unloaded _ H) in Eb. cbn [bind] in Eb. rewrite Eb in Eb'. injection Eb' as <-. intros n Hn. specialize (Vb n c Hn Hc).
      destruct (prescribed (length m) m per bc n c); [exact Vb|]. intros HI. rewrite Vb. unfold zero_field.
      assert (Z : f c (grid_point h n) = 0) by (rewrite <- FE; unfold F; rewrite H; reflexivity). rewrite Z. replace (0 / vol - 0) with 0 by (unfold Rdiv; ring). rewrite Rabs_R0.
      unfold mass_error. apply P_Energy.Rsum_nonneg. intros i Hi. assert (PI := pos_co h m HS). assert (WX : within 1 h (grid_point h n) (grid_point h n)).
      { apply within_refl; [exact PI|]. unfold grid_point. rewrite length_zip_with; rewrite (proj1 HI), (proj1 HS); reflexivity. }
      destruct (HM n HI) as [_ HK]. destruct (HK (grid_point h n) i WX Hi) as (_ & _ & B'). assert (0 <= K i) by (eapply Rle_trans; [apply Rabs_pos|exact B']). pose proof (pow2_ge_0 (co i h)). apply Rmult_le_pos; lra. }
  (* errors: 0 where prescribed, small residual elsewhere *)
  assert (RSD : forall n, in_grid_box (nodes_box m) n -> e n c = 0 \/ Rabs (re n c) <= vol * eps).
  { intros n Hn. specialize (B n Hn). pose proof (V n c Hn Hc) as Vn. pose proof (Hyb n c Hn Hc) as Yn. destruct (prescribed (length m) m per bc n c) as [g|] eqn:P.
    - left. destruct (prescribed_from _ _ _ _ _ _ _ P) as (s & Hs & Ho & Hg). unfold e, lin, U. rewrite <- (HB n s g Hn Hs Ho Hg), <- B, <- Yn, Vn. ring.
    - right. pose proof (free_interior m per bc dof n c HG HA Hc Hn P) as HI. specialize (B HI). rewrite (L n c Hn Hc). unfold lin. rewrite <- Vn, Yn.
      destruct (C86_laplacian h m per dof dms U n c (u c) M HG HS HD HI Hc (proj1 (HU n HI)) (proj1 (HM n HI))) as (rU' & EU' & BU). rewrite EU in EU'. injection EU' as <-. rewrite (HE n HI) in BU. fold vol in BU.
      replace (1 * b n c + -1 * rU n c) with (vol * ((b n c / vol - f c (grid_point h n)) - (rU n c / vol - f c (grid_point h n)))) by (field; lra).
      rewrite Rabs_mult, (Rabs_right vol) by lra. apply Rmult_le_compat_l; [lra|]. eapply Rle_trans; [apply Rabs_triang|]. rewrite Rabs_Ropp. unfold eps. lra. }
  (* the energy *)
  destruct (C25_laplacian_is_assembled h m per dof dms e HG HD) as (re' & Ee' & W). rewrite Ee in Ee'. injection Ee' as <-.
  set (v := fun (n : list Z) (c' : nat) => if Nat.eqb c' c then e n c else 0).
  assert (IE : inner (N0 m) dof re v = Lsum (fun n => re n c * e n c) (N0 m)). { unfold inner. apply P_Operator.Lsum_ext. intros n _. rewrite (Rsum_single dof c); [unfold v; rewrite Nat.eqb_refl; reflexivity|exact Hc|]. intros i Hi Ne. unfold v. destruct (Nat.eqb_spec i c); [congruence|ring]. }
  assert (SE : scalar_form m per (E0 m per) dof (getMatElemLaplacian h) v e = Lsum (fun el => qform (2 ^ length m) (getMatElemLaplacian h) (fun k => gv m per e el k c)) (E0 m per)).
  { unfold scalar_form. apply P_Operator.Lsum_ext. intros el _. rewrite (Rsum_single dof c); [|exact Hc|].
    - unfold qform. apply Rsum_ext. intros i _. apply Rsum_ext. intros j _. unfold gv, v. rewrite Nat.eqb_refl. reflexivity.
    - intros i Hi Ne. transitivity (Rsum (2 ^ length m) (fun _ => 0)); [|apply Rsum_zero]. apply Rsum_ext. intros i' _. transitivity (Rsum (2 ^ length m) (fun _ => 0)); [|apply Rsum_zero]. apply Rsum_ext. intros j _. unfold gv, v. destruct (Nat.eqb_spec i c); [congruence|ring]. }
  specialize (W (N0 m) (E0 m per) (N0_enum m) (E0_enum m per LP) v). rewrite IE, SE in W.
  assert (H0 : forall n, in_grid_box (nodes_box m) n -> nth d n 0%Z = 0%Z -> e n c = 0).
  { intros n Hn Z0. assert (P : prescribed (length m) m per bc n c <> None). { apply C30_constrained_iff. exists d, false. split; [exact Hd|]. split; [exact Hp|]. split; [exact Z0|]. exact (HA (d, false) c (in_sides d false _ Hd) Hp Hc). }
    destruct (prescribed (length m) m per bc n c) as [g|] eqn:Q; [|congruence]. pose proof (B n Hn) as Bn. rewrite Q in Bn. pose proof (V n c Hn Hc) as Vn. rewrite Q in Vn. pose proof (Hyb n c Hn Hc) as Yn.
    destruct (prescribed_from _ _ _ _ _ _ _ Q) as (s & Hs & Ho & Hg). unfold e, lin, U. rewrite <- (HB n s g Hn Hs Ho Hg), <- Bn, <- Yn, Vn. ring. }
  pose proof (poincare h m per e c d HG HC HS Hd Hp H0) as PO. rewrite <- W in PO. change (volume h) with vol in PO.
  assert (Ld : distance h m d = nth d h 0 * INR (Z.to_nat (nth d m 0 - 1)%Z)).
  { unfold distance. f_equal. rewrite INR_IZR_INZ, Z2Nat.id; [reflexivity|]. assert (1 <= nth d m 0)%Z; [|lia]. destruct HG as (_ & _ & HF1). pose proof (proj1 (Forall_nth _ _) HF1 d 0%Z Hd) as K1. exact K1. }
  rewrite <- Ld in PO. set (k0 := 2 * thick (length m) * distance h m d ^ 2) in *. assert (K0 : 0 <= k0) by (unfold k0; pose proof (thick_pos (length m)); pose proof (pow2_ge_0 (distance h m d)); apply Rmult_le_pos; lra).
  assert (PN : forall g, Lsum g N = Lsum g (N0 m)) by (intros g; apply P_Operator.Lsum_perm, (enum_perm _ _ (nodes_box m)); [exact EN|apply N0_enum]).
  assert (LN : length N = length (N0 m)) by (apply Permutation.Permutation_length, (enum_perm _ _ (nodes_box m)); [exact EN|apply N0_enum]).
  rewrite PN, LN. fold eps. set (k := k0 * eps).
  assert (EQ : Lsum (fun n => (x n c - u c (grid_point h n)) ^ 2) (N0 m) = Lsum (fun n => e n c ^ 2) (N0 m)) by (apply P_Operator.Lsum_ext; intros n _; unfold e, lin, U; ring). rewrite EQ.
  assert (IN : forall n, In n (N0 m) -> k0 * (re n c * e n c) <= vol * ((e n c ^ 2 + k ^ 2) / 2)).
  { intros n Hn. apply N0_enum in Hn. pose proof (pow2_ge_0 (Rabs (e n c) - k)) as SQ. assert (AA : Rabs (e n c) ^ 2 = e n c ^ 2) by (rewrite RPow_abs; apply Rabs_right, Rle_ge, pow2_ge_0).
    destruct (RSD n Hn) as [Z|Hr]; [rewrite Z; pose proof (pow2_ge_0 k); rewrite !Rmult_0_r; apply Rmult_le_pos; lra|].
    assert (T1 : re n c * e n c <= vol * eps * Rabs (e n c)). { eapply Rle_trans; [apply Rle_abs|]. rewrite Rabs_mult. apply Rmult_le_compat_r; [apply Rabs_pos|exact Hr]. }
    apply (Rmult_le_compat_l k0) in T1; [|exact K0]. eapply Rle_trans; [exact T1|]. replace (k0 * (vol * eps * Rabs (e n c))) with (vol * (k * Rabs (e n c))) by (unfold k; ring). apply Rmult_le_compat_l; [lra|]. rewrite <- AA. set (q := Rabs (e n c)) in *. clearbody q. nra. }
  apply Lsum_le in IN. rewrite P_Operator.Lsum_scal in IN. rewrite P_Operator.Lsum_scal in IN.
  assert (SP : Lsum (fun n => (e n c ^ 2 + k ^ 2) / 2) (N0 m) = Lsum (fun n => e n c ^ 2) (N0 m) / 2 + INR (length (N0 m)) * k ^ 2 / 2).
  { clear. induction (N0 m) as [|a l IH]; [cbn; unfold Rdiv; ring|]. rewrite !P_Operator.Lsum_cons, IH. cbn [length]. rewrite S_INR. field. }
  rewrite SP in IN. set (A := Lsum (fun n => e n c ^ 2) (N0 m)) in *. set (X := Lsum (fun n => re n c * e n c) (N0 m)) in *. set (nk := INR (length (N0 m)) * k ^ 2) in *.
  assert (T : vol * A <= vol * (A / 2 + nk / 2)) by (rewrite Rmult_comm; eapply Rle_trans; [exact PO|exact IN]). apply Rmult_le_reg_l in T; [|exact VP]. assert (TA : A <= nk) by lra. split; [exact TA|].
  assert (EF : (fun n c => x n c - u c (grid_point h n)) = e) by (apply functional_extensionality; intros n; apply functional_extensionality; intros c'; unfold e, lin, U; ring). rewrite EF. exists re. split; [exact Ee|].
  assert (EX : Lsum (fun n => re n c * (x n c - u c (grid_point h n))) N = X) by (rewrite PN; unfold X; apply P_Operator.Lsum_ext; intros n _; unfold e, lin, U; ring). rewrite EX.
  assert (KP : 0 < k0).
  { assert (LPos : 0 < distance h m d).
    { unfold distance. apply Rmult_lt_0_compat; [apply (pos_co h m HS); rewrite (proj1 HS); exact Hd|]. apply IZR_lt. clear - HC Hd Hp LP.
      revert d per HC Hd Hp LP. induction m as [|m0 m' IH]; intros d per HC Hd Hp LP; [cbn in Hd; lia|]. destruct per as [|p0 per']; [discriminate LP|]. inversion HC as [|? ? ? ? HZ HC']; subst. destruct d as [|d]; cbn [nth] in *; [subst p0; destruct HZ as [HZ|HZ]; [discriminate|lia]|]. apply (IH d per'); auto; cbn in *; lia. }
    unfold k0. apply Rmult_lt_0_compat; [pose proof (thick_pos (length m)); lra|apply pow_lt, LPos]. }
  apply (Rmult_le_reg_l k0); [exact KP|]. replace (k0 * (vol * INR (length (N0 m)) * (k0 * eps ^ 2))) with (vol * nk) by (unfold nk, k; ring).
  apply Rle_trans with (vol * (A / 2 + nk / 2)); [exact IN|]. apply Rmult_le_compat_l; lra.
Qed.
(** The mean square of the errors at the nodes is at most the square of (stability constant) (length)^2 (consistency errors). *)
Theorem C87_error : forall h m per dof dms bc conds (u f : nat -> vec -> R) b x y d c M K N,
  grid_ok m per -> has_cells m per -> steps_ok h m -> distributes m per dof dms -> nonempty_views dms -> table_ok (length m) dof bc -> all_conditions (length m) dof per bc ->
  (d < length m)%nat -> nth d per false = false -> (c < dof)%nat -> length conds = dof ->
  continuous_problem h m per bc conds u f c -> smooth_problem h m per u f c M K ->
  setup_RHS (length m) conds (map Some bc) h dms zero_field = Ok b ->
  diag_block_matrix (laplacian_mult h) (length m) (Some (map Some bc)) dms x = Ok y -> same_field m dof y b -> enumerates N (nodes_box m) ->
  Lsum (fun n => (x n c - u c (grid_point h n)) ^ 2) N <= INR (length N) * (stability (length m) * distance h m d ^ 2 * (laplacian_error h M + mass_error h K)) ^ 2.
Proof. intros. eapply laplace_errors; eauto. Qed.
(** The energy of the error of a component, the work of the operator on it, is bounded in the same way. *)
Theorem C87_energy : forall h m per dof dms bc conds (u f : nat -> vec -> R) b x y d c M K N,
  grid_ok m per -> has_cells m per -> steps_ok h m -> distributes m per dof dms -> nonempty_views dms -> table_ok (length m) dof bc -> all_conditions (length m) dof per bc ->
  (d < length m)%nat -> nth d per false = false -> (c < dof)%nat -> length conds = dof ->
  continuous_problem h m per bc conds u f c -> smooth_problem h m per u f c M K ->
  setup_RHS (length m) conds (map Some bc) h dms zero_field = Ok b ->
  diag_block_matrix (laplacian_mult h) (length m) (Some (map Some bc)) dms x = Ok y -> same_field m dof y b -> enumerates N (nodes_box m) ->
  exists w, diag_block_matrix_raw (laplacian_mult h) dms (fun n c => x n c - u c (grid_point h n)) = Ok w /\
    Lsum (fun n => w n c * (x n c - u c (grid_point h n))) N <= cell_volume h * INR (length N) * (stability (length m) * distance h m d ^ 2 * (laplacian_error h M + mass_error h K) ^ 2).
Proof. intros. eapply laplace_errors; eauto. Qed.
(** The system has a solution. *)
Theorem C87_solution_exists : forall h m per dof dms bc conds d, grid_ok m per -> has_cells m per -> steps_ok h m -> distributes m per dof dms -> nonempty_views dms -> table_ok (length m) dof bc -> all_conditions (length m) dof per bc ->
  (d < length m)%nat -> nth d per false = false -> length conds = dof ->
  exists b x y, setup_RHS (length m) conds (map Some bc) h dms zero_field = Ok b /\
    diag_block_matrix (laplacian_mult h) (length m) (Some (map Some bc)) dms x = Ok y /\ same_field m dof y b.
Proof.
  intros h m per dof dms bc conds d HG HC HS HD HN HT HA Hd Hp HLc.
  assert (EB : exists b, setup_RHS (length m) conds (map Some bc) h dms zero_field = Ok b).
  { destruct (loaded_dec conds) as [H|H].
    - destruct (C45_first_call m per dof dms conds bc h zero_field HG HD HN HT HLc H) as (b & mf & E & _). exists b. exact E.
    - destruct (C30_on_rhs m per dof bc h dms zero_field HG HD HN HT) as (b & E & _). exists b. unfold setup_RHS. rewrite (has_condition_unloaded _ H). exact E. }
  destruct EB as (b & Eb). destruct (C55_constrained_laplacian_has_a_solution h m per dof bc dms b HG HC HS HD HN HT) as (x & y & Ex & Sx).
  - intros c Hc. exists (map (fun _ => 0%Z) m). assert (F1 : Forall (fun z => (1 <= z)%Z) m) by apply HG. split; [apply origin_node, F1|]. apply C30_constrained_iff. exists d, false. split; [exact Hd|]. split; [exact Hp|]. split; [apply zeros_at|]. exact (HA (d, false) c (in_sides d false _ Hd) Hp Hc).
  - exists b, x, y. auto.
Qed.
Lemma small_lap h M s : (forall i, (i < length h)%nat -> 0 < co i h <= s) -> Rabs (laplacian_error h M) <= s ^ 2 * Rsum (length h) (fun j => Rsum (length h) (fun i => Rabs (M j i) / 6)).
Proof.
  intros H. unfold laplacian_error. rewrite <- Rsum_scal.
  assert (T : forall n g g', (forall i, (i < n)%nat -> Rabs (g i) <= g' i) -> Rabs (Rsum n g) <= Rsum n g'). { induction n as [|n IH]; intros g g' B; cbn [Rsum]; [rewrite Rabs_R0; lra|]. eapply Rle_trans; [apply Rabs_triang|]. apply Rplus_le_compat; [apply IH; intros; apply B; lia|apply B; lia]. }
  apply T. intros j Hj. rewrite <- Rsum_scal. apply T. intros i Hi. specialize (H i Hi). assert (S2 : co i h ^ 2 <= s ^ 2) by (apply pow_incr; lra). pose proof (pow2_ge_0 (co i h)) as P2. pose proof (Rabs_pos (M j i)) as PM.
  rewrite Rabs_mult. rewrite (Rabs_right (_ / _)) by (apply Rle_ge; destruct (Nat.eqb i j); lra). replace (s ^ 2 * (Rabs (M j i) / 6)) with (s ^ 2 / 6 * Rabs (M j i)) by field. apply Rmult_le_compat_r; [exact PM|]. destruct (Nat.eqb i j); lra.
Qed.
Lemma small_mass h K s : (forall i, (i < length h)%nat -> 0 < co i h <= s) -> Rabs (mass_error h K) <= s ^ 2 * Rsum (length h) (fun i => Rabs (K i) / 6).
Proof.
  intros H. unfold mass_error. rewrite <- Rsum_scal.
  assert (T : forall n g g', (forall i, (i < n)%nat -> Rabs (g i) <= g' i) -> Rabs (Rsum n g) <= Rsum n g'). { induction n as [|n IH]; intros g g' B; cbn [Rsum]; [rewrite Rabs_R0; lra|]. eapply Rle_trans; [apply Rabs_triang|]. apply Rplus_le_compat; [apply IH; intros; apply B; lia|apply B; lia]. }
  apply T. intros i Hi. specialize (H i Hi). assert (S2 : co i h ^ 2 <= s ^ 2) by (apply pow_incr; lra). pose proof (pow2_ge_0 (co i h)) as P2. pose proof (Rabs_pos (K i)) as PM.
  rewrite Rabs_mult. rewrite (Rabs_right (_ / _)) by lra. replace (s ^ 2 * (Rabs (K i) / 6)) with (s ^ 2 / 6 * Rabs (K i)) by field. apply Rmult_le_compat_r; [exact PM|]. lra.
Qed.
(** Convergence of order two: one constant, for the length of the domain and the bounds of the derivatives, serves all grids, tables, distributions over processes and smooth solutions. *)
Theorem C87_second_order : forall D l M K, (D = 2 \/ D = 3)%nat -> exists C, forall h m per dof dms bc conds (u f : nat -> vec -> R) b x y d c N s,
  length m = D -> grid_ok m per -> has_cells m per -> steps_ok h m -> distributes m per dof dms -> nonempty_views dms -> table_ok D dof bc -> all_conditions D dof per bc ->
  (d < D)%nat -> nth d per false = false -> (c < dof)%nat -> length conds = dof ->
  distance h m d = l -> Forall (fun hi => hi <= s) h ->
  continuous_problem h m per bc conds u f c -> smooth_problem h m per u f c M K ->
  setup_RHS D conds (map Some bc) h dms zero_field = Ok b ->
  diag_block_matrix (laplacian_mult h) D (Some (map Some bc)) dms x = Ok y -> same_field m dof y b -> enumerates N (nodes_box m) ->
  Lsum (fun n => (x n c - u c (grid_point h n)) ^ 2) N <= INR (length N) * (C * s ^ 2) ^ 2.
Proof.
  intros D l M K D23. exists (stability D * l ^ 2 * (Rsum D (fun j => Rsum D (fun i => Rabs (M j i) / 6)) + Rsum D (fun i => Rabs (K i) / 6))).
  intros h m per dof dms bc conds u f b x y d c N s <- HG HC HS HD HN HT HA Hd Hp Hc HLc <- Hs HP HM Eb Ey Hyb EN.
  eapply Rle_trans; [exact (C87_error h m per dof dms bc conds u f b x y d c M K N HG HC HS HD HN HT HA Hd Hp Hc HLc HP HM Eb Ey Hyb EN)|]. apply Rmult_le_compat_l; [apply pos_INR|].
  assert (Hh : forall i, (i < length h)%nat -> 0 < co i h <= s). { intros i Hi. split; [apply (pos_co h m HS i Hi)|]. pose proof (proj1 (Forall_nth _ _) Hs i 0 Hi) as Q. exact Q. }
  pose proof (small_lap h M s Hh) as B1. pose proof (small_mass h K s Hh) as B2. rewrite (proj1 HS) in B1, B2.
  assert (ST : 0 < stability (length m)) by (unfold stability; destruct (length m) as [|[|[|]]]; lra). pose proof (pow2_ge_0 (distance h m d)) as PD.
  set (E := laplacian_error h M + mass_error h K). set (G := Rsum (length m) (fun j => Rsum (length m) (fun i => Rabs (M j i) / 6)) + Rsum (length m) (fun i => Rabs (K i) / 6)) in *.
  assert (BE : Rabs E <= s ^ 2 * G) by (unfold E, G; eapply Rle_trans; [apply Rabs_triang|]; rewrite Rmult_plus_distr_l; lra).
  set (k := stability (length m) * distance h m d ^ 2) in *. assert (K0 : 0 <= k) by (unfold k; apply Rmult_le_pos; lra).
  rewrite <- (pow2_abs (k * E)). apply pow_incr. split; [apply Rabs_pos|]. rewrite Rabs_mult, (Rabs_right k) by lra. replace (k * G * s ^ 2) with (k * (s ^ 2 * G)) by ring. apply Rmult_le_compat_l; assumption.
Qed.
(** ** the hypotheses are met: -12 x0^2 is minus the Laplacian of x0^4, on a grid of 5 x 5 nodes with walls all around *)
Definition quartic (_ : nat) (X : vec) : R := co 0 X ^ 4.
Definition quartic_load_bound (i : nat) : R := Rabs (-12) * square_bound i.
Example C87_example : let h := [1 / 4; 1 / 4] in let m := [5; 5]%Z in let per := [false; false] in let bc := repeat [Some (fun X => co 0 X ^ 4)] 4 in let conds := [Some (fun X => -12 * co 0 X ^ 2)] in
  grid_ok m per /\ has_cells m per /\ steps_ok h m /\ table_ok 2 1 bc /\ all_conditions 2 1 per bc /\ distance h m 0 = 1 /\
  continuous_problem h m per bc conds quartic (fun c X => if Nat.eqb c 0 then -12 * co 0 X ^ 2 else 0) 0 /\ smooth_problem h m per quartic (fun c X => if Nat.eqb c 0 then -12 * co 0 X ^ 2 else 0) 0 quartic_bound quartic_load_bound /\
  interior m per [2; 2]%Z.
Proof.
  cbv zeta. split; [repeat constructor; cbn; lia|]. split; [constructor; [right; lia|constructor; [right; lia|constructor]]|]. split; [repeat constructor; lra|]. split; [split; [reflexivity|repeat constructor]|].
  split; [intros s [|c] Hs _ Hc; [|lia]; cbn in Hs; destruct Hs as [<-|[<-|[<-|[<-|[]]]]]; discriminate|]. split; [unfold distance; cbn; lra|].
  assert (SB : forall n, interior [5; 5]%Z [false; false] n -> forall g : vec -> R, samples_near g [5; 5]%Z [false; false] [1 / 4; 1 / 4] (fun n _ => g (grid_point [1 / 4; 1 / 4] n)) n 0).
  { intros n HI g. destruct (C86_hypotheses_are_met [3; 3]%Z [1 / 4; 1 / 4] (fun _ => g) (fun _ => 0) n) as [A _]. exact (A 0%nat HI). }
  split; [split; [|split; [|split]]|split].
  - intros [|[|d]] X; reflexivity.
  - intros n s g _ Hs _ Hg. cbn in Hs. destruct Hs as [<-|[<-|[<-|[<-|[]]]]]; cbn in Hg; injection Hg as <-; reflexivity.
  - intros n [Ln _]. destruct n as [|n0 [|n1 [|]]]; try discriminate Ln. unfold minus_laplacian, quartic. cbn [Rsum length]. rewrite !(second_power 2) by (cbn; lia). cbn [Nat.eqb INR]. ring.
  - intros n HI. split; [exact (SB n HI (quartic 0))|exact (SB n HI (fun X => -12 * co 0 X ^ 2))].
  - intros n HI. split; [apply quartic_smooth; cbn; lia|]. intros Y i HY Hi. apply bends_scal. apply (square_smooth [1 / 4; 1 / 4] (grid_point [1 / 4; 1 / 4] n)); auto. cbn; lia.
  - split; [reflexivity|intros [|[|d]] Hd; cbn in *; lia].
Qed.
