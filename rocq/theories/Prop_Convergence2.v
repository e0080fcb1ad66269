(** C89: the solution of the constrained strain-tensor system in a box converges, to second order, to that of the continuous problem. *)
From Coq Require Import FunctionalExtensionality.
From Coquelicot Require Import Coquelicot.
From Verif Require Import Base M_Geometry S_Geometry P_Geometry M_Particle S_Particle P_Particle M_Quadrature S_Fem P_Energy P_Precond M_MatElem P_MatElem M_Mesh M_Operator S_Operator P_Mesh P_Operator P_Operator2 P_Operator3 P_Global P_Stokes M_Bc S_Bc P_Flux Prop_Flux P_Gather P_Exact M_ParticleOp S_ParticleOp S_Accuracy P_Accuracy S_Consistency S_Consistency2 P_Consistency P_Consistency2 P_Conv P_Conv2 P_Conv3 S_Convergence S_Convergence2 P_Diag Prop_Exact Prop_Operator Prop_Operator2 Prop_Assembly Prop_WellPosed Prop_StokesUnique Prop_Consistency P_Consistency5 P_Consistency6 Prop_Consistency2 Prop_Convergence.
Open Scope R_scope.
Lemma closed_false m d : nth d (closed_box m) false = false.
Proof. unfold closed_box. rewrite nth_repeat. reflexivity. Qed.
Lemma strain_stab D : (D = 2 \/ D = 3)%nat -> strain_stability D = thick D.
Proof. intros [->| ->]; reflexivity. Qed.
Lemma closed_near f m h n (c : nat) : interior m (closed_box m) n -> samples_near f m (closed_box m) h (fun n _ => f (grid_point h n)) n c.
Proof. intros [Ln _] o Lo _. unfold closed_box. rewrite wrap_false by (rewrite length_zip_with; lia). reflexivity. Qed.
Lemma Rsum_Rmult_half D (f g : nat -> R) : Rsum D (fun c => (f c + g c) / 2) = Rsum D f / 2 + Rsum D g / 2.
Proof. rewrite <- Rdiv_plus_distr, <- Rsum_plus. unfold Rdiv at 2. rewrite Rmult_comm, <- Rsum_scal. apply Rsum_ext. intros. field. Qed.
Lemma strain_errors_gen : forall h m per dms bc conds (u f : nat -> vec -> R) b x y k0 M N K Ns, let D := length m in
  grid_ok m per -> has_cells m per -> steps_ok h m -> distributes m per D dms -> nonempty_views dms -> table_ok D D bc -> all_conditions D D per bc -> length conds = D ->
  0 < k0 -> (forall e : field, (forall n c, in_grid_box (nodes_box m) n -> (c < D)%nat -> prescribed D m per bc n c <> None -> e n c = 0) ->
    volume h * Rsum D (fun c => Lsum (fun n => e n c ^ 2) (N0 m)) <= k0 * tensor_form m per (E0 m per) D (getMatElemStrainTensor h) e e) ->
  strain_problem_in h m per bc conds u f -> smooth_strain_problem_in h m per u f M N K ->
  setup_RHS D conds (map Some bc) h dms zero_field = Ok b ->
  diag_block_matrix (strain_tensor_mult h) D (Some (map Some bc)) dms x = Ok y -> same_field m D y b -> enumerates Ns (nodes_box m) ->
  Lsum (fun n => Rsum D (fun c => (x n c - u c (grid_point h n)) ^ 2)) Ns <= INR (length Ns) * Rsum D (fun c => (k0 * strain_residual h M N K c) ^ 2) /\
  exists w, diag_block_matrix_raw (strain_tensor_mult h) dms (fun n c => x n c - u c (grid_point h n)) = Ok w /\
    inner Ns D w (fun n c => x n c - u c (grid_point h n)) <= cell_volume h * INR (length Ns) * (k0 * Rsum D (fun c => strain_residual h M N K c ^ 2)).
Proof.
  intros h m per dms bc conds u f b x y k0 M N K Ns D HG HC HS HD HN HT HA HLc KP COE (HF & HB & HE & HU) HM Eb Ey Hyb EN.
  assert (LP : length per = length m) by apply HG. assert (D23 : (length m = 2 \/ length m = 3)%nat) by apply HG.
  set (U := fun (n : list Z) (c : nat) => u c (grid_point h n)) in *. set (e := lin 1 (-1) x U).
  destruct (C31_constrained_rows (strain_tensor_mult h) m per D (fun E v x => tensor_form m per E D (getMatElemStrainTensor h) v x) bc dms x HG HD HN HT (rep_tens m per D _ HG)) as (r & y1 & Er & Ey1 & V). assert (QY : Ok y = Ok y1) by (transitivity (diag_block_matrix (strain_tensor_mult h) D (Some (map Some bc)) dms x); [symmetry; exact Ey|exact Ey1]). injection QY as <-.
  destruct (C24_strain_linear h m per D dms 1 (-1) x U HG HD) as (r1 & rU & re & E1 & EU & Ee & Li). rewrite Er in E1. injection E1 as <-. fold e in Ee.
  set (eps := strain_residual h M N K). set (vol := cell_volume h). assert (VP : 0 < vol) by (eapply volume_pos; eauto).
  (* the right-hand side *)
  assert (B : forall n c, in_grid_box (nodes_box m) n -> (c < D)%nat -> match prescribed D m per bc n c with
     | Some g => b n c = g (grid_point h n) | None => interior m per n -> Rabs (b n c / vol - f c (grid_point h n)) <= mass_error h (K c) end).
  { intros n c Hn Hc. destruct (prescribed D m per bc n c) as [g|] eqn:P.
    - destruct (loaded_dec conds) as [H|H].
      + destruct (C45_first_call m per D dms conds bc h zero_field HG HD HN HT HLc H) as (b' & mf & Eb' & Em & Vb). fold D in Eb', Vb. rewrite Eb in Eb'. injection Eb' as <-. specialize (Vb n c Hn Hc). rewrite P in Vb. exact Vb.
      + destruct (C30_on_rhs m per D bc h dms zero_field HG HD HN HT) as (b' & Eb' & Vb). fold D in Eb', Vb. unfold setup_RHS in Eb. rewrite (has_condition_unloaded _ H) in Eb. cbn [bind] in Eb. rewrite Eb in Eb'. injection Eb' as <-. specialize (Vb n c Hn Hc). rewrite P in Vb. exact Vb.
    - intros HI. destruct (rhs_err h m per dms bc conds f HG HS HD HN HT HLc HF) as (b' & Eb' & Vb). fold D in Eb', Vb. rewrite Eb in Eb'. injection Eb' as <-. apply (Vb n c (K c) HI Hc); [|apply (HM c n Hc HI)].
      intros o Lo Fo. apply (proj2 (HU c n Hc HI)); assumption. }
  assert (Z0 : forall n c g, in_grid_box (nodes_box m) n -> (c < D)%nat -> prescribed D m per bc n c = Some g -> e n c = 0).
  { intros n c g Hn Hc P. pose proof (B n c Hn Hc) as Bn. pose proof (V n c Hn Hc) as Vn. fold D in Vn. pose proof (Hyb n c Hn Hc) as Yn. rewrite P in Bn, Vn.
    destruct (prescribed_from _ _ _ _ _ _ _ P) as (s & Hs & Ho & Hg). unfold e, lin, U. rewrite <- (HB c n s g Hc Hn Hs Ho Hg), <- Bn, <- Yn, Vn. ring. }
  (* errors: 0 where prescribed, small residual elsewhere *)
  assert (RSD : forall n c, in_grid_box (nodes_box m) n -> (c < D)%nat -> e n c = 0 \/ Rabs (re n c) <= vol * eps c).
  { intros n c Hn Hc. specialize (B n c Hn Hc). pose proof (V n c Hn Hc) as Vn. fold D in Vn. pose proof (Hyb n c Hn Hc) as Yn. destruct (prescribed D m per bc n c) as [g|] eqn:P; [left; exact (Z0 n c g Hn Hc P)|].
    right. pose proof (free_interior m per bc D n c HG HA Hc Hn P) as HI. specialize (B HI). rewrite (Li n c Hn Hc). unfold lin. rewrite <- Vn, Yn.
    destruct (HM c n Hc HI) as (S4 & SX & S2).
    destruct (C88_strain h m per dms U n c u (M c) (N c) HG HS HD HI Hc (fun d Hd => proj1 (HU d n Hd HI)) S4 SX) as (rU' & EU' & BU). rewrite EU in EU'. injection EU' as <-. rewrite (HE c n Hc HI) in BU. fold vol in BU.
    replace (1 * b n c + -1 * rU n c) with (vol * ((b n c / vol - f c (grid_point h n)) - (rU n c / vol - f c (grid_point h n)))) by (field; lra).
    rewrite Rabs_mult, (Rabs_right vol) by lra. apply Rmult_le_compat_l; [lra|]. eapply Rle_trans; [apply Rabs_triang|]. rewrite Rabs_Ropp. unfold eps, strain_residual. lra. }
  (* the energy *)
  destruct (C25_strain_is_assembled h m per D dms e HG HD) as (re' & Ee' & W). rewrite Ee in Ee'. injection Ee' as <-. specialize (W (N0 m) (E0 m per) (N0_enum m) (E0_enum m per LP) e).
  assert (H0 : forall n c, in_grid_box (nodes_box m) n -> (c < D)%nat -> prescribed D m per bc n c <> None -> e n c = 0).
  { intros n c Hn Hc P. destruct (prescribed D m per bc n c) as [g|] eqn:Q; [|congruence]. exact (Z0 n c g Hn Hc Q). }
  pose proof (COE e H0) as PO. rewrite <- W in PO. change (volume h) with vol in PO. unfold inner in PO.
  assert (K0 : 0 <= k0) by lra.
  assert (PN : forall g, Lsum g Ns = Lsum g (N0 m)) by (intros g; apply P_Operator.Lsum_perm, (enum_perm _ _ (nodes_box m)); [exact EN|apply N0_enum]).
  assert (LN : length Ns = length (N0 m)) by (apply Permutation.Permutation_length, (enum_perm _ _ (nodes_box m)); [exact EN|apply N0_enum]).
  rewrite PN, LN. fold eps.
  assert (EQ : Lsum (fun n => Rsum D (fun c => (x n c - u c (grid_point h n)) ^ 2)) (N0 m) = Lsum (fun n => Rsum D (fun c => e n c ^ 2)) (N0 m)) by (apply P_Operator.Lsum_ext; intros n _; apply Rsum_ext; intros c _; unfold e, lin, U; ring). rewrite EQ.
  rewrite <- P_Operator.Lsum_Rsum in PO.
  assert (IN : forall n, In n (N0 m) -> k0 * Rsum D (fun c => re n c * e n c) <= vol * (Rsum D (fun c => e n c ^ 2) / 2 + Rsum D (fun c => (k0 * eps c) ^ 2) / 2)).
  { intros n Hn. apply N0_enum in Hn. rewrite <- Rsum_Rmult_half, <- !Rsum_scal. apply Rsum_le. intros c Hc. set (k := k0 * eps c). pose proof (pow2_ge_0 (Rabs (e n c) - k)) as SQ. assert (AA : Rabs (e n c) ^ 2 = e n c ^ 2) by (rewrite RPow_abs; apply Rabs_right, Rle_ge, pow2_ge_0).
    destruct (RSD n c Hn Hc) as [Z|Hr]; [rewrite Z; pose proof (pow2_ge_0 k); rewrite !Rmult_0_r; apply Rmult_le_pos; lra|].
    assert (T1 : re n c * e n c <= vol * eps c * Rabs (e n c)). { eapply Rle_trans; [apply Rle_abs|]. rewrite Rabs_mult. apply Rmult_le_compat_r; [apply Rabs_pos|exact Hr]. }
    apply (Rmult_le_compat_l k0) in T1; [|exact K0]. eapply Rle_trans; [exact T1|]. replace (k0 * (vol * eps c * Rabs (e n c))) with (vol * (k * Rabs (e n c))) by (unfold k; ring). apply Rmult_le_compat_l; [lra|]. rewrite <- AA. set (q := Rabs (e n c)) in *. clearbody q. nra. }
  apply Lsum_le in IN. rewrite !P_Operator.Lsum_scal in IN. set (S2 := Rsum D (fun c => (k0 * eps c) ^ 2)) in *.
  assert (SP : Lsum (fun n => Rsum D (fun c => e n c ^ 2) / 2 + S2 / 2) (N0 m) = Lsum (fun n => Rsum D (fun c => e n c ^ 2)) (N0 m) / 2 + INR (length (N0 m)) * S2 / 2).
  { clear. induction (N0 m) as [|a l IH]; [cbn; unfold Rdiv; ring|]. rewrite !P_Operator.Lsum_cons, IH. cbn [length]. rewrite S_INR. field. }
  rewrite SP in IN. set (A := Lsum (fun n => Rsum D (fun c => e n c ^ 2)) (N0 m)) in *. set (nk := INR (length (N0 m)) * S2) in *.
  assert (T : vol * A <= vol * (A / 2 + nk / 2)) by (eapply Rle_trans; [exact PO|exact IN]). apply Rmult_le_reg_l in T; [|exact VP]. assert (TA : A <= nk) by lra. split; [exact TA|].
  assert (EF : (fun n c => x n c - u c (grid_point h n)) = e) by (apply functional_extensionality; intros n; apply functional_extensionality; intros c; unfold e, lin, U; ring). rewrite EF. exists re. split; [exact Ee|]. unfold inner. rewrite PN.
  set (X := Lsum (fun n => Rsum D (fun c => re n c * e n c)) (N0 m)) in *.
  apply (Rmult_le_reg_l k0); [exact KP|]. assert (NK : k0 * (vol * INR (length (N0 m)) * (k0 * Rsum D (fun c => eps c ^ 2))) = vol * nk).
  { unfold nk, S2. rewrite (Rsum_ext D (fun c => (k0 * eps c) ^ 2) (fun c => k0 ^ 2 * eps c ^ 2)) by (intros; ring). rewrite Rsum_scal. ring. }
  rewrite NK. apply Rle_trans with (vol * (A / 2 + nk / 2)); [exact IN|]. apply Rmult_le_compat_l; lra.
Qed.
Lemma strain_errors : forall h m dms bc conds (u f : nat -> vec -> R) b x y L M N K Ns, let D := length m in let per := closed_box m in
  grid_ok m per -> has_cells m per -> steps_ok h m -> distributes m per D dms -> nonempty_views dms -> table_ok D D bc -> all_conditions D D per bc -> length conds = D ->
  (forall d, (d < D)%nat -> distance h m d <= L) ->
  strain_problem h m bc conds u f -> smooth_strain_problem h m u f M N K ->
  setup_RHS D conds (map Some bc) h dms zero_field = Ok b ->
  diag_block_matrix (strain_tensor_mult h) D (Some (map Some bc)) dms x = Ok y -> same_field m D y b -> enumerates Ns (nodes_box m) ->
  Lsum (fun n => Rsum D (fun c => (x n c - u c (grid_point h n)) ^ 2)) Ns <= INR (length Ns) * Rsum D (fun c => (strain_stability D * L ^ 2 * strain_residual h M N K c) ^ 2) /\
  exists w, diag_block_matrix_raw (strain_tensor_mult h) dms (fun n c => x n c - u c (grid_point h n)) = Ok w /\
    inner Ns D w (fun n c => x n c - u c (grid_point h n)) <= cell_volume h * INR (length Ns) * (strain_stability D * L ^ 2 * Rsum D (fun c => strain_residual h M N K c ^ 2)).
Proof.
  intros h m dms bc conds u f b x y L M N K Ns D per HG HC HS HD HN HT HA HLc HDist (HF & HB & HE) HM Eb Ey Hyb EN. rewrite (strain_stab D (proj1 HG)).
  assert (LP : length per = length m) by apply HG. assert (D23 : (length m = 2 \/ length m = 3)%nat) by apply HG.
  apply (strain_errors_gen h m per dms bc conds u f b x y (thick D * L ^ 2) M N K Ns); auto.
  - assert (P0 : (0 < length m)%nat) by (destruct D23 as [->| ->]; lia). assert (LPos : 0 < L).
    { eapply Rlt_le_trans; [|apply (HDist 0%nat P0)]. unfold distance. apply Rmult_lt_0_compat; [apply (pos_co h m HS); rewrite (proj1 HS); exact P0|]. apply IZR_lt.
      pose proof (closed_false m 0) as CF. fold per in CF. destruct m as [|m0 m']; [cbn in P0; lia|]. destruct per as [|p0 per']; [discriminate LP|]. cbn [nth] in CF. subst p0. inversion HC as [|? ? ? ? HZ ?]; subst. destruct HZ as [HZ|HZ]; [discriminate|]. cbn [nth]. lia. }
    apply Rmult_lt_0_compat; [apply thick_pos|apply pow_lt, LPos].
  - intros e H0. apply strain_poincare; auto.
    + intros d Hd. split; [apply closed_false|]. eapply Rle_trans; [|apply (HDist d Hd)]. apply Req_le. unfold distance. f_equal. rewrite INR_IZR_INZ, Z2Nat.id; [reflexivity|]. assert (1 <= nth d m 0)%Z; [|lia]. destruct HG as (_ & _ & HF1). pose proof (proj1 (Forall_nth _ _) HF1 d 0%Z Hd) as K1. exact K1.
    + intros n d Hn Hd Zd. apply H0; auto. apply C30_constrained_iff. exists d, false. split; [exact Hd|]. split; [apply closed_false|]. split; [exact Zd|]. exact (HA (d, false) d (in_sides d false _ Hd) (closed_false m d) Hd).
  - split; [exact HF|]. split; [exact HB|]. split; [exact HE|]. intros c n Hc HI. split; [exact (closed_near (u c) m h n c HI)|exact (closed_near (f c) m h n c HI)].
Qed.
(** The mean square of the errors at the nodes is at most that of (stability constant) (length)^2 (consistency errors). *)
Theorem C89_error : forall h m dms bc conds (u f : nat -> vec -> R) b x y L M N K Ns, let D := length m in let per := closed_box m in
  grid_ok m per -> has_cells m per -> steps_ok h m -> distributes m per D dms -> nonempty_views dms -> table_ok D D bc -> all_conditions D D per bc -> length conds = D ->
  (forall d, (d < D)%nat -> distance h m d <= L) ->
  strain_problem h m bc conds u f -> smooth_strain_problem h m u f M N K ->
  setup_RHS D conds (map Some bc) h dms zero_field = Ok b ->
  diag_block_matrix (strain_tensor_mult h) D (Some (map Some bc)) dms x = Ok y -> same_field m D y b -> enumerates Ns (nodes_box m) ->
  Lsum (fun n => Rsum D (fun c => (x n c - u c (grid_point h n)) ^ 2)) Ns <= INR (length Ns) * Rsum D (fun c => (strain_stability D * L ^ 2 * strain_residual h M N K c) ^ 2).
Proof. intros. eapply strain_errors; eauto. Qed.
(** The energy of the error, the work of the viscous operator on it, is bounded in the same way: it is of the fourth order in the steps, as the squares are. *)
Theorem C89_energy : forall h m dms bc conds (u f : nat -> vec -> R) b x y L M N K Ns, let D := length m in let per := closed_box m in
  grid_ok m per -> has_cells m per -> steps_ok h m -> distributes m per D dms -> nonempty_views dms -> table_ok D D bc -> all_conditions D D per bc -> length conds = D ->
  (forall d, (d < D)%nat -> distance h m d <= L) ->
  strain_problem h m bc conds u f -> smooth_strain_problem h m u f M N K ->
  setup_RHS D conds (map Some bc) h dms zero_field = Ok b ->
  diag_block_matrix (strain_tensor_mult h) D (Some (map Some bc)) dms x = Ok y -> same_field m D y b -> enumerates Ns (nodes_box m) ->
  exists w, diag_block_matrix_raw (strain_tensor_mult h) dms (fun n c => x n c - u c (grid_point h n)) = Ok w /\
    inner Ns D w (fun n c => x n c - u c (grid_point h n)) <= cell_volume h * INR (length Ns) * (strain_stability D * L ^ 2 * Rsum D (fun c => strain_residual h M N K c ^ 2)).
Proof. intros. eapply strain_errors; eauto. Qed.
(** Periodic axes, in two dimensions: one axis d with walls is enough, with the constants of C87. *)
Theorem C89_error_periodic_2d : forall h m per dms bc conds (u f : nat -> vec -> R) b x y d M N K Ns, length m = 2%nat ->
  grid_ok m per -> has_cells m per -> steps_ok h m -> distributes m per 2 dms -> nonempty_views dms -> table_ok 2 2 bc -> all_conditions 2 2 per bc -> length conds = 2%nat ->
  (d < 2)%nat -> nth d per false = false ->
  strain_problem_in h m per bc conds u f -> smooth_strain_problem_in h m per u f M N K ->
  setup_RHS 2 conds (map Some bc) h dms zero_field = Ok b ->
  diag_block_matrix (strain_tensor_mult h) 2 (Some (map Some bc)) dms x = Ok y -> same_field m 2 y b -> enumerates Ns (nodes_box m) ->
  Lsum (fun n => Rsum 2 (fun c => (x n c - u c (grid_point h n)) ^ 2)) Ns <= INR (length Ns) * Rsum 2 (fun c => (stability 2 * distance h m d ^ 2 * strain_residual h M N K c) ^ 2) /\
  exists w, diag_block_matrix_raw (strain_tensor_mult h) dms (fun n c => x n c - u c (grid_point h n)) = Ok w /\
    inner Ns 2 w (fun n c => x n c - u c (grid_point h n)) <= cell_volume h * INR (length Ns) * (stability 2 * distance h m d ^ 2 * Rsum 2 (fun c => strain_residual h M N K c ^ 2)).
Proof.
  intros h m per dms bc conds u f b x y d M N K Ns L2 HG HC HS HD HN HT HA HLc Hd Hp HP HM Eb Ey Hyb EN. assert (LP : length per = length m) by apply HG. rewrite (stab 2) by auto.
  assert (Hd' : (d < length m)%nat) by lia.
  pose proof (strain_errors_gen h m per dms bc conds u f b x y (2 * thick 2 * distance h m d ^ 2) M N K Ns) as G. cbv zeta in G. rewrite L2 in G. apply G; auto.
  - assert (LPos : 0 < distance h m d).
    { unfold distance. apply Rmult_lt_0_compat; [apply (pos_co h m HS); rewrite (proj1 HS); exact Hd'|]. apply IZR_lt. clear - HC Hd' Hp LP.
      revert d per HC Hd' Hp LP. induction m as [|m0 m' IH]; intros d per HC Hd Hp LP; [cbn in Hd; lia|]. destruct per as [|p0 per']; [discriminate LP|]. inversion HC as [|? ? ? ? HZ HC']; subst. destruct d as [|d]; cbn [nth] in *; [subst p0; destruct HZ as [HZ|HZ]; [discriminate|lia]|]. apply (IH d per'); auto; cbn in *; lia. }
    apply Rmult_lt_0_compat; [pose proof (thick_pos 2); lra|apply pow_lt, LPos].
  - intros e H0. assert (Ld : distance h m d = nth d h 0 * INR (Z.to_nat (nth d m 0 - 1)%Z)).
    { unfold distance. f_equal. rewrite INR_IZR_INZ, Z2Nat.id; [reflexivity|]. assert (1 <= nth d m 0)%Z; [|lia]. destruct HG as (_ & _ & HF1). pose proof (proj1 (Forall_nth _ _) HF1 d 0%Z Hd') as K1. exact K1. }
    rewrite Ld. apply strain_poincare2; auto. intros c Hc n s Hn Hs Ho. apply H0; auto. unfold on_side in Ho. apply andb_true_iff in Ho as [O1 O2]. apply negb_true_iff in O1. apply Z.eqb_eq in O2.
    rewrite <- L2. apply C30_constrained_iff. exists (fst s), (snd s). split; [rewrite L2; exact Hs|]. split; [exact O1|]. split; [exact O2|]. destruct s as [a up]. exact (HA (a, up) c (in_sides a up 2 Hs) O1 Hc).
Qed.
(** The system has a solution (periodic axes allowed, at least one axis with walls). *)
Theorem C89_solution_exists : forall h m per dms bc conds d, let D := length m in
  grid_ok m per -> has_cells m per -> steps_ok h m -> distributes m per D dms -> nonempty_views dms -> table_ok D D bc -> all_conditions D D per bc -> length conds = D ->
  (d < D)%nat -> nth d per false = false ->
  exists b x y, setup_RHS D conds (map Some bc) h dms zero_field = Ok b /\
    diag_block_matrix (strain_tensor_mult h) D (Some (map Some bc)) dms x = Ok y /\ same_field m D y b.
Proof.
  intros h m per dms bc conds d D HG HC HS HD HN HT HA HLc Hd Hp.
  assert (EB : exists b, setup_RHS D conds (map Some bc) h dms zero_field = Ok b).
  { destruct (loaded_dec conds) as [H|H].
    - destruct (C45_first_call m per D dms conds bc h zero_field HG HD HN HT HLc H) as (b & mf & E & _). exists b. exact E.
    - destruct (C30_on_rhs m per D bc h dms zero_field HG HD HN HT) as (b & E & _). exists b. unfold setup_RHS. rewrite (has_condition_unloaded _ H). exact E. }
  destruct EB as (b & Eb). destruct (C55_constrained_strain_has_a_solution h m per bc dms b HG HC HS HD HN HT) as (x & y & Ex & Sx).
  - exists (d, false). split; [apply in_sides, Hd|]. split; [exact Hp|]. intros c Hc. exact (HA (d, false) c (in_sides d false _ Hd) Hp Hc).
  - exists b, x, y. auto.
Qed.
Lemma small_strain h M N c s : (forall i, (i < length h)%nat -> 0 < co i h <= s) -> Rabs (strain_error h M N c) <= s ^ 2 * (Rsum (length h) (fun j => Rsum (length h) (fun i => Rabs (M j i) / 6)) + Rsum (length h) (fun j => Rsum (length h) (fun i => Rabs (M c i) + Rabs (N j i)))).
Proof.
  intros H. unfold strain_error. eapply Rle_trans; [apply Rabs_triang|]. rewrite Rmult_plus_distr_l. apply Rplus_le_compat; [apply small_lap, H|].
  eapply Rle_trans; [apply Rsum_Rabs|]. rewrite <- Rsum_scal. apply Rsum_le. intros j Hj. eapply Rle_trans; [apply Rsum_Rabs|]. rewrite <- Rsum_scal. apply Rsum_le. intros i Hi. specialize (H i Hi).
  assert (P : co i h ^ 2 <= s ^ 2) by (apply pow_incr; lra). pose proof (pow2_ge_0 (co i h)) as P0. pose proof (Rabs_pos (M c i)) as PM. pose proof (Rabs_pos (N j i)) as PN.
  assert (G : forall k q, 1 <= k -> Rabs (co i h ^ 2 / k * q) <= s ^ 2 * Rabs q).
  { intros k q Hk. rewrite Rabs_mult, Rabs_right; [apply Rmult_le_compat_r; [apply Rabs_pos|]|apply Rle_ge, Rmult_le_pos; [exact P0|apply Rlt_le, Rinv_0_lt_compat; lra]].
    apply Rle_trans with (co i h ^ 2); [|exact P]. rewrite <- (Rmult_1_r (co i h ^ 2)) at 2. apply Rmult_le_compat_l; [exact P0|]. rewrite <- Rinv_1. apply Rinv_le_contravar; lra. }
  destruct (Nat.eqb j c).
  - eapply Rle_trans; [apply G; destruct (Nat.eqb i c); lra|]. apply Rmult_le_compat_l; [apply pow2_ge_0|lra].
  - eapply Rle_trans; [apply G; destruct (Nat.eqb i j || Nat.eqb i c)%bool; lra|]. apply Rmult_le_compat_l; [apply pow2_ge_0|lra].
Qed.
(** For steps at most s: errors of order s^2, uniformly, with a constant that depends on the size of the box and on the derivatives only. *)
Theorem C89_second_order : forall D L M N K, (D = 2 \/ D = 3)%nat -> exists C, forall h m dms bc conds (u f : nat -> vec -> R) b x y Ns s, let per := closed_box m in
  length m = D -> grid_ok m per -> has_cells m per -> steps_ok h m -> distributes m per D dms -> nonempty_views dms -> table_ok D D bc -> all_conditions D D per bc -> length conds = D ->
  (forall d, (d < D)%nat -> distance h m d <= L) -> Forall (fun hi => hi <= s) h ->
  strain_problem h m bc conds u f -> smooth_strain_problem h m u f M N K ->
  setup_RHS D conds (map Some bc) h dms zero_field = Ok b ->
  diag_block_matrix (strain_tensor_mult h) D (Some (map Some bc)) dms x = Ok y -> same_field m D y b -> enumerates Ns (nodes_box m) ->
  Lsum (fun n => Rsum D (fun c => (x n c - u c (grid_point h n)) ^ 2)) Ns <= INR (length Ns) * (C * s ^ 2) ^ 2.
Proof.
  intros D L M N K D23. set (G := fun c => Rsum D (fun j => Rsum D (fun i => Rabs (M c j i) / 6)) + Rsum D (fun j => Rsum D (fun i => Rabs (M c c i) + Rabs (N c j i))) + Rsum D (fun i => Rabs (K c i) / 6)).
  set (k := strain_stability D * L ^ 2). assert (K0 : 0 <= k) by (unfold k; pose proof (pow2_ge_0 L); apply Rmult_le_pos; [unfold strain_stability; destruct D as [|[|[|]]]; lra|assumption]).
  assert (GP : forall c, 0 <= G c).
  { intros c. unfold G. repeat apply Rplus_le_le_0_compat; repeat (apply P_Energy.Rsum_nonneg; intros); match goal with |- 0 <= Rabs ?a / 6 => pose proof (Rabs_pos a); lra | |- 0 <= Rabs ?a + Rabs ?b => pose proof (Rabs_pos a); pose proof (Rabs_pos b); lra end. }
  exists (Rsum D (fun c => k * G c)).
  intros h m dms bc conds u f b x y Ns s per <- HG HC HS HD HN HT HA HLc HL Hs HP HM Eb Ey Hyb EN.
  eapply Rle_trans; [exact (C89_error h m dms bc conds u f b x y L M N K Ns HG HC HS HD HN HT HA HLc HL HP HM Eb Ey Hyb EN)|]. apply Rmult_le_compat_l; [apply pos_INR|]. fold k.
  assert (Hh : forall i, (i < length h)%nat -> 0 < co i h <= s). { intros i Hi. split; [apply (pos_co h m HS i Hi)|]. pose proof (proj1 (Forall_nth _ _) Hs i 0 Hi) as Q. exact Q. }
  assert (BE : forall c, Rabs (strain_residual h M N K c) <= s ^ 2 * G c).
  { intros c. pose proof (small_strain h (M c) (N c) c s Hh) as B1. pose proof (small_mass h (K c) s Hh) as B2. rewrite (proj1 HS) in B1, B2. unfold strain_residual, G. eapply Rle_trans; [apply Rabs_triang|]. rewrite Rmult_plus_distr_l. lra. }
  assert (SQ : forall n (a : nat -> R), (forall c, 0 <= a c) -> 0 <= Rsum n a /\ Rsum n (fun c => a c ^ 2) <= Rsum n a ^ 2).
  { intros n a Ha. induction n as [|n [I1 I2]]; cbn [Rsum]; [split; [lra|cbn; lra]|]. specialize (Ha n). split; [lra|]. replace ((Rsum n a + a n) ^ 2) with (Rsum n a ^ 2 + a n ^ 2 + 2 * (Rsum n a * a n)) by ring. pose proof (Rmult_le_pos _ _ I1 Ha). lra. }
  apply Rle_trans with (Rsum (length m) (fun c => (k * G c * s ^ 2) ^ 2)).
  - apply Rsum_le. intros c _. rewrite <- (pow2_abs (k * _)). apply pow_incr. split; [apply Rabs_pos|]. rewrite Rabs_mult, (Rabs_right k) by lra. replace (k * G c * s ^ 2) with (k * (s ^ 2 * G c)) by ring. apply Rmult_le_compat_l; [exact K0|apply BE].
  - assert (P : forall c, 0 <= k * G c * s ^ 2) by (intros c; apply Rmult_le_pos; [apply Rmult_le_pos; auto|apply pow2_ge_0]). eapply Rle_trans; [apply (proj2 (SQ (length m) _ P))|]. apply Req_le. f_equal. rewrite (Rsum_ext _ _ (fun c => s ^ 2 * (k * G c))) by (intros; ring). rewrite Rsum_scal. ring.
Qed.
(** ** the hypotheses are met: (x^4, x^3 y), with the force (- 27 x^2, - 6 x y), on a grid of 5 x 5 nodes with walls all around *)
Definition ex_force (c : nat) (X : vec) : R := match c with O => -27 * co 0 X ^ 2 | S O => -6 * (co 0 X * co 1 X) | _ => 0 end.
Definition ex_M (c : nat) : nat -> nat -> R := match c with O => quartic_bound | _ => fun _ _ => 0 end.
Definition ex_N (c _ : nat) : nat -> R := match c with O => ex_bound | _ => fun _ => 0 end.
Definition ex_K (c i : nat) : R := match c with O => Rabs (-27) * square_bound i | _ => 0 end.
Lemma D_line a b x : Derive (fun t => a * t + b) x = a.
Proof. apply is_derive_unique. auto_derive; [exact I|ring]. Qed.
Lemma bends_line f X i a b : (forall t, f (moved X i t) = a * t + b) -> bends f X i 0.
Proof.
  intros H. unfold bends. cbv zeta. assert (E : (fun t => f (moved X i t)) = fun t => a * t + b) by (apply functional_extensionality; exact H). rewrite E.
  assert (E2 : Derive (fun t => a * t + b) = fun _ => a) by (apply functional_extensionality; intros t; apply D_line). rewrite E2, Derive_const, Rabs_R0. split; [auto_derive; exact I|]. split; [apply ex_derive_const|lra].
Qed.
Lemma ex_second1 a b j : (j < 2)%nat -> twice_derivable (ex_flow 1) j [a; b] /\ second (ex_flow 1) j [a; b] = if Nat.eqb j 0 then 6 * a * b else 0.
Proof.
  intros Hj. unfold twice_derivable, second. cbv zeta. destruct j as [|[|j]]; [| |lia]; unfold ex_flow, co, moved; cbn [nth firstn skipn app Nat.eqb].
  - assert (E : Derive (fun t => t ^ 3 * b) = fun t => 3 * t ^ 2 * b) by (apply functional_extensionality; intros t; apply is_derive_unique; auto_derive; [exact I|ring]). rewrite E. repeat split; [auto_derive; exact I|auto_derive; exact I|]. apply is_derive_unique. auto_derive; [exact I|ring].
  - assert (E : Derive (fun t => a ^ 3 * t) = fun _ => a ^ 3) by (apply functional_extensionality; intros t; apply is_derive_unique; auto_derive; [exact I|ring]). rewrite E. repeat split; [auto_derive; exact I|apply ex_derive_const|apply Derive_const].
Qed.
Lemma ex_smooth4 h X : length h = 2%nat -> smooth4 (ex_flow 1) h X (fun _ _ => 0).
Proof.
  intros L Y i j [LY _] Hi Hj. rewrite L in *. destruct Y as [|a [|b [|]]]; try (cbn in LY; lia). split; [apply ex_second1, Hj|].
  apply (bends_ext _ (fun Y => if Nat.eqb j 0 then 6 * co 0 Y * co 1 Y else 0) h); [|rewrite L; reflexivity|lia|].
  - intros Z LZ. rewrite L in LZ. destruct Z as [|p [|q [|]]]; try (cbn in LZ; lia). apply (ex_second1 p q j Hj).
  - destruct i as [|[|i]]; [| |lia]; destruct (Nat.eqb j 0).
    + apply (bends_line _ _ _ (6 * b) 0). intros t. unfold co, moved. cbn [nth firstn skipn app]. ring.
    + apply (bends_line _ _ _ 0 0). intros t. ring.
    + apply (bends_line _ _ _ (6 * a) 0). intros t. unfold co, moved. cbn [nth firstn skipn app]. ring.
    + apply (bends_line _ _ _ 0 0). intros t. ring.
Qed.
Lemma ex_first0 a b : first (ex_flow 0) 0 [a; b] = 4 * a ^ 3.
Proof. unfold first, ex_flow, co, moved. cbn [nth firstn skipn app]. apply is_derive_unique. auto_derive; [exact I|ring]. Qed.
Lemma ex_first01 a b : first (first (ex_flow 0) 0) 1 [a; b] = 0.
Proof. unfold first at 1, co, moved. cbn [nth firstn skipn app]. assert (E : (fun t => first (ex_flow 0) 0 [a; t]) = fun _ => 4 * a ^ 3) by (apply functional_extensionality; intros t; apply ex_first0). rewrite E. apply Derive_const. Qed.
Lemma ex_mixed1 h X : length h = 2%nat -> smooth_mixed (ex_flow 0) h X 0 1 (fun _ => 0).
Proof.
  intros L Y [LY _]. destruct Y as [|a [|b [|]]]; try (cbn in LY; lia). split; [|split].
  - unfold ex_flow, co, moved. cbn [nth firstn skipn app]. auto_derive. exact I.
  - unfold co, moved. cbn [nth firstn skipn app]. apply (ex_derive_ext (fun _ => 4 * a ^ 3)); [intros t; symmetry; apply ex_first0|apply ex_derive_const].
  - intros k Hk. apply (bends_line _ _ _ 0 0). intros t. destruct k as [|[|k]]; [| |lia]; unfold moved; cbn [firstn skipn app]; rewrite ex_first01; ring.
Qed.
Lemma ex_force_is a b c : (c < 2)%nat -> minus_div_strain ex_flow 2 c [a; b] = ex_force c [a; b].
Proof.
  intros Hc. unfold minus_div_strain. cbn [Rsum]. destruct c as [|[|c]]; [| |lia]; cbn [ex_force].
  - rewrite first_first by (cbn; lia). rewrite ex_second. change (ex_flow 0) with (fun X => co 0 X ^ 4). rewrite !(second_power 2) by (cbn; lia). unfold co. cbn [Nat.eqb nth INR]. ring.
  - rewrite ex_first01. rewrite first_first by (cbn; lia). rewrite (proj2 (ex_second1 a b 0 ltac:(lia))), !(proj2 (ex_second1 a b 1 ltac:(lia))). unfold co. cbn [Nat.eqb nth]. ring.
Qed.
Example C89_example : let h := [1 / 4; 1 / 4] in let m := [5; 5]%Z in let bc := repeat [Some (ex_flow 0); Some (ex_flow 1)] 4 in let conds := [Some (ex_force 0); Some (ex_force 1)] in
  grid_ok m (closed_box m) /\ has_cells m (closed_box m) /\ steps_ok h m /\ table_ok 2 2 bc /\ all_conditions 2 2 (closed_box m) bc /\ (forall d, (d < 2)%nat -> distance h m d <= 1) /\
  strain_problem h m bc conds ex_flow ex_force /\ smooth_strain_problem h m ex_flow ex_force ex_M ex_N ex_K /\ interior m (closed_box m) [2; 2]%Z /\ 0 < strain_residual h ex_M ex_N ex_K 0.
Proof.
  cbv zeta. split; [repeat constructor; cbn; lia|]. split; [constructor; [right; lia|constructor; [right; lia|constructor]]|]. split; [repeat constructor; lra|]. split; [split; [reflexivity|repeat constructor]|].
  split; [intros s [|[|c]] Hs _ Hc; [| |lia]; cbn in Hs; destruct Hs as [<-|[<-|[<-|[<-|[]]]]]; discriminate|]. split; [intros [|[|d]] Hd; [| |lia]; unfold distance; cbn; lra|].
  split; [split; [|split]|split; [|split]].
  - intros [|[|[|c]]] X; reflexivity.
  - intros c n s g Hc _ Hs _ Hg. cbn in Hs. destruct c as [|[|c]]; [| |cbn in Hc; lia]; destruct Hs as [<-|[<-|[<-|[<-|[]]]]]; cbn in Hg; injection Hg as <-; reflexivity.
  - intros c n Hc [Ln _]. destruct n as [|n0 [|n1 [|]]]; try discriminate Ln. apply ex_force_is, Hc.
  - intros c n Hc HI. cbv zeta. destruct c as [|[|c]]; [| |cbn in Hc; lia].
    + split; [apply quartic_smooth; cbn; lia|]. split; [intros j Hj Nj; replace j with 1%nat by (cbn in Hj; lia); apply ex_mixed; reflexivity|]. intros Y i HY Hi. apply bends_scal. apply (square_smooth [1 / 4; 1 / 4] (grid_point [1 / 4; 1 / 4] n)); auto.
    + split; [apply ex_smooth4; reflexivity|]. split; [intros j Hj Nj; replace j with 0%nat by (cbn in Hj; lia); apply ex_mixed1; reflexivity|].
      intros Y i [LY _] Hi. cbn in LY, Hi. destruct Y as [|a [|b [|]]]; try (cbn in LY; lia). destruct i as [|[|i]]; [| |lia].
      * apply (bends_line _ _ _ (-6 * b) 0). intros t. unfold ex_force, co, moved. cbn [nth firstn skipn app]. ring.
      * apply (bends_line _ _ _ (-6 * a) 0). intros t. unfold ex_force, co, moved. cbn [nth firstn skipn app]. ring.
  - split; [reflexivity|intros [|[|d]] Hd; cbn in *; lia].
  - unfold strain_residual, strain_error, laplacian_error, mass_error, ex_M, ex_N, ex_K, quartic_bound, ex_bound, square_bound, co. cbn [Rsum length Nat.eqb andb orb nth]. rewrite Rabs_left by lra. lra.
Qed.
(** a shear flow along a channel: (0, x^4), with the force (0, - 12 x^2), walls on the sides of the first axis, the second periodic *)
Definition channel (c : nat) (X : vec) : R := match c with S O => co 0 X ^ 4 | _ => 0 end.
Definition channel_force (c : nat) (X : vec) : R := match c with S O => -12 * co 0 X ^ 2 | _ => 0 end.
Definition channel_M (c : nat) : nat -> nat -> R := match c with S O => quartic_bound | _ => fun _ _ => 0 end.
Definition channel_K (c i : nat) : R := match c with S O => Rabs (-12) * square_bound i | _ => 0 end.
Lemma first_zero j X : first (fun _ => 0) j X = 0. Proof. unfold first. apply (Derive_const 0). Qed.
Lemma first_null f j X : (forall Y, length Y = length X -> f Y = 0) -> (j < length X)%nat -> first f j X = 0.
Proof. intros H Hj. unfold first. rewrite <- (Derive_const 0 (co j X)). apply Derive_ext. intros t. apply H. rewrite length_moved by exact Hj. reflexivity. Qed.
Lemma channel_first1 Y : length Y = 2%nat -> first (channel 1) 1 Y = 0.
Proof. intros L. destruct Y as [|a [|b [|]]]; try discriminate L. unfold first, channel, co, moved. cbn [nth firstn skipn app]. apply Derive_const. Qed.
Lemma channel_eq X c : length X = 2%nat -> (c < 2)%nat -> minus_div_strain channel 2 c X = channel_force c X.
Proof.
  intros L Hc. unfold minus_div_strain. cbn [Rsum]. change (channel 0) with (fun _ : vec => 0).
  assert (Z0 : forall j : nat, (j < 2)%nat -> first (first (fun _ : vec => 0) 0) j X = 0) by (intros j Hj; apply first_null; [intros; apply first_zero|lia]).
  assert (Z1 : forall j : nat, (j < 2)%nat -> first (first (channel 1) 1) j X = 0) by (intros j Hj; apply first_null; [intros Y LY; apply channel_first1; lia|lia]).
  rewrite Z0, Z1 by exact Hc. destruct c as [|[|c]]; [| |lia]; cbn [channel_force].
  - assert (S0 : forall j, (j < 2)%nat -> second (fun _ : vec => 0) j X = 0) by (intros j Hj; rewrite <- first_first by lia; apply first_null; [intros; apply first_zero|lia]).
    change (channel 0) with (fun _ : vec => 0). rewrite !S0 by lia. ring.
  - change (channel 1) with (fun X => co 0 X ^ 4). rewrite !(second_power 2) by lia. cbn [Nat.eqb INR]. ring.
Qed.
Lemma zero_bends f (h X : vec) i : length X = length h -> (i < length h)%nat -> (forall Y, length Y = length h -> f Y = 0) -> bends f X i 0.
Proof. intros L Hi H. apply (bends_line _ _ _ 0 0). intros t. rewrite H by (rewrite length_moved; lia). ring. Qed.
Example C89_channel_example : let h := [1 / 4; 1 / 4] in let m := [5; 4]%Z in let per := [false; true] in let bc := repeat [Some (channel 0); Some (channel 1)] 4 in let conds := [None; Some (channel_force 1)] in
  grid_ok m per /\ has_cells m per /\ steps_ok h m /\ table_ok 2 2 bc /\ all_conditions 2 2 per bc /\ distance h m 0 = 1 /\
  strain_problem_in h m per bc conds channel channel_force /\ smooth_strain_problem_in h m per channel channel_force channel_M (fun _ _ _ => 0) channel_K /\ interior m per [2; 0]%Z /\ 0 < strain_residual h channel_M (fun _ _ _ => 0) channel_K 1.
Proof.
  cbv zeta. split; [repeat constructor; cbn; lia|]. split; [constructor; [right; lia|constructor; [left; reflexivity|constructor]]|]. split; [repeat constructor; lra|]. split; [split; [reflexivity|repeat constructor]|].
  split; [intros s [|[|c]] Hs _ Hc; [| |lia]; cbn in Hs; destruct Hs as [<-|[<-|[<-|[<-|[]]]]]; discriminate|]. split; [unfold distance; cbn; lra|].
  assert (PER : forall (g : vec -> R) (q : R -> R) (n : list Z) (c : nat), (forall a b, g [a; b] = q a) -> interior [5; 4]%Z [false; true] n -> samples_near g [5; 4]%Z [false; true] [1 / 4; 1 / 4] (fun n _ => g (grid_point [1 / 4; 1 / 4] n)) n c).
  { intros g q n c HQ [Ln _] o Lo _. destruct n as [|n0 [|n1 [|]]]; try discriminate Ln. destruct o as [|o0 [|o1 [|]]]; try discriminate Lo. cbn [zip_with wrap]. unfold grid_point. cbn [zip_with]. rewrite !HQ. reflexivity. }
  split; [split; [|split; [|split]]|split; [|split]].
  - intros [|[|[|c]]] X; reflexivity.
  - intros c n s g Hc _ Hs _ Hg. cbn in Hs. destruct c as [|[|c]]; [| |cbn in Hc; lia]; destruct Hs as [<-|[<-|[<-|[<-|[]]]]]; cbn in Hg; injection Hg as <-; reflexivity.
  - intros c n Hc [Ln _]. destruct n as [|n0 [|n1 [|]]]; try discriminate Ln. apply channel_eq; [reflexivity|exact Hc].
  - intros c n Hc HI. destruct c as [|[|c]]; [| |cbn in Hc; lia]; split.
    + exact (PER (channel 0) (fun _ => 0) n 0%nat (fun a b => eq_refl) HI).
    + exact (PER (channel_force 0) (fun _ => 0) n 0%nat (fun a b => eq_refl) HI).
    + exact (PER (channel 1) (fun a => a ^ 4) n 1%nat (fun a b => eq_refl) HI).
    + exact (PER (channel_force 1) (fun a => -12 * a ^ 2) n 1%nat (fun a b => eq_refl) HI).
  - intros c n Hc HI. cbv zeta. destruct c as [|[|c]]; [| |cbn in Hc; lia].
    + split; [|split].
      * intros Y i j [LY _] Hi Hj. split; [split; [apply (ex_derive_const 0)|]|].
        -- assert (E : Derive (fun t => channel 0 (moved Y j t)) = fun _ => 0) by (apply functional_extensionality; intros t; apply (Derive_const 0)). rewrite E. apply ex_derive_const.
        -- apply (zero_bends _ [1 / 4; 1 / 4]); auto. intros Z LZ. rewrite <- first_first by lia. apply first_null; [intros; apply first_zero|lia].
      * intros j Hj Nj. replace j with 1%nat by (cbn in Hj; lia). intros Y [LY _]. cbn in LY. destruct Y as [|a [|b [|]]]; try (cbn in LY; lia). split; [|split].
        -- unfold channel, co, moved. cbn [nth firstn skipn app]. apply ex_derive_const.
        -- unfold co, moved. cbn [nth firstn skipn app]. apply (ex_derive_ext (fun _ => 0)); [intros t; symmetry; apply channel_first1; reflexivity|apply ex_derive_const].
        -- intros k Hk. apply (zero_bends _ [1 / 4; 1 / 4]); auto. intros Z LZ. apply first_null; [intros V LV; apply channel_first1; cbn in *; lia|cbn in *; lia].
      * intros Y i [LY _] Hi. apply (zero_bends _ [1 / 4; 1 / 4]); auto.
    + split; [apply quartic_smooth; cbn; lia|]. split.
      * intros j Hj Nj. replace j with 0%nat by (cbn in Hj; lia). intros Y [LY _]. split; [apply (ex_derive_const 0)|split].
        -- apply (ex_derive_ext (fun _ => 0)); [intros t; symmetry; apply first_zero|apply ex_derive_const].
        -- intros k Hk. apply (zero_bends _ [1 / 4; 1 / 4]); auto. intros Z LZ. apply first_null; [intros; apply first_zero|cbn in *; lia].
      * intros Y i HY Hi. apply bends_scal. apply (square_smooth [1 / 4; 1 / 4] (grid_point [1 / 4; 1 / 4] n)); auto. cbn; lia.
  - split; [reflexivity|intros [|[|d]] Hd; cbn in *; lia].
  - unfold strain_residual, strain_error, laplacian_error, mass_error, channel_M, channel_K, quartic_bound, square_bound, co. cbn [Rsum length Nat.eqb andb orb nth]. rewrite Rabs_left by lra. lra.
Qed.
Close Scope R_scope.
