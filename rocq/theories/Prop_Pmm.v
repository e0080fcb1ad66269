(** C80: the block preconditioner of the option pmm. *)
From Coq Require Import FunctionalExtensionality Permutation.
From Coquelicot Require Import Coquelicot.
From Verif Require Import Base M_Geometry S_Geometry P_Geometry M_Particle S_Particle P_Particle M_Quadrature S_Fem P_Energy M_MatElem P_MatElem M_Mesh M_Operator S_Operator P_Mesh P_Operator P_Operator2 P_Operator3 P_Global P_Stokes P_LinAlg M_Bc S_Bc P_Bc P_Constant P_Diag Prop_Operator Prop_Operator2 Prop_WellPosed Prop_Assembly Prop_Assembly2 P_CreateMesh Prop_StokesUnique Prop_Dissipation.
From Verif Require Import P_Precond P_QuadTab P_Div M_Precond Prop_Precond.
From Verif Require Import M_Pmm.
Local Open Scope R_scope.

Lemma shell_is_bc_op strain hp D bc dms v p : stokes_shell strain hp D (map Some bc) dms v p = bc_op strain (half_steps hp) D bc dms v p.
Proof. unfold stokes_shell, bc_op, visc_mult. reflexivity. Qed.
Section Pmm.
  Variables (strain : bool) (hp : list R) (mp : list Z) (per : list bool) (bc : list bc_row) (dms : list (dmda * dmda)).
  Let D := length mp. Let mv := refined_size mp per. Let hu := half_steps hp.
  Hypothesis HG : grid_ok mp per.
  Hypothesis HC : has_cells mp per.
  Hypothesis Hh : steps_ok hp mp.
  Hypothesis HS : stokes_layout mp per D dms.
  Hypothesis HN : nonempty_views (map fst dms).
  Hypothesis HT : table_ok D D bc.
  Lemma diag_defined : exists dv d, precond_diag hp dms = Ok (dv, d) /\ (forall n, in_grid_box (nodes_box mp) n -> 0 < d n 0%nat) /\
    forall d0 x y, diag_block_matrix (mass_mult hp) d0 None (map snd dms) x = Ok y -> inner (N0 mp) 1 y x <= (3 / 2) ^ D * inner (N0 mp) 1 d (sq x).
  Proof.
    destruct (C71_pressure_jacobi hp mp per dms 0%nat zero_field HG HC Hh HS) as (dv & d & y & E & _ & P & _). exists dv, d. split; [exact E|]. split; [exact P|].
    intros d0 x y' Ey. destruct (C71_pressure_jacobi hp mp per dms d0 x HG HC Hh HS) as (dv' & d' & y2 & E' & Ey' & _ & B). rewrite E in E'. injection E' as <- <-. rewrite Ey in Ey'. injection Ey' as <-. apply (B _ (N0_enum _)).
  Qed.
  (** velocity rows: A11 v + A01 p are those of the operator itself *)
  Lemma rows_split v p : exists av ap gv gp yv g, precond strain hp D (map Some bc) dms v p = Ok (av, ap) /\ stokes_shell strain hp D (map Some bc) dms (fun _ _ => 0) p = Ok (gv, gp) /\ stokes_shell strain hp D (map Some bc) dms v p = Ok (yv, g) /\
    same_field mv D yv (fun n c => av n c + gv n c).
  Proof.
    destruct (pc_split strain hp mp per bc dms HG HS HN HT v p) as (av & ap & E & Ev & _).
    pose proof (ref_len mp per HG) as LE. fold mv D in LE. assert (HDv : distributes mv per (length mv) (map fst dms)) by (rewrite LE; apply HS). assert (HTv : table_ok (length mv) (length mv) bc) by (rewrite LE; exact HT).
    destruct (visc_bc strain hu mv per bc (map fst dms) (refined_grid mp per HG) HDv HN HTv v) as (r & y' & Ey & V & W). fold mv hu in Ev. rewrite Ev in Ey. injection Ey as <-. rewrite LE in V, W.
    destruct (op_of strain hu mp per bc dms HG HS HN HT (fun _ _ => 0) p) as (r0 & rp0 & yv0 & _ & E0 & V0 & W0 & _). fold D in E0, V0, W0. fold mv in V0, W0.
    destruct (op_of strain hu mp per bc dms HG HS HN HT v p) as (rv & rp & zv & _ & E2 & V2 & W2 & _). fold D in E2, V2, W2. fold mv in V2, W2.
    exists av, ap, yv0, rp0, zv, rp. split; [exact E|]. split; [rewrite shell_is_bc_op; exact E0|]. split; [rewrite shell_is_bc_op; exact E2|].
    assert (K : same_field mv D rv (lin 1 1 r r0)). { apply same_field_weak. intros w. change (fun _ _ => 0) with zero_field in W0. rewrite inner_lin, W, W0, W2, aform_zero. ring. }
    intros n c Hn Hc. rewrite (V2 n c Hn Hc), (V n c Hn Hc), (V0 n c Hn Hc). destruct (prescribed D mv per bc n c); [ring|]. rewrite (K n c Hn Hc). unfold lin. ring.
  Qed.
  (** what one application returns *)
  Lemma pmm_iff rv rp yv yp yv' g d dv : precond_diag hp dms = Ok (dv, d) -> stokes_shell strain hp D (map Some bc) dms yv yp = Ok (yv', g) ->
    (pmm_apply strain hp D (map Some bc) dms mv mp rv rp yv yp <-> same_field mp 1 yp (fun n c => rp n c / d n c) /\ same_field mv D yv' rv).
  Proof.
    intros Ed Ey. destruct (rows_split yv yp) as (av & ap & gv & gp & yv2 & g2 & E1 & E2 & E3 & S). rewrite Ey in E3. injection E3 as <- <-. unfold pmm_apply, pmm_pressure, pmm_rhs. rewrite Ed, E2. cbn [bind fst snd]. split.
    - intros (yp0 & f & av' & ap' & Hp & Sp & Ef & Ea & Sf). injection Hp as <-. injection Ef as <-. rewrite E1 in Ea. injection Ea as <- <-. split; [exact Sp|]. intros n c Hn Hc. rewrite (S n c Hn Hc), (Sf n c Hn Hc). ring.
    - intros (Sp & Sr). exists (fun n c => rp n c / d n c), (fun n c => rv n c - gv n c), av, ap. split; [reflexivity|]. split; [exact Sp|]. split; [reflexivity|]. split; [exact E1|]. intros n c Hn Hc. rewrite <- (Sr n c Hn Hc), (S n c Hn Hc). ring.
  Qed.
  Let b := div_form mv mp per (E0 mp per) D (getMatElemPressure hu).
  Let a := aform strain hu mv per D.
  (** the operator depends on the values at the nodes only *)
  Lemma b_ext q q' w : same_field mp 1 q q' -> b q w = b q' w.
  Proof.
    intros S. destruct (op_of strain hu mp per bc dms HG HS HN HT w zero_field) as (rv & rp & yv & _ & _ & _ & _ & Q). fold D mv b in Q. rewrite <- (Q q), <- (Q q'). apply Lsum_ext. intros n Hn. apply N0_enum in Hn. cbn [Rsum]. rewrite (S n 0%nat Hn ltac:(lia)). reflexivity.
  Qed.
  Lemma shell_ext_p v p p' yv g yv' g' : same_field mp 1 p p' -> bc_op strain hu D bc dms v p = Ok (yv, g) -> bc_op strain hu D bc dms v p' = Ok (yv', g') -> same_field mv D yv yv' /\ same_field mp 1 g g'.
  Proof.
    intros S E E'. destruct (op_of strain hu mp per bc dms HG HS HN HT v p) as (rv & rp & zv & _ & E2 & V2 & W2 & Q2). fold D in E2, V2, W2, Q2. fold mv in V2, W2, Q2. rewrite E in E2. injection E2 as <- <-.
    destruct (op_of strain hu mp per bc dms HG HS HN HT v p') as (rv' & rp' & zv' & _ & E2' & V2' & W2' & Q2'). fold D in E2', V2', W2', Q2'. fold mv in V2', W2', Q2'. rewrite E' in E2'. injection E2' as <- <-.
    split; [|apply same_field_weak; intros q; rewrite Q2, Q2'; reflexivity].
    assert (K : same_field mv D rv rv'). { apply same_field_weak. intros w. rewrite W2, W2'. fold b. rewrite (b_ext p p' w S). reflexivity. }
    intros n c Hn Hc. rewrite (V2 n c Hn Hc), (V2' n c Hn Hc). destruct (prescribed D mv per bc n c); [reflexivity|apply K; assumption].
  Qed.
  Lemma a_ext w z z' : same_field mv D z z' -> a w z = a w z'.
  Proof.
    intros S. pose proof (a_sym strain hu mp per HG (half_ok hp mp Hh)) as SY. fold D mv a in SY. rewrite (SY w z), (SY w z').
    destruct (op_of strain hu mp per bc dms HG HS HN HT w zero_field) as (rv & rp & yv & _ & _ & _ & W & _). fold D mv a b in W. pose proof (W z) as W1. pose proof (W z') as W2. unfold b in W1, W2. rewrite (b_zero_l hu mp per) in W1, W2. rewrite Rminus_0_r in W1, W2. rewrite <- W1, <- W2. apply Lsum_ext. intros n Hn. apply N0_enum in Hn. apply Rsum_ext. intros c Hc. rewrite (S n c Hn Hc). reflexivity.
  Qed.
  Lemma op_linear k k' v1 p1 v2 p2 z q y1 g1 y2 g2 y g : bc_op strain hu D bc dms v1 p1 = Ok (y1, g1) -> bc_op strain hu D bc dms v2 p2 = Ok (y2, g2) -> bc_op strain hu D bc dms z q = Ok (y, g) ->
    same_field mv D z (lin k k' v1 v2) -> same_field mp 1 q (lin k k' p1 p2) -> same_field mv D y (lin k k' y1 y2).
  Proof.
    intros E1 E2 E Sz Sq.
    destruct (op_of strain hu mp per bc dms HG HS HN HT v1 p1) as (r1 & h1 & u1 & _ & F1 & V1 & W1 & _). fold D in F1, V1, W1. fold mv in V1, W1. fold a b in W1. rewrite E1 in F1. injection F1 as <- <-.
    destruct (op_of strain hu mp per bc dms HG HS HN HT v2 p2) as (r2 & h2 & u2 & _ & F2 & V2 & W2 & _). fold D in F2, V2, W2. fold mv in V2, W2. fold a b in W2. rewrite E2 in F2. injection F2 as <- <-.
    destruct (op_of strain hu mp per bc dms HG HS HN HT z q) as (r & h & u & _ & F & V & W & _). fold D in F, V, W. fold mv in V, W. fold a b in W. rewrite E in F. injection F as <- <-.
    assert (K : same_field mv D r (lin k k' r1 r2)). { apply same_field_weak. intros w. rewrite inner_lin, W, W1, W2, (a_ext w _ _ Sz), (b_ext _ _ w Sq). unfold a, b. rewrite aform_lin, div_form_lin_q. ring. }
    intros n c Hn Hc. unfold lin. rewrite (V n c Hn Hc), (V1 n c Hn Hc), (V2 n c Hn Hc). destruct (prescribed D mv per bc n c); [apply Sz; assumption|apply K; assumption].
  Qed.
  (** an equilibrium: the velocity rows vanish *)
  Lemma equilibrium v p yv g : bc_op strain hu D bc dms v p = Ok (yv, g) -> same_field mv D yv zero_field ->
    takes mp per bc zero_field v /\ (forall w, takes mp per bc zero_field w -> a w v = b p w) /\ forall q, inner (N0 mp) 1 g q = b q v.
  Proof.
    intros E Zy. destruct (op_of strain hu mp per bc dms HG HS HN HT v p) as (rv & rp & yv' & E1 & E2 & V & W & Q). fold D in E2, V, W, Q. fold mv in V, W, Q. rewrite E in E2. injection E2 as <- <-. fold a b in W. fold b in Q.
    assert (Tv : takes mp per bc zero_field v). { intros n c Hn Hc HP. fold mv in Hn, HP. fold D in Hc, HP. rewrite <- (Zy n c Hn Hc), (V n c Hn Hc). destruct (prescribed D mv per bc n c); congruence. }
    split; [exact Tv|]. split; [|exact Q].
    intros w Hw. apply Rminus_diag_uniq. rewrite <- W. unfold inner. apply Lsum_all_zero. intros n Hn. apply N0_enum in Hn. etransitivity; [|apply Rsum_zero]. apply Rsum_ext. intros c Hc. specialize (Zy n c Hn Hc). rewrite (V n c Hn Hc) in Zy. destruct (prescribed D mv per bc n c) eqn:P; [rewrite (Hw n c Hn Hc) by (fold D mv; congruence); unfold zero_field; ring|rewrite Zy; unfold zero_field; ring].
  Qed.
  Lemma zero_velocity v p yv g : held strain D mv per bc -> bc_op strain hu D bc dms v p = Ok (yv, g) -> same_field mv D yv zero_field -> inner (N0 mp) 1 g p = 0 -> same_field mv D v zero_field.
  Proof.
    intros HH E Zy Z. destruct (equilibrium v p yv g E Zy) as (Tv & FR & Q). pose proof (ref_len mp per HG) as LE. fold mv D in LE. rewrite <- LE.
    apply (aform_definite strain hu mv per bc); auto; [apply refined_grid, HG|apply refined_cells, HC|apply huv; assumption|rewrite LE; exact HH| |rewrite LE; fold a; rewrite (FR v Tv), <- Q; exact Z].
    intros n c Hn Hc HP. rewrite LE in Hc, HP. rewrite (Tv n c Hn Hc HP). reflexivity.
  Qed.
  Lemma sq_zero d x : (forall n, in_grid_box (nodes_box mp) n -> 0 < d n 0%nat) -> inner (N0 mp) 1 d (sq x) <= 0 -> same_field mp 1 x zero_field.
  Proof.
    intros Pd H. assert (F : forall n, In n (N0 mp) -> 0 <= Rsum 1 (fun c => d n c * sq x n c)). { intros n Hn. apply N0_enum in Hn. cbn [Rsum]. unfold sq. specialize (Pd n Hn). pose proof (pow2_ge_0 (x n 0%nat)). nra. }
    intros n c Hn Hc. replace c with 0%nat by lia. unfold zero_field. unfold inner in H.
    assert (In n (N0 mp)) as Hin by (apply N0_enum, Hn). revert F H Hin. generalize (N0 mp) as l. induction l as [|m l IH]; intros F H Hin; [destruct Hin|]. cbn [Lsum] in H.
    assert (G : 0 <= Lsum (fun n0 => Rsum 1 (fun d0 => d n0 d0 * sq x n0 d0)) l) by (apply Lsum_nonneg; intros; apply F; right; assumption). pose proof (F m (or_introl eq_refl)) as Fm.
    destruct Hin as [->|Hin]; [|apply IH; [intros; apply F; right; assumption|unfold Lsum in *; cbn [map fold_right] in *; lra|exact Hin]].
    assert (Z : Rsum 1 (fun d0 => d n d0 * sq x n d0) <= 0) by (unfold Lsum in *; cbn [map fold_right] in *; lra). cbn [Rsum] in Z. unfold sq in Z. specialize (Pd n Hn). pose proof (pow2_ge_0 (x n 0%nat)). assert (x n 0%nat ^ 2 = 0) as Z2 by nra. apply Rsqr_0_uniq. unfold Rsqr. nra.
  Qed.
End Pmm.

(** one application is defined for every residual and its result is unique: it makes the velocity rows of the operator equal to rv *)
Theorem C80_application_defined : forall (strain : bool) hp mp per bc dms rv rp, let D := length mp in let mv := refined_size mp per in
  grid_ok mp per -> has_cells mp per -> steps_ok hp mp -> stokes_layout mp per D dms -> nonempty_views (map fst dms) -> table_ok D D bc -> held strain D mv per bc ->
  (exists yv yp, pmm_apply strain hp D (map Some bc) dms mv mp rv rp yv yp) /\
  (forall yv yp yv' yp', pmm_apply strain hp D (map Some bc) dms mv mp rv rp yv yp -> pmm_apply strain hp D (map Some bc) dms mv mp rv rp yv' yp' -> same_field mv D yv yv' /\ same_field mp 1 yp yp') /\
  (forall yv yp zv g, pmm_apply strain hp D (map Some bc) dms mv mp rv rp yv yp -> bc_op strain (half_steps hp) D bc dms yv yp = Ok (zv, g) -> same_field mv D zv rv).
Proof.
  intros strain hp mp per bc dms rv rp D mv HG HC Hh HS HN HT HH. destruct (diag_defined hp mp per dms HG HC Hh HS) as (dv & d & Ed & Pd & _). set (yp := fun n c => rp n c / d n c).
  assert (T3 : forall yv yp zv g, pmm_apply strain hp D (map Some bc) dms mv mp rv rp yv yp -> bc_op strain (half_steps hp) D bc dms yv yp = Ok (zv, g) -> same_field mp 1 yp (fun n c => rp n c / d n c) /\ same_field mv D zv rv).
  { intros yv yp' zv g HA HZ. apply (pmm_iff strain hp mp per bc dms HG HS HN HT rv rp yv yp' zv g d dv Ed); [rewrite shell_is_bc_op; exact HZ|exact HA]. }
  split; [|split; [|intros; eapply T3; eassumption]].
  - destruct (rows_split strain hp mp per bc dms HG HS HN HT zero_field yp) as (av & ap & gv & gp & yv2 & g2 & _ & E2 & _ & _). fold D in E2.
    destruct (proj1 (C71_preconditioner_invertible strain hp mp per bc dms (fun n c => rv n c - gv n c) zero_field HG HC Hh HS HN HT HH)) as (v & xp & yv & yp' & E & Sv & _). fold D mv in E, Sv.
    exists v, yp. unfold pmm_apply, pmm_pressure, pmm_rhs. rewrite Ed, E2. cbn [bind fst snd]. 
    destruct (pc_split strain hp mp per bc dms HG HS HN HT v yp) as (a1 & a2 & E1 & Ev & _). destruct (pc_split strain hp mp per bc dms HG HS HN HT v xp) as (b1 & b2 & F1 & Fv & _). fold D in E1, F1. rewrite E in F1. injection F1 as <- <-. rewrite Ev in Fv. injection Fv as ->.
    exists yp, (fun n c => rv n c - gv n c), yv, a2. split; [reflexivity|]. split; [intros n c _ _; reflexivity|]. split; [reflexivity|]. split; [exact E1|exact Sv].
  - intros yv yp1 yv' yp2 A1 A2.
    destruct (op_of strain (half_steps hp) mp per bc dms HG HS HN HT yv yp1) as (_ & g1 & z1 & _ & E1 & _). destruct (op_of strain (half_steps hp) mp per bc dms HG HS HN HT yv' yp2) as (_ & g2 & z2 & _ & E2 & _). destruct (op_of strain (half_steps hp) mp per bc dms HG HS HN HT yv' yp1) as (_ & g3 & z3 & _ & E3 & _). fold D in E1, E2, E3.
    destruct (T3 _ _ _ _ A1 E1) as [P1 S1]. destruct (T3 _ _ _ _ A2 E2) as [P2 S2].
    assert (SP : same_field mp 1 yp1 yp2) by (intros n c Hn Hc; rewrite (P1 n c Hn Hc), (P2 n c Hn Hc); reflexivity). split; [|exact SP].
    destruct (shell_ext_p strain hp mp per bc dms HG HS HN HT yv' yp1 yp2 z3 g3 z2 g2 SP E3 E2) as [S3 _]. fold D mv in S3.
    destruct (rows_split strain hp mp per bc dms HG HS HN HT yv yp1) as (av & ap & gv & gp & u1 & u2 & F1 & F2 & F3 & R1). destruct (rows_split strain hp mp per bc dms HG HS HN HT yv' yp1) as (av' & ap' & gv' & gp' & u1' & u2' & F1' & F2' & F3' & R2). fold D in F1, F2, F3, F1', F2', F3'. fold D mv in R1, R2. rewrite shell_is_bc_op, E1 in F3. injection F3 as <- <-. rewrite shell_is_bc_op, E3 in F3'. injection F3' as <- <-. rewrite F2 in F2'. injection F2' as <- <-.
    assert (ap = ap'). { destruct (pc_split strain hp mp per bc dms HG HS HN HT yv yp1) as (a1 & a2 & K1 & _ & K2). destruct (pc_split strain hp mp per bc dms HG HS HN HT yv' yp1) as (c1 & c2 & L1 & _ & L2). fold D in K1, L1. congruence. } subst ap'.
    apply (proj2 (C71_preconditioner_invertible strain hp mp per bc dms zero_field zero_field HG HC Hh HS HN HT HH) yv yp1 av ap yv' yp1 av' ap F1 F1'); [|intros n c _ _; reflexivity]. intros n c Hn Hc. specialize (R1 n c Hn Hc). specialize (R2 n c Hn Hc). specialize (S1 n c Hn Hc). specialize (S2 n c Hn Hc). specialize (S3 n c Hn Hc). fold mv D in R1, R2. lra.
Qed.
Print Assumptions C80_application_defined.

(** every velocity belongs to a vector the preconditioned operator leaves unchanged *)
Theorem C80_eigenvalue_one : forall (strain : bool) hp mp per bc dms v, let D := length mp in let mv := refined_size mp per in
  grid_ok mp per -> has_cells mp per -> steps_ok hp mp -> stokes_layout mp per D dms -> nonempty_views (map fst dms) -> table_ok D D bc ->
  exists p yv g, bc_op strain (half_steps hp) D bc dms v p = Ok (yv, g) /\ pmm_apply strain hp D (map Some bc) dms mv mp yv g v p.
Proof.
  intros strain hp mp per bc dms v D mv HG HC Hh HS HN HT. destruct (diag_defined hp mp per dms HG HC Hh HS) as (dv & d & Ed & Pd & _).
  destruct (op_of strain (half_steps hp) mp per bc dms HG HS HN HT v zero_field) as (rv0 & g0 & yv0 & R0 & E0 & _ & _ & Q0). fold D in E0, Q0. set (p := fun n c => g0 n c / d n c).
  destruct (op_of strain (half_steps hp) mp per bc dms HG HS HN HT v p) as (rv & g & yv & R1 & E1 & _ & _ & Q1). fold D in E1, Q1.
  assert (GG : same_field mp 1 g g0) by (apply same_field_weak; intros q; rewrite Q0, Q1; reflexivity).
  exists p, yv, g. split; [exact E1|]. apply (pmm_iff strain hp mp per bc dms HG HS HN HT yv g v p yv g d dv Ed); [rewrite shell_is_bc_op; exact E1|]. split; [intros n c Hn Hc; unfold p; rewrite (GG n c Hn Hc); reflexivity|intros n c _ _; reflexivity].
Qed.
Print Assumptions C80_eigenvalue_one.

(** the spectrum: (v1 + i v2, p1 + i p2), not zero, is multiplied by l + i m.  Then m = 0, and l is 1 or lies between 0 and a bound independent of the grid;
    l = 0 only for constant pressures at rest *)
Theorem C80_spectrum_real_and_bounded : forall (strain : bool) hp mp per bc dms v1 p1 v2 p2 y1 g1 y2 g2 z1 q1 z2 q2 l m, let D := length mp in let mv := refined_size mp per in
  grid_ok mp per -> has_cells mp per -> at_most_one_thin mp per -> steps_ok hp mp -> stokes_layout mp per D dms -> nonempty_views (map fst dms) -> table_ok D D bc ->
  held strain D mv per bc -> normal_conditions D per bc ->
  bc_op strain (half_steps hp) D bc dms v1 p1 = Ok (y1, g1) -> bc_op strain (half_steps hp) D bc dms v2 p2 = Ok (y2, g2) ->
  pmm_apply strain hp D (map Some bc) dms mv mp y1 g1 z1 q1 -> pmm_apply strain hp D (map Some bc) dms mv mp y2 g2 z2 q2 ->
  same_field mv D z1 (lin l (- m) v1 v2) -> same_field mp 1 q1 (lin l (- m) p1 p2) ->
  same_field mv D z2 (lin m l v1 v2) -> same_field mp 1 q2 (lin m l p1 p2) ->
  ~ (same_field mv D v1 zero_field /\ same_field mp 1 p1 zero_field /\ same_field mv D v2 zero_field /\ same_field mp 1 p2 zero_field) ->
  m = 0 /\ (l = 1 \/ 0 <= l <= (if strain then INR D / 2 else INR D) * (3 / 2) ^ D) /\
  (l = 0 -> same_field mv D v1 zero_field /\ same_field mv D v2 zero_field /\ (exists c, same_field mp 1 p1 (constant c)) /\ exists c, same_field mp 1 p2 (constant c)).
Proof.
  intros strain hp mp per bc dms v1 p1 v2 p2 y1 g1 y2 g2 z1 q1 z2 q2 l m D mv HG HC H1 Hh HS HN HT HH HNC E1 E2 A1 A2 Z1 Q1 Z2 Q2 NZ.
  destruct (diag_defined hp mp per dms HG HC Hh HS) as (dv & d & Ed & Pd & Bd). set (hu := half_steps hp) in *.
  assert (R : forall rv rp zv qp k k', pmm_apply strain hp D (map Some bc) dms mv mp rv rp zv qp -> same_field mv D zv (lin k k' v1 v2) -> same_field mp 1 qp (lin k k' p1 p2) ->
    same_field mp 1 rp (fun n c => d n c * (k * p1 n c + k' * p2 n c)) /\ same_field mv D rv (lin k k' y1 y2)).
  { intros rv rp zv qp k k' HA Sz Sq. destruct (op_of strain hu mp per bc dms HG HS HN HT zv qp) as (_ & g3 & w & _ & E3 & _). fold D in E3.
    destruct (proj1 (pmm_iff strain hp mp per bc dms HG HS HN HT rv rp zv qp w g3 d dv Ed ltac:(rewrite shell_is_bc_op; exact E3)) HA) as [P S]. fold mv D in S.
    pose proof (op_linear strain hp mp per bc dms HG Hh HS HN HT k k' v1 p1 v2 p2 zv qp y1 g1 y2 g2 w g3 E1 E2 E3 Sz Sq) as L. fold mv D in L. split.
    - intros n c Hn Hc. specialize (P n c Hn Hc). rewrite (Sq n c Hn Hc) in P. unfold lin in P. replace c with 0%nat in * by lia. specialize (Pd n Hn). rewrite P. field. lra.
    - intros n c Hn Hc. rewrite <- (S n c Hn Hc). apply L; assumption. }
  destruct (R y1 g1 z1 q1 l (- m) A1 Z1 Q1) as [G1 Y1]. destruct (R y2 g2 z2 q2 m l A2 Z2 Q2) as [G2 Y2]. clear R.
  destruct (Req_dec ((1 - l) ^ 2 + m ^ 2) 0) as [ZZ|NZZ].
  { pose proof (pow2_ge_0 (1 - l)) as K1. pose proof (pow2_ge_0 m) as K2. assert (K3 : m * m = 0) by (replace (m * m) with (m ^ 2) by ring; lra). assert (K4 : (1 - l) * (1 - l) = 0) by (replace ((1 - l) * (1 - l)) with ((1 - l) ^ 2) by ring; lra). assert (m = 0) by (destruct (Rmult_integral _ _ K3); assumption). assert (l = 1) by (destruct (Rmult_integral _ _ K4); lra). split; [assumption|]. split; [left; assumption|]. lra. }
  assert (NP : 0 < (1 - l) ^ 2 + m ^ 2) by (pose proof (pow2_ge_0 (1 - l)); pose proof (pow2_ge_0 m); lra).
  assert (O1 : same_field mv D y1 zero_field /\ same_field mv D y2 zero_field).
  { split; intros n c Hn Hc; specialize (Y1 n c Hn Hc); specialize (Y2 n c Hn Hc); unfold lin in Y1, Y2; unfold zero_field; set (x := y1 n c) in *; set (y := y2 n c) in *; apply (Rmult_eq_reg_l ((1 - l) ^ 2 + m ^ 2)); try lra.
    - replace (((1 - l) ^ 2 + m ^ 2) * x) with ((1 - l) * (x - (l * x + - m * y)) - m * (y - (m * x + l * y))) by ring. rewrite <- Y1, <- Y2. ring.
    - replace (((1 - l) ^ 2 + m ^ 2) * y) with (m * (x - (l * x + - m * y)) + (1 - l) * (y - (m * x + l * y))) by ring. rewrite <- Y1, <- Y2. ring. }
  destruct O1 as [O1 O2].
  destruct (equilibrium strain hp mp per bc dms HG HS HN HT v1 p1 y1 g1 E1 O1) as (T1 & F1 & I1). destruct (equilibrium strain hp mp per bc dms HG HS HN HT v2 p2 y2 g2 E2 O2) as (T2 & F2 & I2).
  fold mv hu D in F1, F2, I1, I2. set (a := aform strain hu mv per D) in *. set (b := div_form mv mp per (E0 mp per) D (getMatElemPressure hu)) in *.
  assert (SY : forall v w, a v w = a w v) by (intros v w; exact (a_sym strain hu mp per HG (half_ok hp mp Hh) v w)).
  set (dd := fun x y => inner (N0 mp) 1 d (fun n c => x n c * y n c)).
  assert (J1 : forall q, inner (N0 mp) 1 g1 q = l * dd p1 q - m * dd p2 q). { intros q. unfold dd. replace (l * inner (N0 mp) 1 d (fun n c => p1 n c * q n c) - m * inner (N0 mp) 1 d (fun n c => p2 n c * q n c)) with (Lsum (fun n => l * Rsum 1 (fun c => d n c * (p1 n c * q n c)) + (- m) * Rsum 1 (fun c => d n c * (p2 n c * q n c))) (N0 mp)) by (rewrite Lsum_plus, !Lsum_scal; unfold inner; ring). apply Lsum_ext. intros n Hn. apply N0_enum in Hn. cbn [Rsum]. rewrite (G1 n 0%nat Hn ltac:(lia)). ring. }
  assert (J2 : forall q, inner (N0 mp) 1 g2 q = m * dd p1 q + l * dd p2 q). { intros q. unfold dd. replace (m * inner (N0 mp) 1 d (fun n c => p1 n c * q n c) + l * inner (N0 mp) 1 d (fun n c => p2 n c * q n c)) with (Lsum (fun n => m * Rsum 1 (fun c => d n c * (p1 n c * q n c)) + l * Rsum 1 (fun c => d n c * (p2 n c * q n c))) (N0 mp)) by (rewrite Lsum_plus, !Lsum_scal; unfold inner; ring). apply Lsum_ext. intros n Hn. apply N0_enum in Hn. cbn [Rsum]. rewrite (G2 n 0%nat Hn ltac:(lia)). ring. }
  assert (DS : forall x y, dd x y = dd y x) by (intros x y; unfold dd; apply Lsum_ext; intros n _; apply Rsum_ext; intros c _; ring).
  assert (DP : forall x, 0 <= dd x x). { intros x. unfold dd, inner. apply Lsum_nonneg. intros n Hn. apply N0_enum in Hn. cbn [Rsum]. specialize (Pd n Hn). pose proof (Rle_0_sqr (x n 0%nat)) as K. unfold Rsqr in K. nra. }
  assert (DQ : forall x, inner (N0 mp) 1 d (sq x) = dd x x) by (intros x; unfold dd; apply Lsum_ext; intros n _; apply Rsum_ext; intros c _; unfold sq; ring).
  assert (DZ : forall x, dd x x <= 0 -> same_field mp 1 x zero_field) by (intros x Hx; apply (sq_zero mp d x Pd); rewrite DQ; exact Hx).
  assert (IZ : forall g x, same_field mp 1 x zero_field -> inner (N0 mp) 1 g x = 0). { intros g x Sx. unfold inner. apply Lsum_all_zero. intros n Hn. apply N0_enum in Hn. cbn [Rsum]. rewrite (Sx n 0%nat Hn ltac:(lia)). unfold zero_field. ring. }
  assert (VZ1 : inner (N0 mp) 1 g1 p1 = 0 -> same_field mv D v1 zero_field) by (exact (zero_velocity strain hp mp per bc dms HG HC Hh HS HN HT v1 p1 y1 g1 HH E1 O1)).
  assert (VZ2 : inner (N0 mp) 1 g2 p2 = 0 -> same_field mv D v2 zero_field) by (exact (zero_velocity strain hp mp per bc dms HG HC Hh HS HN HT v2 p2 y2 g2 HH E2 O2)).
  assert (SS : inner (N0 mp) 1 g1 p2 = inner (N0 mp) 1 g2 p1). { rewrite I1, I2, <- (F2 v1 T1), <- (F1 v2 T2). apply SY. }
  rewrite J1, J2, (DS p2 p1) in SS. assert (MM : m * (dd p1 p1 + dd p2 p2) = 0) by lra.
  assert (PN : ~ (dd p1 p1 <= 0 /\ dd p2 p2 <= 0)). { intros [D1 D2]. apply NZ. pose proof (DZ _ D1) as P1. pose proof (DZ _ D2) as P2. split; [apply VZ1, IZ, P1|]. split; [exact P1|]. split; [apply VZ2, IZ, P2|exact P2]. }
  pose proof (DP p1) as DP1. pose proof (DP p2) as DP2.
  assert (M0 : m = 0). { destruct (Rmult_integral _ _ MM) as [|K]; [assumption|]. exfalso. apply PN. lra. } split; [exact M0|].
  assert (BB : forall v p y g, bc_op strain hu D bc dms v p = Ok (y, g) -> same_field mv D y zero_field -> inner (N0 mp) 1 g p = l * dd p p -> 0 < dd p p -> 0 <= l <= (if strain then INR D / 2 else INR D) * (3 / 2) ^ D).
  { intros v p y g E O I P. destruct (mass_op hp mp per (map snd dms) HG (proj1 (proj2 HS)) D p) as (mq & Em & _).
    destruct (C71_schur_bound strain hp mp per bc dms v p y g D mq (N0 mp) HG HC H1 Hh HS HN HT HH HNC E O Em (N0_enum _)) as [[B1 B2] _]. fold D in B2. pose proof (Bd D p mq Em) as B3. rewrite DQ in B3. fold D in B3. rewrite I in B1, B2.
    assert (KP : 0 <= (if strain then INR D / 2 else INR D)) by (pose proof (pos_INR D); destruct strain; lra). set (k := if strain then INR D / 2 else INR D) in *. set (t := (3 / 2) ^ D) in *. clearbody k t. split; [apply (Rmult_le_reg_r (dd p p)); lra|]. apply (Rmult_le_reg_r (dd p p)); [exact P|]. eapply Rle_trans; [exact B2|]. rewrite Rmult_assoc. apply Rmult_le_compat_l; assumption. }
  assert (L1 : inner (N0 mp) 1 g1 p1 = l * dd p1 p1) by (rewrite J1, M0; ring). assert (L2 : inner (N0 mp) 1 g2 p2 = l * dd p2 p2) by (rewrite J2, M0; ring).
  split.
  - right. destruct (Rlt_dec 0 (dd p1 p1)) as [P|P]; [apply (BB v1 p1 y1 g1 E1 O1 L1 P)|]. destruct (Rlt_dec 0 (dd p2 p2)) as [P'|P']; [apply (BB v2 p2 y2 g2 E2 O2 L2 P')|]. exfalso. apply PN. lra.
  - intros L0. rewrite L0, Rmult_0_l in L1, L2. split; [apply VZ1, L1|]. split; [apply VZ2, L2|].
    destruct (mass_op hp mp per (map snd dms) HG (proj1 (proj2 HS)) D p1) as (mq1 & Em1 & _). destruct (mass_op hp mp per (map snd dms) HG (proj1 (proj2 HS)) D p2) as (mq2 & Em2 & _).
    split; [apply (C71_schur_bound strain hp mp per bc dms v1 p1 y1 g1 D mq1 (N0 mp) HG HC H1 Hh HS HN HT HH HNC E1 O1 Em1 (N0_enum _)); exact L1|apply (C71_schur_bound strain hp mp per bc dms v2 p2 y2 g2 D mq2 (N0 mp) HG HC H1 Hh HS HN HT HH HNC E2 O2 Em2 (N0_enum _)); exact L2].
Qed.
Print Assumptions C80_spectrum_real_and_bounded.

(** the hypotheses are met: the channel of C71 on two processes, a velocity that is not zero *)
Example ex_pmm : forall strain, exists p y g, let v := push in
  grid_ok ex_mp ex_per /\ has_cells ex_mp ex_per /\ at_most_one_thin ex_mp ex_per /\ steps_ok [2/7; 2/3] ex_mp /\ stokes_layout ex_mp ex_per 2 ex_dms /\ nonempty_views (map fst ex_dms) /\
  table_ok 2 2 ex_walls /\ held strain 2 (refined_size ex_mp ex_per) ex_per ex_walls /\ normal_conditions 2 ex_per ex_walls /\
  bc_op strain (half_steps [2/7; 2/3]) 2 ex_walls ex_dms v p = Ok (y, g) /\ pmm_apply strain [2/7; 2/3] 2 (map Some ex_walls) ex_dms (refined_size ex_mp ex_per) ex_mp y g v p /\
  same_field (refined_size ex_mp ex_per) 2 v (lin 1 (- 0) v v) /\ same_field ex_mp 1 p (lin 1 (- 0) p p) /\
  ~ same_field (refined_size ex_mp ex_per) 2 v zero_field.
Proof.
  intros strain. destruct (ex_precond strain) as (A1 & A2 & A3 & A4 & A5 & A6 & A7 & A8 & A9 & _ & _ & (n & c & Hn & Hc & NZ) & _).
  destruct (C80_eigenvalue_one strain [2/7; 2/3] ex_mp ex_per ex_walls ex_dms push A1 A2 A4 A5 A6 A7) as (p & y & g & E & A). exists p, y, g. cbv zeta.
  repeat (split; [assumption|]). split; [intros k d _ _; unfold lin; ring|]. split; [intros k d _ _; unfold lin; ring|]. intros Z. apply NZ. exact (Z n c Hn Hc).
Qed.
(** the other eigenvalue that always occurs: a constant pressure at rest is annihilated *)
Theorem C80_eigenvalue_zero : forall (strain : bool) hp mp per bc dms k, let D := length mp in let mv := refined_size mp per in
  grid_ok mp per -> has_cells mp per -> at_most_one_thin mp per -> steps_ok hp mp -> stokes_layout mp per D dms -> nonempty_views (map fst dms) -> table_ok D D bc ->
  held strain D mv per bc -> normal_conditions D per bc ->
  exists yv g zv q, bc_op strain (half_steps hp) D bc dms zero_field (constant k) = Ok (yv, g) /\ pmm_apply strain hp D (map Some bc) dms mv mp yv g zv q /\
    same_field mv D zv zero_field /\ same_field mp 1 q zero_field.
Proof.
  intros strain hp mp per bc dms k D mv HG HC H1 Hh HS HN HT HH HNC.
  destruct (op_of strain (half_steps hp) mp per bc dms HG HS HN HT zero_field (constant k)) as (_ & g & yv & _ & E & _). fold D in E.
  pose proof (C66_kernel strain (half_steps hp) mp per bc dms) as KER. cbv zeta in KER. fold D mv in KER.
  destruct (proj2 (KER zero_field (constant k) yv g HG HC H1 (half_ok hp mp Hh) HS HN HT HH HNC E)) as [Zy Zg]; [split; [intros n c _ _; reflexivity|exists k; intros n c _ _; reflexivity]|].
  destruct (diag_defined hp mp per dms HG HC Hh HS) as (dv & d & Ed & Pd & _).
  destruct (op_of strain (half_steps hp) mp per bc dms HG HS HN HT zero_field zero_field) as (r0 & g0 & y0 & _ & E0 & V0 & W0 & _). fold D in E0, V0, W0. fold mv in V0, W0.
  assert (Z0 : same_field mv D y0 zero_field). { assert (K : same_field mv D r0 zero_field). { apply same_field_weak. intros w. rewrite W0, aform_zero, (b_zero_l (half_steps hp) mp per). transitivity 0; [ring|]. unfold inner. symmetry. apply Lsum_all_zero. intros n _. etransitivity; [|apply Rsum_zero]. apply Rsum_ext. intros; unfold zero_field; ring. }
    intros n c Hn Hc. rewrite (V0 n c Hn Hc). destruct (prescribed D mv per bc n c); [reflexivity|apply K; assumption]. }
  exists yv, g, zero_field, zero_field. split; [exact E|]. split; [|split; intros n c _ _; reflexivity].
  apply (pmm_iff strain hp mp per bc dms HG HS HN HT yv g zero_field zero_field y0 g0 d dv Ed); [rewrite shell_is_bc_op; exact E0|]. split.
  - intros n c Hn Hc. rewrite (Zg n c Hn Hc). unfold zero_field, Rdiv. ring.
  - intros n c Hn Hc. rewrite (Zy n c Hn Hc). apply Z0; assumption.
Qed.
Print Assumptions C80_eigenvalue_zero.
