(** C70: work, reciprocity and least dissipation for the Stokes problem. *)
From Coq Require Import FunctionalExtensionality Permutation.
From Coquelicot Require Import Coquelicot.
From Verif Require Import Base M_Geometry S_Geometry P_Geometry M_Particle S_Particle P_Particle M_Quadrature S_Fem P_Energy M_MatElem P_MatElem M_Mesh M_Operator S_Operator P_Mesh P_Operator P_Operator2 P_Operator3 P_Global P_Stokes M_Bc S_Bc P_Constant Prop_Operator Prop_Operator2 Prop_Assembly Prop_Assembly2 P_CreateMesh Prop_StokesUnique.
Local Open Scope R_scope.

(** ** Specification *)
(** the Stokes operators the driver may use: without conditions, and with the conditions [bc] *)
Definition raw_op (strain : bool) (h : list R) (dms : list (dmda * dmda)) (v p : field) :=
  stokes_matrix_raw (if strain then strain_tensor_mult h else laplacian_mult h) h dms v p.
Definition bc_op (strain : bool) (h : list R) (D : nat) (bc : list bc_row) (dms : list (dmda * dmda)) (v p : field) :=
  stokes_matrix (if strain then strain_tensor_mult h else laplacian_mult h) h D (Some (map Some bc)) dms v p.
(** (v, p) solves the constrained problem with velocity data [f] and no source of mass *)
Definition solves strain h mp per bc dms (f v p : field) : Prop :=
  exists yv yp, bc_op strain h (length mp) bc dms v p = Ok (yv, yp) /\ same_field (refined_size mp per) (length mp) yv f /\ same_field mp 1 yp zero_field.
(** the divergence rows vanish *)
Definition incompressible strain h mp dms (v : field) : Prop :=
  exists rv rp, raw_op strain h dms v zero_field = Ok (rv, rp) /\ same_field mp 1 rp zero_field.
(** [w] is the power dissipated by the velocity v: the product of v with the viscous forces *)
Definition dissipates strain h mp per dms (v : field) (w : R) : Prop :=
  exists rv rp, raw_op strain h dms v zero_field = Ok (rv, rp) /\ forall N, enumerates N (nodes_box (refined_size mp per)) -> w = inner N (length mp) rv v.
(** [w] is the work of the nodal forces f in the velocity v *)
Definition works mp per (f v : field) (w : R) : Prop :=
  forall N, enumerates N (nodes_box (refined_size mp per)) -> w = inner N (length mp) f v.
(** v takes the prescribed values of f *)
Definition takes mp per bc (f v : field) : Prop :=
  forall n c, in_grid_box (nodes_box (refined_size mp per)) n -> (c < length mp)%nat -> prescribed (length mp) (refined_size mp per) per bc n c <> None -> v n c = f n c.

Section Dissipation.
  Variables (strain : bool) (h : list R) (mp : list Z) (per : list bool) (bc : list bc_row) (dms : list (dmda * dmda)).
  Let D := length mp. Let mv := refined_size mp per.
  Hypothesis HG : grid_ok mp per.
  Hypothesis HS : stokes_layout mp per D dms.
  Hypothesis HN : nonempty_views (map fst dms).
  Hypothesis HT : table_ok D D bc.
  Hypothesis Hh : steps_ok h mp.
  Let b := div_form mv mp per (E0 mp per) D (getMatElemPressure h).
  Let a := aform strain h mv per D.
  Let HGv : grid_ok mv per := refined_grid mp per HG.
  Lemma mv_dim : length mv = D.
  Proof. unfold mv, refined_size. rewrite length_zip_with; auto. symmetry. apply HG. Qed.
  Lemma hv : steps_ok h mv.
  Proof. unfold steps_ok in *. rewrite mv_dim. exact Hh. Qed.
  Lemma a_sym v x : a v x = a x v.
  Proof.
    unfold a, aform. destruct strain.
    - rewrite <- mv_dim. apply tensor_form_sym. intros. apply (strain_sym h mv); [apply hv|apply HGv| | | |]; assumption.
    - apply scalar_form_sym. intros. apply (lap_sym h mv); [apply hv|apply HGv| |]; assumption.
  Qed.
  Lemma a_pos x : 0 <= a x x.
  Proof.
    unfold a, aform. destruct strain.
    - rewrite <- mv_dim. rewrite tensor_form_v. apply Lsum_nonneg. intros e _. apply strain_nonneg; auto; [apply hv|apply HGv].
    - apply lap_form_nonneg; auto. apply hv.
  Qed.
  Lemma a_lin_l v v' k k' x : a (lin k k' v v') x = k * a v x + k' * a v' x.
  Proof. rewrite a_sym. unfold a at 1. rewrite aform_lin. fold a. rewrite (a_sym x v), (a_sym x v'). reflexivity. Qed.
  Lemma op_of xv xp : exists rv rp yv, raw_op strain h dms xv xp = Ok (rv, rp) /\ bc_op strain h D bc dms xv xp = Ok (yv, rp) /\
    (forall n c, in_grid_box (nodes_box mv) n -> (c < D)%nat -> yv n c = match prescribed D mv per bc n c with Some _ => xv n c | None => rv n c end) /\
    (forall v, inner (N0 mv) D rv v = a v xv - b xp v) /\ (forall q, inner (N0 mp) 1 rp q = b q xv).
  Proof. exact (facts strain h mp per bc dms HG HS HN HT xv xp). Qed.
  Lemma b_zero_l v : b zero_field v = 0.
  Proof. unfold b. replace zero_field with (lin 0 0 zero_field zero_field) by (apply functional_extensionality; intros n; apply functional_extensionality; intros c; unfold lin, zero_field; ring). rewrite div_form_lin_q. ring. Qed.
  Lemma dissipates_iff v w : dissipates strain h mp per dms v w <-> w = a v v.
  Proof.
    destruct (op_of v zero_field) as (rv & rp & yv & E & _ & _ & W & _). split.
    - intros (rv' & rp' & E' & Hw). rewrite E in E'. injection E' as <- <-. rewrite (Hw _ (N0_enum _)). fold mv D. rewrite W, b_zero_l. ring.
    - intros ->. exists rv, rp. split; [exact E|]. intros N HNe. fold mv D. transitivity (inner (N0 mv) D rv v); [rewrite W, b_zero_l; ring|]. apply Lsum_perm, (enum_perm _ _ (nodes_box mv)); [apply N0_enum|exact HNe].
  Qed.
  Lemma incompressible_iff v : incompressible strain h mp dms v <-> forall q, b q v = 0.
  Proof.
    destruct (op_of v zero_field) as (rv & rp & yv & E & _ & _ & _ & Q). split.
    - intros (rv' & rp' & E' & Z). rewrite E in E'. injection E' as <- <-. intros q. rewrite <- Q. unfold inner. apply Lsum_all_zero. intros n Hn. apply N0_enum in Hn. cbn [Rsum]. rewrite (Z n 0%nat Hn) by lia. unfold zero_field. ring.
    - intros Z. exists rv, rp. split; [exact E|]. apply same_field_weak. intros q. rewrite Q, Z. unfold inner. symmetry. apply Lsum_all_zero. intros n _. cbn [Rsum]. unfold zero_field. ring.
  Qed.
  Lemma solves_iff f v p : solves strain h mp per bc dms f v p <->
    takes mp per bc f v /\ incompressible strain h mp dms v /\
    (forall w, takes mp per bc zero_field w -> a w v - b p w = inner (N0 mv) D f w).
  Proof.
    destruct (op_of v p) as (rv & rp & yv & _ & E & V & W & Q). split.
    - intros (yv' & yp' & E' & Sv & Sp). fold D in E'. rewrite E in E'. injection E' as <- <-. fold mv D in Sv. split; [|split].
      + intros n c Hn Hc HP. fold mv D in Hn, Hc, HP. rewrite <- (Sv n c Hn Hc), (V n c Hn Hc). destruct (prescribed D mv per bc n c); congruence.
      + apply incompressible_iff. intros q. rewrite <- Q. unfold inner. apply Lsum_all_zero. intros n Hn. apply N0_enum in Hn. cbn [Rsum]. rewrite (Sp n 0%nat Hn) by lia. unfold zero_field. ring.
      + intros w Hw. rewrite <- W. apply Lsum_ext. intros n Hn. apply N0_enum in Hn. apply Rsum_ext. intros c Hc. rewrite <- (Sv n c Hn Hc), (V n c Hn Hc). destruct (prescribed D mv per bc n c) eqn:P; [|reflexivity]. rewrite (Hw n c Hn Hc) by (fold D mv; congruence). unfold zero_field. ring.
    - intros (T & I & F). exists yv, rp. split; [exact E|]. split.
      + intros n c Hn Hc. fold mv D in Hn, Hc. rewrite (V n c Hn Hc). destruct (prescribed D mv per bc n c) eqn:P; [apply (T n c Hn Hc); fold D mv; congruence|].
        rewrite <- (inner_unit mv D rv n c Hn Hc), <- (inner_unit mv D f n c Hn Hc), W. apply F. intros n' c' Hn' Hc' HP'. unfold zero_field. fold D mv in HP'. unfold unit_field. destruct (same_node_spec n n') as [<-|]; [|reflexivity]. destruct (Nat.eqb_spec c c') as [<-|]; [congruence|reflexivity].
      + apply same_field_weak. intros q. rewrite Q. pose proof (proj1 (incompressible_iff v) I) as Z. rewrite Z. unfold inner. symmetry. apply Lsum_all_zero. intros n _. cbn [Rsum]. unfold zero_field. ring.
  Qed.
  Lemma works_iff f v w : works mp per f v w <-> w = inner (N0 mv) D f v.
  Proof.
    split; [intros H; apply (H _ (N0_enum _))|]. intros -> N H. apply Lsum_perm, (enum_perm _ _ (nodes_box mv)); [apply N0_enum|exact H].
  Qed.
  (** the difference of two fields with the same data *)
  Lemma takes_diff f v x : takes mp per bc f v -> takes mp per bc f x -> takes mp per bc zero_field (lin 1 (-1) v x).
  Proof. intros H1 H2 n c Hn Hc HP. unfold lin, zero_field. rewrite (H1 n c Hn Hc HP), (H2 n c Hn Hc HP). ring. Qed.
  Lemma takes_zero x : takes mp per bc zero_field x -> forall n c, in_grid_box (nodes_box mv) n -> (c < D)%nat -> prescribed D mv per bc n c <> None -> x n c = 0.
  Proof. intros H n c Hn Hc HP. rewrite (H n c Hn Hc HP). reflexivity. Qed.
  (** the balance of energies behind the minimum principle *)
  Lemma gap f x p v : solves strain h mp per bc dms f x p -> takes mp per bc f v -> incompressible strain h mp dms v ->
    / 2 * a v v - inner (N0 mv) D f v = / 2 * a x x - inner (N0 mv) D f x + / 2 * a (lin 1 (-1) v x) (lin 1 (-1) v x).
  Proof.
    intros H Tv Iv. apply solves_iff in H. destruct H as (Tx & Ix & F). specialize (F _ (takes_diff f v x Tv Tx)).
    assert (Z : b p (lin 1 (-1) v x) = 0). { unfold b. rewrite div_form_lin_u. fold b. rewrite (proj1 (incompressible_iff v) Iv p), (proj1 (incompressible_iff x) Ix p). ring. }
    rewrite Z in F. rewrite (inner_sym _ _ f (lin 1 (-1) v x)), inner_lin, (inner_sym _ _ v), (inner_sym _ _ x) in F.
    rewrite a_lin_l in F. assert (G : forall y, a y (lin 1 (-1) v x) = 1 * a y v + -1 * a y x) by (intros y; apply aform_lin). rewrite a_lin_l, !G. pose proof (a_sym x v). lra.
  Qed.
End Dissipation.

(** ** C70 *)
(** the forces of the raw operator (data, pressure and wall reactions included) of two states
    are reciprocal (Betti, Lorentz) *)
Theorem C70_reciprocity : forall (strain : bool) h mp per dms v p v' p' fv fp fv' fp' N Np, let D := length mp in let mv := refined_size mp per in
  grid_ok mp per -> steps_ok h mp -> stokes_layout mp per D dms ->
  raw_op strain h dms v p = Ok (fv, fp) -> raw_op strain h dms v' p' = Ok (fv', fp') ->
  enumerates N (nodes_box mv) -> enumerates Np (nodes_box mp) ->
  inner N D fv v' + inner Np 1 fp' p = inner N D fv' v + inner Np 1 fp p'.
Proof.
  intros strain h mp per dms v p v' p' fv fp fv' fp' N Np D mv HG Hh HS E E' HNe HNp.
  assert (K : forall v p, exists rv rp, raw_op strain h dms v p = Ok (rv, rp) /\ (forall w, inner N D rv w = aform strain h mv per D w v - div_form mv mp per (E0 mp per) D (getMatElemPressure h) p w) /\ forall q, inner Np 1 rp q = div_form mv mp per (E0 mp per) D (getMatElemPressure h) q v).
  { clear v p v' p' fv fp fv' fp' E E'. intros v p. unfold raw_op, aform. destruct strain; [destruct (stokes_rep_strain h mp per D dms v p HG HS) as (rv & rp & E & W)|destruct (stokes_rep_lap h mp per D dms v p HG HS) as (rv & rp & E & W)]; exists rv, rp; (split; [exact E|]); exact (W _ _ _ _ HNe HNp (ev0 mp per HG) (ep0 mp per HG)). }
  destruct (K v p) as (rv & rp & E1 & W1 & Q1). rewrite E in E1. injection E1 as <- <-. destruct (K v' p') as (rv' & rp' & E2 & W2 & Q2). rewrite E' in E2. injection E2 as <- <-.
  rewrite W1, W2, Q1, Q2. pose proof (a_sym strain h mp per HG Hh v v') as S. fold D mv in S. rewrite S. ring.
Qed.
(** held walls: the work of the loads of one problem in the flow of the other *)
Theorem C70_reciprocity_of_loads : forall (strain : bool) h mp per bc dms f g v p u q wf wg, let D := length mp in
  grid_ok mp per -> steps_ok h mp -> stokes_layout mp per D dms -> nonempty_views (map fst dms) -> table_ok D D bc ->
  solves strain h mp per bc dms f v p -> solves strain h mp per bc dms g u q ->
  takes mp per bc zero_field f -> takes mp per bc zero_field g ->
  works mp per f u wf -> works mp per g v wg -> wf = wg.
Proof.
  intros strain h mp per bc dms f g v p u q wf wg D HG Hh HS HN HT Hv Hu Zf Zg Wf Wg. apply works_iff in Wf, Wg. subst wf wg.
  pose proof (proj1 (solves_iff strain h mp per bc dms HG HS HN HT f v p) Hv) as (Tv & Iv & Fv). pose proof (proj1 (solves_iff strain h mp per bc dms HG HS HN HT g u q) Hu) as (Tu & Iu & Fu).
  assert (Tv0 : takes mp per bc zero_field v) by (intros n c Hn Hc HP; rewrite (Tv n c Hn Hc HP); auto). assert (Tu0 : takes mp per bc zero_field u) by (intros n c Hn Hc HP; rewrite (Tu n c Hn Hc HP); auto).
  rewrite <- (Fv u Tu0), <- (Fu v Tv0). rewrite (proj1 (incompressible_iff strain h mp per bc dms HG HS HN HT u) Iu), (proj1 (incompressible_iff strain h mp per bc dms HG HS HN HT v) Iv).
  rewrite (a_sym strain h mp per HG Hh u v). reflexivity.
Qed.
(** held walls: the work of the load is the dissipation; positive unless nothing moves *)
Theorem C70_work_is_dissipated : forall (strain : bool) h mp per bc dms f v p w, let D := length mp in
  grid_ok mp per -> has_cells mp per -> steps_ok h mp -> stokes_layout mp per D dms -> nonempty_views (map fst dms) -> table_ok D D bc ->
  held strain D (refined_size mp per) per bc ->
  solves strain h mp per bc dms f v p -> takes mp per bc zero_field f -> works mp per f v w ->
  dissipates strain h mp per dms v w /\ 0 <= w /\ (w = 0 -> same_field (refined_size mp per) D v zero_field).
Proof.
  intros strain h mp per bc dms f v p w D HG HC Hh HS HN HT HH Hv Zf Wf. apply works_iff in Wf. 
  pose proof (proj1 (solves_iff strain h mp per bc dms HG HS HN HT f v p) Hv) as (Tv & Iv & Fv).
  assert (Tv0 : takes mp per bc zero_field v) by (intros n c Hn Hc HP; rewrite (Tv n c Hn Hc HP); auto).
  pose proof (Fv v Tv0) as F. rewrite (proj1 (incompressible_iff strain h mp per bc dms HG HS HN HT v) Iv) in F. rewrite <- Wf, Rminus_0_r in F.
  split; [apply (dissipates_iff strain h mp per bc dms HG HS HN HT); auto|]. split; [rewrite <- F; apply a_pos; auto|].
  intros E. rewrite E in F. assert (Lm : length (refined_size mp per) = D) by (apply mv_dim; exact HG). pose proof (aform_definite strain h (refined_size mp per) per bc v) as AD. rewrite Lm in AD. apply AD; auto.
  - apply refined_grid, HG.
  - apply refined_cells, HC.
  - apply hv; auto.
Qed.
(** the flow of least dissipation: among the incompressible velocities with the prescribed values,
    the solutions are exactly the minimisers of (dissipation)/2 - (work of the load) *)
Theorem C70_least_dissipation : forall (strain : bool) h mp per bc dms f v p u ev wv eu wu, let D := length mp in let mv := refined_size mp per in
  grid_ok mp per -> has_cells mp per -> steps_ok h mp -> stokes_layout mp per D dms -> nonempty_views (map fst dms) -> table_ok D D bc ->
  held strain D mv per bc ->
  solves strain h mp per bc dms f v p -> takes mp per bc f u -> incompressible strain h mp dms u ->
  dissipates strain h mp per dms v ev -> works mp per f v wv -> dissipates strain h mp per dms u eu -> works mp per f u wu ->
  ev / 2 - wv <= eu / 2 - wu /\ (eu / 2 - wu <= ev / 2 - wv -> same_field mv D u v).
Proof.
  intros strain h mp per bc dms f v p u ev wv eu wu D mv HG HC Hh HS HN HT HH Hv Tu Iu Dv Wv Du Wu.
  apply (dissipates_iff strain h mp per bc dms HG HS HN HT) in Dv, Du. apply works_iff in Wv, Wu. subst.
  pose proof (gap strain h mp per bc dms HG HS HN HT Hh f v p u Hv Tu Iu) as G. pose proof (a_pos strain h mp per HG Hh (lin 1 (-1) u v)) as P. split; [lra|]. intros L.
  pose proof (proj1 (solves_iff strain h mp per bc dms HG HS HN HT f v p) Hv) as (Tv & _ & _).
  assert (Lm : length mv = D) by (apply mv_dim; exact HG). pose proof (aform_definite strain h mv per bc (lin 1 (-1) u v)) as AD. rewrite Lm in AD.
  assert (Z : same_field mv D (lin 1 (-1) u v) zero_field).
  { apply AD; auto; [apply refined_grid, HG|apply refined_cells, HC|apply hv; auto|apply takes_zero, (takes_diff mp per bc f); auto|]. unfold D, mv. lra. }
  intros n c Hn Hc. specialize (Z n c Hn Hc). unfold lin, zero_field in Z. lra.
Qed.
Theorem C70_minimisers_are_the_solutions : forall (strain : bool) h mp per bc dms f v, let D := length mp in let mv := refined_size mp per in
  grid_ok mp per -> has_cells mp per -> at_most_one_thin mp per -> steps_ok h mp -> stokes_layout mp per D dms -> nonempty_views (map fst dms) -> table_ok D D bc ->
  held strain D mv per bc -> normal_conditions D per bc ->
  ((exists p, solves strain h mp per bc dms f v p) <->
   takes mp per bc f v /\ incompressible strain h mp dms v /\
   forall u ev wv eu wu, takes mp per bc f u -> incompressible strain h mp dms u ->
     dissipates strain h mp per dms v ev -> works mp per f v wv -> dissipates strain h mp per dms u eu -> works mp per f u wu ->
     ev / 2 - wv <= eu / 2 - wu).
Proof.
  intros strain h mp per bc dms f v D mv HG HC H1 Hh HS HN HT HH HB. split.
  - intros (p & Hv). pose proof (proj1 (solves_iff strain h mp per bc dms HG HS HN HT f v p) Hv) as (Tv & Iv & _). split; [exact Tv|]. split; [exact Iv|].
    intros u ev wv eu wu Tu Iu Dv Wv Du Wu. apply (C70_least_dissipation strain h mp per bc dms f v p u ev wv eu wu); auto.
  - intros (Tv & Iv & Mv).
    assert (S : exists x p, solves strain h mp per bc dms f x p).
    { pose proof (proj2 (solvable strain h mp per bc dms HG HS HN HT HC Hh HH H1 HB f zero_field)) as So. destruct So as (x & p & yv & yp & E & Sv & Sp); [|exists x, p, yv, yp; split; [exact E|split; [exact Sv|exact Sp]]].
      transitivity 0; [|symmetry; apply Lsum_all_zero; reflexivity].
      assert (Kf : div_form mv mp per (E0 mp per) D (getMatElemPressure h) (constant 1) (lin 1 (-1) f v) = 0).
      { apply (flux_free h mp per bc HG Hh HB). intros n c Hn Hc HP. unfold lin. rewrite (Tv n c Hn Hc HP). ring. }
      rewrite div_form_lin_u in Kf. pose proof (proj1 (incompressible_iff strain h mp per bc dms HG HS HN HT v) Iv (constant 1)) as Kv. fold D mv in Kv. rewrite Kv in Kf. fold D mv. lra. }
    destruct S as (x & p & Hx). pose proof (proj1 (solves_iff strain h mp per bc dms HG HS HN HT f x p) Hx) as (Tx & Ix & Fx). exists p.
    set (av := aform strain h mv per D v v). set (ax := aform strain h mv per D x x).
    assert (Dv : dissipates strain h mp per dms v av) by (apply (dissipates_iff strain h mp per bc dms HG HS HN HT); reflexivity). assert (Dx : dissipates strain h mp per dms x ax) by (apply (dissipates_iff strain h mp per bc dms HG HS HN HT); reflexivity).
    assert (Wv : works mp per f v (inner (N0 mv) D f v)) by (apply works_iff; reflexivity). assert (Wx : works mp per f x (inner (N0 mv) D f x)) by (apply works_iff; reflexivity).
    destruct (C70_least_dissipation strain h mp per bc dms f x p v _ _ _ _ HG HC Hh HS HN HT HH Hx Tv Iv Dx Wx Dv Wv) as [_ U].
    specialize (U (Mv x _ _ _ _ Tx Ix Dv Wv Dx Wx)). apply (solves_iff strain h mp per bc dms HG HS HN HT). split; [exact Tv|]. split; [exact Iv|].
    intros w Hw. rewrite <- (Fx w Hw). f_equal. pose proof (aform_ext strain h mv per w v x) as AE. assert (Lm : length mv = D) by (apply mv_dim; exact HG). rewrite Lm in AE. apply AE; [apply refined_grid, HG|exact U].
Qed.
Print Assumptions C70_reciprocity.
Print Assumptions C70_reciprocity_of_loads.
Print Assumptions C70_work_is_dissipated.
Print Assumptions C70_least_dissipation.
Print Assumptions C70_minimisers_are_the_solutions.
(** the hypotheses hold: two processes, held walls, a force on every free component; the rest state is a
    competitor in the minimum principle *)
Definition push : field := fun n c => if prescribed 2 (refined_size ex_mp ex_per) ex_per ex_walls n c then 0 else 1.
Example ex_dissipation : forall strain, takes ex_mp ex_per ex_walls zero_field push /\ (exists v p, solves strain [1/7; 1/3] ex_mp ex_per ex_walls ex_dms push v p) /\
  takes ex_mp ex_per ex_walls push zero_field /\ incompressible strain [1/7; 1/3] ex_mp ex_dms zero_field /\ dissipates strain [1/7; 1/3] ex_mp ex_per ex_dms zero_field 0.
Proof.
  intros strain. destruct (ex_well_posed strain) as (A1 & A2 & A3 & A4 & A5 & A6 & A7 & A8 & A9).
  assert (T : forall n c, prescribed 2 (refined_size ex_mp ex_per) ex_per ex_walls n c <> None -> push n c = 0) by (intros n c H; unfold push; destruct (prescribed _ _ _ _ n c); [reflexivity|congruence]).
  split; [intros n c _ _ H; apply T, H|]. split; [exact (C66_homogeneous_walls_solvable strain [1/7; 1/3] ex_mp ex_per ex_walls ex_dms push A1 A2 A3 A4 A5 A6 A7 A8 A9 (fun n c _ _ => T n c))|]. split; [intros n c _ _ H; symmetry; apply T, H|]. split.
  - apply (incompressible_iff strain [1/7; 1/3] ex_mp ex_per ex_walls ex_dms A1 A5 A6 A7). intros q. apply div_zero.
  - apply (dissipates_iff strain [1/7; 1/3] ex_mp ex_per ex_walls ex_dms A1 A5 A6 A7). symmetry. apply aform_zero.
Qed.
