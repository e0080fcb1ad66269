(** C43, C44, C58, C59: the SEM and DtoN solves. *)
From Coquelicot Require Import Coquelicot.
From Verif Require Import Base M_Geometry S_Geometry P_Geometry M_Shapes S_Shapes M_Particle S_Particle P_Particle M_Quadrature S_Fem M_MatElem P_Energy M_Mesh M_Operator S_Operator P_Mesh P_Operator P_Operator2 P_Operator3 P_Global M_Bc S_Bc P_Bc P_Diag Prop_Operator Prop_Operator2 M_ParticleOp S_ParticleOp P_ParticleOp P_Circle P_Forces P_Forces2 Prop_ParticleOp M_Problem S_Problem P_Problem P_Problem2.
From Coq Require Import Permutation FunctionalExtensionality Classical.
Open Scope R_scope.

(** A velocity grid [m] with periodicities [per] and steps [h], distributed over processes that all
    own some nodes, Dirichlet conditions [bc] and well-formed particles. *)
Definition setting (D : nat) (m : list Z) (per : list bool) (h : vec) (parts : list gpart) (dms : list dmda) (bc : list bc_row) (k : R) : Prop :=
  grid_ok m per /\ length m = D /\ distributes m per D dms /\ steps_ok h m /\ small_grid m /\
  Forall (fun p => well_formed D h k (gp p)) parts /\ nonempty_views dms /\ table_ok D D bc.
(** the fluid solver is linear and the load has one condition per component *)
Definition fluid_ok (m : list Z) (D : nat) (pb : fluid) : Prop := linear_solver m D (fl_solve pb) /\ length (fl_conds pb) = D.

Lemma comb_crel dms a b x1 x2 x3 : control_combination dms a b x1 x2 x3 -> forall dm, In dm dms -> lcomb a b (x1 dm) (x2 dm) (x3 dm).
Proof. intros H dm Hin. destruct (H dm Hin) as (L2 & L3 & V). apply (F3_of_nth _ 0); auto. Qed.
Lemma crel_comb dms a b x1 x2 x3 : (forall dm, In dm dms -> lcomb a b (x1 dm) (x2 dm) (x3 dm)) -> control_combination dms a b x1 x2 x3.
Proof.
  intros H dm Hin. specialize (H dm Hin). destruct (F3_len _ _ _ _ H) as [L2 L3]. split; [exact L2|]. split; [exact L3|]. intros j. destruct (Nat.lt_ge_cases j (length (x1 dm))) as [Hj|Hj].
  - exact (F3_nth _ _ _ _ j 0 H Hj).
  - rewrite !nth_overflow by lia. ring.
Qed.
(** ** C43: linearity *)
(** superposition for the SEM operator, the data switched on or off *)
Theorem C43_sem_superposition : forall D m per h parts dms bc k scale pb, setting D m per h parts dms bc k -> fluid_ok m D pb ->
  let c := create_Mat_and_Vec D h parts dms (map Some bc) k scale in
  forall a b data1 data2 data3, on_off data3 = a * on_off data1 + b * on_off data2 ->
  forall x1 x2 x3, control_vector D h parts dms k scale x1 -> control_vector D h parts dms k scale x2 -> control_vector D h parts dms k scale x3 -> control_combination dms a b x1 x2 x3 ->
  forall y1 y2 y3, control_vector D h parts dms k scale y1 -> control_vector D h parts dms k scale y2 -> control_vector D h parts dms k scale y3 ->
  forall st1 st2 st3, exists r1 r2 r3,
    sem_matrix c pb data1 x1 y1 st1 = Ok r1 /\ sem_matrix c pb data2 x2 y2 st2 = Ok r2 /\ sem_matrix c pb data3 x3 y3 st3 = Ok r3 /\
    control_combination dms a b (fst r1) (fst r2) (fst r3) /\ field_combination m D a b (s_sol (snd r1)) (s_sol (snd r2)) (s_sol (snd r3)).
Proof.
  intros D m per h parts dms bc k scale pb (HG & Hm & HD & HSt & HS & HW & HN & HT) [HL HC] c a b d1 d2 d3 Hd x1 x2 x3 X1 X2 X3 Hx y1 y2 y3 Y1 Y2 Y3 st1 st2 st3.
  destruct (sem_rel D m per h parts dms bc k scale HG Hm HD HSt HS HW HN HT a b pb d1 d2 d3 x1 x2 x3 y1 y2 y3 st1 st2 st3 HL HC Hd X1 X2 X3 Y1 Y2 Y3 (comb_crel _ _ _ _ _ _ Hx)) as (r1 & r2 & r3 & E1 & E2 & E3 & R1 & R2 & R3).
  exists r1, r2, r3. split; [exact E1|]. split; [exact E2|]. split; [exact E3|]. split; [apply crel_comb, R1|exact R3].
Qed.
Print Assumptions C43_sem_superposition.
(** the operator KSPSolve applies in SEM (compute_rhs = false) is linear, whatever was solved before and
    whatever the output vectors held *)
Theorem C43_sem_linear : forall D m per h parts dms bc k scale pb, setting D m per h parts dms bc k -> fluid_ok m D pb ->
  let c := create_Mat_and_Vec D h parts dms (map Some bc) k scale in
  forall a b x1 x2 x3, control_vector D h parts dms k scale x1 -> control_vector D h parts dms k scale x2 -> control_vector D h parts dms k scale x3 -> control_combination dms a b x1 x2 x3 ->
  forall y1 y2 y3, control_vector D h parts dms k scale y1 -> control_vector D h parts dms k scale y2 -> control_vector D h parts dms k scale y3 ->
  forall st1 st2 st3, exists r1 r2 r3,
    sem_matrix c pb false x1 y1 st1 = Ok r1 /\ sem_matrix c pb false x2 y2 st2 = Ok r2 /\ sem_matrix c pb false x3 y3 st3 = Ok r3 /\ control_combination dms a b (fst r1) (fst r2) (fst r3).
Proof.
  intros. destruct (C43_sem_superposition D m per h parts dms bc k scale pb H H0 a b false false false ltac:(unfold on_off; ring) x1 x2 x3 H1 H2 H3 H4 y1 y2 y3 H5 H6 H7 st1 st2 st3) as (r1 & r2 & r3 & E1 & E2 & E3 & R & _).
  exists r1, r2, r3. auto.
Qed.
Print Assumptions C43_sem_linear.
(** the same for DtoN, with its three flags *)
Theorem C43_dton_superposition : forall D m per h parts dms bc k scale pb, setting D m per h parts dms bc k -> fluid_ok m D pb -> rigid_data D parts ->
  let c := create_Mat_and_Vec D h parts dms (map Some bc) k scale in
  forall a b fl1 fl2 fl3, on_off (f_rhs fl3) = a * on_off (f_rhs fl1) + b * on_off (f_rhs fl2) ->
    on_off (f_rigid fl3) = a * on_off (f_rigid fl1) + b * on_off (f_rigid fl2) -> on_off (f_sing fl3) = a * on_off (f_sing fl1) + b * on_off (f_sing fl2) ->
  forall x1 x2 x3, control_vector D h parts dms k scale x1 -> control_vector D h parts dms k scale x2 -> control_vector D h parts dms k scale x3 -> control_combination dms a b x1 x2 x3 ->
  forall y1 y2 y3, control_vector D h parts dms k scale y1 -> control_vector D h parts dms k scale y2 -> control_vector D h parts dms k scale y3 ->
  forall st1 st2 st3, exists r1 r2 r3,
    DtoN_matrix c pb fl1 x1 y1 st1 = Ok r1 /\ DtoN_matrix c pb fl2 x2 y2 st2 = Ok r2 /\ DtoN_matrix c pb fl3 x3 y3 st3 = Ok r3 /\
    control_combination dms a b (fst r1) (fst r2) (fst r3) /\ field_combination m D a b (s_sol (snd r1)) (s_sol (snd r2)) (s_sol (snd r3)).
Proof.
  intros D m per h parts dms bc k scale pb (HG & Hm & HD & HSt & HS & HW & HN & HT) [HL HC] HR c a b f1 f2 f3 H1 H2 H3 x1 x2 x3 X1 X2 X3 Hx y1 y2 y3 Y1 Y2 Y3 st1 st2 st3.
  destruct (dton_rel D m per h parts dms bc k scale HG Hm HD HSt HS HW HN HT a b pb f1 f2 f3 x1 x2 x3 y1 y2 y3 st1 st2 st3 HL HC HR H1 H3 H2 X1 X2 X3 Y1 Y2 Y3 (comb_crel _ _ _ _ _ _ Hx)) as (r1 & r2 & r3 & E1 & E2 & E3 & R1 & R2 & R3).
  exists r1, r2, r3. split; [exact E1|]. split; [exact E2|]. split; [exact E3|]. split; [apply crel_comb, R1|exact R3].
Qed.
Print Assumptions C43_dton_superposition.
Theorem C43_dton_linear : forall D m per h parts dms bc k scale pb, setting D m per h parts dms bc k -> fluid_ok m D pb -> rigid_data D parts ->
  let c := create_Mat_and_Vec D h parts dms (map Some bc) k scale in
  forall a b x1 x2 x3, control_vector D h parts dms k scale x1 -> control_vector D h parts dms k scale x2 -> control_vector D h parts dms k scale x3 -> control_combination dms a b x1 x2 x3 ->
  forall y1 y2 y3, control_vector D h parts dms k scale y1 -> control_vector D h parts dms k scale y2 -> control_vector D h parts dms k scale y3 ->
  forall st1 st2 st3, exists r1 r2 r3,
    DtoN_matrix c pb (dton_flags false) x1 y1 st1 = Ok r1 /\ DtoN_matrix c pb (dton_flags false) x2 y2 st2 = Ok r2 /\ DtoN_matrix c pb (dton_flags false) x3 y3 st3 = Ok r3 /\
    control_combination dms a b (fst r1) (fst r2) (fst r3).
Proof.
  intros. destruct (C43_dton_superposition D m per h parts dms bc k scale pb H H0 H1 a b (dton_flags false) (dton_flags false) (dton_flags false) ltac:(cbn; ring) ltac:(cbn; ring) ltac:(cbn; ring) x1 x2 x3 H2 H3 H4 H5 y1 y2 y3 H6 H7 H8 st1 st2 st3) as (r1 & r2 & r3 & E1 & E2 & E3 & R & _).
  exists r1, r2, r3. auto.
Qed.
Print Assumptions C43_dton_linear.
Lemma comb_refl D h parts dms k scale x : control_vector D h parts dms k scale x -> control_combination dms 1 0 x x x.
Proof. intros H dm Hin. split; [reflexivity|]. split; [reflexivity|]. intros j. ring. Qed.
Lemma comb_same dms x y z : control_combination dms 1 0 x y z -> forall dm, In dm dms -> z dm = x dm.
Proof. intros H dm Hin. destruct (H dm Hin) as (_ & L & V). apply (nth_ext _ _ 0 0); [exact L|]. intros j _. rewrite V. ring. Qed.
Lemma setting_sized D h parts dms k scale : exists z, control_vector D h parts dms k scale z /\ zero_control z.
Proof. exists (fun dm => repeat 0 (control_size D h parts k scale dm)). split; [intros dm _; apply repeat_length|]. intros dm v Hv. apply repeat_spec in Hv. exact Hv. Qed.
Lemma zero_nth z dm j : zero_control z -> nth j (z dm) 0 = 0.
Proof. intros H. destruct (Nat.lt_ge_cases j (length (z dm))) as [Hj|Hj]; [apply (H dm), nth_In, Hj|apply nth_overflow, Hj]. Qed.
(** and the result does not depend on what was solved before, nor on what y held *)
Theorem C43_sem_history_independent : forall D m per h parts dms bc k scale pb, setting D m per h parts dms bc k -> fluid_ok m D pb ->
  let c := create_Mat_and_Vec D h parts dms (map Some bc) k scale in
  forall data x y y' st st', control_vector D h parts dms k scale x -> control_vector D h parts dms k scale y -> control_vector D h parts dms k scale y' ->
  exists r r', sem_matrix c pb data x y st = Ok r /\ sem_matrix c pb data x y' st' = Ok r' /\ forall dm, In dm dms -> fst r' dm = fst r dm.
Proof.
  intros D m per h parts dms bc k scale pb H H0 c data x y y' st st' X Y Y'.
  destruct (C43_sem_superposition D m per h parts dms bc k scale pb H H0 1 0 data data data ltac:(ring) x x x X X X (comb_refl _ _ _ _ _ _ _ X) y y y' Y Y Y' st st st') as (r1 & r2 & r3 & E1 & E2 & E3 & R & _).
  exists r1, r3. split; [exact E1|]. split; [exact E3|]. apply (comb_same dms _ _ _ R).
Qed.
Print Assumptions C43_sem_history_independent.
Theorem C43_dton_history_independent : forall D m per h parts dms bc k scale pb, setting D m per h parts dms bc k -> fluid_ok m D pb -> rigid_data D parts ->
  let c := create_Mat_and_Vec D h parts dms (map Some bc) k scale in
  forall fl x y y' st st', control_vector D h parts dms k scale x -> control_vector D h parts dms k scale y -> control_vector D h parts dms k scale y' ->
  exists r r', DtoN_matrix c pb fl x y st = Ok r /\ DtoN_matrix c pb fl x y' st' = Ok r' /\ forall dm, In dm dms -> fst r' dm = fst r dm.
Proof.
  intros D m per h parts dms bc k scale pb H H0 HR c fl x y y' st st' X Y Y'.
  destruct (C43_dton_superposition D m per h parts dms bc k scale pb H H0 HR 1 0 fl fl fl ltac:(ring) ltac:(ring) ltac:(ring) x x x X X X (comb_refl _ _ _ _ _ _ _ X) y y y' Y Y Y' st st st') as (r1 & r2 & r3 & E1 & E2 & E3 & R & _).
  exists r1, r3. split; [exact E1|]. split; [exact E3|]. apply (comb_same dms _ _ _ R).
Qed.
Print Assumptions C43_dton_history_independent.
(** With use_sing the operator applied by KSPSolve is x -> A x + S, A the linear operator without
    singularity and S its value at the zero control. *)
Theorem C43_dton_singular_is_affine : forall D m per h parts dms bc k scale pb, setting D m per h parts dms bc k -> fluid_ok m D pb -> rigid_data D parts ->
  let c := create_Mat_and_Vec D h parts dms (map Some bc) k scale in
  forall x z y0 y1 yz st st' stz, control_vector D h parts dms k scale x -> control_vector D h parts dms k scale z -> zero_control z ->
    control_vector D h parts dms k scale y0 -> control_vector D h parts dms k scale y1 -> control_vector D h parts dms k scale yz ->
  exists A S AS, DtoN_matrix c pb (dton_flags false) x y0 st = Ok A /\ DtoN_matrix c pb (dton_flags true) z yz stz = Ok S /\ DtoN_matrix c pb (dton_flags true) x y1 st' = Ok AS /\
    control_combination dms 1 1 (fst A) (fst S) (fst AS).
Proof.
  intros D m per h parts dms bc k scale pb H H0 HR c x z y0 y1 yz st st' stz X Z Zz Y0 Y1 Yz.
  destruct (C43_dton_superposition D m per h parts dms bc k scale pb H H0 HR 1 1 (dton_flags false) (dton_flags true) (dton_flags true) ltac:(cbn; ring) ltac:(cbn; ring) ltac:(cbn; ring) x z x X Z X) with (y1 := y0) (y2 := yz) (y3 := y1) (st1 := st) (st2 := stz) (st3 := st') as (r1 & r2 & r3 & E1 & E2 & E3 & R & _); auto.
  - intros dm Hin. rewrite (X dm Hin), (Z dm Hin). split; [reflexivity|]. split; [reflexivity|]. intros j. rewrite (zero_nth z dm j Zz). ring.
  - exists r1, r2, r3. auto.
Qed.
Print Assumptions C43_dton_singular_is_affine.

(** ** C58: what the Krylov solve computes.  [A]: compute_rhs etc. off, [F]: the full operator *)
Lemma comb_zero_iff dms a b x1 x2 x3 : control_combination dms a b x1 x2 x3 -> forall dm j, In dm dms -> nth j (x3 dm) 0 = a * nth j (x1 dm) 0 + b * nth j (x2 dm) 0.
Proof. intros H dm j Hin. apply (H dm Hin). Qed.
Lemma opp_nth l j : nth j (map Ropp l) 0 = - nth j l 0.
Proof. rewrite <- Ropp_0 at 1. rewrite map_nth. reflexivity. Qed.
(** setup_RHS from the control x0, KSPSolve returning x (A x = b), then the full operator at x + x0 vanishes *)
Theorem C58_sem_equation : forall D m per h parts dms bc k scale pb, setting D m per h parts dms bc k -> fluid_ok m D pb ->
  let c := create_Mat_and_Vec D h parts dms (map Some bc) k scale in
  forall x0 x xs y0 y y1 st st1 st2 b Ax, control_vector D h parts dms k scale x0 -> control_vector D h parts dms k scale x -> control_vector D h parts dms k scale xs ->
    control_vector D h parts dms k scale y0 -> control_vector D h parts dms k scale y -> control_vector D h parts dms k scale y1 ->
  sem_setup_RHS c pb x0 y0 st = Ok b -> sem_matrix c pb false x y st1 = Ok Ax -> (forall dm, In dm dms -> fst Ax dm = fst b dm) ->
  control_combination dms 1 1 x x0 xs ->
  exists r, sem_matrix c pb true xs y1 st2 = Ok r /\ forall dm j, In dm dms -> nth j (fst r dm) 0 = 0.
Proof.
  intros D m per h parts dms bc k scale pb H H0 c x0 x xs y0 y y1 st st1 st2 b Ax X0 X XS Y0 Y Y1 EB EA EQ HX.
  destruct (C43_sem_superposition D m per h parts dms bc k scale pb H H0 1 1 false true true ltac:(cbn; ring) x x0 xs X X0 XS HX y y0 y1 Y Y0 Y1 st1 st st2) as (r1 & r2 & r3 & E1 & E2 & E3 & R & _).
  exists r3. split; [exact E3|]. fold c in E1, E2. rewrite E1 in EA. injection EA as ->. unfold sem_setup_RHS in EB. rewrite E2 in EB. cbn [bind] in EB. injection EB as <-. cbn [fst] in EQ.
  intros dm j Hin. rewrite (comb_zero_iff _ _ _ _ _ _ R dm j Hin), (EQ dm Hin), opp_nth. ring.
Qed.
Print Assumptions C58_sem_equation.
(** but solve() returns x, not x + x0: from a control x0 different from 0 the residual of the full
    equation at the returned control is - A x0 *)
Theorem C58_sem_restart_residual : forall D m per h parts dms bc k scale pb, setting D m per h parts dms bc k -> fluid_ok m D pb ->
  let c := create_Mat_and_Vec D h parts dms (map Some bc) k scale in
  forall x0 x y0 y y1 y2 st st1 st2 st3 b Ax, control_vector D h parts dms k scale x0 -> control_vector D h parts dms k scale x ->
    control_vector D h parts dms k scale y0 -> control_vector D h parts dms k scale y -> control_vector D h parts dms k scale y1 -> control_vector D h parts dms k scale y2 ->
  sem_setup_RHS c pb x0 y0 st = Ok b -> sem_matrix c pb false x y st1 = Ok Ax -> (forall dm, In dm dms -> fst Ax dm = fst b dm) ->
  exists r Ax0, sem_matrix c pb true x y1 st2 = Ok r /\ sem_matrix c pb false x0 y2 st3 = Ok Ax0 /\ forall dm j, In dm dms -> nth j (fst r dm) 0 = - nth j (fst Ax0 dm) 0.
Proof.
  intros D m per h parts dms bc k scale pb H H0 c x0 x y0 y y1 y2 st st1 st2 st3 b Ax X0 X Y0 Y Y1 Y2 EB EA EQ.
  destruct (setting_sized D h parts dms k scale) as (xs & XS & _). clear xs XS. set (xs := fun dm => map (fun j => nth j (x dm) 0 + nth j (x0 dm) 0) (seq 0 (control_size D h parts k scale dm))).
  assert (XS : control_vector D h parts dms k scale xs) by (intros dm _; unfold xs; rewrite map_length; apply seq_length).
  assert (CB : control_combination dms 1 1 x x0 xs).
  { intros dm Hin. rewrite (X dm Hin), (X0 dm Hin), (XS dm Hin). split; [reflexivity|]. split; [reflexivity|]. intros j. destruct (Nat.lt_ge_cases j (control_size D h parts k scale dm)) as [Hj|Hj].
    - unfold xs. rewrite nth_map_seq by exact Hj. ring.
    - rewrite !nth_overflow; [ring| | |]; rewrite ?(X dm Hin), ?(X0 dm Hin), ?(XS dm Hin); lia. }
  destruct (C58_sem_equation D m per h parts dms bc k scale pb H H0 x0 x xs y0 y y1 st st1 st2 b Ax X0 X XS Y0 Y Y1 EB EA EQ CB) as (r & E & V).
  assert (CB' : control_combination dms 1 1 x0 x xs). { intros dm Hin. destruct (CB dm Hin) as (A1 & A2 & A3). split; [congruence|]. split; [congruence|]. intros j. rewrite A3. ring. }
  destruct (C43_sem_superposition D m per h parts dms bc k scale pb H H0 1 1 false true true ltac:(cbn; ring) x0 x xs X0 X XS CB' y2 y1 y1 Y2 Y1 Y1 st3 st2 st2) as (r1 & r2 & r3 & E1 & E2 & E3 & R & _).
  fold c in E, E1, E2, E3. rewrite E in E3. injection E3 as <-. exists r2, r1. split; [exact E2|]. split; [exact E1|]. intros dm j Hin. pose proof (comb_zero_iff _ _ _ _ _ _ R dm j Hin) as W. rewrite (V dm j Hin) in W. lra.
Qed.
Print Assumptions C58_sem_restart_residual.
(** DtoN without singularity: the same equation *)
Theorem C58_dton_equation : forall D m per h parts dms bc k scale pb, setting D m per h parts dms bc k -> fluid_ok m D pb -> rigid_data D parts ->
  let c := create_Mat_and_Vec D h parts dms (map Some bc) k scale in
  forall x0 x xs y0 y y1 st st1 st2 b Ax, control_vector D h parts dms k scale x0 -> control_vector D h parts dms k scale x -> control_vector D h parts dms k scale xs ->
    control_vector D h parts dms k scale y0 -> control_vector D h parts dms k scale y -> control_vector D h parts dms k scale y1 ->
  dton_setup_RHS c pb false x0 y0 st = Ok b -> DtoN_matrix c pb (dton_flags false) x y st1 = Ok Ax -> (forall dm, In dm dms -> fst Ax dm = fst b dm) ->
  control_combination dms 1 1 x x0 xs ->
  exists r, DtoN_matrix c pb (mkflags true true false) xs y1 st2 = Ok r /\ forall dm j, In dm dms -> nth j (fst r dm) 0 = 0.
Proof.
  intros D m per h parts dms bc k scale pb H H0 HR c x0 x xs y0 y y1 st st1 st2 b Ax X0 X XS Y0 Y Y1 EB EA EQ HX.
  destruct (C43_dton_superposition D m per h parts dms bc k scale pb H H0 HR 1 1 (dton_flags false) (mkflags true true false) (mkflags true true false) ltac:(cbn; ring) ltac:(cbn; ring) ltac:(cbn; ring) x x0 xs X X0 XS HX y y0 y1 Y Y0 Y1 st1 st st2) as (r1 & r2 & r3 & E1 & E2 & E3 & R & _).
  exists r3. split; [exact E3|]. fold c in E1, E2. rewrite E1 in EA. injection EA as ->. unfold dton_setup_RHS in EB. rewrite E2 in EB. cbn [bind] in EB. injection EB as <-. cbn [fst] in EQ.
  intros dm j Hin. rewrite (comb_zero_iff _ _ _ _ _ _ R dm j Hin), (EQ dm Hin), opp_nth. ring.
Qed.
Print Assumptions C58_dton_equation.
(** DtoN with singularity: S is counted twice, the full equation at the returned control x (from
    the zero control) has residual - S *)
Theorem C58_dton_singular_residual : forall D m per h parts dms bc k scale pb, setting D m per h parts dms bc k -> fluid_ok m D pb -> rigid_data D parts ->
  let c := create_Mat_and_Vec D h parts dms (map Some bc) k scale in
  forall z x y0 y y1 yz st st1 st2 stz b Ax, control_vector D h parts dms k scale z -> zero_control z -> control_vector D h parts dms k scale x ->
    control_vector D h parts dms k scale y0 -> control_vector D h parts dms k scale y -> control_vector D h parts dms k scale y1 -> control_vector D h parts dms k scale yz ->
  dton_setup_RHS c pb true z y0 st = Ok b -> DtoN_matrix c pb (dton_flags true) x y st1 = Ok Ax -> (forall dm, In dm dms -> fst Ax dm = fst b dm) ->
  exists r S, DtoN_matrix c pb (mkflags true true true) x y1 st2 = Ok r /\ DtoN_matrix c pb (dton_flags true) z yz stz = Ok S /\
    forall dm j, In dm dms -> nth j (fst r dm) 0 = - nth j (fst S dm) 0.
Proof.
  intros D m per h parts dms bc k scale pb H H0 HR c z x y0 y y1 yz st st1 st2 stz b Ax Z Zz X Y0 Y Y1 Yz EB EA EQ.
  assert (CB : control_combination dms 1 1 x z x). { intros dm Hin. rewrite (X dm Hin), (Z dm Hin). split; [reflexivity|]. split; [reflexivity|]. intros j. rewrite (zero_nth z dm j Zz). ring. }
  destruct (C43_dton_superposition D m per h parts dms bc k scale pb H H0 HR 1 1 (dton_flags false) (mkflags true true true) (mkflags true true true) ltac:(cbn; ring) ltac:(cbn; ring) ltac:(cbn; ring) x z x X Z X CB y y0 y1 Y Y0 Y1 st1 st st2) as (r1 & r2 & r3 & E1 & E2 & E3 & R & _).
  destruct (C43_dton_singular_is_affine D m per h parts dms bc k scale pb H H0 HR x z y y yz st1 st1 stz X Z Zz Y Y Yz) as (A & S & AS & F1 & F2 & F3 & W).
  fold c in E1, E2, E3, F1, F2, F3. rewrite E1 in F1. injection F1 as <-. rewrite F3 in EA. injection EA as <-. exists r3, S. split; [exact E3|]. split; [exact F2|].
  unfold dton_setup_RHS in EB. rewrite E2 in EB. cbn [bind] in EB. injection EB as <-. cbn [fst] in EQ. intros dm j Hin. rewrite (comb_zero_iff _ _ _ _ _ _ R dm j Hin). pose proof (comb_zero_iff _ _ _ _ _ _ W dm j Hin) as W'. rewrite (EQ dm Hin), opp_nth in W'. lra.
Qed.
Print Assumptions C58_dton_singular_residual.

(** ** C44: the last solve *)
Definition krylov_vectors (D : nat) (h : vec) (parts : list gpart) (dms : list dmda) (k : R) (scale : Z) (xs : list (control * control)) : Prop :=
  Forall (fun xy => control_vector D h parts dms k scale (fst xy) /\ control_vector D h parts dms k scale (snd xy)) xs.
Lemma dton_krylov_ok D m per h parts dms bc k scale pb s xs : setting D m per h parts dms bc k -> fluid_ok m D pb -> rigid_data D parts -> krylov_vectors D h parts dms k scale xs ->
  forall st, exists st', dton_krylov (create_Mat_and_Vec D h parts dms (map Some bc) k scale) pb s xs st = Ok st'.
Proof.
  intros H H0 HR HX. induction HX as [|[x y] xs [X Y] _ IH]; intros st; [exists st; reflexivity|]. cbn [fst snd] in *.
  destruct (C43_dton_history_independent D m per h parts dms bc k scale pb H H0 HR (dton_flags s) x y y st st X Y Y) as (r & _ & E & _). unfold dton_krylov. cbn [fold_left bind fst snd]. rewrite E. cbn [bind]. apply IH.
Qed.
Lemma sem_krylov_ok D m per h parts dms bc k scale pb xs : setting D m per h parts dms bc k -> fluid_ok m D pb -> krylov_vectors D h parts dms k scale xs ->
  forall st, exists st', sem_krylov (create_Mat_and_Vec D h parts dms (map Some bc) k scale) pb xs st = Ok st'.
Proof.
  intros H H0 HX. induction HX as [|[x y] xs [X Y] _ IH]; intros st; [exists st; reflexivity|]. cbn [fst snd] in *.
  destruct (C43_sem_history_independent D m per h parts dms bc k scale pb H H0 false x y y st st X Y Y) as (r & _ & E & _). unfold sem_krylov. cbn [fold_left bind fst snd]. rewrite E. cbn [bind]. apply IH.
Qed.
Lemma added_ok D m per h parts dms bc k scale x af : setting D m per h parts dms bc k -> control_vector D h parts dms k scale x ->
  exists added : field, forall rhs, set_rhs_problem (create_Mat_and_Vec D h parts dms (map Some bc) k scale) x af rhs = Ok (fun n d => rhs n d + added n d).
Proof.
  intros (HG & Hm & HD & HSt & HS & HW & HN & HT) X.
  destruct (rhs_added D m per h parts dms bc k scale HG Hm HD HSt HS HW 1 0 af af af ltac:(ring) x x x X X X) as (m1 & _ & _ & _ & A & _); [|exists m1; exact A].
  intros dm Hin. apply (F3_of_nth _ 0); auto. intros. ring.
Qed.
Definition at_node (h : vec) (n : list Z) : list R := zip_with (fun i s => IZR i * s) n h.
(** The last right-hand side: [load] the mass matrix applied to the load (0 without one), [added] the mass
    matrix applied to the controls (and forces) in the particles. *)
Definition last_rhs (D : nat) (m : list Z) (per : list bool) (h : vec) (bc : list bc_row) (before load added : field) (rhs : field) : Prop :=
  forall n d, in_grid_box (nodes_box m) n -> (d < D)%nat ->
    rhs n d = match prescribed D m per bc n d with Some f => f (at_node h n) | None => before n d + load n d + added n d end.
Definition load_field (D : nat) (m : list Z) (h : vec) (dms : list dmda) (conds : bc_row) (load : field) : Prop :=
  (loaded conds -> diag_block_matrix_raw (mass_mult h) dms (fun n d => match nth d conds None with Some f => f (at_node h n) | None => 0 end) = Ok load) /\
  (unloaded conds -> load = zeros).
Lemma setup_load D m per h parts dms bc k conds : setting D m per h parts dms bc k -> length conds = D -> exists load, load_field D m h dms conds load /\
  forall rhs, exists y, setup_RHS D conds (map Some bc) h dms rhs = Ok y /\
    forall n d, in_grid_box (nodes_box m) n -> (d < D)%nat -> y n d = match prescribed D m per bc n d with Some f => f (at_node h n) | None => rhs n d + load n d end.
Proof.
  intros (HG & Hm & HD & HSt & HS & HW & HN & HT) Hc. rewrite <- Hm in HT at 1. unfold load_field. destruct (loaded_dec conds) as [E|E].
  - destruct (C45_first_call m per D dms conds bc h zeros HG HD HN HT Hc E) as (y0 & mf & _ & Em & _). exists mf. split; [split; [intros _; exact Em|intros U; exfalso; destruct E as (c & f & E); rewrite (U c) in E; discriminate]|]. intros rhs.
    destruct (C45_first_call m per D dms conds bc h rhs HG HD HN HT Hc E) as (y & mf' & Ey & Em' & V). rewrite Em in Em'. injection Em' as <-. exists y. rewrite Hm in Ey, V. split; [exact Ey|exact V].
  - exists zeros. split; [split; [intros (c & f & F); exfalso; rewrite (E c) in F; discriminate|reflexivity]|]. intros rhs. destruct (C30_on_rhs m per D bc h dms rhs HG HD HN HT) as (y & Ey & V). rewrite Hm in Ey, V. exists y. unfold setup_RHS. rewrite (has_condition_unloaded _ E). cbn [bind]. split; [exact Ey|].
    intros n d Hn Hd. rewrite (V n d Hn Hd). unfold zeros, at_node. destruct (prescribed D m per bc n d); ring.
Qed.
(** DtoN: the same right-hand side and solution whatever was applied before, made of the load, the
    singular field and the returned controls only *)
Theorem C44_dton_last_solve : forall D m per h parts dms bc k scale pb, setting D m per h parts dms bc k -> fluid_ok m D pb -> rigid_data D parts ->
  let c := create_Mat_and_Vec D h parts dms (map Some bc) k scale in
  forall (use_sing : bool) sol, control_vector D h parts dms k scale sol -> exists load added rhs : field,
    load_field D m h dms (fl_conds pb) load /\ set_rhs_problem c sol false zeros = Ok (fun n d => zeros n d + added n d) /\
    last_rhs D m per h bc (fun n d => if use_sing then fl_sing pb n d else 0) load added rhs /\
    forall xs st, krylov_vectors D h parts dms k scale xs -> dton_solve c pb use_sing xs sol st = Ok (mkpstate rhs (fl_solve pb rhs)).
Proof.
  intros D m per h parts dms bc k scale pb H H0 HR c s sol X. pose proof H as (HG & Hm & HD & HSt & HS & HW & HN & HT). pose proof H0 as [HL HC].
  destruct (added_ok D m per h parts dms bc k scale sol false H X) as [added HA]. fold c in HA. destruct (setup_load D m per h parts dms bc k (fl_conds pb) H HC) as (load & LF & Hl).
  destruct (init_is D m per h parts dms bc k scale HG Hm HD HN HT pb (mkflags false false false) sol false added HC HA load Hl zeros) as (r0 & E0 & _).
  destruct (init_is D m per h parts dms bc k scale HG Hm HD HN HT pb (mkflags true true s) sol false added HC HA load Hl zeros) as (r & E & V). fold c in E0, E.
  exists load, added, r. split; [exact LF|]. split; [apply HA|]. split.
  - intros n d Hn Hd. rewrite (V n d Hn Hd). unfold init_value, zeros, at_node. cbn [f_rhs f_sing]. destruct (prescribed D m per bc n d); [reflexivity|]. destruct s; ring.
  - intros xs st HX. unfold dton_solve. destruct (dton_krylov_ok D m per h parts dms bc k scale pb s xs H H0 HR HX st) as [st' ES]. fold c in ES. rewrite ES. cbn [bind]. unfold solve_last_problem. rewrite E0. cbn [bind]. rewrite E. reflexivity.
Qed.
Print Assumptions C44_dton_last_solve.
(** SEM: init_problem adds to what the last application left in rhs *)
Theorem C44_sem_last_solve : forall D m per h parts dms bc k scale pb, setting D m per h parts dms bc k -> fluid_ok m D pb ->
  let c := create_Mat_and_Vec D h parts dms (map Some bc) k scale in
  forall sol, control_vector D h parts dms k scale sol -> exists load added : field,
    load_field D m h dms (fl_conds pb) load /\ set_rhs_problem c sol true zeros = Ok (fun n d => zeros n d + added n d) /\
    forall xs st, krylov_vectors D h parts dms k scale xs -> exists left_over rhs, sem_krylov c pb xs st = Ok left_over /\
      last_rhs D m per h bc (s_rhs left_over) load added rhs /\ sem_solve c pb xs sol st = Ok (mkpstate rhs (fl_solve pb rhs)).
Proof.
  intros D m per h parts dms bc k scale pb H H0 c sol X. pose proof H as (HG & Hm & HD & HSt & HS & HW & HN & HT). pose proof H0 as [HL HC].
  destruct (added_ok D m per h parts dms bc k scale sol true H X) as [added HA]. fold c in HA. destruct (setup_load D m per h parts dms bc k (fl_conds pb) H HC) as (load & LF & Hl).
  exists load, added. split; [exact LF|]. split; [apply HA|]. intros xs st HX. destruct (sem_krylov_ok D m per h parts dms bc k scale pb xs H H0 HX st) as [st' ES]. fold c in ES.
  destruct (init_is D m per h parts dms bc k scale HG Hm HD HN HT pb (mkflags true false false) sol true added HC HA load Hl (s_rhs st')) as (r & E & V). fold c in E.
  exists st', r. split; [exact ES|]. split.
  - intros n d Hn Hd. rewrite (V n d Hn Hd). unfold init_value, at_node. cbn [f_rhs f_sing]. destruct (prescribed D m per bc n d); [reflexivity|]. ring.
  - unfold sem_solve. rewrite ES. cbn [bind]. rewrite E. reflexivity.
Qed.
Print Assumptions C44_sem_last_solve.
(** what the last application leaves: the density it spread; it vanishes only if the operator does *)
Lemma sem_left_over D m per h parts dms bc k scale pb x y st r : setting D m per h parts dms bc k -> fluid_ok m D pb -> control_vector D h parts dms k scale y ->
  let c := create_Mat_and_Vec D h parts dms (map Some bc) k scale in
  sem_matrix c pb false x y st = Ok r ->
  (forall n d, in_grid_box (nodes_box m) n -> (d < D)%nat -> prescribed D m per bc n d <> None -> s_rhs (snd r) n d = 0) /\
  ((forall n d, in_grid_box (nodes_box m) n -> (d < D)%nat -> prescribed D m per bc n d = None -> s_rhs (snd r) n d = 0) -> forall dm j, In dm dms -> nth j (fst r dm) 0 = 0).
Proof.
  intros (HG & Hm & HD & HSt & HS & HW & HN & HT) [HL HC] Y c E. unfold sem_matrix in E.
  destruct (init_problem c pb (mkflags false false false) x false zeros) as [rhs0| | |]; cbn [bind] in E; try discriminate.
  destruct (interp_all c false (fl_solve pb rhs0)) as [g| | |]; cbn [bind] in E; try discriminate.
  unfold SL_to_Rhs in E. destruct (SL_to_Rhs_raw c (fst (fst (simple_layer c g)))) as [raw| | |]; cbn [bind] in E; try discriminate.
  change (x_D c) with D in E. change (x_dms c) with dms in E. change (x_bc c) with (map Some bc) in E.
  pose proof HT as HT'. rewrite <- Hm in HT' at 1. destruct (C30_null_on_rhs m per D bc dms raw HG HD HN HT') as (q & Eq & Vq). rewrite Hm in Eq, Vq. rewrite Eq in E. cbn [bind] in E.
  destruct (projection_all c (fl_solve pb q)) as [mc| | |] eqn:EP; cbn [bind] in E; try discriminate.
  destruct (on_control c (compute_y_rigid c (fl_solve pb q) (fst mc) (snd mc)) y) as [yy| | |] eqn:EY; cbn [bind] in E; try discriminate. injection E as <-. cbn [fst snd s_rhs].
  split. { intros n d Hn Hd HP. rewrite (Vq n d Hn Hd). destruct (prescribed D m per bc n d); [reflexivity|congruence]. }
  intros HZ. assert (Q0 : fcomb m D 0 0 q q q). { intros n d Hn Hd. destruct (prescribed D m per bc n d) eqn:EPr; [rewrite (Vq n d Hn Hd), EPr; ring|rewrite (HZ n d Hn Hd EPr); ring]. }
  apply HL in Q0. destruct (projection_all_rel D m per h parts dms bc k scale HG Hm HD HSt HW 0 0 _ _ _ Q0) as (p1 & p2 & p3 & P1 & P2 & P3 & PR). fold c in P1, P2, P3. rewrite EP in P1, P2, P3. injection P1 as <-. injection P2 as <-. injection P3 as <-.
  destruct (compute_y_rigid_rel D m per h parts dms bc k scale HG Hm HD HSt HS HW 0 0 _ _ _ y y y (fst mc) (fst mc) (fst mc) (snd mc) (snd mc) (snd mc) Q0 Y Y Y PR) as (z1 & z2 & z3 & Z1 & Z2 & Z3 & ZR). fold c in Z1, Z2, Z3.
  rewrite EY in Z1, Z2, Z3. injection Z1 as <-. injection Z2 as <-. injection Z3 as <-. intros dm j Hin. destruct (crel_comb dms 0 0 _ _ _ ZR dm Hin) as (_ & _ & V). rewrite V. ring.
Qed.
(** so, for every solver and every problem: after the application of the operator to any x with A x <> 0 the last
    right-hand side differs from the one the data and the controls give, and so does the
    solution if the solver is injective *)
Theorem C44_sem_last_solve_history_refuted : forall D m per h parts dms bc k scale pb, setting D m per h parts dms bc k -> fluid_ok m D pb ->
  let c := create_Mat_and_Vec D h parts dms (map Some bc) k scale in
  forall sol, control_vector D h parts dms k scale sol ->
  forall xs x y st, krylov_vectors D h parts dms k scale (xs ++ [(x, y)]) ->
  (forall r, sem_matrix c pb false x y st = Ok r -> exists dm j, In dm dms /\ nth j (fst r dm) 0 <> 0) ->
  exists st1 st2, sem_solve c pb [] sol (mkpstate zeros zeros) = Ok st1 /\ sem_solve c pb (xs ++ [(x, y)]) sol st = Ok st2 /\
    (exists n d, in_grid_box (nodes_box m) n /\ (d < D)%nat /\ s_rhs st2 n d <> s_rhs st1 n d) /\
    ((forall f g, (forall n d, in_grid_box (nodes_box m) n -> (d < D)%nat -> fl_solve pb f n d = fl_solve pb g n d) -> forall n d, in_grid_box (nodes_box m) n -> (d < D)%nat -> f n d = g n d) ->
     exists n d, in_grid_box (nodes_box m) n /\ (d < D)%nat /\ s_sol st2 n d <> s_sol st1 n d).
Proof.
  intros D m per h parts dms bc k scale pb H H0 c sol X xs x y st HX HA.
  destruct (C44_sem_last_solve D m per h parts dms bc k scale pb H H0 sol X) as (load & added & _ & _ & K). fold c in K.
  destruct (K [] (mkpstate zeros zeros) (Forall_nil _)) as (l1 & r1 & E1 & V1 & S1). cbn in E1. injection E1 as <-.
  destruct (K (xs ++ [(x, y)]) st HX) as (l2 & r2 & E2 & V2 & S2). exists (mkpstate r1 (fl_solve pb r1)), (mkpstate r2 (fl_solve pb r2)). split; [exact S1|]. split; [exact S2|]. cbn [s_rhs s_sol].
  assert (DIFF : exists n d, in_grid_box (nodes_box m) n /\ (d < D)%nat /\ r2 n d <> r1 n d).
  { apply Forall_app in HX as [HX1 HX2]. inversion HX2 as [|? ? [X' Y'] _]; subst. cbn [fst snd] in *.
    unfold sem_krylov in E2. rewrite fold_left_app in E2. cbn [fold_left] in E2. fold (sem_krylov c pb xs st) in E2. destruct (sem_krylov c pb xs st) as [st'| | |]; cbn [bind] in E2; try discriminate. cbn [fst snd] in E2.
    destruct (sem_matrix c pb false x y st') as [r| | |] eqn:EM; cbn [bind] in E2; try discriminate. injection E2 as <-.
    destruct (C43_sem_history_independent D m per h parts dms bc k scale pb H H0 false x y y st st' X' Y' Y') as (q & q' & Q1 & Q2 & QE). fold c in Q1, Q2. rewrite EM in Q2. injection Q2 as <-.
    destruct (HA q Q1) as (dm & j & Hin & HJ). rewrite <- (QE dm Hin) in HJ. destruct (sem_left_over D m per h parts dms bc k scale pb x y st' r H H0 Y' EM) as [_ L2].
    apply NNPP. intros NE. apply HJ. apply L2; [|exact Hin]. intros n d Hn Hd HP. apply NNPP. intros NZ. apply NE. exists n, d. split; [exact Hn|]. split; [exact Hd|]. rewrite (V1 n d Hn Hd), (V2 n d Hn Hd), HP. unfold zeros. cbn [s_rhs]. lra. }
  split; [exact DIFF|]. intros INJ. destruct DIFF as (n & d & Hn & Hd & NE). apply NNPP. intros NN. apply NE. apply (INJ r2 r1); auto. intros n' d' Hn' Hd'. apply NNPP. intros HE. apply NN. eauto.
Qed.
Print Assumptions C44_sem_last_solve_history_refuted.

(** ** C59: the layout of the controls *)
(** each process reads and writes the same entries for the same nodes: pts dm i lists the grid nodes of particle i
    of process dm in increasing order; the vector has exactly one entry per node and component *)
Definition dmda_eq_dec (x y : dmda) : {x = y} + {x <> y}.
Proof. repeat decide equality. Defined.
Lemma pts_nodup h dm p l : control_points h dm p l -> NoDup l.
Proof. intros [S _]. revert S. apply strictly_increasing_NoDup. intros x. apply colex_irrefl. Qed.
Lemma owner_unique m per D dms l1 dm l2 dm' q : grid_ok m per -> length m = D -> distributes m per D dms -> dms = l1 ++ dm :: l2 -> In dm' l2 ->
  in_grid_box (g_own dm) q -> in_grid_box (g_own dm') q -> False.
Proof.
  intros HG Hm HD E Hin' Q Q'. destruct HD as [_ HT]. destruct (HT q) as [T1 T2]. apply in_split in Hin' as (u & v & ->).
  set (bs := map g_own dms) in *. assert (LB : length bs = length dms) by apply map_length.
  assert (LD : length dms = (length l1 + S (length u + S (length v)))%nat) by (rewrite E, app_length; cbn [length]; rewrite app_length; reflexivity).
  assert (I1 : nth (length l1) bs (nodes_box m) = g_own dm). { unfold bs. rewrite E, map_app, app_nth2; rewrite map_length; [|lia]. rewrite Nat.sub_diag. reflexivity. }
  assert (I2 : nth (length l1 + S (length u)) bs (nodes_box m) = g_own dm'). { unfold bs. rewrite E, map_app, app_nth2; rewrite map_length; [|lia]. replace (length l1 + S (length u) - length l1)%nat with (S (length u)) by lia. cbn [map nth]. rewrite map_app, app_nth2; rewrite map_length; [|lia]. rewrite Nat.sub_diag. reflexivity. }
  destruct T1 as (j & Hj & _ & U). { apply (T2 (length l1)); [lia|]. rewrite I1. exact Q. }
  pose proof (U (length l1) ltac:(lia) ltac:(rewrite I1; exact Q)). pose proof (U (length l1 + S (length u))%nat ltac:(lia) ltac:(rewrite I2; exact Q')). lia.
Qed.
Theorem C59_control_layout : forall D m per h parts dms bc k scale, setting D m per h parts dms bc k ->
  let c := create_Mat_and_Vec D h parts dms (map Some bc) k scale in
  exists pts, (forall dm i, In dm dms -> (i < length parts)%nat -> control_points h dm (gp (nth i parts gpart0)) (pts dm i)) /\
  (* every control vector is the layout of some values *)
  (forall x, control_vector D h parts dms k scale x -> exists F, forall dm, In dm dms -> x dm = laid_out D (length parts) (pts dm) (F dm)) /\
  (forall x F, (forall dm, In dm dms -> x dm = laid_out D (length parts) (pts dm) (F dm)) -> control_vector D h parts dms k scale x) /\
  (* reading: the forces whose mass-matrix image is added to rhs; of two overlapping particles the later one counts *)
  (forall x F apply_forces, (forall dm, In dm dms -> x dm = laid_out D (length parts) (pts dm) (F dm)) ->
     exists forces mm, diag_block_matrix_raw (mass_mult h) dms forces = Ok mm /\
       (forall rhs, set_rhs_problem c x apply_forces rhs = Ok (fun n d => rhs n d + mm n d)) /\
       (forall dm i q d, In dm dms -> (i < length parts)%nat -> In q (pts dm i) -> (forall j, (i < j < length parts)%nat -> ~ In q (pts dm j)) -> (d < D)%nat ->
          forces q d = F dm i q d + (if apply_forces then gp_rho (nth i parts gpart0) * nth d (gp_force (nth i parts gpart0)) 0 else 0)) /\
       (forall q d, (forall dm i, In dm dms -> (i < length parts)%nat -> ~ In q (pts dm i)) -> forces q d = 0)) /\
  (* writing *)
  (forall sol y0 dm, In dm dms -> length y0 = control_size D h parts k scale dm -> compute_y c sol dm y0 = Ok (laid_out D (length parts) (pts dm) (fun _ q d => sol q d))).
Proof.
  intros D m per h parts dms bc k scale H c. pose proof H as (HG & Hm & HD & HSt & HS & HW & HN & HT). exists (the_pts h parts).
  assert (Hh : length h = D). { destruct HSt as [E _]. rewrite E. exact Hm. }
  assert (SPEC : forall dm i, In dm dms -> (i < length parts)%nat -> control_points h dm (gp (nth i parts gpart0)) (the_pts h parts dm i)) by (intros dm i Hin Hi; apply (the_pts_spec D m per h parts dms k HG Hm HD HW dm i Hin Hi)).
  split; [exact SPEC|]. split; [|split; [|split]].
  - intros x X. assert (EX : forall dm, exists F, In dm dms -> x dm = laid_out D (length parts) (the_pts h parts dm) F).
    { intros dm. destruct (classic (In dm dms)) as [Hin|Hin]; [|exists (fun _ _ _ => 0); intros; contradiction].
      destruct (layout_exists D (the_pts h parts dm) (length parts)) with (x := x dm) as [F EF]; [intros i Hi; apply (pts_nodup _ _ _ _ (SPEC dm i Hin Hi))| |exists F; auto].
      rewrite (X dm Hin). apply (size_is D m per h parts dms k scale HG Hm HD Hh HS HW dm Hin). }
    clear - EX. revert EX. induction dms as [|dm l IH]; intros EX; [exists (fun _ _ _ _ => 0); intros dm []|].
    destruct IH as [F HF]. { intros d. destruct (EX d) as [G HG]. exists G. intros Hin. apply HG. right. exact Hin. }
    destruct (EX dm) as [G HG]. exists (fun d => if dmda_eq_dec d dm then G else F d). intros d Hin. destruct (dmda_eq_dec d dm) as [->|Hne]; [apply HG; left; reflexivity|]. apply HF. destruct Hin as [E|Hin]; [congruence|exact Hin].
  - intros x F HF dm Hin. rewrite (HF dm Hin), laid_out_length. symmetry. apply (size_is D m per h parts dms k scale HG Hm HD Hh HS HW dm Hin).
  - intros x F af HF.
    set (val := fun l q d => fold_left (fun v dm => last_holder (length parts) (the_pts h parts dm) (given parts af (F dm)) q d v) l 0).
    assert (FV : forall l f0, (forall dm, In dm l -> In dm dms) -> exists f, fold_left (fun o dm => bind o (set_rhs_problem_impl c (x dm) af dm)) l (Ok f0) = Ok f /\
      forall q d, f q d = if Nat.ltb d D then fold_left (fun v dm => last_holder (length parts) (the_pts h parts dm) (given parts af (F dm)) q d v) l (f0 q d) else f0 q d).
    { induction l as [|dm l IH]; intros f0 Hl; [exists f0; split; [reflexivity|]; intros q d; destruct (Nat.ltb d D); reflexivity|]. cbn [fold_left bind].
      destruct (impl_value D m per h parts dms bc k scale HG Hm HD HSt HS HW af dm (x dm) (F dm) f0 (Hl dm (or_introl eq_refl)) (HF dm (Hl dm (or_introl eq_refl)))) as (f1 & E1 & V1). fold c in E1. rewrite E1.
      destruct (IH f1) as (f2 & E2 & V2); [intros; apply Hl; right; auto|]. exists f2. split; [exact E2|]. intros q d. rewrite V2, V1. destruct (Nat.ltb d D); reflexivity. }
    destruct (FV dms zeros (fun dm Hx => Hx)) as (forces & EF & VF).
    destruct (C24_mass_linear h m per D dms 1 0 forces forces HG HD) as (mm & _ & _ & EM & _). exists forces, mm. split; [exact EM|]. split; [|split].
    + intros rhs. unfold set_rhs_problem. change (x_dms c) with dms. change (x_h c) with h. rewrite EF. cbn [bind]. rewrite EM. reflexivity.
    + intros dm i q d Hin Hi Hq Hj Hd. rewrite VF, (proj2 (Nat.ltb_lt d D) Hd). apply in_split in Hin as (l1 & l2 & E). rewrite E, fold_left_app. cbn [fold_left].
      rewrite (last_holder_some _ _ _ q d _ i Hi Hq Hj). assert (Hin : In dm dms) by (rewrite E; apply in_elt).
      assert (OWN : forall dm' i', In dm' dms -> (i' < length parts)%nat -> In q (the_pts h parts dm' i') -> in_grid_box (g_own dm') q).
      { intros dm' i' Hin' Hi' Hq'. destruct (pts_own D m per h parts dms k HG Hm HD HSt HW dm' i' q Hin' Hi' Hq') as (Po & _ & Lq). pose proof (proj1 HD) as HV. rewrite Forall_forall in HV. destruct (view_dims m per D dm' (HV dm' Hin') ltac:(apply HG)) as (V2 & _). apply (point_inside_grid (length m)) in Po; auto; lia. }
      assert (KEEP : forall l v, (forall dm', In dm' l -> In dm' l2) -> fold_left (fun v dm => last_holder (length parts) (the_pts h parts dm) (given parts af (F dm)) q d v) l v = v).
      { induction l as [|dm' l IH]; intros v Hl; [reflexivity|]. cbn [fold_left]. rewrite last_holder_none; [apply IH; intros; apply Hl; right; auto|]. intros i' Hi' Hq'. pose proof (Hl dm' (or_introl eq_refl)) as Hd'.
        apply (owner_unique m per D dms l1 dm l2 dm' q HG Hm HD E Hd'); [apply (OWN dm i); auto|apply (OWN dm' i'); auto]. rewrite E. apply in_or_app. right. right. exact Hd'. }
      rewrite KEEP by auto. unfold given. destruct af; ring.
    + intros q d Hq. rewrite VF. destruct (Nat.ltb d D); [|reflexivity]. assert (KEEP : forall l, (forall dm, In dm l -> In dm dms) -> fold_left (fun v dm => last_holder (length parts) (the_pts h parts dm) (given parts af (F dm)) q d v) l (zeros q d) = zeros q d).
      { induction l as [|dm' l IH]; intros Hl; [reflexivity|]. cbn [fold_left]. rewrite last_holder_none; [apply IH; intros; apply Hl; right; auto|]. intros i' Hi'. apply Hq; [apply Hl; left; auto|exact Hi']. }
      rewrite KEEP by auto. reflexivity.
  - intros sol y0 dm Hin L0. unfold compute_y. apply (y_loop_value D m per h parts dms bc k scale HG Hm HD HSt HS HW _ (fun _ q d => sol q d) dm y0 Hin L0). intros i q d Hi Hq Hd.
    destruct (pts_own D m per h parts dms k HG Hm HD HSt HW dm i q Hin Hi Hq) as (Po & _ & _). unfold get_g. rewrite Po. reflexivity.
Qed.
Print Assumptions C59_control_layout.
