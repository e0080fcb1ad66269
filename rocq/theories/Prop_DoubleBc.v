(** C82: boundary conditions and right-hand side in double arithmetic. *)
From Coq Require Import Permutation FunctionalExtensionality QArith.
From Coquelicot Require Import Coquelicot.
From Flocq Require Import Core BinarySingleNaN.
From Verif Require Import Base M_Geometry S_Geometry P_Geometry M_Particle S_Particle P_Particle M_Quadrature S_Fem M_MatElem P_MatElem P_Energy M_Mesh M_Operator S_Operator P_Mesh P_Operator P_Operator2 P_Operator3 P_Stokes M_Bc S_Bc P_Bc P_Diag Prop_Operator.
From Verif Require Import M_Double S_Double P_Double P_Double2 P_Double3 P_Double4.
From Verif Require Import M_DoubleOp S_DoubleOp P_DoubleOp P_DoubleOp2 P_DoubleOp3 P_DoubleOp4 P_DoubleOp5 P_DoubleElem Prop_DoubleOp.
From Verif Require Import M_DoubleBc S_DoubleBc P_DoubleBc.
Open Scope R_scope.

(** ** the three routines *)
Theorem C82_on_vec : forall m per dof (bc : list dbc_row) dms x y, grid_ok m per -> distributes m per dof dms -> nonempty_views dms -> full_table (length m) dof bc ->
  exists y', dSetDirichletOnVec (length m) dms x y (map Some bc) = Ok y' /\ overwritten (length m) m per dof bc (fun n d _ => x n d) y y'.
Proof. intros m per dof bc dms x y HG HD HN HT. exact (ddirichlet_ok m per dof (dval_vec x) bc dms y HG HD HN HT). Qed.
Theorem C82_null_on_rhs : forall m per dof (bc : list dbc_row) dms y, grid_ok m per -> distributes m per dof dms -> nonempty_views dms -> full_table (length m) dof bc ->
  exists y', dSetNullDirichletOnRHS (length m) dms y (map Some bc) = Ok y' /\ overwritten (length m) m per dof bc (fun _ _ _ => dzero) y y'.
Proof. intros m per dof bc dms y HG HD HN HT. exact (ddirichlet_ok m per dof (dval_const dzero) bc dms y HG HD HN HT). Qed.
Theorem C82_on_rhs : forall m per dof (bc : list dbc_row) h dms y, grid_ok m per -> distributes m per dof dms -> nonempty_views dms -> full_table (length m) dof bc ->
  exists y', dSetDirichletOnRHS (length m) dms y (map Some bc) h = Ok y' /\ overwritten (length m) m per dof bc (fun n _ f => f (dcoord n h)) y y'.
Proof. intros m per dof bc h dms y HG HD HN HT. exact (ddirichlet_ok m per dof (dval_func h) bc dms y HG HD HN HT). Qed.
(** The coordinates at which the functions are called. *)
Theorem C82_coordinates : forall h n k, (k < length n)%nat -> (k < length h)%nat -> (Z.abs (nth k n 0%Z) <= 2 ^ 53)%Z -> finite (nth k h dzero) ->
  Rabs (IZR (nth k n 0%Z) * dval (nth k h dzero)) <= 2 ^ 1023 ->
  let exact_coord := IZR (nth k n 0%Z) * dval (nth k h dzero) in
  finite (nth k (dcoord n h) dzero) /\ Rabs (dval (nth k (dcoord n h) dzero) - exact_coord) <= u64 * Rabs exact_coord + tiny64.
Proof.
  intros h n k Hk Hh HZ HF HB e. assert (E : nth k (dcoord n h) dzero = dmult (dint (nth k n 0%Z)) (nth k h dzero)).
  { unfold dcoord. revert n h Hk Hh HZ HF HB e. induction k as [|k IH]; intros [|i n] [|s h]; cbn; intros; try lia; [reflexivity|]. apply IH; auto; lia. }
  rewrite E. destruct (dint_ok (nth k n 0%Z) HZ) as [F1 V1]. destruct (dmult_ok (dint (nth k n 0%Z)) (nth k h dzero) F1 HF) as [F2 V2]; [rewrite V1; exact HB|]. split; [exact F2|]. rewrite V2, V1. fold e.
  destruct (rnd_err e) as (a & t & Ha & Ht & ->). replace (e * (1 + a) + t - e) with (a * e + t) by ring. eapply Rle_trans; [apply Rabs_triang|]. rewrite Rabs_mult, tiny_eta. pose proof (Rabs_pos e). pose proof (Rmult_le_compat_r (Rabs e) _ _ H Ha). lra.
Qed.

(** Which entries are constrained. *)
Theorem C82_constrained_iff : forall D m per (bc : list dbc_row) n c,
  prescribed_by D m per bc n c <> None <->
  exists d (up : bool), (d < D)%nat /\ nth d per false = false /\ nth d n 0%Z = (if up then nth d m 0 - 1 else 0)%Z /\
    nth c (nth (2 * d + if up then 1 else 0) bc []) None <> None.
Proof.
  intros D m per bc n c. unfold prescribed_by.
  assert (G : forall l acc, fold_left (fun acc s => if on_side m per n s then match nth c (nth (side_index s) bc []) None with Some f => Some f | None => acc end else acc) l acc <> None <->
    acc <> None \/ exists s, In s l /\ on_side m per n s = true /\ nth c (nth (side_index s) bc []) None <> None).
  { induction l as [|s l IH]; intros acc; cbn [fold_left].
    - split; [auto|]. intros [H|[s [[] _]]]; exact H.
    - rewrite IH. destruct (on_side m per n s) eqn:ES.
      + destruct (nth c (nth (side_index s) bc []) None) as [f|] eqn:EF.
        * split; [intros _; right; exists s; split; [left; auto|]; split; [auto|rewrite EF; discriminate]|]. intros _. left. discriminate.
        * split; [intros [H|[s' [H1 H2]]]; [left; auto|right; exists s'; split; [right; auto|auto]]|]. intros [H|[s' [[<-|H1] [H2 H3]]]]; [left; auto|congruence|right; exists s'; auto].
      + split; [intros [H|[s' [H1 H2]]]; [left; auto|right; exists s'; split; [right; auto|auto]]|]. intros [H|[s' [[<-|H1] [H2 H3]]]]; [left; auto|congruence|right; exists s'; auto]. }
  rewrite G. split.
  - intros [H|[[d up] [H1 [H2 H3]]]]; [congruence|]. unfold sides in H1. apply in_flat_map in H1 as [d' [Hd' HI]]. apply in_seq in Hd'.
    unfold on_side in H2. cbn [fst snd] in H2. apply andb_prop in H2 as [H2 H4]. apply Z.eqb_eq in H4. apply negb_true_iff in H2.
    assert (d = d') by (destruct HI as [HI|[HI|[]]]; congruence). subst. exists d', up. repeat split; auto; lia.
  - intros (d & up & Hd & Hp & Hn & Hc). right. exists (d, up). split.
    + unfold sides. apply in_flat_map. exists d. split; [apply in_seq; lia|]. destruct up; simpl; auto.
    + split; [|exact Hc]. unfold on_side. cbn [fst snd]. rewrite Hp, Hn, Z.eqb_refl. reflexivity.
Qed.


(** ** the operators *)
Section Op.
  Variables (m : list Z) (per : list bool) (dof : nat) (bc : list dbc_row) (dms : list dmda) (x : dfield).
  Hypotheses (HG : grid_ok m per) (HD : distributes m per dof dms) (HN : nonempty_views dms) (HT : full_table (length m) dof bc).
  Lemma with_bc op p q fin y a : (exists Y, ddiag_block_matrix_raw op dms x Y) -> (forall Y, ddiag_block_matrix_raw op dms x Y -> rounded p q fin Y y a) ->
    (exists Y, ddiag_block_matrix op (length m) (map Some bc) dms x Y) /\
    forall Y, ddiag_block_matrix op (length m) (map Some bc) dms x Y -> exists Z, rounded p q fin Z y a /\ overwritten (length m) m per dof bc (fun n d _ => x n d) Z Y.
  Proof.
    intros (Y & HY) H. split.
    - destruct (C82_on_vec m per dof bc dms x Y HG HD HN HT) as (Y' & E & _). exists Y', Y. split; assumption.
    - intros Y1 (Z & HZ & E). exists Z. split; [apply H, HZ|]. destruct (C82_on_vec m per dof bc dms x Z HG HD HN HT) as (Y2 & E2 & V). rewrite E in E2. injection E2 as <-. exact V.
  Qed.
End Op.
Theorem C82_laplacian_in_doubles : forall h m per dof (bc : list dbc_row) dms x, good_steps h -> length h = length m -> grid_ok m per -> distributes m per dof dms -> nonempty_views dms -> full_table (length m) dof bc ->
  (exists Y, ddiag_block_matrix (dlaplacian_mult h) (length m) (map Some bc) dms x Y) /\
  exists r a, diag_block_matrix_raw (laplacian_mult (map dval h)) dms (exact x) = Ok r /\
    diag_block_matrix_raw (diag_block_mult (kernel_diag_block (size_laplacian (map dval h)))) dms (absolute x) = Ok a /\
    forall Y, ddiag_block_matrix (dlaplacian_mult h) (length m) (map Some bc) dms x Y ->
      exists Z, rounded (4 ^ length m + 7) (4 ^ length m + 1) (finite_on m dof x) Z r a /\ overwritten (length m) m per dof bc (fun n d _ => x n d) Z Y.
Proof.
  intros h m per dof bc dms x Hh HL HG HD HN HT. destruct (C81_laplacian_in_doubles h m per dof dms x Hh HL HG HD) as (E & r & a & E1 & E2 & H).
  destruct (with_bc m per dof bc dms x HG HD HN HT _ _ _ _ _ _ E H) as (E3 & H3). split; [exact E3|]. exists r, a. auto.
Qed.
Theorem C82_strain_in_doubles : forall h m per (bc : list dbc_row) dms x, good_steps h -> length h = length m -> grid_ok m per -> distributes m per (length m) dms -> nonempty_views dms -> full_table (length m) (length m) bc ->
  (exists Y, ddiag_block_matrix (dstrain_tensor_mult h) (length m) (map Some bc) dms x Y) /\
  exists r a, diag_block_matrix_raw (strain_tensor_mult (map dval h)) dms (exact x) = Ok r /\
    diag_block_matrix_raw (diag_block_mult (kernel_tensor_block (size_strain (map dval h)))) dms (absolute x) = Ok a /\
    forall Y, ddiag_block_matrix (dstrain_tensor_mult h) (length m) (map Some bc) dms x Y ->
      exists Z, rounded (4 ^ length m * length m + 8) (4 ^ length m * length m + 1) (finite_on m (length m) x) Z r a /\ overwritten (length m) m per (length m) bc (fun n d _ => x n d) Z Y.
Proof.
  intros h m per bc dms x Hh HL HG HD HN HT. destruct (C81_strain_in_doubles h m per dms x Hh HL HG HD) as (E & r & a & E1 & E2 & H).
  destruct (with_bc m per (length m) bc dms x HG HD HN HT _ _ _ _ _ _ E H) as (E3 & H3). split; [exact E3|]. exists r, a. auto.
Qed.
(** ** the Stokes operator *)
Theorem C82_stokes_in_doubles : forall h mp per (bc : list dbc_row) dms xv xp, good_steps h -> length h = length mp -> grid_ok mp per -> stokes_layout mp per (length mp) dms ->
  nonempty_views (map fst dms) -> full_table (length mp) (length mp) bc ->
  let D := length mp in
  let mv := refined_size mp per in
  let fin := finite_on mv D xv /\ finite_on mp 1 xp in
  (exists Yv Yp, dstokes_matrix (dstrain_tensor_mult h) (dMatElemPressure h) D (map Some bc) dms xv xp Yv Yp) /\
  exists rv rp av ap, stokes_matrix_raw (strain_tensor_mult (map dval h)) (map dval h) dms (exact xv) (exact xp) = Ok (rv, rp) /\
    stokes_matrix_M (diag_block_mult (kernel_tensor_block (size_strain (map dval h)))) (size_pressure (map dval h)) dms (absolute xv) (minus_abs xp) = Ok (av, ap) /\
    forall Yv Yp, dstokes_matrix (dstrain_tensor_mult h) (dMatElemPressure h) D (map Some bc) dms xv xp Yv Yp ->
      rounded (6 ^ D * D + 8) (6 ^ D * D + 1) fin Yp rp ap /\
      exists Z, rounded (4 ^ D * D + 6 ^ D + 8) (4 ^ D * D + 6 ^ D + 1) fin Z rv av /\ overwritten D mv per D bc (fun n d _ => xv n d) Z Yv.
Proof.
  intros h mp per bc dms xv xp Hh HL HG HS HN HT D mv fin. destruct (C81_stokes_in_doubles h mp per dms xv xp Hh HL HG HS) as ((Rv & Rp & ER) & rv & rp & av & ap & E1 & E2 & H).
  assert (LE : length mv = D) by (unfold mv, refined_size; rewrite length_zip_with; auto; symmetry; apply HG). pose proof (refined_grid mp per HG) as HGv.
  assert (V : forall y, exists y', dSetDirichletOnVec D (map fst dms) xv y (map Some bc) = Ok y' /\ overwritten D mv per D bc (fun n d _ => xv n d) y y').
  { intros y. pose proof (C82_on_vec mv per D bc (map fst dms) xv y HGv (proj1 HS) HN) as C. rewrite LE in C. exact (C HT). }
  split.
  - destruct (V Rv) as (Yv & E & _). exists Yv, Rp, Rv. split; assumption.
  - exists rv, rp, av, ap. split; [exact E1|]. split; [exact E2|]. intros Yv Yp (Z & HZ & EZ). destruct (H Z Yp HZ) as [B1 B2]. split; [exact B2|]. exists Z. split; [exact B1|].
    destruct (V Z) as (Y2 & E' & W). rewrite EZ in E'. injection E' as <-. exact W.
Qed.
(** ** the right-hand side *)
Theorem C82_rhs_in_doubles : forall h m per dof (conds : dbc_row) (bc : list dbc_row) dms, good_steps h -> length h = length m -> grid_ok m per -> distributes m per dof dms -> nonempty_views dms ->
  full_table (length m) dof bc -> length conds = dof -> (exists c f, nth c conds None = Some f) ->
  (exists Y, dsetup_RHS (length m) conds (map Some bc) h dms Y) /\
  exists r a, diag_block_matrix_raw (mass_mult (map dval h)) dms (exact (dload conds h)) = Ok r /\
    diag_block_matrix_raw (diag_block_mult (kernel_diag_block (size_mass (map dval h)))) dms (absolute (dload conds h)) = Ok a /\
    forall Y, dsetup_RHS (length m) conds (map Some bc) h dms Y ->
      exists Z, rounded_on m dof (4 ^ length m + 5) (4 ^ length m + 1) (finite_on m dof (dload conds h)) Z r a /\ overwritten (length m) m per dof bc (fun n _ f => f (dcoord n h)) Z Y.
Proof.
  intros h m per dof conds bc dms Hh HL HG HD HN HT Hc (c0 & f0 & E0).
  assert (HH : dhas_condition conds = true).
  { unfold dhas_condition. apply negb_true_iff, not_true_is_false. intros F. rewrite forallb_forall in F. assert (I : In (Some f0) conds). { rewrite <- E0. apply nth_In. destruct (Nat.lt_ge_cases c0 (length conds)) as [L|L]; [exact L|]. rewrite nth_overflow in E0 by exact L. discriminate. } specialize (F _ I). discriminate. }
  destruct (drhs_tmp m per dof dms conds h HG HD Hc) as (tmp & Et & Vt).
  destruct (C81_mass_in_doubles h m per dof dms tmp Hh HL HG HD) as ((Y0 & HY0) & r0 & a0 & E1 & E2 & H).
  destruct (C81_mass_in_doubles h m per dof dms (dload conds h) Hh HL HG HD) as (_ & r & a & E3 & E4 & _).
  assert (S1 : same_field m dof r0 r). { eapply diag_same; [exact HG|exact HD| |exact E1|exact E3]. intros n d Hn Hd. unfold exact. rewrite (Vt n d Hn Hd). reflexivity. }
  assert (S2 : same_field m dof a0 a). { eapply diag_same; [exact HG|exact HD| |exact E2|exact E4]. intros n d Hn Hd. unfold absolute. rewrite (Vt n d Hn Hd). reflexivity. }
  assert (RAW : forall Z, dset_rhs conds h dms (fun _ _ => dzero) Z <-> ddiag_block_matrix_raw (dmass_mult h) dms tmp Z).
  { intros Z. split.
    - intros (t & ys & A & B & C). rewrite Et in A. injection A as <-. exists ys. split; [exact B|exact C].
    - intros (ys & B & C). exists tmp, ys. split; [exact Et|]. split; [exact B|exact C]. }
  split.
  - destruct (C82_on_rhs m per dof bc h dms Y0 HG HD HN HT) as (Y & E & _). exists Y, Y0. rewrite HH. split; [apply RAW, HY0|exact E].
  - exists r, a. split; [exact E3|]. split; [exact E4|]. intros Y (Z & HZ & EZ). rewrite HH in HZ. apply RAW in HZ. exists Z. split.
    + intros n d Hn Hd. destruct (H Z HZ n d) as [B1 B2]. rewrite (S1 n d Hn Hd), (S2 n d Hn Hd) in B1. rewrite (S2 n d Hn Hd) in B2. split; [exact B1|]. intros Hf. apply B2. intros n' d' Hn' Hd'. rewrite (Vt n' d' Hn' Hd'). apply Hf; assumption.
    + destruct (C82_on_rhs m per dof bc h dms Z HG HD HN HT) as (Y2 & E & V). rewrite EZ in E. injection E as <-. exact V.
Qed.
(** Without a load the right-hand side is 0 away from the boundary, bit for bit. *)
Theorem C82_rhs_without_load : forall h m per dof (conds : dbc_row) (bc : list dbc_row) dms, grid_ok m per -> distributes m per dof dms -> nonempty_views dms ->
  full_table (length m) dof bc -> (forall c, nth c conds None = None) ->
  exists Y, (forall Y', dsetup_RHS (length m) conds (map Some bc) h dms Y' <-> Y' = Y) /\ overwritten (length m) m per dof bc (fun n _ f => f (dcoord n h)) (fun _ _ => dzero) Y.
Proof.
  intros h m per dof conds bc dms HG HD HN HT HU.
  assert (HH : dhas_condition conds = false).
  { unfold dhas_condition. apply negb_false_iff, forallb_forall. intros x Hx. apply (In_nth _ _ None) in Hx as (c & _ & E). rewrite HU in E. subst x. reflexivity. }
  destruct (C82_on_rhs m per dof bc h dms (fun _ _ => dzero) HG HD HN HT) as (Y & E & V). exists Y. split; [|exact V]. intros Y'. split.
  - intros (R & HR & ER). rewrite HH in HR. subst R. rewrite E in ER. injection ER as <-. reflexivity.
  - intros ->. exists (fun _ _ => dzero). rewrite HH. split; [reflexivity|exact E].
Qed.

(** A case: the velocity grid 5 x 3 of a pressure grid 3 x 2 on two processes; the first component is fixed on the left side to x + 7 and on the lower side to 2,
    so the corner takes the value of the lower side. *)
Definition wall_left : dcondition_fn := fun p => dplus (nth 0 p dzero) (dint 7).
Definition wall_low : dcondition_fn := fun _ => dint 2.
Definition wall_table : list dbc_row := [[Some wall_left; None]; [None; None]; [Some wall_low; None]; [None; None]].
Definition vel_two : list dmda := map fst (createMesh [3; 2]%Z [false; false] [[1; 2]; [2]]%Z).
Example C82_example : grid_ok [5; 3]%Z [false; false] /\ distributes [5; 3]%Z [false; false] 2 vel_two /\ nonempty_views vel_two /\ full_table 2 2 wall_table /\ length vel_two = 2%nat /\
  prescribed_by 2 [5; 3]%Z [false; false] wall_table [0; 0]%Z 0 = Some wall_low /\ prescribed_by 2 [5; 3]%Z [false; false] wall_table [0; 1]%Z 0 = Some wall_left /\
  prescribed_by 2 [5; 3]%Z [false; false] wall_table [1; 1]%Z 0 = None /\ prescribed_by 2 [5; 3]%Z [false; false] wall_table [0; 1]%Z 1 = None.
Proof.
  assert (RO2 : ranges_ok (mesh_pres [3; 2]%Z [false; false]) [[1; 2]; [2]]%Z) by (repeat constructor; simpl; try lia; try discriminate).
  split; [repeat split; simpl; auto; repeat constructor; lia|]. split; [apply (C28_createMesh_layout [3; 2]%Z [false; false] [[1; 2]; [2]]%Z eq_refl RO2)|].
  split; [unfold nonempty_views, vel_two; cbn; repeat constructor|]. split; [split; [reflexivity|repeat constructor]|]. repeat split; reflexivity.
Qed.
Close Scope R_scope.
