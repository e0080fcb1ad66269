(** C71: the matrix-free preconditioner. *)
From Coq Require Import FunctionalExtensionality Permutation.
From Coquelicot Require Import Coquelicot.
From Verif Require Import Base M_Geometry S_Geometry P_Geometry M_Particle S_Particle P_Particle M_Quadrature S_Fem P_Energy M_MatElem P_MatElem M_Mesh M_Operator S_Operator P_Mesh P_Operator P_Operator2 P_Operator3 P_Global P_Stokes P_LinAlg M_Bc S_Bc P_Bc P_Constant P_Diag Prop_Operator Prop_Operator2 Prop_WellPosed Prop_Assembly Prop_Assembly2 P_CreateMesh Prop_StokesUnique Prop_Dissipation.
From Verif Require Import P_Precond P_QuadTab P_Div M_Precond.
Local Open Scope R_scope.

Lemma half_ok hp m : steps_ok hp m -> steps_ok (half_steps hp) m.
Proof. intros [H1 H2]. split; [unfold half_steps; rewrite map_length; exact H1|]. unfold half_steps. apply Forall_map. eapply Forall_impl; [|exact H2]. simpl. intros; lra. Qed.
Lemma half_double hp : map (fun s => 2 * s) (half_steps hp) = hp.
Proof. unfold half_steps. rewrite map_map. rewrite <- (map_id hp) at 2. apply map_ext. intros; field. Qed.

Section Grid.
  Variables (strain : bool) (h : list R) (m : list Z) (per : list bool) (bc : list bc_row) (dms : list dmda).
  Hypothesis HG : grid_ok m per.
  Hypothesis HS : steps_ok h m.
  Let D := length m.
  Hypothesis HD : distributes m per D dms.
  Lemma visc_raw x : exists r, diag_block_matrix_raw (visc_mult strain h) dms x = Ok r /\ forall v, inner (N0 m) D r v = aform strain h m per D v x.
  Proof.
    unfold visc_mult, aform. destruct strain.
    - destruct (rep_tens m per D (getMatElemStrainTensor h) HG dms x HD) as (r & E & W). exists r. split; [exact E|]. intros v. apply W; [apply N0_enum|apply E0_enum, HG].
    - destruct (rep_diag m per D (getMatElemLaplacian h) HG dms x HD) as (r & E & W). exists r. split; [exact E|]. intros v. apply W; [apply N0_enum|apply E0_enum, HG].
  Qed.
  Hypothesis HN : nonempty_views dms.
  Hypothesis HT : table_ok D D bc.
  Lemma visc_bc x : exists r y, diag_block_matrix (visc_mult strain h) D (Some (map Some bc)) dms x = Ok y /\
    (forall n c, in_grid_box (nodes_box m) n -> (c < D)%nat -> y n c = match prescribed D m per bc n c with Some _ => x n c | None => r n c end) /\
    (forall v, inner (N0 m) D r v = aform strain h m per D v x).
  Proof.
    destruct (visc_raw x) as (r & E & W). destruct (C30_on_vec m per D bc dms x r HG HD HN HT) as (y & Ey & V). exists r, y. split; [unfold diag_block_matrix; rewrite E; exact Ey|]. split; [exact V|exact W].
  Qed.
  (** on fields that vanish where the conditions prescribe *)
  Lemma visc_inner x y w : diag_block_matrix (visc_mult strain h) D (Some (map Some bc)) dms x = Ok y ->
    (forall n c, in_grid_box (nodes_box m) n -> (c < D)%nat -> prescribed D m per bc n c <> None -> w n c = 0) -> inner (N0 m) D y w = aform strain h m per D w x.
  Proof.
    intros E Hw. destruct (visc_bc x) as (r & y' & E' & V & W). rewrite E in E'. injection E' as <-. rewrite <- W. apply Lsum_ext. intros n Hn. apply N0_enum in Hn. apply Rsum_ext. intros c Hc. rewrite (V n c Hn Hc). destruct (prescribed D m per bc n c) eqn:P; [|reflexivity]. rewrite (Hw n c Hn Hc) by congruence. ring.
  Qed.
  Lemma visc_keeps x y : diag_block_matrix (visc_mult strain h) D (Some (map Some bc)) dms x = Ok y -> forall n c, in_grid_box (nodes_box m) n -> (c < D)%nat -> prescribed D m per bc n c <> None -> y n c = x n c.
  Proof. intros E n c Hn Hc HP. destruct (visc_bc x) as (r & y' & E' & V & _). rewrite E in E'. injection E' as <-. rewrite (V n c Hn Hc). destruct (prescribed D m per bc n c); congruence. Qed.
  Lemma aform_sym v x : aform strain h m per D v x = aform strain h m per D x v.
  Proof. unfold aform. destruct strain; [apply tensor_form_sym; intros; apply (strain_sym h m); auto; apply HG|apply scalar_form_sym; intros; apply (lap_sym h m); auto; apply HG]. Qed.
  Lemma aform_nonneg x : 0 <= aform strain h m per D x x.
  Proof. unfold aform. destruct strain; [rewrite tensor_form_v; apply Lsum_nonneg; intros e _; apply strain_nonneg; auto; apply HG|apply lap_form_nonneg; auto]. Qed.
End Grid.

Section Mass.
  Variables (h : list R) (m : list Z) (per : list bool) (dms : list dmda).
  Hypothesis HG : grid_ok m per.
  Hypothesis HS : steps_ok h m.
  Hypothesis HD : distributes m per 1 dms.
  Let mform := scalar_form m per (E0 m per) 1 (getMatElemMass h).
  Lemma mass_op D x : exists y, diag_block_matrix (mass_mult h) D None dms x = Ok y /\ forall v, inner (N0 m) 1 y v = mform v x.
  Proof. destruct (rep_diag m per 1 (getMatElemMass h) HG dms x HD) as (r & E & W). exists r. split; [unfold diag_block_matrix, mass_mult; rewrite E; reflexivity|]. intros v. apply W; [apply N0_enum|apply E0_enum, HG]. Qed.
  Lemma mform_sym v x : mform v x = mform x v.
  Proof. apply scalar_form_sym. intros. apply (mass_sym h m); auto. apply HG. Qed.
  Lemma mform_lin v a b x x' : mform v (lin a b x x') = a * mform v x + b * mform v x'.
  Proof. apply scalar_form_lin. Qed.
  Lemma mform_between x d : diag_diag_block_matrix (diag_mass_mult h) dms = Ok d -> (1 / 2) ^ length m * inner (N0 m) 1 d (sq x) <= mform x x <= (3 / 2) ^ length m * inner (N0 m) 1 d (sq x).
  Proof.
    intros E. destruct (jac_sum m per HG 1 dms (getMatElemMass h) HD) as (d' & E' & J). unfold diag_mass_mult in E. rewrite E in E'. injection E' as <-. rewrite J. unfold mform. rewrite scalar_form_q, <- !Lsum_scal.
    split; apply Lsum_le; intros e _; rewrite <- Rsum_scal; apply Rsum_le; intros c _; apply (mass_between h m (fun k => gv m per x e k c) HS (proj1 HG)).
  Qed.
  Lemma mform_pos x : 0 <= mform x x.
  Proof. unfold mform. rewrite scalar_form_q. apply Lsum_nonneg. intros e _. apply Rsum_nonneg. intros c _. apply (mass_terms h m); auto. Qed.
End Mass.

Lemma inner_enum m dof u v N : enumerates N (nodes_box m) -> inner N dof u v = inner (N0 m) dof u v.
Proof. intros H. apply Lsum_perm, (enum_perm _ _ (nodes_box m)); [exact H|apply N0_enum]. Qed.
Lemma ref_len mp per : grid_ok mp per -> length (refined_size mp per) = length mp.
Proof. intros HG. unfold refined_size. rewrite length_zip_with; auto. symmetry. apply HG. Qed.
Section Pc.
  Variables (strain : bool) (hp : list R) (mp : list Z) (per : list bool) (bc : list bc_row) (dms : list (dmda * dmda)).
  Let D := length mp. Let mv := refined_size mp per. Let hu := half_steps hp.
  Hypothesis HG : grid_ok mp per.
  Hypothesis Hh : steps_ok hp mp.
  Hypothesis HS : stokes_layout mp per D dms.
  Hypothesis HN : nonempty_views (map fst dms).
  Hypothesis HT : table_ok D D bc.
  Let HGv : grid_ok mv per := refined_grid mp per HG.
  Lemma mvl : length mv = D. Proof. exact (ref_len mp per HG). Qed.
  Lemma huv : steps_ok hu mv. Proof. pose proof (half_ok hp mp Hh) as [H1 H2]. split; [rewrite mvl; exact H1|exact H2]. Qed.
  Lemma HDv : distributes mv per (length mv) (map fst dms). Proof. rewrite mvl. apply HS. Qed.
  Lemma HTv : table_ok (length mv) (length mv) bc. Proof. rewrite mvl. exact HT. Qed.
  Lemma pc_split xv xp : exists yv yp, precond strain hp D (map Some bc) dms xv xp = Ok (yv, yp) /\
    diag_block_matrix (visc_mult strain hu) (length mv) (Some (map Some bc)) (map fst dms) xv = Ok yv /\ diag_block_matrix (mass_mult hp) D None (map snd dms) xp = Ok yp.
  Proof.
    destruct (visc_bc strain hu mv per bc (map fst dms) HGv HDv HN HTv xv) as (r & yv & E & _). destruct (mass_op hp mp per (map snd dms) HG (proj1 (proj2 HS)) D xp) as (yp & E' & _).
    exists yv, yp. split; [|split; [exact E|exact E']]. unfold precond. fold hu. rewrite <- mvl, E. cbn [bind]. rewrite mvl, E'. reflexivity.
  Qed.
  Lemma takes_mv x : takes mp per bc zero_field x -> forall n c, in_grid_box (nodes_box mv) n -> (c < length mv)%nat -> prescribed (length mv) mv per bc n c <> None -> x n c = 0.
  Proof. intros H n c Hn Hc HP. rewrite mvl in *. rewrite (H n c Hn Hc HP). reflexivity. Qed.
  Lemma held_mv : held strain D mv per bc -> held strain (length mv) mv per bc.
  Proof. rewrite mvl. auto. Qed.
End Pc.

(** ** C71 *)
(** on the fields that vanish where the conditions prescribe, P is symmetric, positive definite and
    maps that space to itself *)
Theorem C71_preconditioner_spd : forall (strain : bool) hp mp per bc dms xv xp yv yp wv wp zv zp N Np, let D := length mp in let mv := refined_size mp per in
  grid_ok mp per -> has_cells mp per -> steps_ok hp mp -> stokes_layout mp per D dms -> nonempty_views (map fst dms) -> table_ok D D bc -> held strain D mv per bc ->
  precond strain hp D (map Some bc) dms xv xp = Ok (yv, yp) -> precond strain hp D (map Some bc) dms wv wp = Ok (zv, zp) ->
  takes mp per bc zero_field xv -> takes mp per bc zero_field wv -> enumerates N (nodes_box mv) -> enumerates Np (nodes_box mp) ->
  takes mp per bc zero_field yv /\
  inner N D yv wv + inner Np 1 yp wp = inner N D zv xv + inner Np 1 zp xp /\
  0 <= inner N D yv xv + inner Np 1 yp xp /\
  (inner N D yv xv + inner Np 1 yp xp = 0 -> same_field mv D xv zero_field /\ same_field mp 1 xp zero_field).
Proof.
  intros strain hp mp per bc dms xv xp yv yp wv wp zv zp N Np D mv HG HC Hh HS HN HT HH E F Tx Tw HNe HNp.
  destruct (pc_split strain hp mp per bc dms HG HS HN HT xv xp) as (yv' & yp' & E' & Ev & Ep). fold D in E'. rewrite E in E'. injection E' as <- <-.
  destruct (pc_split strain hp mp per bc dms HG HS HN HT wv wp) as (zv' & zp' & F' & Fv & Fp). fold D in F'. rewrite F in F'. injection F' as <- <-.
  pose proof (refined_grid mp per HG) as HGv. pose proof (ref_len mp per HG) as LE. fold mv in HGv, LE, Ev, Fv. rewrite LE in Ev, Fv. fold D in LE, Ev, Fv.
  assert (HDv : distributes mv per (length mv) (map fst dms)) by (rewrite LE; apply HS). assert (HTv : table_ok (length mv) (length mv) bc) by (rewrite LE; exact HT).
  pose proof (huv hp mp per HG Hh) as Hhu. fold mv in Hhu.
  pose proof (takes_mv mp per bc HG xv Tx) as Tx'. pose proof (takes_mv mp per bc HG wv Tw) as Tw'. fold mv in Tx', Tw'.
  assert (IV : forall x y w, diag_block_matrix (visc_mult strain (half_steps hp)) D (Some (map Some bc)) (map fst dms) x = Ok y -> (forall n c, in_grid_box (nodes_box mv) n -> (c < length mv)%nat -> prescribed (length mv) mv per bc n c <> None -> w n c = 0) -> inner N D y w = aform strain (half_steps hp) mv per D w x).
  { intros x y w Ex Hw. rewrite (inner_enum mv D y w N HNe), <- LE. apply (visc_inner strain (half_steps hp) mv per bc (map fst dms)); auto. rewrite LE. exact Ex. }
  assert (IP : forall x y w, diag_block_matrix (mass_mult hp) D None (map snd dms) x = Ok y -> inner Np 1 y w = scalar_form mp per (E0 mp per) 1 (getMatElemMass hp) w x).
  { intros x y w Ex. rewrite (inner_enum mp 1 y w Np HNp). destruct (mass_op hp mp per (map snd dms) HG (proj1 (proj2 HS)) D x) as (y' & Ex' & W). rewrite Ex in Ex'. injection Ex' as <-. apply W. }
  split; [|split; [|split]].
  - intros n c Hn Hc HP. rewrite <- (Tx n c Hn Hc HP). fold D in Hc, HP. fold mv in Hn, HP. rewrite <- LE in Ev, Hc, HP. eapply visc_keeps; eauto.
  - rewrite (IV xv yv wv Ev Tw'), (IV wv zv xv Fv Tx'), (IP xp yp wp Ep), (IP wp zp xp Fp). rewrite <- LE. rewrite (aform_sym strain _ mv per HGv Hhu), (mform_sym hp mp per HG Hh). reflexivity.
  - rewrite (IV xv yv xv Ev Tx'), (IP xp yp xp Ep). rewrite <- LE. pose proof (aform_nonneg strain _ mv per HGv Hhu xv). pose proof (mform_pos hp mp per HG Hh xp). lra.
  - rewrite (IV xv yv xv Ev Tx'), (IP xp yp xp Ep). rewrite <- LE. pose proof (aform_nonneg strain _ mv per HGv Hhu xv). pose proof (mform_pos hp mp per HG Hh xp). intros Z. split.
    + apply (aform_definite strain (half_steps hp) mv per bc); auto; [apply refined_cells, HC|rewrite LE; exact HH|lra].
    + intros n c Hn Hc. apply (mass_form_zero hp mp per HG Hh xp 1 HC); auto. lra.
Qed.

(** every system P x = f has exactly one solution *)
Theorem C71_preconditioner_invertible : forall (strain : bool) hp mp per bc dms fv fp, let D := length mp in let mv := refined_size mp per in
  grid_ok mp per -> has_cells mp per -> steps_ok hp mp -> stokes_layout mp per D dms -> nonempty_views (map fst dms) -> table_ok D D bc -> held strain D mv per bc ->
  (exists xv xp yv yp, precond strain hp D (map Some bc) dms xv xp = Ok (yv, yp) /\ same_field mv D yv fv /\ same_field mp 1 yp fp) /\
  (forall xv xp yv yp xv' xp' yv' yp', precond strain hp D (map Some bc) dms xv xp = Ok (yv, yp) -> precond strain hp D (map Some bc) dms xv' xp' = Ok (yv', yp') ->
    same_field mv D yv yv' -> same_field mp 1 yp yp' -> same_field mv D xv xv' /\ same_field mp 1 xp xp').
Proof.
  intros strain hp mp per bc dms fv fp D mv HG HC Hh HS HN HT HH.
  pose proof (refined_grid mp per HG) as HGv. pose proof (ref_len mp per HG) as LE. fold mv in HGv, LE. fold D in LE.
  assert (HDv : distributes mv per (length mv) (map fst dms)) by (rewrite LE; apply HS). assert (HTv : table_ok (length mv) (length mv) bc) by (rewrite LE; exact HT).
  pose proof (huv hp mp per HG Hh) as Hhu. fold mv in Hhu. pose proof (refined_cells mp per HC) as HCv. fold mv in HCv.
  assert (HHv : held strain (length mv) mv per bc) by (rewrite LE; exact HH).
  assert (ML : forall k k' x x', exists y y' z, diag_block_matrix (mass_mult hp) D None (map snd dms) x = Ok y /\ diag_block_matrix (mass_mult hp) D None (map snd dms) x' = Ok y' /\ diag_block_matrix (mass_mult hp) D None (map snd dms) (lin k k' x x') = Ok z /\ same_field mp 1 z (lin k k' y y')).
  { intros k k' x x'. destruct (mass_op hp mp per (map snd dms) HG (proj1 (proj2 HS)) D x) as (y & E1 & W1). destruct (mass_op hp mp per (map snd dms) HG (proj1 (proj2 HS)) D x') as (y' & E2 & W2). destruct (mass_op hp mp per (map snd dms) HG (proj1 (proj2 HS)) D (lin k k' x x')) as (z & E3 & W3).
    exists y, y', z. split; [exact E1|]. split; [exact E2|]. split; [exact E3|]. apply same_field_weak. intros v. rewrite inner_lin, W1, W2, W3. apply mform_lin. }
  assert (MI : forall x y, diag_block_matrix (mass_mult hp) D None (map snd dms) x = Ok y -> same_field mp 1 y zero_field -> same_field mp 1 x zero_field).
  { intros x y E Zy n c Hn Hc. destruct (mass_op hp mp per (map snd dms) HG (proj1 (proj2 HS)) D x) as (y' & E' & W). rewrite E in E'. injection E' as <-. apply (mass_form_zero hp mp per HG Hh x 1 HC); auto. rewrite <- W. unfold inner. apply Lsum_all_zero. intros n' Hn'. apply N0_enum in Hn'. cbn [Rsum]. rewrite (Zy n' 0%nat Hn') by lia. unfold zero_field. ring. }
  split.
  - assert (XV : exists xv yv, diag_block_matrix (visc_mult strain (half_steps hp)) (length mv) (Some (map Some bc)) (map fst dms) xv = Ok yv /\ same_field mv (length mv) yv fv).
    { destruct strain; cbn [visc_mult].
      - apply (C55_constrained_strain_has_a_solution (half_steps hp) mv per bc (map fst dms) fv); auto.
      - apply (C55_constrained_laplacian_has_a_solution (half_steps hp) mv per (length mv) bc (map fst dms) fv); auto. }
    destruct XV as (xv & yv & Ev & Sv). rewrite LE in Sv.
    set (H := fun x : list Z * nat -> R => match diag_block_matrix (mass_mult hp) D None (map snd dms) (field_of x) with Ok y => vec_of y | _ => fun _ => 0 end).
    destruct (injective_onto dof_eqd (unknowns mp 1) H) with (b := vec_of fp) as (x & Hx).
    + apply unknowns_NoDup.
    + intros k k' x y [n d] Hi. apply in_unknowns in Hi. destruct Hi as [Hn Hd]. unfold H. destruct (ML k k' (field_of x) (field_of y)) as (y1 & y2 & z & E1 & E2 & E3 & L). rewrite E1, E2. change (field_of (fun j => k * x j + k' * y j)) with (lin k k' (field_of x) (field_of y)). rewrite E3. apply (L n d Hn Hd).
    + intros x H0 [n d] Hi. destruct (proj1 (in_unknowns mp 1 n d) Hi) as [Hn Hd]. destruct (mass_op hp mp per (map snd dms) HG (proj1 (proj2 HS)) D (field_of x)) as (y & E & _). change (field_of x n d = zero_field n d). apply (MI _ y E); auto. intros n' c' Hn' Hc'. specialize (H0 (n', c') (proj2 (in_unknowns mp 1 n' c') (conj Hn' Hc'))). unfold H in H0. rewrite E in H0. exact H0.
    + destruct (mass_op hp mp per (map snd dms) HG (proj1 (proj2 HS)) D (field_of x)) as (y & E & _). exists xv, (field_of x), yv, y. split; [|split; [exact Sv|]].
      * unfold precond. rewrite <- LE, Ev. cbn [bind]. rewrite LE, E. reflexivity.
      * intros n d Hn Hd. specialize (Hx (n, d) (proj2 (in_unknowns mp 1 n d) (conj Hn Hd))). unfold H in Hx. rewrite E in Hx. exact Hx.
  - intros xv xp yv yp xv' xp' yv' yp' E F Sv Sp.
    destruct (pc_split strain hp mp per bc dms HG HS HN HT xv xp) as (av & ap & E' & Ev & Ep). fold D in E'. rewrite E in E'. injection E' as <- <-.
    destruct (pc_split strain hp mp per bc dms HG HS HN HT xv' xp') as (zv' & zp' & F' & Fv & Fp). fold D in F'. rewrite F in F'. injection F' as <- <-. fold mv in Ev, Fv. split.
    + rewrite <- LE in *. destruct strain; cbn [visc_mult] in Ev, Fv.
      * apply (C55_constrained_strain_unique_solution (half_steps hp) mv per bc (map fst dms) xv xv' yv yv'); auto.
      * apply (C55_constrained_laplacian_unique_solution (half_steps hp) mv per (length mv) bc (map fst dms) xv xv' yv yv'); auto.
    + destruct (ML 1 (-1) xp xp') as (y1 & y2 & z & E1 & E2 & E3 & L). fold D in Ep, Fp. rewrite Ep in E1. injection E1 as <-. rewrite Fp in E2. injection E2 as <-.
      assert (K : same_field mp 1 (lin 1 (-1) xp xp') zero_field). { apply (MI _ z E3). intros n d Hn Hd. rewrite (L n d Hn Hd). unfold lin, zero_field. rewrite (Sp n d Hn Hd). ring. }
      intros n d Hn Hd. specialize (K n d Hn Hd). unfold lin, zero_field in K. lra.
Qed.

(** Jacobi on the pressure: the declared diagonal d is positive and D^-1 M has its spectrum in
    [(1/2)^dim, (3/2)^dim], whatever the grid, the steps and the partition *)
Theorem C71_pressure_jacobi : forall hp mp per dms d0 x, let D := length mp in
  grid_ok mp per -> has_cells mp per -> steps_ok hp mp -> stokes_layout mp per D dms ->
  exists dv d y, precond_diag hp dms = Ok (dv, d) /\ diag_block_matrix (mass_mult hp) d0 None (map snd dms) x = Ok y /\
    (forall n, in_grid_box (nodes_box mp) n -> 0 < d n 0%nat) /\
    forall N, enumerates N (nodes_box mp) ->
      (1 / 2) ^ D * inner N 1 d (sq x) <= inner N 1 y x <= (3 / 2) ^ D * inner N 1 d (sq x).
Proof.
  intros hp mp per dms d0 x D HG HC Hh HS. pose proof (proj1 (proj2 HS)) as HD.
  destruct (dd_weak (refined_size mp per) per D (map fst dms) (getMatElemLaplacian (half_steps hp)) (refined_grid mp per HG) (proj1 HS)) as (dv & Edv & _).
  destruct (dd_weak mp per 1 (map snd dms) (getMatElemMass hp) HG HD) as (d & Ed & _). destruct (mass_op hp mp per (map snd dms) HG HD d0 x) as (y & E & W).
  exists dv, d, y. split; [unfold precond_diag, diag_laplacian_mult, diag_mass_mult; rewrite Edv; cbn [bind]; rewrite Ed; reflexivity|]. split; [exact E|]. split.
  - intros n Hn. rewrite (jac_entry mp per HG 1 _ _ d n 0%nat HD Ed Hn ltac:(lia)).
    pose proof (t_lt mp per HG HC n (fun _ => 0) (fun k => getMatElemMass hp k k) Hn ltac:(intros; apply (mass_diag_pos hp mp); auto; apply HG)) as K. eapply Rle_lt_trans; [|exact K]. apply Req_le. symmetry. apply Lsum_all_zero. intros e _. etransitivity; [|apply Rsum_zero]. apply Rsum_ext. intros; ring.
  - intros N HN. rewrite !(inner_enum mp 1 _ _ N HN), W. apply mform_between with (dms := map snd dms); auto.
Qed.

(** Jacobi on the velocity (also on the levels of the multigrid): positive, and the form is bounded by it *)
Theorem C71_velocity_jacobi : forall (strain : bool) h m per bc dms x y, let D := length m in
  grid_ok m per -> has_cells m per -> steps_ok h m -> distributes m per D dms -> nonempty_views dms -> table_ok D D bc ->
  diag_block_matrix (visc_mult strain h) D (Some (map Some bc)) dms x = Ok y ->
  (forall n c, in_grid_box (nodes_box m) n -> (c < D)%nat -> prescribed D m per bc n c <> None -> x n c = 0) ->
  exists d, diag_diag_block_matrix (diag_laplacian_mult h) dms = Ok d /\
    (forall n c, in_grid_box (nodes_box m) n -> (c < D)%nat -> 0 < d n c) /\
    forall N, enumerates N (nodes_box m) ->
      0 <= inner N D y x <= (if strain then 2 * INR D * 2 ^ D else 2 ^ D) * inner N D d (sq x).
Proof.
  intros strain h m per bc dms x y D HG HC HS HD HN HT E Hx.
  destruct (jac_sum m per HG D dms (getMatElemLaplacian h) HD) as (d & Ed & J). exists d. split; [exact Ed|]. split.
  - intros n c Hn Hc. rewrite (jac_entry m per HG D _ _ d n c HD Ed Hn Hc).
    pose proof (t_lt m per HG HC n (fun _ => 0) (fun k => getMatElemLaplacian h k k) Hn ltac:(intros; apply (visc_diag h m _ c); auto; apply HG)) as K. eapply Rle_lt_trans; [|exact K]. apply Req_le. symmetry. apply Lsum_all_zero. intros e _. etransitivity; [|apply Rsum_zero]. apply Rsum_ext. intros; ring.
  - intros N HNe. rewrite !(inner_enum m D _ _ N HNe), J. pose proof (visc_inner strain h m per bc dms HG HD HN HT x y x E Hx) as IV. fold D in IV. rewrite IV. clear IV. split; [apply aform_nonneg; auto|].
    assert (P2 : 2 ^ D = INR (2 ^ D)) by (rewrite pow_INR; reflexivity). rewrite P2. fold D. unfold aform. destruct strain.
    + rewrite tensor_form_v, <- Lsum_scal. apply Lsum_le. intros e _. eapply Rle_trans; [apply psd_vdiag|].
      * intros V. apply (strain_nonneg h m); auto. apply HG.
      * intros i j p q Hi Hj Hp Hq. apply (strain_sym h m); auto. apply HG.
      * replace (2 * INR D * INR (2 ^ D)) with (INR (2 ^ D) * INR D * 2) by ring. fold D. rewrite (Rmult_assoc (_ * _) 2). apply Rmult_le_compat_l; [apply Rmult_le_pos; apply pos_INR|]. rewrite (Rsum_swap D), <- Rsum_scal. apply Rsum_le. intros k Hk. rewrite <- Rsum_scal. apply Rsum_le. intros c Hc.
        destruct (visc_diag h m k c HS (proj1 HG) Hk Hc) as (_ & _ & B). pose proof (pow2_ge_0 (gv m per x e k c)). rewrite <- Rmult_assoc. apply Rmult_le_compat_r; lra.
    + rewrite scalar_form_q, <- Lsum_scal. apply Lsum_le. intros e _. rewrite <- Rsum_scal. apply Rsum_le. intros c _. apply psd_diag.
      * intros V. apply (lap_psd h m); auto. apply HG.
      * intros i j Hi Hj. apply (lap_sym h m); auto. apply HG.
Qed.

(** with the strain tensor the declared diagonal is not the diagonal of the operator: each entry is
    too small, by less than a factor two *)
Theorem C71_strain_declared_diagonal : forall h m per dms n c, let D := length m in
  grid_ok m per -> has_cells m per -> no_self_contact m per -> steps_ok h m -> distributes m per D dms -> in_grid_box (nodes_box m) n -> (c < D)%nat ->
  exists d z, diag_diag_block_matrix (diag_laplacian_mult h) dms = Ok d /\ diag_block_matrix_raw (visc_mult true h) dms (unit_field n c) = Ok z /\
    d n c < z n c < 2 * d n c.
Proof.
  intros h m per dms n c D HG HC HX HS HD Hn Hc. destruct (jac_sum m per HG D dms (getMatElemLaplacian h) HD) as (d & Ed & _). destruct (visc_raw true h m per dms HG HD (unit_field n c)) as (z & Ez & W).
  exists d, z. split; [exact Ed|]. split; [exact Ez|]. rewrite (jac_entry m per HG D _ _ d n c HD Ed Hn Hc), <- (inner_unit m D z n c Hn Hc). fold D in W. rewrite W. unfold aform. fold D.
  unfold D. rewrite (unit_form m per HG HX (getMatElemStrainTensor h) n c Hc Hn). split.
  - apply (t_lt m per HG HC n (fun k => getMatElemLaplacian h k k) (fun k => getMatElemStrainTensor h k k c c) Hn). intros k Hk. apply (visc_diag h m k c HS (proj1 HG) Hk Hc).
  - rewrite <- Lsum_scal. eapply Rlt_le_trans; [apply (t_lt m per HG HC n (fun k => getMatElemStrainTensor h k k c c) (fun k => 2 * getMatElemLaplacian h k k) Hn); intros k Hk; apply (visc_diag h m k c HS (proj1 HG) Hk Hc)|].
    apply Req_le. apply Lsum_ext. intros e _. rewrite <- Rsum_scal. apply Rsum_ext. intros; ring.
Qed.

(** the divergence of a velocity is controlled by the power it dissipates *)
Theorem C71_divergence_bound : forall (strain : bool) hp mp per dms u w ru gu d0 q mq N, let D := length mp in
  grid_ok mp per -> steps_ok hp mp -> stokes_layout mp per D dms ->
  raw_op strain (half_steps hp) dms u zero_field = Ok (ru, gu) -> dissipates strain (half_steps hp) mp per dms u w ->
  diag_block_matrix (mass_mult hp) d0 None (map snd dms) q = Ok mq -> enumerates N (nodes_box mp) ->
  inner N 1 gu q ^ 2 <= (if strain then INR D / 2 else INR D) * w * inner N 1 mq q.
Proof.
  intros strain hp mp per dms u w ru gu d0 q mq N D HG Hh HS E Hw Em HNe.
  pose proof (half_ok hp mp Hh) as Hu. pose proof (ref_len mp per HG) as LE. pose proof (refined_grid mp per HG) as HGv. pose proof (huv hp mp per HG Hh) as Hhv.
  assert (EN : w = energy strain (half_steps hp) mp per u /\ forall q, inner N 1 gu q = div_form (refined_size mp per) mp per (E0 mp per) D (getMatElemPressure (half_steps hp)) q u).
  { assert (K : exists rv rp, raw_op strain (half_steps hp) dms u zero_field = Ok (rv, rp) /\ (forall v, inner (N0 (refined_size mp per)) D rv v = aform strain (half_steps hp) (refined_size mp per) per D v u - div_form (refined_size mp per) mp per (E0 mp per) D (getMatElemPressure (half_steps hp)) zero_field v) /\ forall q, inner (N0 mp) 1 rp q = div_form (refined_size mp per) mp per (E0 mp per) D (getMatElemPressure (half_steps hp)) q u).
    { unfold raw_op, aform. destruct strain.
      - destruct (stokes_rep_strain (half_steps hp) mp per D dms u zero_field HG HS) as (rv & rp & E0' & AB). destruct (AB _ _ _ _ (N0_enum _) (N0_enum _) (E0_enum _ per (proj1 (proj2 HGv))) (E0_enum _ per (proj1 (proj2 HG)))) as [A B]. exists rv, rp. split; [exact E0'|]. split; [exact A|exact B].
      - destruct (stokes_rep_lap (half_steps hp) mp per D dms u zero_field HG HS) as (rv & rp & E0' & AB). destruct (AB _ _ _ _ (N0_enum _) (N0_enum _) (E0_enum _ per (proj1 (proj2 HGv))) (E0_enum _ per (proj1 (proj2 HG)))) as [A B]. exists rv, rp. split; [exact E0'|]. split; [exact A|exact B]. }
    destruct K as (rv & rp & K & A & B). rewrite E in K. injection K as <- <-. split.
    - destruct Hw as (rv & rp & K & Hw). rewrite E in K. injection K as <- <-. rewrite (Hw _ (N0_enum _)). fold D. rewrite A.
      assert (Z : div_form (refined_size mp per) mp per (E0 mp per) D (getMatElemPressure (half_steps hp)) zero_field u = 0).
      { unfold div_form. apply Lsum_all_zero. intros e _. etransitivity; [|apply Rsum_zero]. apply Rsum_ext. intros k _. etransitivity; [|apply Rsum_zero]. apply Rsum_ext. intros k' _. etransitivity; [|apply Rsum_zero]. apply Rsum_ext. intros c _. unfold gv, zero_field. ring. }
      rewrite Z, Rminus_0_r. reflexivity.
    - intros q0. rewrite (inner_enum mp 1 _ _ N HNe). apply B. }
  destruct EN as [-> Q]. rewrite Q. destruct (mass_op hp mp per (map snd dms) HG (proj1 (proj2 HS)) d0 q) as (mq' & Em' & W). rewrite Em in Em'. injection Em' as <-. rewrite (inner_enum mp 1 mq q N HNe), W.
  pose proof (div_bound strain (half_steps hp) mp per HG Hu q u) as K. rewrite half_double in K. apply K.
  - pose proof (aform_nonneg strain (half_steps hp) (refined_size mp per) per HGv Hhv u) as P. rewrite LE in P. exact P.
  - apply mform_pos; auto.
Qed.

(** the pressure Schur complement is bounded by the mass matrix: eliminating the velocity from the
    Stokes operator, the form of the remaining pressure operator lies between 0 and kappa times the
    form of the second block of P, and it vanishes only on the constant pressures *)
Theorem C71_schur_bound : forall (strain : bool) hp mp per bc dms v p yv g d0 mq N, let D := length mp in let mv := refined_size mp per in
  grid_ok mp per -> has_cells mp per -> at_most_one_thin mp per -> steps_ok hp mp -> stokes_layout mp per D dms -> nonempty_views (map fst dms) -> table_ok D D bc ->
  held strain D mv per bc -> normal_conditions D per bc ->
  bc_op strain (half_steps hp) D bc dms v p = Ok (yv, g) -> same_field mv D yv zero_field ->
  diag_block_matrix (mass_mult hp) d0 None (map snd dms) p = Ok mq -> enumerates N (nodes_box mp) ->
  0 <= inner N 1 g p <= (if strain then INR D / 2 else INR D) * inner N 1 mq p /\
  (inner N 1 g p = 0 <-> exists c, same_field mp 1 p (constant c)).
Proof.
  intros strain hp mp per bc dms v p yv g d0 mq N D mv HG HC H1 Hh HS HN HT HH HNC E Zy Em HNe.
  pose proof (half_ok hp mp Hh) as Hu. pose proof (ref_len mp per HG) as LE. pose proof (refined_grid mp per HG) as HGv. pose proof (huv hp mp per HG Hh) as Hhv. fold mv in LE, HGv, Hhv. fold D in LE.
  set (hu := half_steps hp) in *. set (b := div_form mv mp per (E0 mp per) D (getMatElemPressure hu)). set (a := aform strain hu mv per D).
  destruct (op_of strain hu mp per bc dms HG HS HN HT v p) as (rv & rp & yv' & E1 & E2 & V & W & Q). fold D in E2, V, W, Q. fold mv in V, W, Q. rewrite E in E2. injection E2 as <- <-. fold a b in W. fold b in Q.
  assert (Tv : takes mp per bc zero_field v). { intros n c Hn Hc HP. fold mv in Hn, HP. fold D in Hc, HP. rewrite <- (Zy n c Hn Hc), (V n c Hn Hc). destruct (prescribed D mv per bc n c); congruence. }
  assert (FR : forall w, takes mp per bc zero_field w -> a w v = b p w).
  { intros w Hw. apply Rminus_diag_uniq. rewrite <- W. unfold inner. apply Lsum_all_zero. intros n Hn. apply N0_enum in Hn. etransitivity; [|apply Rsum_zero]. apply Rsum_ext. intros c Hc. specialize (Zy n c Hn Hc). rewrite (V n c Hn Hc) in Zy. destruct (prescribed D mv per bc n c) eqn:P; [rewrite (Hw n c Hn Hc) by (fold D mv; congruence); unfold zero_field; ring|rewrite Zy; unfold zero_field; ring]. }
  rewrite !(inner_enum mp 1 _ _ N HNe), Q, <- (FR v Tv).
  assert (AP : 0 <= a v v). { pose proof (aform_nonneg strain hu mv per HGv Hhv v) as P. rewrite LE in P. exact P. }
  assert (MW : inner (N0 mp) 1 mq p = scalar_form mp per (E0 mp per) 1 (getMatElemMass hp) p p). { destruct (mass_op hp mp per (map snd dms) HG (proj1 (proj2 HS)) d0 p) as (mq' & Em' & Wm). rewrite Em in Em'. injection Em' as <-. apply Wm. }
  split; [split; [exact AP|]|].
  - rewrite MW. pose proof (mform_pos hp mp per HG Hh p) as MP. set (mm := scalar_form mp per (E0 mp per) 1 (getMatElemMass hp) p p) in *.
    pose proof (div_bound strain (half_steps hp) mp per HG Hu p v) as K. rewrite half_double in K. fold hu in K. fold mm mv D b in K. change (energy strain hu mp per v) with (a v v) in K. specialize (K AP MP). rewrite <- (FR v Tv) in K.
    change (kappa mp strain) with (if strain then INR D / 2 else INR D) in K. assert (KP : 0 <= (if strain then INR D / 2 else INR D)) by (pose proof (pos_INR D); destruct strain; lra). set (k := if strain then INR D / 2 else INR D) in *. clearbody k mm. set (t := a v v) in *. clearbody t. destruct (Req_dec t 0) as [->|NZ]; [apply Rmult_le_pos; lra|]. apply (Rmult_le_reg_l t); [lra|]. replace (t * (k * mm)) with (k * t * mm) by ring. replace (t * t) with (t ^ 2) by ring. exact K.
  - pose proof (C66_kernel strain hu mp per bc dms) as KER. cbv zeta in KER. fold D mv in KER. split.
    + intros Z. assert (Zv : same_field mv D v zero_field). { rewrite <- LE. apply (aform_definite strain hu mv per bc); auto; [apply refined_cells, HC|rewrite LE; exact HH| |rewrite LE; exact Z]. intros n c Hn Hc HP. rewrite LE in Hc, HP. rewrite (Tv n c Hn Hc HP). reflexivity. }
      assert (Zg : same_field mp 1 g zero_field). { apply same_field_weak. intros q. rewrite Q. transitivity 0; [|unfold inner; symmetry; apply Lsum_all_zero; intros n _; cbn [Rsum]; unfold zero_field; ring].
        unfold b, div_form. apply Lsum_all_zero. intros e He. apply E0_enum in He; [|apply HG]. etransitivity; [|apply Rsum_zero]. apply Rsum_ext. intros kp _. etransitivity; [|apply Rsum_zero]. apply Rsum_ext. intros kv _. etransitivity; [|apply Rsum_zero]. apply Rsum_ext. intros d Hd. unfold gv3. rewrite Zv; auto; [unfold zero_field; ring|]. apply gv3_node; auto. }
      apply (KER v p yv g HG HC H1 Hu HS HN HT HH HNC E); auto.
    + intros Hc. destruct (op_of strain hu mp per bc dms HG HS HN HT zero_field p) as (rv0 & rp0 & yv0 & _ & E0' & V0 & W0 & _). fold D in E0', V0, W0. fold mv in V0, W0. fold a b in W0.
      destruct (proj2 (KER zero_field p yv0 rp0 HG HC H1 Hu HS HN HT HH HNC E0') (conj (fun n c _ _ => eq_refl) Hc)) as [Z0 _].
      rewrite (FR v Tv). assert (A0 : a v zero_field = 0) by (apply aform_zero). assert (I0 : inner (N0 mv) D rv0 v = 0).
      { unfold inner. apply Lsum_all_zero. intros n Hn. apply N0_enum in Hn. etransitivity; [|apply Rsum_zero]. apply Rsum_ext. intros c Hcc. specialize (Z0 n c Hn Hcc). rewrite (V0 n c Hn Hcc) in Z0. destruct (prescribed D mv per bc n c) eqn:P; [rewrite (Tv n c Hn Hcc) by (fold D mv; congruence); unfold zero_field; ring|rewrite Z0; unfold zero_field; ring]. }
      rewrite W0, A0 in I0. lra.
Qed.

(** that elimination is always possible *)
Theorem C71_schur_defined : forall (strain : bool) hp mp per bc dms p, let D := length mp in let mv := refined_size mp per in
  grid_ok mp per -> has_cells mp per -> steps_ok hp mp -> stokes_layout mp per D dms -> nonempty_views (map fst dms) -> table_ok D D bc -> held strain D mv per bc ->
  exists v yv g, bc_op strain (half_steps hp) D bc dms v p = Ok (yv, g) /\ same_field mv D yv zero_field.
Proof.
  intros strain hp mp per bc dms p D mv HG HC Hh HS HN HT HH.
  pose proof (ref_len mp per HG) as LE. pose proof (refined_grid mp per HG) as HGv. fold mv in LE, HGv. fold D in LE. set (hu := half_steps hp) in *.
  assert (HDv : distributes mv per (length mv) (map fst dms)) by (rewrite LE; apply HS). assert (HTv : table_ok (length mv) (length mv) bc) by (rewrite LE; exact HT).
  destruct (op_of strain hu mp per bc dms HG HS HN HT zero_field p) as (r0 & rp0 & yv0 & _ & _ & _ & W0 & _). fold D in W0. fold mv in W0.
  set (f := fun n c => match prescribed D mv per bc n c with Some _ => 0 | None => - r0 n c end).
  destruct (proj1 (C71_preconditioner_invertible strain hp mp per bc dms f zero_field HG HC Hh HS HN HT HH)) as (v & xp & yv & yp & E & Sv & _). fold D mv in Sv.
  destruct (pc_split strain hp mp per bc dms HG HS HN HT v xp) as (av & ap & E' & Ev & _). rewrite E in E'. injection E' as <- <-. fold mv hu in Ev.
  destruct (visc_bc strain hu mv per bc (map fst dms) HGv HDv HN HTv v) as (r & y' & Ey & V & W). rewrite Ev in Ey. injection Ey as <-. rewrite LE in V, W.
  destruct (op_of strain hu mp per bc dms HG HS HN HT v p) as (rv & rp & zv & _ & E2 & V2 & W2 & _). fold D in E2, V2, W2. fold mv in V2, W2.
  assert (K : same_field mv D rv (lin 1 1 r r0)). { apply same_field_weak. intros w. rewrite inner_lin, W, W0, W2, aform_zero. ring. }
  exists v, zv, rp. split; [exact E2|]. intros n c Hn Hc. rewrite (V2 n c Hn Hc). specialize (Sv n c Hn Hc). rewrite (V n c Hn Hc) in Sv. unfold f in Sv. unfold zero_field. destruct (prescribed D mv per bc n c); [exact Sv|]. rewrite (K n c Hn Hc). unfold lin. lra.
Qed.

(** the hypotheses are met: a channel on two processes, steps of different lengths, a velocity that
    is not zero, a pressure that is not constant *)
Definition tilt : field := fun n _ => IZR (nth 0 n 0%Z).
Example ex_precond : forall strain, grid_ok ex_mp ex_per /\ has_cells ex_mp ex_per /\ at_most_one_thin ex_mp ex_per /\ steps_ok [2/7; 2/3] ex_mp /\ stokes_layout ex_mp ex_per 2 ex_dms /\ nonempty_views (map fst ex_dms) /\
  table_ok 2 2 ex_walls /\ held strain 2 (refined_size ex_mp ex_per) ex_per ex_walls /\ normal_conditions 2 ex_per ex_walls /\ no_self_contact (refined_size ex_mp ex_per) ex_per /\
  takes ex_mp ex_per ex_walls zero_field push /\ (exists n c, in_grid_box (nodes_box (refined_size ex_mp ex_per)) n /\ (c < 2)%nat /\ push n c <> 0) /\
  (exists yv yp, precond strain [2/7; 2/3] 2 (map Some ex_walls) ex_dms push tilt = Ok (yv, yp)) /\
  (exists v yv g, bc_op strain (half_steps [2/7; 2/3]) 2 ex_walls ex_dms v tilt = Ok (yv, g) /\ same_field (refined_size ex_mp ex_per) 2 yv zero_field) /\
  ~ exists c, same_field ex_mp 1 tilt (constant c).
Proof.
  intros strain. destruct (ex_well_posed strain) as (A1 & A2 & A3 & A4 & A5 & A6 & A7 & A8 & A9). assert (Hh : steps_ok [2/7; 2/3] ex_mp) by (split; [reflexivity|repeat constructor; lra]).
  repeat (split; [assumption|]). split; [unfold no_self_contact; cbn; repeat constructor; intros; try discriminate; lia|]. split; [apply ex_dissipation; exact strain|].
  split. { exists [1; 0]%Z, 0%nat. split; [split; repeat constructor; cbn; lia|]. split; [lia|]. unfold push. destruct (prescribed _ _ _ _ _ _) eqn:P; [exfalso|lra]. revert P. cbv -[Rplus Rmult IZR]. discriminate. }
  split. { destruct (pc_split strain [2/7; 2/3] ex_mp ex_per ex_walls ex_dms A1 A5 A6 A7 push tilt) as (yv & yp & E & _). exists yv, yp. exact E. }
  split. { exact (C71_schur_defined strain [2/7; 2/3] ex_mp ex_per ex_walls ex_dms tilt A1 A2 Hh A5 A6 A7 A8). }
  intros (c & H). pose proof (H [0; 0]%Z 0%nat ltac:(split; repeat constructor; cbn; lia) ltac:(lia)) as H0. pose proof (H [1; 0]%Z 0%nat ltac:(split; repeat constructor; cbn; lia) ltac:(lia)) as H1. unfold tilt, constant in H0, H1. cbn in H0, H1. lra.
Qed.
