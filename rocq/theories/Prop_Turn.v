(** C72: the computed flow of the image of a problem is the image of the computed flow. *)
From Coq Require Import Permutation FunctionalExtensionality.
From Coquelicot Require Import Coquelicot.
From Verif Require Import Base M_Geometry S_Geometry P_Geometry M_Particle S_Particle P_Particle M_Quadrature S_Fem P_Energy M_MatElem P_MatElem M_Mesh M_Operator S_Operator P_Mesh P_Operator P_Operator2 P_Operator3 P_Global P_Stokes M_Bc S_Bc P_Bc P_Constant Prop_Operator Prop_Operator2 Prop_Assembly Prop_Assembly2 P_CreateMesh P_Diag Prop_StokesUnique Prop_Dissipation S_Exact Prop_Flux.
From Verif Require Import P_Precond P_QuadTab P_Div Prop_Exact.
From Verif Require Import S_Turn P_TurnTab P_Turn P_TurnGrid P_TurnForm.
Local Open Scope R_scope.

(** ** Specification *)
(** the value the walls prescribe at a velocity node, and the value of the load *)
Definition wall_value (h : list R) (m : list Z) (per : list bool) (bc : list bc_row) (n : list Z) (c : nat) : option R :=
  option_map (fun g => g (position h n)) (prescribed (length m) m per bc n c).
Definition load_value (h : list R) (conds : bc_row) : field := fun n c => match nth c conds None with Some g => g (position h n) | None => 0 end.
(** (v, p) solves the system that the driver sets up for the walls [bc] and the load [conds] *)
Definition flow (strain : bool) (h : list R) (mp : list Z) (per : list bool) (bc : list bc_row) (conds : bc_row) (dms : list (dmda * dmda)) (v p : field) : Prop :=
  let D := length mp in let mv := refined_size mp per in
  exists bv yv yp, setup_RHS D conds (map Some bc) h (map fst dms) zero_field = Ok bv /\ bc_op strain h D bc dms v p = Ok (yv, yp) /\ same_field mv D yv bv /\ same_field mp 1 yp zero_field.
(** the data of the image problem are the images of the data: same velocities of the walls, turned
    like vectors, and body forces divided by lam^2 *)
Definition walls_image (s : similarity) (h : list R) (m : list Z) (per : list bool) (bc bc' : list bc_row) : Prop :=
  forall n c, in_grid_box (nodes_box m) n -> (c < length m)%nat ->
    wall_value (img_steps s h) (img 0%Z s m) (img false s per) bc' (turn s m per n) c = option_map (Rmult (sgn s c)) (wall_value h m per bc n (nth c (ax s) 0%nat)).
Definition load_image (s : similarity) (h : list R) (m : list Z) (per : list bool) (conds conds' : bc_row) : Prop :=
  vec_image s m per (/ lam s ^ 2) (load_value h conds) (load_value (img_steps s h) conds').
(** the same, side by side: the side (axis i, up) of the image is the side (ax i, up or, in a mirror, the other) *)
Definition side_image (s : similarity) (h : list R) (m : list Z) (per : list bool) (bc bc' : list bc_row) : Prop :=
  forall i up c, (i < length m)%nat -> (c < length m)%nat ->
    match nth (nth c (ax s) 0%nat) (nth (side_index (nth i (ax s) 0%nat, up)) bc []) None, nth c (nth (side_index (i, xorb up (nth i (fl s) false))) bc' []) None with
    | None, None => True
    | Some g, Some g' => forall n, in_grid_box (nodes_box m) n -> on_side m per n (nth i (ax s) 0%nat, up) = true -> g' (position (img_steps s h) (turn s m per n)) = sgn s c * g (position h n)
    | _, _ => False
    end.
(** the conditions of the sides that meet at a node agree *)
Definition corners_agree (h : list R) (m : list Z) (per : list bool) (bc : list bc_row) : Prop :=
  forall n c a b g g', in_grid_box (nodes_box m) n -> (c < length m)%nat -> on_side m per n a = true -> on_side m per n b = true ->
    nth c (nth (side_index a) bc []) None = Some g -> nth c (nth (side_index b) bc []) None = Some g' -> g (position h n) = g' (position h n).

(** images exist *)
Lemma vec_image_ex s m per k x : grid_ok m per -> sim_ok (length m) s -> exists x', vec_image s m per k x x'.
Proof.
  intros HG HS. exists (fun n' c => match find (fun n => same_node (turn s m per n) n') (N0 m) with Some n => k * (sgn s c * x n (nth c (ax s) 0%nat)) | None => 0 end).
  intros n c Hn Hc. destruct (find _ (N0 m)) as [n0|] eqn:F.
  - apply find_some in F. destruct F as [F1 F2]. apply N0_enum in F1. destruct (same_node_spec (turn s m per n0) (turn s m per n)) as [E|]; [|discriminate]. apply (turn_inj s m per) in E; auto. subst. reflexivity.
  - exfalso. assert (In n (N0 m)) as I by (apply N0_enum, Hn). pose proof (find_none _ _ F n I) as E. cbn beta in E. destruct (same_node_spec (turn s m per n) (turn s m per n)) as [_|X]; congruence.
Qed.
Lemma scal_image_ex s m per k x : grid_ok m per -> sim_ok (length m) s -> exists x', scal_image s m per k x x'.
Proof.
  intros HG HS. exists (fun n' c => match find (fun n => same_node (turn s m per n) n') (N0 m) with Some n => k * x n 0%nat | None => 0 end).
  intros n Hn. destruct (find _ (N0 m)) as [n0|] eqn:F.
  - apply find_some in F. destruct F as [F1 F2]. apply N0_enum in F1. destruct (same_node_spec (turn s m per n0) (turn s m per n)) as [E|]; [|discriminate]. apply (turn_inj s m per) in E; auto. subst. reflexivity.
  - exfalso. assert (In n (N0 m)) as I by (apply N0_enum, Hn). pose proof (find_none _ _ F n I) as E. cbn beta in E. destruct (same_node_spec (turn s m per n) (turn s m per n)) as [_|X]; congruence.
Qed.

Lemma rlen mp per : grid_ok mp per -> length (refined_size mp per) = length mp.
Proof. intros HG. unfold refined_size. rewrite length_zip_with; auto. symmetry. apply HG. Qed.
(** the rows of the raw operator *)
Lemma raw_rows strain h mp per dms v p : grid_ok mp per -> stokes_layout mp per (length mp) dms -> let D := length mp in let mv := refined_size mp per in
  exists rv rp, raw_op strain h dms v p = Ok (rv, rp) /\
    (forall n c, in_grid_box (nodes_box mv) n -> (c < D)%nat -> rv n c = aform strain h mv per D (unit_field n c) v - div_form mv mp per (E0 mp per) D (getMatElemPressure h) p (unit_field n c)) /\
    (forall n, in_grid_box (nodes_box mp) n -> rp n 0%nat = div_form mv mp per (E0 mp per) D (getMatElemPressure h) (unit_field n 0) v).
Proof.
  intros HG HS D mv. assert (K : exists rv rp, raw_op strain h dms v p = Ok (rv, rp) /\ (forall w, inner (N0 mv) D rv w = aform strain h mv per D w v - div_form mv mp per (E0 mp per) D (getMatElemPressure h) p w) /\ forall q, inner (N0 mp) 1 rp q = div_form mv mp per (E0 mp per) D (getMatElemPressure h) q v).
  { unfold raw_op, aform. destruct strain; [destruct (stokes_rep_strain h mp per D dms v p HG HS) as (rv & rp & E & W)|destruct (stokes_rep_lap h mp per D dms v p HG HS) as (rv & rp & E & W)]; exists rv, rp; (split; [exact E|]); exact (W _ _ _ _ (N0_enum _) (N0_enum _) (ev0 mp per HG) (ep0 mp per HG)). }
  destruct K as (rv & rp & E & A & B). exists rv, rp. split; [exact E|]. split.
  - intros n c Hn Hc. rewrite <- (inner_unit mv D rv n c Hn Hc). apply A.
  - intros n Hn. rewrite <- (inner_unit mp 1 rp n 0 Hn) by lia. apply B.
Qed.

(** the right-hand side of the driver *)
Lemma rhs_row h mp per bc conds dms : grid_ok mp per -> stokes_layout mp per (length mp) dms -> nonempty_views (map fst dms) -> table_ok (length mp) (length mp) bc -> length conds = length mp ->
  let D := length mp in let mv := refined_size mp per in
  exists bv, setup_RHS D conds (map Some bc) h (map fst dms) zero_field = Ok bv /\
    forall n c, in_grid_box (nodes_box mv) n -> (c < D)%nat -> bv n c = match wall_value h mv per bc n c with Some a => a | None => scalar_form mv per (E0 mv per) D (getMatElemMass h) (unit_field n c) (load_value h conds) end.
Proof.
  intros HG HL HN HT HC D mv. pose proof (refined_grid mp per HG) as HGv. fold mv in HGv. pose proof (rlen mp per HG) as Lm. fold mv D in Lm. assert (T' : table_ok (length mv) D bc) by (rewrite Lm; exact HT).
  destruct (loaded_dec conds) as [E|E].
  - destruct (C45_first_call mv per D (map fst dms) conds bc h zero_field HGv (proj1 HL) HN T' HC E) as (y & mf & Ey & Em & V). rewrite Lm in Ey. exists y. split; [exact Ey|]. intros n c Hn Hc. rewrite (V n c Hn Hc). unfold wall_value. destruct (prescribed (length mv) mv per bc n c) eqn:P; [reflexivity|]. cbn [option_map].
    destruct (rep_diag mv per D (getMatElemMass h) HGv (map fst dms) (load_value h conds) (proj1 HL)) as (mf' & Em' & W). change (diag_block_matrix_raw (mass_mult h) (map fst dms) (load_value h conds) = Ok mf) in Em. unfold mass_mult in Em. rewrite Em' in Em. injection Em as <-.
    rewrite <- (inner_unit mv D mf' n c Hn Hc), (W _ _ (N0_enum mv) (E0_enum mv per (proj1 (proj2 HGv)))). unfold zero_field. ring.
  - destruct (C30_on_rhs mv per D bc h (map fst dms) zero_field HGv (proj1 HL) HN T') as (y & Ey & V). rewrite Lm in Ey. exists y. unfold setup_RHS. rewrite (has_condition_unloaded _ E). split; [exact Ey|]. intros n c Hn Hc. rewrite (V n c Hn Hc). unfold wall_value. destruct (prescribed (length mv) mv per bc n c); [reflexivity|]. cbn [option_map].
    symmetry. unfold zero_field, scalar_form. apply Lsum_all_zero. intros e _. etransitivity; [|apply (Rsum_zero D)]. apply Rsum_ext. intros d _. etransitivity; [|apply (Rsum_zero (2 ^ length mv))]. apply Rsum_ext. intros k1 _. etransitivity; [|apply (Rsum_zero (2 ^ length mv))]. apply Rsum_ext. intros k2 _. unfold gv, load_value. rewrite (E d). ring.
Qed.

Section Turn.
  Variables (strain : bool) (s : similarity) (h : list R) (mp : list Z) (per : list bool) (dms dms' : list (dmda * dmda)).
  Let D := length mp. Let mv := refined_size mp per. Let h' := img_steps s h. Let mp' := img 0%Z s mp. Let per' := img false s per. Let fs := fine_sim s.
  Hypothesis HG : grid_ok mp per.
  Hypothesis HS : sim_ok D s.
  Hypothesis Hh : steps_ok h mp.
  Hypothesis HL : stokes_layout mp per D dms.
  Hypothesis HL' : stokes_layout mp' per' D dms'.
  Let Lm' : length mp' = D := img_len s mp HS 0%Z mp.
  Let HG' : grid_ok mp' per' := img_grid s mp per HG HS.
  Let Emv : refined_size mp' per' = img 0%Z s mv := img_refined s mp per HG HS.
  Let Lmv : length mv = D := rlen mp per HG.
  Let HGv : grid_ok mv per := refined_grid mp per HG.
  Lemma fs_ok : sim_ok (length mv) fs. Proof. rewrite Lmv. apply fine_ok, HS. Qed.
  Lemma h_mv : steps_ok h mv. Proof. unfold steps_ok. rewrite Lmv. exact Hh. Qed.
  Lemma lam_pos : 0 < lam s. Proof. apply HS. Qed.
  Lemma D2 : (2 <= D)%nat. Proof. pose proof (proj1 HG) as X. fold D in X. lia. Qed.
  Lemma turned_rows v v' p p' rv rp rv' rp' : vec_image fs mv per 1 v v' -> scal_image s mp per (/ lam s) p p' ->
    raw_op strain h dms v p = Ok (rv, rp) -> raw_op strain h' dms' v' p' = Ok (rv', rp') ->
    vec_image fs mv per (lam s ^ (D - 2)) rv rv' /\ scal_image s mp per (lam s ^ (D - 1)) rp rp'.
  Proof.
    intros IV IP E E'. destruct (raw_rows strain h mp per dms v p HG HL) as (r1 & r2 & E1 & A & B). rewrite E in E1. injection E1 as <- <-.
    assert (HL2 : stokes_layout mp' per' (length mp') dms') by (rewrite Lm'; exact HL'). destruct (raw_rows strain h' mp' per' dms' v' p' HG' HL2) as (r1 & r2 & E1 & A' & B'). rewrite E' in E1. injection E1 as <- <-.
    rewrite Lm', Emv in A', B'. fold D mv in A, B. pose proof lam_pos as lp.
    assert (P1 : lam s ^ (D - 1) = lam s ^ (D - 2) * lam s) by (replace (D - 1)%nat with (S (D - 2)) by (pose proof D2; lia); cbn; ring).
    assert (HPR : forall i w d, (i < 2 ^ D)%nat -> (w < 3 ^ D)%nat -> (d < D)%nat -> getMatElemPressure h' (loc (ax s) (fl s) 2 i) (loc (ax s) (fl s) 3 w) d = lam s ^ (D - 1) * (sgn s d * getMatElemPressure h i w (nth d (ax s) 0%nat))) by (intros; apply (press_turn_h s mp h (proj1 HG) HS Hh); assumption).
    split.
    - intros n c Hn Hc. rewrite Lmv in Hc. pose proof (turn_in fs mv per n HGv fs_ok Hn) as Hn'. change (img 0%Z fs mv) with (img 0%Z s mv) in Hn'. rewrite (A' _ c Hn' Hc).
      assert (Hc2 : (c < length mv)%nat) by (rewrite Lmv; exact Hc). pose proof (unit_image fs mv per HGv fs_ok n c Hn Hc2) as IU. pose proof (ax_lt D s HS c Hc) as Hac.
      pose proof (aform_turn fs mv per HGv fs_ok strain h 1 (sgn fs c) v v' _ _ h_mv IV IU) as AT. rewrite Lmv in AT. change (img 0%Z fs mv) with (img 0%Z s mv) in AT. change (img_steps fs h) with h' in AT. change (img false fs per) with per' in AT. rewrite AT.
      pose proof (div_turn s mp per HG HS (getMatElemPressure h) (getMatElemPressure h') _ (sgn fs c) (/ lam s) _ _ p p' HPR IU IP) as DT. fold D mv mp' per' in DT. rewrite DT.
      change (nth c (ax fs) 0%nat) with (nth c (ax s) 0%nat) in *. rewrite (A n _ Hn Hac). change (lam fs) with (lam s). rewrite P1. field. lra.
    - intros n Hn. pose proof (turn_in s mp per n HG HS Hn) as Hn'. fold mp' in Hn'. rewrite (B' _ Hn'). pose proof (unit_scal s mp per HG HS n Hn) as IU.
      pose proof (div_turn s mp per HG HS (getMatElemPressure h) (getMatElemPressure h') _ 1 1 v v' _ _ HPR IV IU) as DT. fold D mv mp' per' in DT. rewrite DT, (B n Hn). ring.
  Qed.
  Variables (bc bc' : list bc_row) (conds conds' : bc_row).
  Hypothesis HN : nonempty_views (map fst dms).
  Hypothesis HN' : nonempty_views (map fst dms').
  Hypothesis HT : table_ok D D bc.
  Hypothesis HT' : table_ok D D bc'.
  Hypothesis HC : length conds = D.
  Hypothesis HC' : length conds' = D.
  Hypothesis HW : walls_image fs h mv per bc bc'.
  Hypothesis HF : load_image fs h mv per conds conds'.
  Lemma pow_split : lam s ^ D = lam s ^ (D - 2) * lam s ^ 2.
  Proof. rewrite <- pow_add. f_equal. pose proof D2. lia. Qed.
  Lemma flow_turned v p v' p' : flow strain h mp per bc conds dms v p -> vec_image fs mv per 1 v v' -> scal_image s mp per (/ lam s) p p' -> flow strain h' mp' per' bc' conds' dms' v' p'.
  Proof.
    intros (bv & yv & yp & ER & EB & SV & SP) IV IP. fold D in ER, EB, SV. fold mv in SV.
    destruct (facts strain h mp per bc dms HG HL HN HT v p) as (rv & rp & yv0 & E1 & E2 & V & _ & _). fold D in E2, V. fold mv in V. unfold bc_op in EB. unfold viscous in E2. rewrite EB in E2. injection E2 as <- ->.
    assert (HL2 : stokes_layout mp' per' (length mp') dms') by (rewrite Lm'; exact HL'). assert (HT2 : table_ok (length mp') (length mp') bc') by (rewrite Lm'; exact HT'). assert (HC2 : length conds' = length mp') by (rewrite Lm'; exact HC').
    destruct (facts strain h' mp' per' bc' dms' HG' HL2 HN' HT2 v' p') as (rv' & rp' & yv' & E1' & E2' & V' & _ & _).
    destruct (turned_rows v v' p p' rv rp rv' rp' IV IP E1 E1') as [IRV IRP].
    destruct (rhs_row h mp per bc conds dms HG HL HN HT HC) as (bv0 & ER0 & B). fold D in ER0, B. fold mv in B. rewrite ER in ER0. injection ER0 as <-.
    destruct (rhs_row h' mp' per' bc' conds' dms' HG' HL2 HN' HT2 HC2) as (bv' & ER' & B'). 
    exists bv', yv', rp'. split; [exact ER'|]. split; [exact E2'|]. rewrite Emv, Lm' in V', B' |- *. split.
    - intros n' c Hn' Hc. destruct (turn_surj fs mv per n' HGv fs_ok Hn') as (n & Hn & <-).
      rewrite (V' _ c Hn' Hc), (B' _ c Hn' Hc). assert (Hc2 : (c < length mv)%nat) by (rewrite Lmv; exact Hc). pose proof (ax_lt D s HS c Hc) as Hac.
      pose proof (HW n c Hn Hc2) as W. change (img_steps fs h) with h' in W. change (img 0%Z fs mv) with (img 0%Z s mv) in W. change (img false fs per) with per' in W. change (nth c (ax fs) 0%nat) with (nth c (ax s) 0%nat) in W.
      assert (Li : length (img 0%Z s mv) = D) by (rewrite <- Emv, (rlen mp' per' HG'); exact Lm').
      pose proof (SV n _ Hn Hac) as SVn. rewrite (V n _ Hn Hac), (B n _ Hn Hac) in SVn. unfold wall_value in W, SVn |- *. rewrite Li in W |- *. rewrite Lmv in W, SVn. rewrite W.
      destruct (prescribed D mv per bc n (nth c (ax s) 0%nat)) as [g|] eqn:P; cbn [option_map] in W, SVn |- *.
      + destruct (prescribed D (img 0%Z s mv) per' bc' (turn fs mv per n) c) as [g'|] eqn:P'; [|discriminate]. rewrite (IV n c Hn Hc2). change (nth c (ax fs) 0%nat) with (nth c (ax s) 0%nat). rewrite SVn. change (sgn fs c) with (sgn s c). ring.
      + destruct (prescribed D (img 0%Z s mv) per' bc' (turn fs mv per n) c) as [g'|] eqn:P'; [discriminate|]. rewrite (IRV n c Hn Hc2). change (nth c (ax fs) 0%nat) with (nth c (ax s) 0%nat). rewrite SVn.
        pose proof (massform_turn fs mv per HGv fs_ok h _ _ _ _ _ _ h_mv HF (unit_image fs mv per HGv fs_ok n c Hn Hc2)) as MT. rewrite Lmv in MT. change (img 0%Z fs mv) with (img 0%Z s mv) in MT. change (img_steps fs h) with h' in MT. change (img false fs per) with per' in MT. change (nth c (ax fs) 0%nat) with (nth c (ax s) 0%nat) in MT. rewrite MT. change (lam fs) with (lam s). rewrite pow_split. pose proof lam_pos. field. lra.
    - intros n' c Hn' Hc. assert (c = 0%nat) as -> by lia. destruct (turn_surj s mp per n' HG HS Hn') as (n & Hn & <-). rewrite (IRP n Hn), (SP n 0%nat Hn) by lia. unfold zero_field. ring.
  Qed.
End Turn.


(** ** Walls given side by side *)
Definition later (a : option R) (acc : option R) : option R := match a with Some x => Some x | None => acc end.
Definition side_value (h : list R) (m : list Z) (per : list bool) (bc : list bc_row) (n : list Z) (c : nat) (sd : nat * bool) : option R :=
  if on_side m per n sd then option_map (fun g => g (position h n)) (nth c (nth (side_index sd) bc []) None) else None.
Lemma wall_fold h m per bc n c : wall_value h m per bc n c = fold_left (fun acc sd => later (side_value h m per bc n c sd) acc) (sides (length m)) None.
Proof.
  unfold wall_value, prescribed.
  assert (G : forall l acc, option_map (fun g : condition_fn => g (position h n)) (fold_left (fun acc s => if on_side m per n s then match nth c (nth (side_index s) bc []) None with Some f => Some f | None => acc end else acc) l acc)
    = fold_left (fun acc sd => later (side_value h m per bc n c sd) acc) l (option_map (fun g : condition_fn => g (position h n)) acc)).
  { induction l as [|sd l IH]; intros acc; [reflexivity|]. cbn [fold_left]. rewrite IH. f_equal. unfold later, side_value. destruct (on_side m per n sd); [|reflexivity]. destruct (nth c (nth (side_index sd) bc []) None); reflexivity. }
  apply (G _ None).
Qed.
Lemma fold_in (f : nat * bool -> option R) l acc x : fold_left (fun acc sd => later (f sd) acc) l acc = Some x -> acc = Some x \/ exists sd, In sd l /\ f sd = Some x.
Proof. revert acc. induction l as [|sd l IH]; intros acc H; [left; exact H|]. cbn [fold_left] in H. destruct (IH _ H) as [E|(s' & I & E)]; [|right; exists s'; split; [right; exact I|exact E]]. unfold later in E. destruct (f sd) eqn:F; [|left; exact E]. right. exists sd. split; [left; reflexivity|congruence]. Qed.
Lemma fold_none (f : nat * bool -> option R) l acc : fold_left (fun acc sd => later (f sd) acc) l acc = None -> acc = None /\ forall sd, In sd l -> f sd = None.
Proof. revert acc. induction l as [|sd l IH]; intros acc H; [split; [exact H|intros ? []]|]. cbn [fold_left] in H. destruct (IH _ H) as [E A]. unfold later in E. destruct (f sd) eqn:F; [discriminate|]. split; [exact E|]. intros s' [<-|I]; auto. Qed.
Lemma in_sides D sd : In sd (sides D) <-> (fst sd < D)%nat.
Proof.
  unfold sides. rewrite in_flat_map. split.
  - intros (d & I & [<-|[<-|[]]]); apply in_seq in I; cbn; lia.
  - intros H. exists (fst sd). split; [apply in_seq; lia|]. destruct sd as [d []]; cbn; auto.
Qed.
Lemma mapseq {A} (f : nat -> A) n i d : (i < n)%nat -> nth i (map f (seq 0 n)) d = f i.
Proof. intros H. rewrite (nth_indep _ d (f 0%nat)) by (rewrite map_length, seq_length; exact H). rewrite map_nth, seq_nth by exact H. reflexivity. Qed.
Section Sides.
  Variables (s : similarity) (h : list R) (m : list Z) (per : list bool) (bc bc' : list bc_row).
  Let D := length m. Let m' := img 0%Z s m. Let per' := img false s per. Let h' := img_steps s h.
  Hypothesis HG : grid_ok m per.
  Hypothesis HS : sim_ok D s.
  Hypothesis HI : side_image s h m per bc bc'.
  Lemma on_side_turn n i up : in_grid_box (nodes_box m) n -> (i < D)%nat -> on_side m' per' (turn s m per n) (i, xorb up (nth i (fl s) false)) = on_side m per n (nth i (ax s) 0%nat, up).
  Proof.
    intros Hn Hi. unfold on_side. cbn [fst snd]. unfold m', per'. rewrite (img_nth s m HS false per i Hi), (img_nth s m HS 0%Z m i Hi). 
    assert (En : nth i (turn s m per n) 0%Z = turn1 (nth (nth i (ax s) 0%nat) per false) (nth i (fl s) false) (nth (nth i (ax s) 0%nat) m 0%Z) (nth i (sh s) 0%Z) (nth (nth i (ax s) 0%nat) n 0%Z)).
    { unfold turn. rewrite (ax_len D s HS). exact (mapseq _ D i 0%Z Hi). }
    rewrite En. unfold turn1. destruct (nth (nth i (ax s) 0%nat) per false); [reflexivity|]. cbn [negb andb]. destruct (nth i (fl s) false), up; cbn [xorb]; try reflexivity; apply Bool.eq_iff_eq_true; rewrite !Z.eqb_eq; lia.
  Qed.
  Lemma side_value_turn n i up c : in_grid_box (nodes_box m) n -> (i < D)%nat -> (c < D)%nat ->
    side_value h' m' per' bc' (turn s m per n) c (i, xorb up (nth i (fl s) false)) = option_map (Rmult (sgn s c)) (side_value h m per bc n (nth c (ax s) 0%nat) (nth i (ax s) 0%nat, up)).
  Proof.
    intros Hn Hi Hc. unfold side_value. rewrite on_side_turn by assumption. destruct (on_side m per n (nth i (ax s) 0%nat, up)) eqn:O; [|reflexivity]. pose proof (HI i up c Hi Hc) as X.
    destruct (nth (nth c (ax s) 0%nat) (nth (side_index (nth i (ax s) 0%nat, up)) bc []) None) as [g|], (nth c (nth (side_index (i, xorb up (nth i (fl s) false))) bc' []) None) as [g'|]; cbn [option_map]; try contradiction; [|reflexivity]. f_equal. exact (X n Hn O).
  Qed.
  Lemma m_len' : length m' = D. Proof. exact (img_len s m HS 0%Z m). Qed.
  (** no exchange of the axes: the order of the axes is kept, and a node is not on two opposite sides *)
  Lemma sides_straight : ax s = seq 0 D -> has_cells m per -> walls_image s h m per bc bc'.
  Proof.
    intros AX HC n c Hn Hc. fold D in Hc. rewrite !wall_fold. fold m' per' h'. rewrite m_len'. fold D. unfold sides. assert (forall i, (i < D)%nat -> nth i (ax s) 0%nat = i) as Ai by (intros; rewrite AX, seq_nth by assumption; lia).
    assert (B : forall i, In i (seq 0 D) -> (i < D)%nat) by (intros i I; apply in_seq in I; lia).
    enough (G : forall l acc, (forall i, In i l -> (i < D)%nat) -> fold_left (fun acc sd => later (side_value h' m' per' bc' (turn s m per n) c sd) acc) (flat_map (fun d => [(d, false); (d, true)]) l) (option_map (Rmult (sgn s c)) acc) = option_map (Rmult (sgn s c)) (fold_left (fun acc sd => later (side_value h m per bc n (nth c (ax s) 0%nat) sd) acc) (flat_map (fun d => [(d, false); (d, true)]) l) acc)) by exact (G _ None B).
    clear B. induction l as [|i l IH]; intros acc B; [reflexivity|]. cbn [flat_map app fold_left]. rewrite <- IH by (intros; apply B; right; assumption). f_equal.
    pose proof (B i (or_introl eq_refl)) as Hi. pose proof (side_value_turn n i false c Hn Hi Hc) as S0. pose proof (side_value_turn n i true c Hn Hi Hc) as S1. rewrite (Ai i Hi) in S0, S1.
    destruct (nth i (fl s) false); cbn [xorb] in S0, S1; rewrite S0, S1.
    - set (x := side_value h m per bc n (nth c (ax s) 0%nat) (i, false)). set (y := side_value h m per bc n (nth c (ax s) 0%nat) (i, true)). assert (x = None \/ y = None) as [E|E].
      { subst x y. unfold side_value. destruct (on_side m per n (i, false)) eqn:O0; [|auto]. destruct (on_side m per n (i, true)) eqn:O1; [|auto]. exfalso. unfold on_side in O0, O1. cbn [fst snd] in O0, O1. apply andb_prop in O0, O1. destruct O0 as [P Z0], O1 as [_ Z1]. apply Z.eqb_eq in Z0, Z1.
        assert (nth i per false = true \/ (2 <= nth i m 0)%Z) as [Q|Q]; [|rewrite Q in P; discriminate|lia]. clear - HC Hi. unfold D in Hi. revert i Hi. induction HC as [|a b l l' H _ IH]; intros i Hi; [cbn in Hi; lia|]. destruct i; [exact H|]. apply IH. cbn in Hi. lia. }
      + rewrite E. cbn. destruct y; reflexivity.
      + rewrite E. cbn. destruct x; reflexivity.
    - set (x := side_value h m per bc n (nth c (ax s) 0%nat) (i, false)). set (y := side_value h m per bc n (nth c (ax s) 0%nat) (i, true)). destruct x, y; reflexivity.
  Qed.
  (** the conditions agree where the sides meet: the order does not matter *)
  Lemma sides_agree : corners_agree h m per bc -> walls_image s h m per bc bc'.
  Proof.
    intros CA n c Hn Hc. fold D in Hc. rewrite !wall_fold. fold m' per' h'. rewrite m_len'. fold D. pose proof (ax_lt D s HS c Hc) as Hac. set (c0 := nth c (ax s) 0%nat) in *.
    assert (U : forall a b x y, side_value h m per bc n c0 a = Some x -> side_value h m per bc n c0 b = Some y -> x = y).
    { intros a b x y Ha Hb. unfold side_value in Ha, Hb. destruct (on_side m per n a) eqn:Oa; [|discriminate]. destruct (on_side m per n b) eqn:Ob; [|discriminate]. destruct (nth c0 (nth (side_index a) bc []) None) as [g|] eqn:Ga; [|discriminate]. destruct (nth c0 (nth (side_index b) bc []) None) as [g'|] eqn:Gb; [|discriminate]. cbn in Ha, Hb. injection Ha as <-. injection Hb as <-. exact (CA n c0 a b g g' Hn Hac Oa Ob Ga Gb). }
    assert (back : forall sd', In sd' (sides D) -> exists sd, In sd (sides D) /\ side_value h' m' per' bc' (turn s m per n) c sd' = option_map (Rmult (sgn s c)) (side_value h m per bc n c0 sd)).
    { intros [i up'] I. apply in_sides in I. cbn [fst] in I. exists (nth i (ax s) 0%nat, xorb up' (nth i (fl s) false)). split; [apply in_sides, (ax_lt D s HS i I)|]. rewrite <- side_value_turn by assumption. f_equal. f_equal. destruct up', (nth i (fl s) false); reflexivity. }
    assert (fwd : forall sd, In sd (sides D) -> exists sd', In sd' (sides D) /\ side_value h' m' per' bc' (turn s m per n) c sd' = option_map (Rmult (sgn s c)) (side_value h m per bc n c0 sd)).
    { intros [j up] I. apply in_sides in I. cbn [fst] in I. assert (In j (ax s)) as J by (apply (Permutation_in j (Permutation_sym (proj1 HS))), in_seq; lia). apply In_nth with (d := 0%nat) in J. destruct J as (i & Hi & <-). rewrite (ax_len D s HS) in Hi. exists (i, xorb up (nth i (fl s) false)). split; [apply in_sides; exact Hi|]. apply side_value_turn; assumption. }
    destruct (fold_left (fun acc sd => later (side_value h m per bc n c0 sd) acc) (sides D) None) as [x|] eqn:F.
    - destruct (fold_in _ _ _ _ F) as [X|(sd & I & Vx)]; [discriminate|]. destruct (fold_left (fun acc sd => later (side_value h' m' per' bc' (turn s m per n) c sd) acc) (sides D) None) as [x'|] eqn:F'.
      + destruct (fold_in _ _ _ _ F') as [X|(sd' & I' & V')]; [discriminate|]. destruct (back sd' I') as (s0 & I0 & E0). rewrite V' in E0. destruct (side_value h m per bc n c0 s0) as [x0|] eqn:V0; [|discriminate]. rewrite (U _ _ _ _ V0 Vx) in E0. exact E0.
      + exfalso. destruct (fwd sd I) as (sd' & I' & E'). destruct (fold_none _ _ _ F') as [_ A]. rewrite (A sd' I'), Vx in E'. discriminate.
    - destruct (fold_none _ _ _ F) as [_ A]. destruct (fold_left (fun acc sd => later (side_value h' m' per' bc' (turn s m per n) c sd) acc) (sides D) None) as [x'|] eqn:F'; [|reflexivity]. exfalso.
      destruct (fold_in _ _ _ _ F') as [X|(sd' & I' & V')]; [discriminate|]. destruct (back sd' I') as (s0 & I0 & E0). rewrite (A s0 I0), V' in E0. discriminate.
  Qed.
End Sides.

(** ** Theorems *)
(** The operator: the rows of the image are the images of the rows. Velocity rows are forces: they
    scale like a length to the D-2; pressure rows are fluxes. *)
Theorem C72_operator_turns : forall (strain : bool) s h mp per dms dms' v p v' p', let D := length mp in let mv := refined_size mp per in
  grid_ok mp per -> sim_ok D s -> steps_ok h mp -> stokes_layout mp per D dms -> stokes_layout (img 0%Z s mp) (img false s per) D dms' ->
  vec_image (fine_sim s) mv per 1 v v' -> scal_image s mp per (/ lam s) p p' ->
  exists rv rp rv' rp', raw_op strain h dms v p = Ok (rv, rp) /\ raw_op strain (img_steps s h) dms' v' p' = Ok (rv', rp') /\
    vec_image (fine_sim s) mv per (lam s ^ (D - 2)) rv rv' /\ scal_image s mp per (lam s ^ (D - 1)) rp rp'.
Proof.
  intros strain s h mp per dms dms' v p v' p' D mv HG HS Hh HL HL' IV IP. destruct (raw_rows strain h mp per dms v p HG HL) as (rv & rp & E & _).
  assert (HL2 : stokes_layout (img 0%Z s mp) (img false s per) (length (img 0%Z s mp)) dms') by (rewrite (img_len s mp HS 0%Z mp); exact HL').
  destruct (raw_rows strain (img_steps s h) (img 0%Z s mp) (img false s per) dms' v' p' (img_grid s mp per HG HS) HL2) as (rv' & rp' & E' & _).
  exists rv, rp, rv', rp'. split; [exact E|]. split; [exact E'|]. exact (turned_rows strain s h mp per dms dms' HG HS Hh HL HL' v v' p p' rv rp rv' rp' IV IP E E').
Qed.
(** The flow: the image of a computed flow is a computed flow of the image problem. *)
Theorem C72_flow_turns : forall (strain : bool) s h mp per bc bc' conds conds' dms dms' v p v' p', let D := length mp in let mv := refined_size mp per in
  grid_ok mp per -> sim_ok D s -> steps_ok h mp -> stokes_layout mp per D dms -> stokes_layout (img 0%Z s mp) (img false s per) D dms' ->
  nonempty_views (map fst dms) -> nonempty_views (map fst dms') -> table_ok D D bc -> table_ok D D bc' -> length conds = D -> length conds' = D ->
  walls_image (fine_sim s) h mv per bc bc' -> load_image (fine_sim s) h mv per conds conds' ->
  flow strain h mp per bc conds dms v p -> vec_image (fine_sim s) mv per 1 v v' -> scal_image s mp per (/ lam s) p p' ->
  flow strain (img_steps s h) (img 0%Z s mp) (img false s per) bc' conds' dms' v' p'.
Proof. intros strain s h mp per bc bc' conds conds' dms dms' v p v' p' D mv HG HS Hh HL HL' HN HN' HT HT' HC HC' HW HF. exact (flow_turned strain s h mp per dms dms' HG HS Hh HL HL' bc bc' conds conds' HN HN' HT HT' HC HC' HW HF v p v' p'). Qed.
(** And it is the only one, up to a constant of the pressure. *)
Theorem C72_flow_is_the_image : forall (strain : bool) s h mp per bc bc' conds conds' dms dms' v p v' p', let D := length mp in let mv := refined_size mp per in
  let mp' := img 0%Z s mp in let per' := img false s per in
  grid_ok mp per -> sim_ok D s -> steps_ok h mp -> stokes_layout mp per D dms -> stokes_layout mp' per' D dms' ->
  nonempty_views (map fst dms) -> nonempty_views (map fst dms') -> table_ok D D bc -> table_ok D D bc' -> length conds = D -> length conds' = D ->
  walls_image (fine_sim s) h mv per bc bc' -> load_image (fine_sim s) h mv per conds conds' ->
  has_cells mp' per' -> at_most_one_thin mp' per' -> held strain D (refined_size mp' per') per' bc' ->
  flow strain h mp per bc conds dms v p -> flow strain (img_steps s h) mp' per' bc' conds' dms' v' p' ->
  vec_image (fine_sim s) mv per 1 v v' /\ exists k, scal_image s mp per (/ lam s) p (fun n c => p' n c - k).
Proof.
  intros strain s h mp per bc bc' conds conds' dms dms' v p v' p' D mv mp' per' HG HS Hh HL HL' HN HN' HT HT' HC HC' HW HF C1 C2 C3 F F'.
  pose proof (rlen mp per HG) as Lmv. pose proof (refined_grid mp per HG) as HGv. assert (HSv : sim_ok (length (refined_size mp per)) (fine_sim s)) by (rewrite Lmv; apply fine_ok; exact HS).
  destruct (vec_image_ex (fine_sim s) mv per 1 v HGv HSv) as [v1 IV]. destruct (scal_image_ex s mp per (/ lam s) p HG HS) as [p1 IP].
  assert (F1 : flow strain (img_steps s h) mp' per' bc' conds' dms' v1 p1) by exact (C72_flow_turns strain s h mp per bc bc' conds conds' dms dms' v p v1 p1 HG HS Hh HL HL' HN HN' HT HT' HC HC' HW HF F IV IP).
  assert (L' : length mp' = D) by exact (img_len s mp HS 0%Z mp).
  destruct F1 as (b1 & y1 & q1 & R1 & O1 & SV1 & SP1). destruct F' as (b2 & y2 & q2 & R2 & O2 & SV2 & SP2). rewrite R1 in R2. injection R2 as <-.
  assert (HL2 : stokes_layout mp' per' (length mp') dms') by (rewrite L'; exact HL'). assert (HT2 : table_ok (length mp') (length mp') bc') by (rewrite L'; exact HT').
  assert (C3' : held strain (length mp') (refined_size mp' per') per' bc') by (rewrite L'; exact C3).
  destruct (C66_unique strain (img_steps s h) mp' per' bc' dms' v' p' y2 q2 v1 p1 y1 q1 (img_grid s mp per HG HS) C1 C2 (img_steps_ok s mp h HS Hh mp' L') HL2 HN' HT2 C3' O2 O1) as [SV [k SP]].
  - intros n c Hn Hc. rewrite (SV2 n c Hn Hc), (SV1 n c Hn Hc). reflexivity.
  - intros n c Hn Hc. rewrite (SP2 n c Hn Hc), (SP1 n c Hn Hc). reflexivity.
  - split.
    + intros n c Hn Hc. rewrite <- (IV n c Hn Hc). pose proof (turn_in (fine_sim s) mv per n HGv HSv Hn) as Hn'. change (img 0%Z (fine_sim s) mv) with (img 0%Z s mv) in Hn'. apply SV; [|rewrite L'; unfold mv in Hc; rewrite Lmv in Hc; exact Hc]. unfold mp', per'. rewrite (img_refined s mp per HG HS). exact Hn'.
    + exists k. intros n Hn. rewrite (SP _ (turn_in s mp per n HG HS Hn)), <- (IP n Hn). ring.
Qed.
(** Walls given side by side have images when the axes are not exchanged, or when the conditions of
    the sides that meet agree. *)
Theorem C72_sides_turn : forall s h m per bc bc', grid_ok m per -> sim_ok (length m) s -> has_cells m per -> side_image s h m per bc bc' ->
  ax s = seq 0 (length m) \/ corners_agree h m per bc -> walls_image s h m per bc bc'.
Proof. intros s h m per bc bc' HG HS HC HI [A|A]; [apply sides_straight|apply sides_agree]; auto. Qed.

(** ** The unit of length *)
(** the same conditions when lengths are counted in a unit lam times shorter, times k *)
Definition rescale (k l : R) (r : bc_row) : bc_row := map (option_map (fun (g : condition_fn) (x : list R) => k * g (map (Rmult (/ l)) x))) r.
Definition zoom (D : nat) (l : R) : similarity := mksim (seq 0 D) (repeat false D) (repeat 0%Z D) l.
Lemma zoom_ok D l : 0 < l -> sim_ok D (zoom D l).
Proof. intros H. split; [reflexivity|]. cbn. rewrite !repeat_length. auto. Qed.
Lemma nth_rep {A} (a : A) n i : nth i (repeat a n) a = a.
Proof. revert i. induction n; destruct i; cbn; auto. Qed.
Lemma zoom_img {A} (d : A) D l (m : list A) : length m = D -> img d (zoom D l) m = m.
Proof. intros <-. apply nth_all. Qed.
Lemma zoom_turn s D m per n : length m = D -> ax s = seq 0 D -> (forall i, nth i (fl s) false = false) -> (forall i, nth i (sh s) 0%Z = 0%Z) -> in_grid_box (nodes_box m) n -> turn s m per n = n.
Proof.
  intros Lm Ax Fl Sh Hn. unfold turn. rewrite Ax, seq_length. assert (Ln : length n = D). { destruct Hn as [H _]. apply (Forall2_nth_iff _ _ _ 0%Z) in H. destruct H as [H _]. rewrite <- H. unfold nodes_box. cbn [bottom_left]. rewrite map_length. exact Lm. }
  transitivity (map (fun i => nth i n 0%Z) (seq 0 D)); [|rewrite <- Ln; apply nth_all]. apply map_ext_in. intros i Hi. apply in_seq in Hi. rewrite seq_nth by lia. cbn [Nat.add]. rewrite Fl, Sh. unfold turn1. destruct (nth i per false); [|reflexivity]. rewrite Z.add_0_r. apply Z.mod_small.
  destruct Hn as [H1 H2]. cbn [nodes_box bottom_left upper_right] in H1, H2. split.
  - assert (G : forall l (x : list Z), Forall2 Z.le (map (fun _ : Z => 0%Z) l) x -> forall i, (i < length x)%nat -> (0 <= nth i x 0)%Z).
    { clear. induction l as [|a l IH]; intros x H i L; inversion H; subst; [cbn in L; lia|]. destruct i; [cbn; assumption|]. cbn [nth]. apply (IH l'); [assumption|cbn in L; lia]. }
    apply (G m n H1). lia.
  - apply (Forall2_nth_iff _ _ _ 0%Z) in H2. apply H2. lia.
Qed.
Lemma zoom_position l h n : l <> 0 -> map (Rmult (/ l)) (position (map (Rmult l) h) n) = position h n.
Proof. intros H. unfold position. revert h. induction n as [|i n IH]; intros [|a h]; try reflexivity. cbn. rewrite IH. f_equal. field. exact H. Qed.
Lemma nth_rescale k l r c : nth c (rescale k l r) None = option_map (fun (g : condition_fn) (x : list R) => k * g (map (Rmult (/ l)) x)) (nth c r None).
Proof. unfold rescale. rewrite <- (map_nth (option_map (fun (g : condition_fn) (x : list R) => k * g (map (Rmult (/ l)) x))) r None c). reflexivity. Qed.
Theorem C72_unit_of_length : forall (strain : bool) l h mp per bc conds dms v p, let D := length mp in
  grid_ok mp per -> steps_ok h mp -> stokes_layout mp per D dms -> nonempty_views (map fst dms) -> table_ok D D bc -> length conds = D -> 0 < l ->
  flow strain h mp per bc conds dms v p ->
  flow strain (map (Rmult l) h) mp per (map (rescale 1 l) bc) (rescale (/ l ^ 2) l conds) dms v (fun n c => / l * p n c).
Proof.
  intros strain l h mp per bc conds dms v p D HG Hh HL HN HT HC Hl F. pose proof (zoom_ok D l Hl) as HS. pose proof (rlen mp per HG) as Lv. pose proof (refined_grid mp per HG) as HGv.
  assert (E1 : img 0%Z (zoom D l) mp = mp) by (apply zoom_img; reflexivity). assert (E2 : img false (zoom D l) per = per) by (apply zoom_img; exact (proj1 (proj2 HG))). assert (E3 : img_steps (zoom D l) h = map (Rmult l) h) by (unfold img_steps; rewrite zoom_img; [reflexivity|apply Hh]).
  assert (E4 : img 0%Z (fine_sim (zoom D l)) (refined_size mp per) = refined_size mp per) by (apply (zoom_img 0%Z D l); exact Lv). 
  assert (T1 : forall n, in_grid_box (nodes_box mp) n -> turn (zoom D l) mp per n = n). { intros n Hn. apply (zoom_turn _ D); auto; intros; apply nth_rep. }
  assert (T2 : forall n, in_grid_box (nodes_box (refined_size mp per)) n -> turn (fine_sim (zoom D l)) (refined_size mp per) per n = n).
  { intros n Hn. apply (zoom_turn _ D); auto; intros; cbn [fine_sim zoom fl sh]; [apply nth_rep|]. etransitivity; [exact (map_nth (Z.mul 2) (repeat 0%Z D) 0%Z i)|]. rewrite nth_rep. reflexivity. }
  assert (SG : forall c, sgn (fine_sim (zoom D l)) c = 1) by (intros c; unfold sgn; cbn [fine_sim zoom fl]; rewrite nth_rep; reflexivity).
  assert (AX : forall c, (c < D)%nat -> nth c (ax (fine_sim (zoom D l))) 0%nat = c) by (intros; cbn [fine_sim zoom ax]; rewrite seq_nth by assumption; reflexivity).
  rewrite <- E3. rewrite <- E1 at 1. rewrite <- E2 at 1. apply (C72_flow_turns strain (zoom D l) h mp per bc (map (rescale 1 l) bc) conds (rescale (/ l ^ 2) l conds) dms dms v p v); auto.
  - fold D. rewrite E1, E2. exact HL.
  - destruct HT as [H1 H2]. split; [rewrite map_length; exact H1|]. apply Forall_map. eapply Forall_impl; [|exact H2]. intros r Hr. unfold rescale. rewrite map_length. exact Hr.
  - unfold rescale. rewrite map_length. exact HC.
  - intros n c Hn Hc. rewrite Lv in Hc. rewrite (T2 n Hn), E4, SG, (AX c Hc). change (img false (fine_sim (zoom D l)) per) with (img false (zoom D l) per). rewrite E2. change (img_steps (fine_sim (zoom D l)) h) with (img_steps (zoom D l) h). rewrite E3.
    assert (K : wall_value (map (Rmult l) h) (refined_size mp per) per (map (rescale 1 l) bc) n c = wall_value h (refined_size mp per) per bc n c).
    { rewrite !wall_fold. f_equal. apply functional_extensionality. intros acc. apply functional_extensionality. intros sd. f_equal. unfold side_value. destruct (on_side (refined_size mp per) per n sd); [|reflexivity].
      assert (Q : nth (side_index sd) (map (rescale 1 l) bc) [] = rescale 1 l (nth (side_index sd) bc [])) by exact (map_nth (rescale 1 l) bc [] (side_index sd)). rewrite Q, nth_rescale. destruct (nth c (nth (side_index sd) bc []) None); [|reflexivity]. cbn [option_map]. rewrite zoom_position by lra. f_equal. ring. }
    rewrite K. destruct (wall_value h (refined_size mp per) per bc n c); [|reflexivity]. cbn [option_map]. f_equal. ring.
  - intros n c Hn Hc. rewrite Lv in Hc. rewrite (T2 n Hn), SG, (AX c Hc). change (img_steps (fine_sim (zoom D l)) h) with (img_steps (zoom D l) h). rewrite E3. change (lam (fine_sim (zoom D l))) with l.
    unfold load_value. rewrite nth_rescale. destruct (nth c conds None); cbn [option_map]; [|ring]. rewrite zoom_position by lra. ring.
  - intros n c Hn Hc. rewrite Lv in Hc. rewrite (T2 n Hn), SG, (AX c Hc). ring.
  - intros n Hn. rewrite (T1 n Hn). reflexivity.
Qed.

(** A problem that is its own image has a flow that is its own image. *)
Theorem C72_symmetric_flow : forall (strain : bool) s h mp per bc conds dms v p, let D := length mp in let mv := refined_size mp per in
  grid_ok mp per -> sim_ok D s -> steps_ok h mp -> stokes_layout mp per D dms -> nonempty_views (map fst dms) -> table_ok D D bc -> length conds = D ->
  has_cells mp per -> at_most_one_thin mp per -> held strain D mv per bc ->
  img 0%Z s mp = mp -> img false s per = per -> img_steps s h = h ->
  walls_image (fine_sim s) h mv per bc bc -> load_image (fine_sim s) h mv per conds conds ->
  flow strain h mp per bc conds dms v p ->
  (forall n c, in_grid_box (nodes_box mv) n -> (c < D)%nat -> v (turn (fine_sim s) mv per n) c = sgn s c * v n (nth c (ax s) 0%nat)) /\
  exists k, forall n, in_grid_box (nodes_box mp) n -> p (turn s mp per n) 0%nat = / lam s * p n 0%nat + k.
Proof.
  intros strain s h mp per bc conds dms v p D mv HG HS Hh HL HN HT HC C1 C2 C3 E1 E2 E3 HW HF F.
  assert (HL' : stokes_layout (img 0%Z s mp) (img false s per) D dms) by (rewrite E1, E2; exact HL).
  destruct (C72_flow_is_the_image strain s h mp per bc bc conds conds dms dms v p v p HG HS Hh HL HL' HN HN HT HT HC HC HW HF) as [A [k B]]; try (rewrite E1, E2); try rewrite E3; auto.
  split.
  - intros n c Hn Hc. assert (Hc' : (c < length (refined_size mp per))%nat) by (rewrite (rlen mp per HG); exact Hc). etransitivity; [exact (A n c Hn Hc')|]. unfold sgn. cbn [fine_sim ax fl]. ring.
  - exists k. intros n Hn. pose proof (B n Hn) as X. cbn beta in X. lra.
Qed.

(** ** The cavity with a moving lid *)
(** the same cavity seen in a mirror: the lid moves the other way; the flow is the mirror image *)
Definition mirror : similarity := mksim [0; 1]%nat [true; false] [0; 0]%Z 1.
Definition sq_mp : list Z := [3; 3]%Z. Definition sq_per := [false; false].
Lemma sqg : grid_ok sq_mp sq_per. Proof. split; [left; reflexivity|]. split; [reflexivity|]. repeat constructor; lia. Qed.
Lemma sqn : nonempty_views (map fst lid_dms). Proof. unfold lid_dms; vm_compute; repeat constructor. Qed.
Lemma sqh : steps_ok [1/7; 1/3] sq_mp. Proof. split; [reflexivity|]. repeat (constructor; [lra|]). constructor. Qed.
Lemma sqc : has_cells sq_mp sq_per. Proof. repeat (constructor; [right; lia|]). constructor. Qed.
Lemma sqt : at_most_one_thin sq_mp sq_per. Proof. unfold at_most_one_thin. cbn. lia. Qed.
Lemma lid_table g : table_ok 2 2 (lid g). Proof. split; [reflexivity|repeat constructor]. Qed.
Lemma lid_held (strain : bool) g : held strain 2 (refined_size sq_mp sq_per) sq_per (lid g).
Proof.
  destruct strain.
  - exists (0%nat, false). split; [cbn; auto|]. split; [reflexivity|]. intros c Hc. destruct c as [|[|]]; [| |lia]; cbn; discriminate.
  - intros c Hc. exists [0; 0]%Z. split; [unfold sq_mp, sq_per, refined_size; split; cbn [zip_with nodes_box bottom_left upper_right map]; repeat (constructor; [lia|]); constructor|].
    apply C30_constrained_iff. exists 0%nat, false. split; [lia|]. split; [reflexivity|]. split; [reflexivity|]. destruct c as [|[|]]; [| |lia]; cbn; discriminate.
Qed.
Lemma lid_flow (strain : bool) a : exists v p, flow strain [1/7; 1/3] sq_mp sq_per (lid (fun _ => a)) [None; None] lid_dms v p.
Proof.
  destruct (C67_lid_solvable_iff strain 3%Z 3%Z (1/7) (1/3) (fun _ => a) lid_dms zero_field ltac:(lia) ltac:(lia) ltac:(lia) ltac:(lra) ltac:(lra) lid_layout sqn) as (bv & E & S).
  destruct (proj2 S eq_refl) as (v & p & yv & yp & E' & A & B). exists v, p, bv, yv, yp. split; [exact E|]. split; [exact E'|]. split; assumption.
Qed.
Lemma no_load s h m per : load_image s h m per [None; None] [None; None].
Proof. intros n c _ _. unfold load_value. destruct c as [|[|[|c]]], (nth _ (ax s) 0%nat) as [|[|[|c']]]; cbn; ring. Qed.
Example ex_cavity_mirror (strain : bool) : exists v p v' p',
  flow strain [1/7; 1/3] sq_mp sq_per (lid (fun _ => 1)) [None; None] lid_dms v p /\ flow strain [1/7; 1/3] sq_mp sq_per (lid (fun _ => -1)) [None; None] lid_dms v' p' /\
  forall i j, (0 <= i < 5)%Z -> (0 <= j < 5)%Z -> v' [(4 - i)%Z; j] 0%nat = - v [i; j] 0%nat /\ v' [(4 - i)%Z; j] 1%nat = v [i; j] 1%nat.
Proof.
  destruct (lid_flow strain 1) as (v & p & F). destruct (lid_flow strain (-1)) as (v' & p' & F'). exists v, p, v', p'. split; [exact F|]. split; [exact F'|].
  assert (HS : sim_ok 2 mirror) by (split; [reflexivity|]; cbn; repeat split; lra).
  assert (ES : img_steps mirror [1/7; 1/3] = [1/7; 1/3]) by (unfold img_steps, img; cbn [map mirror ax lam nth]; f_equal; [lra|f_equal; lra]).
  assert (HW : walls_image (fine_sim mirror) [1/7; 1/3] (refined_size sq_mp sq_per) sq_per (lid (fun _ => 1)) (lid (fun _ => -1))).
  { apply C72_sides_turn; [apply refined_grid, sqg|apply fine_ok; exact HS|repeat (constructor; [right; cbn; lia|]); constructor| |left; reflexivity].
    intros i up c Hi Hc. change (length (refined_size sq_mp sq_per)) with 2%nat in Hi, Hc. destruct i as [|[|]], c as [|[|]], up; try lia; cbn; intros; ring. }
  destruct (C72_flow_is_the_image strain mirror [1/7; 1/3] sq_mp sq_per _ _ [None; None] [None; None] lid_dms lid_dms v p v' p' sqg HS sqh lid_layout lid_layout sqn sqn (lid_table _) (lid_table _) eq_refl eq_refl HW (no_load _ _ _ _) sqc sqt (lid_held _ _) F) as [A _].
  { rewrite ES. exact F'. }
  intros i j Hi Hj. assert (Hn : in_grid_box (nodes_box (refined_size sq_mp sq_per)) [i; j]) by (split; cbn; repeat (constructor; [lia|]); constructor).
  pose proof (A [i; j] 0%nat Hn ltac:(cbn; lia)) as X. pose proof (A [i; j] 1%nat Hn ltac:(cbn; lia)) as Y.
  change (turn (fine_sim mirror) (refined_size sq_mp sq_per) sq_per [i; j]) with [(5 - 1 - i)%Z; j] in X, Y. replace (5 - 1 - i)%Z with (4 - i)%Z in X, Y by lia. unfold sgn in X, Y. cbn [fine_sim mirror fl ax nth] in X, Y. split; [rewrite X|rewrite Y]; ring.
Qed.
(** The axes cannot be exchanged in general: at a corner the condition of the side that comes last wins. The lid on
    the top moves the two corners it touches, the same lid on the right does not. *)
Definition swap : similarity := mksim [1; 0]%nat [false; false] [0; 0]%Z 1.
Definition lid_right : list bc_row :=
  [[Some (fun _ => 0); Some (fun _ => 0)]; [Some (fun _ => 0); Some (fun _ => 1)]; [Some (fun _ => 0); Some (fun _ => 0)]; [Some (fun _ => 0); Some (fun _ => 0)]].
Theorem C72_exchange_refuted : forall (strain : bool), exists v p v' p',
  let h := [1/3; 1/3] in let mv := refined_size sq_mp sq_per in
  sim_ok 2 swap /\ img 0%Z swap sq_mp = sq_mp /\ img false swap sq_per = sq_per /\ img_steps swap h = h /\
  side_image (fine_sim swap) h mv sq_per (lid (fun _ => 1)) lid_right /\ load_image (fine_sim swap) h mv sq_per [None; None] [None; None] /\
  flow strain h sq_mp sq_per (lid (fun _ => 1)) [None; None] lid_dms v p /\ flow strain h sq_mp sq_per lid_right [None; None] lid_dms v' p' /\
  v [4; 4]%Z 0%nat = 1 /\ v' (turn (fine_sim swap) mv sq_per [4; 4]%Z) 1%nat = 0 /\
  ~ vec_image (fine_sim swap) mv sq_per 1 v v'.
Proof.
  intros strain.
  assert (Hh : steps_ok [1/3; 1/3] sq_mp) by (split; [reflexivity|]; repeat (constructor; [lra|]); constructor).
  assert (HT : table_ok 2 2 lid_right) by (split; [reflexivity|repeat constructor]).
  assert (HH : held strain 2 (refined_size sq_mp sq_per) sq_per lid_right).
  { destruct strain.
    - exists (0%nat, false). split; [cbn; auto|]. split; [reflexivity|]. intros c Hc. destruct c as [|[|]]; [| |lia]; cbn; discriminate.
    - intros c Hc. exists [0; 0]%Z. split; [unfold sq_mp, sq_per, refined_size; split; cbn [zip_with nodes_box bottom_left upper_right map]; repeat (constructor; [lia|]); constructor|].
      apply C30_constrained_iff. exists 0%nat, false. split; [lia|]. split; [reflexivity|]. split; [reflexivity|]. destruct c as [|[|]]; [| |lia]; cbn; discriminate. }
  assert (HB : normal_conditions 2 sq_per lid_right). { intros s Hs _. cbn in Hs. destruct Hs as [<-|[<-|[<-|[<-|[]]]]]; cbn; discriminate. }
  assert (K : exists v p, flow strain [1/3; 1/3] sq_mp sq_per (lid (fun _ => 1)) [None; None] lid_dms v p).
  { destruct (C67_lid_solvable_iff strain 3%Z 3%Z (1/3) (1/3) (fun _ => 1) lid_dms zero_field ltac:(lia) ltac:(lia) ltac:(lia) ltac:(lra) ltac:(lra) lid_layout sqn) as (bv & E & S).
    destruct (proj2 S eq_refl) as (v & p & yv & yp & E' & A & B). exists v, p, bv, yv, yp. split; [exact E|]. split; [exact E'|]. split; assumption. }
  assert (K' : exists v p, flow strain [1/3; 1/3] sq_mp sq_per lid_right [None; None] lid_dms v p).
  { destruct (C67_impermeable_solvable strain [1/3; 1/3] sq_mp sq_per lid_right [None; None] lid_dms zero_field sqg sqc sqt Hh lid_layout sqn HT HH HB eq_refl) as (bv & E & (v & p & yv & yp & E' & A & B)).
    - intros n s Hn Hs Ho. unfold boundary_data. change (length sq_mp) with 2%nat in *. destruct Hn as [N1 N2]. cbn in N1, N2. inversion N1 as [|? i ? e' I1 H1']; subst. inversion H1' as [|? j ? e'' J1 H1'']; subst. inversion H1''; subst. inversion N2 as [|? ? ? ? I2 H2']; subst. inversion H2' as [|? ? ? ? J2 _]; subst. clear N1 N2 H1' H2' H1''.
      unfold prescribed. cbn [sides flat_map seq app fold_left]. cbn in Hs. destruct Hs as [<-|[<-|[<-|[<-|[]]]]]; unfold on_side in Ho |- *; cbn in Ho |- *; apply Z.eqb_eq in Ho; subst; cbn; repeat (match goal with |- context [if ?x then _ else _] => destruct x end); reflexivity.
    - exists v, p, bv, yv, yp. split; [exact E|]. split; [exact E'|]. split; assumption. }
  destruct K as (v & p & F). destruct K' as (v' & p' & F'). exists v, p, v', p'.
  assert (Hn : in_grid_box (nodes_box (refined_size sq_mp sq_per)) [4; 4]%Z) by (split; cbn; repeat (constructor; [lia|]); constructor).
  assert (V : v [4; 4]%Z 0%nat = 1).
  { destruct F as (bv & yv & yp & ER & EB & SV & _). destruct (facts strain [1/3; 1/3] sq_mp sq_per (lid (fun _ => 1)) lid_dms sqg lid_layout sqn (lid_table _) v p) as (rv & rp & yv0 & _ & E2 & W & _ & _). unfold bc_op in EB. unfold viscous in E2. change (length sq_mp) with 2%nat in *. rewrite EB in E2. injection E2 as <- _.
    destruct (rhs_row [1/3; 1/3] sq_mp sq_per (lid (fun _ => 1)) [None; None] lid_dms sqg lid_layout sqn (lid_table _) eq_refl) as (bv0 & ER0 & B). change (length sq_mp) with 2%nat in *. rewrite ER in ER0. injection ER0 as <-.
    pose proof (SV _ 0%nat Hn ltac:(lia)) as X. rewrite (W _ 0%nat Hn ltac:(lia)), (B _ 0%nat Hn ltac:(lia)) in X. exact X. }
  assert (V' : v' [4; 4]%Z 1%nat = 0).
  { destruct F' as (bv & yv & yp & ER & EB & SV & _). destruct (facts strain [1/3; 1/3] sq_mp sq_per lid_right lid_dms sqg lid_layout sqn HT v' p') as (rv & rp & yv0 & _ & E2 & W & _ & _). unfold bc_op in EB. unfold viscous in E2. change (length sq_mp) with 2%nat in *. rewrite EB in E2. injection E2 as <- _.
    destruct (rhs_row [1/3; 1/3] sq_mp sq_per lid_right [None; None] lid_dms sqg lid_layout sqn HT eq_refl) as (bv0 & ER0 & B). change (length sq_mp) with 2%nat in *. rewrite ER in ER0. injection ER0 as <-.
    pose proof (SV _ 1%nat Hn ltac:(lia)) as X. rewrite (W _ 1%nat Hn ltac:(lia)), (B _ 1%nat Hn ltac:(lia)) in X. exact X. }
  split; [split; [constructor|cbn; repeat split; lra]|]. split; [reflexivity|]. split; [reflexivity|]. split; [unfold img_steps, img; cbn [map swap ax lam nth]; f_equal; [lra|f_equal; lra]|].
  split; [intros i up c Hi Hc; change (length (refined_size sq_mp sq_per)) with 2%nat in Hi, Hc; destruct i as [|[|]], c as [|[|]], up; try lia; cbn; intros; ring|].
  split; [apply no_load|]. split; [exact F|]. split; [exact F'|]. split; [exact V|]. split; [exact V'|].
  intros I. pose proof (I [4; 4]%Z 1%nat Hn ltac:(cbn; lia)) as X. change (turn (fine_sim swap) (refined_size sq_mp sq_per) sq_per [4; 4]%Z) with [4; 4]%Z in X. cbn [fine_sim swap ax nth] in X. rewrite V, V' in X. unfold sgn in X. cbn in X. lra.
Qed.
