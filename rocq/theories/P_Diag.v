From Coq Require Import Permutation.
From Coquelicot Require Import Coquelicot.
From Verif Require Import Base M_Geometry S_Geometry P_Geometry M_Particle S_Particle P_Particle M_Quadrature S_Fem M_MatElem P_MatElem P_Energy M_Mesh M_Operator M_Bc S_Operator S_Bc P_Mesh P_Operator P_Operator2 P_Global P_Stokes P_Operator3 P_Bc.
Open Scope R_scope.

Section Inv.
  Context {S C : Type} (step : S -> C -> outcome S) (P : S -> Prop).
  Hypothesis HP : forall s c s', P s -> step s c = Ok s' -> P s'.
  Lemma runs_inv l : forall s s', P s -> runs step s l = Ok s' -> P s'.
  Proof.
    induction l as [|c l IH]; intros s s' Hs H.
    - unfold runs in H. simpl in H. injection H as <-. exact Hs.
    - rewrite runs_cons in H. destruct (step s c) as [s1| | |] eqn:E; simpl in H; try discriminate. eapply IH; [|exact H]. eapply HP; eauto.
  Qed.
  Lemma fold_runs_inv {A} (body : A -> S -> outcome S) (c : A -> list C) l : forall s, P s ->
    (forall k s', In k l -> P s' -> body k s' = runs step s' (c k)) ->
    fold_left (fun o k => bind o (body k)) l (Ok s) = runs step s (flat_map c l).
  Proof.
    induction l as [|k l IH]; intros s Hs H; [reflexivity|]. simpl. rewrite runs_app, H by (auto; left; auto).
    destruct (runs step s (c k)) as [s'| | |] eqn:E; simpl.
    - apply IH; [eapply runs_inv; eauto|]. intros; apply H; auto; right; auto.
    - apply bind_fail_fold; discriminate.
    - apply bind_fail_fold; discriminate.
    - apply bind_fail_fold; discriminate.
  Qed.
End Inv.
Lemma step1_dof dof s c s' : lv_dof s = dof -> step1 s c = Ok s' -> lv_dof s' = dof.
Proof. unfold step1, at_add. intros H. destruct (point_inside _ _ _); intros E; [injection E as <-; exact H|discriminate]. Qed.

Lemma dd_runs m per dof dms M dm : grid_ok m per -> distributes m per dof dms -> In dm dms -> forall y0, lv_dof y0 = dof ->
  diag_diag_block_mult (kernel_diag_diag_block M) dm y0 = runs step1 y0 (local_contribs (dd_c dof M) dm).
Proof.
  intros HG HD Hin y0 H0. unfold diag_diag_block_mult, local_contribs, iterate_o.
  destruct (grid_pts_spec _ _ (bounds_dim m per dof dms HG HD dm Hin)) as (_ & _ & _ & Hrun). rewrite Hrun.
  apply (fold_runs_inv step1 (fun y => lv_dof y = dof) (step1_dof dof)); auto. intros e y _ Hy.
  unfold kernel_diag_diag_block, dd_c, for_. apply (fold_runs_inv step1 (fun y => lv_dof y = dof) (step1_dof dof)); auto.
  intros k y1 _ Hy1. rewrite Hy1. apply fold_runs. intros d y2 _. reflexivity.
Qed.

Lemma dd_weak m per dof dms M : grid_ok m per -> distributes m per dof dms ->
  exists y, diag_diag_block_matrix (diag_diag_block_mult (kernel_diag_diag_block M)) dms = Ok y /\
  forall N E, enumerates N (nodes_box m) -> enumerates E (cells_box m per) -> forall v,
    inner N dof y v = Lsum (fun e => Rsum (2 ^ length m) (fun k => Rsum dof (fun d => gv m per v e k d * M k k))) E.
Proof.
  intros HG HD.
  destruct (assembly_strong m per dof dms HG HD (fun dm _ y => diag_diag_block_mult (kernel_diag_diag_block M) dm y) zeros (dd_c dof M)) as [y [Ey Hy]].
  - intros dm Hin. apply (dd_runs m per dof dms M dm HG HD Hin). pose proof (proj1 HD) as HV. rewrite Forall_forall in HV. destruct (HV dm Hin); simpl; tauto.
  - intros e _. eapply Forall_impl; [|apply (dd_near m per dof HG)]. simpl; tauto.
  - exists y. split; [exact Ey|]. intros N E HN HE v.
    rewrite (weak_form m per dof HG (dd_c dof M) y N E v HN HE); [|intros; apply (dd_near m per dof HG)|apply Hy, HE].
    apply Lsum_ext. intros e He. apply HE in He. exact (dd_elem_sum m per dof HG M e (fun p d => v (wrap m per p) d) He).
Qed.

Lemma wrap_inj m : forall per e p q, no_self_contact m per -> length per = length m -> length e = length m -> near e p -> near e q ->
  wrap m per p = wrap m per q -> p = q.
Proof.
  unfold no_self_contact, near. induction m as [|n m IH]; intros [|b per] e p q HC HL Hle Hp Hq HW; simpl in HL; try lia.
  - destruct e; simpl in Hle; [|lia]. inversion Hp; inversion Hq; reflexivity.
  - inversion HC as [|? ? ? ? C1 C2]; subst. destruct e as [|a e]; simpl in Hle; [lia|]. inversion Hp as [|? p0 ? p' P1 P2]; subst. inversion Hq as [|? q0 ? q' Q1 Q2]; subst.
    cbn [wrap] in HW. injection HW as W1 W2. f_equal; [|apply (IH per e p' q'); auto; simpl in *; lia].
    destruct b; [|exact W1]. specialize (C1 eq_refl).
    assert (CASE : (p0 = q0 \/ p0 = q0 + 1 \/ q0 = p0 + 1)%Z) by lia. destruct CASE as [C|[C|C]]; [exact C| |];
    exfalso; [rewrite C in W1|rewrite C in W1; symmetry in W1]; rewrite Z.add_mod in W1 by lia; rewrite (Z.mod_small 1 n) in W1 by lia;
      match type of W1 with ((?a mod _ + 1) mod _ = _)%Z => pose proof (Z.mod_pos_bound a n ltac:(lia)); destruct (Z.eq_dec (a mod n + 1) n) as [E|E] end;
      [rewrite E, Z.mod_same in W1 by lia; lia|rewrite Z.mod_small in W1 by lia; lia|rewrite E, Z.mod_same in W1 by lia; lia|rewrite Z.mod_small in W1 by lia; lia].
Qed.
Lemma corner_inj e k1 k2 : (length e = 2%nat \/ length e = 3%nat) -> (k1 < 2 ^ length e)%nat -> (k2 < 2 ^ length e)%nat -> corner e k1 = corner e k2 -> k1 = k2.
Proof.
  intros HL H1 H2. rewrite <- !get_element_corner by auto. intros HE.
  assert (ND : NoDup (get_element e)).
  { destruct HL as [HL|HL]; destruct e as [|a [|b [|c [|]]]]; simpl in HL; try lia; cbn [get_element get_element2 get_element3];
    unfold get_element2, get_element3; repeat constructor; cbn [In]; intros K;
    repeat (destruct K as [K|K]; [injection K; intros; lia|]); exact K. }
  apply (proj1 (NoDup_nth (get_element e) []) ND); rewrite ?get_element_length; auto.
Qed.

Lemma diag_is_diagonal m per dof dms M n c : grid_ok m per -> no_self_contact m per -> distributes m per dof dms -> in_grid_box (nodes_box m) n -> (c < dof)%nat ->
  exists y z, diag_diag_block_matrix (diag_diag_block_mult (kernel_diag_diag_block M)) dms = Ok y /\
    diag_block_matrix_raw (diag_block_mult (kernel_diag_block M)) dms (unit_field n c) = Ok z /\ y n c = z n c.
Proof.
  intros HG HC HD Hn Hc. destruct (dd_weak m per dof dms M HG HD) as [y [Ey Wy]]. destruct (diag_weak m per dof dms HG HD (unit_field n c) M) as [z [Ez Wz]].
  exists y, z. split; [exact Ey|]. split; [exact Ez|].
  assert (HL : length per = length m) by apply HG.
  assert (P : forall w : field, inner (N0 m) dof w (unit_field n c) = w n c).
  { intros w. unfold inner, unit_field. pose proof (N0_enum m) as [ND IN]. rewrite <- (Lsum_pick (list_eq_dec Z.eq_dec) n (fun q => w q c) (N0 m) ND (proj2 (IN n) Hn)). apply Lsum_ext. intros q _.
    unfold same_node. destruct (list_eq_dec Z.eq_dec n q) as [<-|]; simpl.
    - rewrite <- (Rsum_pick dof c (fun e => w n e) Hc). apply Rsum_ext. intros e _. destruct (Nat.eqb c e); ring.
    - transitivity (Rsum dof (fun _ => 0)); [|apply Rsum_zero]. apply Rsum_ext. intros e _. ring. }
  rewrite <- (P y), <- (P z), (Wy _ _ (N0_enum m) (E0_enum m per HL)), (Wz _ _ (N0_enum m) (E0_enum m per HL)).
  unfold scalar_form. apply Lsum_ext. intros e He. apply E0_enum in He; auto. rewrite Rsum_swap. apply Rsum_ext. intros d Hd. apply Rsum_ext. intros k1 Hk1.
  assert (Le : length e = length m) by (eapply cell_dim; eauto). pose proof (proj1 HG) as Hdim. rewrite <- Le in Hdim.
  destruct (Nat.eq_dec c d) as [<-|Hne].
  2:{ unfold gv, unit_field. rewrite (proj2 (Nat.eqb_neq c d)) by auto. rewrite andb_false_r. transitivity (Rsum (2 ^ length m) (fun _ => 0)); [rewrite Rsum_zero; ring|]. apply Rsum_ext. intros k _. rewrite !andb_false_r. ring. }
  unfold gv, unit_field. rewrite Nat.eqb_refl. 
  transitivity (Rsum (2 ^ length m) (fun k2 => if Nat.eqb k1 k2 then (if same_node n (wrap m per (corner e k1)) && true then 1 else 0) * M k1 k2 else 0)).
  { rewrite (Rsum_pick (2 ^ length m) k1 (fun k2 => (if same_node n (wrap m per (corner e k1)) && true then 1 else 0) * M k1 k2) Hk1). reflexivity. }
  apply Rsum_ext. intros k2 Hk2. destruct (Nat.eqb_spec k1 k2) as [<-|Hk].
  - destruct (same_node _ _); simpl; ring.
  - destruct (same_node_spec n (wrap m per (corner e k1))) as [E1|E1]; simpl; [|ring].
    destruct (same_node_spec n (wrap m per (corner e k2))) as [E2|E2]; simpl; [|ring].
    exfalso. apply Hk. rewrite <- Le in Hk1, Hk2. apply (corner_inj e); auto. apply (wrap_inj m per e); auto; try (apply corner_near; auto). congruence.
Qed.

(** ** the value at the nodes is all that counts *)
Lemma scalar_form_ext_nodes m per E dof M v x x' : grid_ok m per -> (forall e, In e E -> in_grid_box (cells_box m per) e) -> same_field m dof x x' ->
  scalar_form m per E dof M v x = scalar_form m per E dof M v x'.
Proof.
  intros HG HE HS. unfold scalar_form. apply Lsum_ext. intros e He. apply HE in He. apply Rsum_ext. intros d Hd. apply Rsum_ext. intros k1 _. apply Rsum_ext. intros k2 Hk2.
  assert (Le : length e = length m) by (eapply cell_dim; eauto). pose proof (proj1 HG) as Hdim. rewrite <- Le in Hdim.
  unfold gv at 2 4. rewrite (HS (wrap m per (corner e k2)) d); [reflexivity| |exact Hd].
  apply (wrap_in_nodes m per e); auto; try apply HG. apply corner_near; auto. rewrite Le; auto.
Qed.
Lemma diag_same m per dof dms M x x' y y' : grid_ok m per -> distributes m per dof dms -> same_field m dof x x' ->
  diag_block_matrix_raw (diag_block_mult (kernel_diag_block M)) dms x = Ok y -> diag_block_matrix_raw (diag_block_mult (kernel_diag_block M)) dms x' = Ok y' ->
  same_field m dof y y'.
Proof.
  intros HG HD HS E1 E2. destruct (diag_weak m per dof dms HG HD x M) as [z [Ez Wz]]. destruct (diag_weak m per dof dms HG HD x' M) as [z' [Ez' Wz']].
  rewrite E1 in Ez. rewrite E2 in Ez'. injection Ez as <-. injection Ez' as <-. apply same_field_weak. intros v.
  assert (HL : length per = length m) by apply HG.
  rewrite (Wz _ _ (N0_enum m) (E0_enum m per HL)), (Wz' _ _ (N0_enum m) (E0_enum m per HL)). apply scalar_form_ext_nodes; auto.
  intros e He. apply E0_enum in He; auto.
Qed.

(** ** set_rhs *)
Definition source (conds : bc_row) (h : list R) : field :=
  fun n c => match nth c conds None with Some f => f (zip_with (fun i s => IZR i * s) n h) | None => 0 end.
Lemma rhs_tmp m per dof dms conds h : grid_ok m per -> distributes m per dof dms -> length conds = dof ->
  exists tmp, fold_left (fun o dm => bind o (set_rhs_impl conds h dm)) dms (Ok zeros) = Ok tmp /\ same_field m dof tmp (source conds h).
Proof.
  intros HG HD Hc. assert (HL : length per = length m) by apply HG. pose proof (proj1 HD) as HV.
  assert (G : forall l y, Forall (view_ok m per dof) l -> exists y', fold_left (fun o dm => bind o (set_rhs_impl conds h dm)) l (Ok y) = Ok y' /\
     forall n c, y' n c = if existsb (fun dm => inO m dm n) l && Nat.ltb c dof then upd (val_func h) conds n c (y n c) else y n c).
  { induction l as [|dm l IH]; intros y Hl; [exists y; split; [reflexivity|reflexivity]|]. inversion Hl as [|? ? H1 H2]; subst.
    destruct (view_dims m per (length conds) dm H1 HL) as (HO & _). pose proof H1 as (_ & _ & Edof & _).
    destruct (iterate_set (val_func h) dm (length m) conds (g_own dm) y HO HO ltac:(auto) ltac:(lia)) as [y1 [E1 V1]].
    cbn [fold_left bind]. unfold set_rhs_impl at 2. unfold get_DM_bounds. change (kernel_func_on_rhs conds h dm) with (kernel_on_bc (val_func h) dm conds). rewrite E1.
    destruct (IH y1 H2) as [y2 [E2 V2]]. exists y2. split; [exact E2|]. intros n c. rewrite V2, V1, Edof. cbn [existsb]. fold (inO m dm n).
    destruct (inO m dm n); destruct (existsb (fun dm => inO m dm n) l), (Nat.ltb c (length conds)); cbn [andb orb]; try reflexivity.
    unfold upd. destruct (nth c conds None); reflexivity. }
  destruct (G dms zeros HV) as [tmp [E V]]. exists tmp. split; [exact E|]. intros n c Hn Hc'. rewrite V.
  rewrite (owned_somewhere m per dof HL dms n HD Hn). rewrite (proj2 (Nat.ltb_lt c dof) Hc'). cbn [andb]. unfold upd, source, val_func, zeros. reflexivity.
Qed.
Lemma set_rhs_ok m per dof dms conds h rhs : grid_ok m per -> distributes m per dof dms -> length conds = dof ->
  exists y' mf, set_rhs conds h dms rhs = Ok y' /\ diag_block_matrix_raw (mass_mult h) dms (source conds h) = Ok mf /\
    same_field m dof y' (fun n d => rhs n d + mf n d).
Proof.
  intros HG HD Hc. destruct (rhs_tmp m per dof dms conds h HG HD Hc) as [tmp [Et Vt]].
  destruct (diag_weak m per dof dms HG HD tmp (getMatElemMass h)) as [z [Ez _]]. destruct (diag_weak m per dof dms HG HD (source conds h) (getMatElemMass h)) as [z' [Ez' _]].
  pose proof (diag_same m per dof dms _ _ _ _ _ HG HD Vt Ez Ez') as HS.
  unfold set_rhs. rewrite Et. cbn [bind]. unfold diag_block_matrix_raw in Ez. unfold mass_mult.
  destruct (on_all (fun dm => diag_block_mult (kernel_diag_block (getMatElemMass h)) dm (global_to_local dm tmp) (fill0 dm)) dms) as [ys| | |] eqn:Eo; cbn [bind] in Ez; try discriminate.
  injection Ez as <-. cbn [bind]. exists (local_to_global_add dms ys rhs), z'. split; [reflexivity|]. split; [exact Ez'|].
  intros n d Hn Hd. specialize (HS n d Hn Hd). rewrite <- HS. unfold local_to_global_add, zeros. ring.
Qed.
Close Scope R_scope.
(** has_condition tells whether there is a load *)
Lemma has_condition_loaded conds : loaded conds -> has_condition conds = true.
Proof.
  intros (c & f & E). unfold has_condition. apply negb_true_iff. apply not_true_is_false. intros F. rewrite forallb_forall in F.
  assert (I : In (Some f) conds). { rewrite <- E. apply nth_In. destruct (Nat.lt_ge_cases c (length conds)) as [L|L]; [exact L|]. rewrite nth_overflow in E by exact L. discriminate. }
  specialize (F _ I). discriminate.
Qed.
Lemma has_condition_unloaded conds : unloaded conds -> has_condition conds = false.
Proof.
  intros H. unfold has_condition. apply negb_false_iff. apply forallb_forall. intros x Hx. apply (In_nth _ _ None) in Hx as (c & _ & E). rewrite H in E. subst x. reflexivity.
Qed.
Lemma loaded_dec conds : loaded conds \/ unloaded conds.
Proof.
  induction conds as [|[f|] l IH].
  - right. intros [|c]; reflexivity.
  - left. exists 0%nat, f. reflexivity.
  - destruct IH as [(c & f & E)|U]; [left; exists (S c), f; exact E|right; intros [|c]; [reflexivity|apply U]].
Qed.
