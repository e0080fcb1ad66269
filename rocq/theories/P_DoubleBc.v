(** Boundary conditions on doubles run in step with boundary conditions on reals that only mark the entries. *)
From Coq Require Import FunctionalExtensionality.
From Flocq Require Import Core BinarySingleNaN.
From Verif Require Import Base M_Geometry S_Geometry P_Geometry M_Particle S_Particle P_Particle M_Quadrature S_Fem M_MatElem M_Mesh M_Operator S_Operator P_Mesh P_Operator P_Operator2 M_Bc S_Bc P_Bc P_Diag.
From Verif Require Import M_Double S_Double P_Double M_DoubleOp S_DoubleOp.
From Verif Require Import M_DoubleBc S_DoubleBc.
Open Scope R_scope.

Section Sim.
  Context {A B : Type} (P : A -> B -> Prop).
  Definition sim (o1 : outcome A) (o2 : outcome B) : Prop := forall a, o1 = Ok a -> exists b, o2 = Ok b /\ P a b.
  Lemma sim_fold {K} (l : list K) f g : (forall k a b, In k l -> P a b -> sim (f k a) (g k b)) ->
    forall o1 o2, sim o1 o2 -> sim (fold_left (fun o k => bind o (f k)) l o1) (fold_left (fun o k => bind o (g k)) l o2).
  Proof.
    induction l as [|k l IH]; intros H o1 o2 Ho; [exact Ho|]. cbn [fold_left]. apply IH; [intros; apply H; [right|]; assumption|].
    intros a E. destruct o1 as [a0| | |]; cbn in E; try discriminate. destruct (Ho a0 eq_refl) as (b0 & -> & HP). cbn [bind]. apply (H k a0 b0); [left; reflexivity|exact HP|exact E].
  Qed.
  Lemma sim_for n f g a b : P a b -> (forall k a b, (k < n)%nat -> P a b -> sim (f k a) (g k b)) -> sim (for_ n f a) (for_ n g b).
  Proof. intros HP H. unfold for_. apply sim_fold; [|intros a' E; injection E as <-; eauto]. intros k a' b' Hk. apply in_seq in Hk. apply H. lia. Qed.
  Lemma run_iterate_fold {St} bx (f : list Z -> St -> St) s : run_iterate bx f s = fold_left (fun s p => f p s) (grid_pts bx) s.
  Proof.
    unfold run_iterate, iterate. destruct (iterate_impl_spec bx f (length (bottom_left bx)) (repeat 0%Z (length (bottom_left bx))) s) as [p' [E _]]; [rewrite repeat_length; lia|]. rewrite E. reflexivity.
  Qed.
  Lemma sim_iterate bx f g a b : P a b -> (forall k a b, P a b -> sim (f k a) (g k b)) -> sim (iterate_o bx f a) (iterate_o bx g b).
  Proof. intros HP H. unfold iterate_o. rewrite !run_iterate_fold. apply sim_fold; [auto|]. intros a' E; injection E as <-; eauto. Qed.
  Lemma sim_ok a b : P a b -> sim (Ok a) (Ok b).
  Proof. intros HP a' E. injection E as <-. eauto. Qed.
  Lemma sim_bind {A' B'} (Q : A' -> B' -> Prop) o1 o2 f g : (forall a, o1 = Ok a -> exists b, o2 = Ok b /\ Q a b) -> (forall a b, Q a b -> sim (f a) (g b)) -> sim (bind o1 f) (bind o2 g).
  Proof. intros H K a E. destruct o1 as [a0| | |]; cbn in E; try discriminate. destruct (H a0 eq_refl) as (b0 & -> & HQ). cbn [bind]. exact (K a0 b0 HQ a E). Qed.
End Sim.

(** the table that marks: the condition of side s is the constant s + 1 *)
Definition mark_row (s : nat) (r : dbc_row) : bc_row := map (option_map (fun (_ : dcondition_fn) (_ : list R) => INR (S s))) r.
Definition marks (bc : list dbc_row) : list bc_row := map (fun s => mark_row s (nth s bc [])) (seq 0 (length bc)).
Definition mark_val : list Z -> nat -> condition_fn -> R := fun _ _ f => f [].
Lemma marks_side bc s r : bc_side (map Some (marks bc)) s = Ok r -> exists r', dbc_side (map Some bc) s = Ok r' /\ nth s bc [] = r' /\ r = mark_row s r'.
Proof.
  unfold bc_side, dbc_side, marks. rewrite !nth_error_map. destruct (nth_error (seq 0 (length bc)) s) as [k|] eqn:E; [|discriminate]. cbn [option_map].
  assert (Hs : (s < length (seq 0 (length bc)))%nat) by (apply nth_error_Some; congruence). apply (nth_error_nth _ _ 0%nat) in E. rewrite seq_length in Hs. rewrite seq_nth in E by exact Hs. cbn in E. subst k.
  intros H. injection H as <-. exists (nth s bc []). split; [|split; reflexivity]. destruct (nth_error bc s) as [r|] eqn:E; cbn [option_map].
  - apply (nth_error_nth _ _ []) in E. f_equal; symmetry; exact E.
  - apply nth_error_None in E. lia.
Qed.
Lemma marks_nth bc s : (s < length bc)%nat -> nth s (marks bc) [] = mark_row s (nth s bc []).
Proof.
  intros Hs. apply nth_error_nth. unfold marks. rewrite nth_error_map, (nth_error_nth' (seq 0 (length bc)) 0%nat) by (rewrite seq_length; exact Hs). rewrite seq_nth by exact Hs. reflexivity.
Qed.
Lemma mark_row_nth s r c : nth c (mark_row s r) None = option_map (fun (_ : dcondition_fn) (_ : list R) => INR (S s)) (nth c r None).
Proof. unfold mark_row. apply (map_nth (option_map (fun (_ : dcondition_fn) (_ : list R) => INR (S s))) r None c). Qed.
Lemma marks_table D dof bc : full_table D dof bc -> table_ok D dof (marks bc).
Proof.
  intros [L F]. split; [unfold marks; rewrite map_length, seq_length; exact L|]. apply Forall_forall. intros r Hr. unfold marks in Hr. apply in_map_iff in Hr as (s & <- & Hs). apply in_seq in Hs.
  unfold mark_row. rewrite map_length. rewrite Forall_forall in F. apply F, nth_In. lia.
Qed.
(** the marks of the prescribed conditions *)
Lemma prescribed_marks D m per bc n c : (length bc = 2 * D)%nat ->
  match prescribed D m per (marks bc) n c, prescribed_by D m per bc n c with
  | None, None => True
  | Some f, Some g => exists s, f [] = INR (S s) /\ nth c (nth s bc []) None = Some g
  | _, _ => False
  end.
Proof.
  intros L. unfold prescribed, prescribed_by.
  assert (G : forall l acc1 acc2, (forall s, In s l -> (side_index s < length bc)%nat) ->
    match acc1, acc2 with None, None => True | Some f, Some g => exists s, f [] = INR (S s) /\ nth c (nth s bc []) None = Some g | _, _ => False end ->
    match fold_left (fun acc s => if on_side m per n s then match nth c (nth (side_index s) (marks bc) []) None with Some f => Some f | None => acc end else acc) l acc1,
          fold_left (fun acc s => if on_side m per n s then match nth c (nth (side_index s) bc []) None with Some f => Some f | None => acc end else acc) l acc2 with
    | None, None => True | Some f, Some g => exists s, f [] = INR (S s) /\ nth c (nth s bc []) None = Some g | _, _ => False end).
  { induction l as [|s l IH]; intros acc1 acc2 Hl Ha; [exact Ha|]. cbn [fold_left]. apply IH; [intros; apply Hl; right; assumption|]. destruct (on_side m per n s); [|exact Ha].
    rewrite marks_nth by (apply Hl; left; reflexivity). rewrite mark_row_nth. destruct (nth c (nth (side_index s) bc []) None) as [g|] eqn:E; cbn [option_map]; [|exact Ha]. exists (side_index s). split; [reflexivity|exact E]. }
  apply G; [|exact I]. intros s Hs. unfold sides in Hs. apply in_flat_map in Hs as (d & Hd & Hs). apply in_seq in Hd. rewrite L. destruct Hs as [<-|[<-|[]]]; unfold side_index; cbn; lia.
Qed.

Section Marks.
  Variables (val : list Z -> nat -> dcondition_fn -> double) (Y0 : dfield).
  (** what a marked entry says about the entry of the vector of doubles *)
  Definition marked (ok : nat -> nat -> dcondition_fn -> Prop) (yr : field) (yd : dfield) : Prop := forall q c,
    (yr q c = 0 /\ yd q c = Y0 q c) \/ (exists s f, yr q c = INR (S s) /\ ok s c f /\ yd q c = val q c f).
  Lemma sim_kernel (ok : nat -> nat -> dcondition_fn -> Prop) dm s row pos yr yd : (forall c f, nth_error row c = Some (Some f) -> ok s c f) -> marked ok yr yd ->
    sim (marked ok) (kernel_on_bc mark_val dm (mark_row s row) pos yr) (dkernel_on_bc val dm row pos yd).
  Proof.
    intros Hok HP. unfold kernel_on_bc, dkernel_on_bc. apply sim_for; [exact HP|]. intros k a b _ Hab.
    apply (sim_bind _ (fun c c' => match c, c' with None, None => True | Some f, Some g => f [] = INR (S s) /\ ok s k g | _, _ => False end)).
    - intros x. unfold bc_cond, dbc_cond, mark_row. rewrite nth_error_map. destruct (nth_error row k) as [[f|]|] eqn:E; cbn [option_map]; intros H; try discriminate; injection H as <-.
      + exists (Some f). split; [reflexivity|]. split; [reflexivity|]. apply Hok, E.
      + exists None. split; [reflexivity|exact I].
    - intros [f|] [g|] Hfg; try contradiction; [|apply sim_ok, Hab]. destruct Hfg as (Ef & Eg). unfold set_g, dset_g. destruct (point_inside Z.ltb (g_own dm) pos); [|intros ? H; discriminate].
      apply sim_ok. intros q c. destruct (same_node_spec pos q) as [<-|]; cbn [andb]; [|apply Hab]. destruct (Nat.eqb_spec k c) as [<-|]; [|apply Hab].
      right. exists s, g. unfold mark_val. auto.
  Qed.
  Lemma sim_dirichlet D bc dms yr yd : let ok s c f := nth c (nth s bc []) None = Some f in marked ok yr yd ->
    sim (marked ok) (set_dirichlet D mark_val (map Some (marks bc)) dms yr) (dset_dirichlet D val (map Some bc) dms yd).
  Proof.
    intros ok HP. unfold set_dirichlet, dset_dirichlet. apply sim_fold; [|apply sim_ok, HP]. clear. intros dm yr yd _ HP. unfold set_dirichlet_impl, dset_dirichlet_impl. cbv zeta. apply sim_for; [exact HP|].
    assert (S : forall s bx a b, marked ok a b -> sim (marked ok) (bind (bc_side (map Some (marks bc)) s) (fun row => iterate_o bx (kernel_on_bc mark_val dm row) a))
       (bind (dbc_side (map Some bc) s) (fun row => iterate_o bx (dkernel_on_bc val dm row) b))).
    { intros s bx a b Hab. apply (sim_bind _ (fun r r' => r = mark_row s r' /\ nth s bc [] = r')).
      - intros r Er. apply marks_side in Er as (r' & E1 & E2 & E3). exists r'. auto.
      - intros r r' [-> Er]. apply sim_iterate; [exact Hab|]. intros k a' b' Hab'. apply sim_kernel; [|exact Hab']. intros c f E. unfold ok. rewrite Er. apply (nth_error_nth _ _ None) in E. exact E. }
    intros d a b _ Hab. destruct (nth d (get_boundary_type dm) false); [apply sim_ok, Hab|].
    apply (sim_bind _ (marked ok)).
    - change (sim (marked ok) (if (nth d (bottom_left (get_DM_bounds dm false)) 0 =? 0)%Z then bind (bc_side (map Some (marks bc)) (2 * d)) (fun row => iterate_o (mkbox (bottom_left (get_DM_bounds dm false)) (set_nth d 1%Z (upper_right (get_DM_bounds dm false)))) (kernel_on_bc mark_val dm row) a) else Ok a)
        (if (nth d (bottom_left (get_DM_bounds dm false)) 0 =? 0)%Z then bind (dbc_side (map Some bc) (2 * d)) (fun row => iterate_o (mkbox (bottom_left (get_DM_bounds dm false)) (set_nth d 1%Z (upper_right (get_DM_bounds dm false)))) (dkernel_on_bc val dm row) b) else Ok b)).
      destruct (Z.eqb _ _); [apply S, Hab|apply sim_ok, Hab].
    - intros a' b' Hab'. destruct (Z.eqb _ _); [apply S, Hab'|apply sim_ok, Hab'].
  Qed.
End Marks.

(** every boundary-condition routine on doubles *)
Lemma ddirichlet_ok m per dof val bc dms y : grid_ok m per -> distributes m per dof dms -> nonempty_views dms -> full_table (length m) dof bc ->
  exists y', dset_dirichlet (length m) val (map Some bc) dms y = Ok y' /\
    forall n c, in_grid_box (nodes_box m) n -> (c < dof)%nat -> y' n c = match prescribed_by (length m) m per bc n c with Some f => val n c f | None => y n c end.
Proof.
  intros HG HD HN HT. assert (HL : length per = length m) by apply HG.
  destruct (dirichlet_ok m per dof mark_val (marks bc) HL (marks_table _ _ _ HT) dms zeros (proj1 HD) HN) as (yr & Er & Vr).
  destruct (sim_dirichlet val y (length m) bc dms zeros y) with (a := yr) as (yd & Ed & Hd); [|exact Er|].
  { intros q c. left. split; reflexivity. }
  exists yd. split; [exact Ed|]. intros n c Hn Hc. specialize (Vr n c). rewrite (owned_somewhere m per dof HL dms n HD Hn), (proj2 (Nat.ltb_lt c dof) Hc) in Vr. cbn [andb] in Vr.
  pose proof (prescribed_marks (length m) m per bc n c (proj1 HT)) as PM. destruct (prescribed (length m) m per (marks bc) n c) as [f|], (prescribed_by (length m) m per bc n c) as [g|]; try contradiction.
  - destruct PM as (s & Es & Eg). unfold mark_val in Vr. rewrite Es in Vr. destruct (Hd n c) as [(E & _)|(s' & f' & E1 & E2 & E3)].
    + exfalso. rewrite Vr in E. rewrite S_INR in E. pose proof (pos_INR s). lra.
    + rewrite Vr in E1. apply INR_eq in E1. injection E1 as <-. assert (EE : Some g = Some f') by (etransitivity; [symmetry; exact Eg|exact E2]). injection EE as <-. exact E3.
  - destruct (Hd n c) as [(_ & E)|(s' & f' & E1 & _)]; [exact E|]. exfalso. rewrite Vr in E1. unfold zeros in E1. rewrite S_INR in E1. pose proof (pos_INR s'). lra.
Qed.
(** the load *)
Lemma drhs_tmp m per dof dms conds h : grid_ok m per -> distributes m per dof dms -> length conds = dof ->
  exists tmp, fold_left (fun o dm => bind o (dset_rhs_impl conds h dm)) dms (Ok (fun _ _ => dzero)) = Ok tmp /\
    forall n c, in_grid_box (nodes_box m) n -> (c < dof)%nat -> tmp n c = dload conds h n c.
Proof.
  intros HG HD Hc. destruct (rhs_tmp m per dof dms (mark_row 0 conds) [] HG HD) as (tr & Er & Vr); [unfold mark_row; rewrite map_length; exact Hc|].
  pose (ok := fun (s c : nat) (f : dcondition_fn) => nth c conds None = Some f).
  assert (S : sim (marked (dval_func h) (fun _ _ => dzero) ok) (fold_left (fun o dm => bind o (set_rhs_impl (mark_row 0 conds) [] dm)) dms (Ok zeros)) (fold_left (fun o dm => bind o (dset_rhs_impl conds h dm)) dms (Ok (fun _ _ => dzero)))).
  { apply sim_fold; [|apply sim_ok; intros q c; left; split; reflexivity]. intros dm a b _ Hab. unfold set_rhs_impl, dset_rhs_impl. apply sim_iterate; [exact Hab|]. intros p a' b' Hab'.
    assert (E : kernel_func_on_rhs (mark_row 0 conds) [] dm p a' = kernel_on_bc mark_val dm (mark_row 0 conds) p a').
    { unfold kernel_func_on_rhs, kernel_on_bc. f_equal. extensionality k. extensionality x. unfold bc_cond, mark_row. rewrite nth_error_map. destruct (nth_error conds k) as [[f|]|]; reflexivity. }
    rewrite E. apply (sim_kernel (dval_func h) (fun _ _ => dzero) ok dm 0 conds p a' b'); [|exact Hab']. intros c f Ef. unfold ok. apply (nth_error_nth _ _ None) in Ef. exact Ef. }
  destruct (S tr Er) as (td & Ed & Hd). exists td. split; [exact Ed|]. intros n c Hn Hc'. specialize (Vr n c Hn Hc'). unfold source in Vr. rewrite mark_row_nth in Vr. unfold dload.
  destruct (Hd n c) as [(E1 & E2)|(s & f & E1 & E2 & E3)].
  - rewrite E1 in Vr. destruct (nth c conds None); cbn in Vr; [lra|exact E2].
  - unfold ok in E2. rewrite E2. exact E3.
Qed.
Close Scope R_scope.
