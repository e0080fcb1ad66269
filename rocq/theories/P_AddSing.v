(** Proofs for the singular terms. *)
From Coq Require Import Permutation.
From Coquelicot Require Import Coquelicot.
From Verif Require Import Base M_Geometry S_Geometry P_Geometry M_Particle S_Particle P_Particle M_Quadrature S_Fem M_MatElem P_MatElem P_Energy M_Mesh M_Operator S_Operator P_Mesh P_Operator P_Operator3 M_Bc M_Shapes M_ParticleOp S_ParticleOp P_ParticleOp P_Forces M_Vec M_Truncation M_SingNormal M_SingTang M_SingWrap M_Singularity M_AddSing S_AddSing.
Open Scope R_scope.

Lemma in_box_iff b e : in_box b e = true <-> in_grid_box b e.
Proof.
  unfold in_box, in_grid_box. destruct b as [lo up]. cbn [bottom_left upper_right]. revert up e. induction lo as [|a lo IH]; intros [|c up] [|i e]; cbn [within]; split; intros H; try discriminate; try (destruct H as [H1 H2]; inversion H1; inversion H2; fail); auto.
  - apply andb_prop in H as [H H3]. apply andb_prop in H as [H1 H2]. apply Z.leb_le in H1. apply Z.ltb_lt in H2. apply IH in H3 as [H3 H4]. split; constructor; assumption.
  - destruct H as [H1 H2]. inversion H1; subst. inversion H2; subst. rewrite (proj2 (Z.leb_le a i)), (proj2 (Z.ltb_lt i c)) by assumption. apply IH. split; assumption.
Qed.

(** ** derivatives *)
Definition dshape (h x : vec) (k b : nat) : R := co b (nth k (P1_integration_grad x h) []) / cell_volume h.
Lemma shape_derive D h x k b : (D = 2 \/ D = 3)%nat -> length h = D -> length x = D -> Forall (fun s => 0 < s) h -> (k < 2 ^ D)%nat -> (b < D)%nat ->
  is_derive (fun t => shape h (set_nth b t x) k) (co b x) (dshape h x k b).
Proof.
  intros [->| ->] Hh Hx HP Hk Hb.
  - destruct h as [|h0 [|h1 [|]]]; simpl in Hh; try lia. destruct x as [|x0 [|x1 [|]]]; simpl in Hx; try lia.
    inversion HP as [|? ? P0 HP1]; subst. inversion HP1 as [|? ? P1 _]; subst.
    destruct b as [|[|]]; [| |lia]; (destruct k as [|[|[|[|k]]]]; [..|simpl in Hk; lia]);
      unfold dshape, shape, cell_volume, co; cbn [set_nth length seq zip_with fold_right P1_integration_grad P1_integration_grad2 map nth fst snd];
      repeat match goal with |- context [Nat.odd ?t] => let v := eval vm_compute in (Nat.odd t) in change (Nat.odd t) with v end; cbv iota;
      (auto_derive; [lra|field; lra]).
  - destruct h as [|h0 [|h1 [|h2 [|]]]]; simpl in Hh; try lia. destruct x as [|x0 [|x1 [|x2 [|]]]]; simpl in Hx; try lia.
    inversion HP as [|? ? P0 HP1]; subst. inversion HP1 as [|? ? P1 HP2]; subst. inversion HP2 as [|? ? P2 _]; subst.
    destruct b as [|[|[|]]]; [| | |lia]; (destruct k as [|[|[|[|[|[|[|[|k]]]]]]]]; [..|simpl in Hk; lia]);
      unfold dshape, shape, cell_volume, co; cbn [set_nth length seq zip_with fold_right P1_integration_grad P1_integration_grad3 map nth fst snd];
      repeat match goal with |- context [Nat.odd ?t] => let v := eval vm_compute in (Nat.odd t) in change (Nat.odd t) with v end; cbv iota;
      (auto_derive; [lra|field; lra]).
Qed.
Lemma Rsum_derive n (f : nat -> R -> R) (l : nat -> R) t : (forall k, (k < n)%nat -> is_derive (f k) t (l k)) -> is_derive (fun t => Rsum n (fun k => f k t)) t (Rsum n l).
Proof.
  induction n as [|n IH]; intros H; [apply (is_derive_const 0)|]. cbn [Rsum]. apply (is_derive_plus (fun t => Rsum n (fun k => f k t)) (f n) t (Rsum n l) (l n)); [apply IH; intros; apply H; lia|apply H; lia].
Qed.
Lemma dfield_eq D m per h v e x c b : (D = 2 \/ D = 3)%nat -> length m = D -> length h = D -> length x = D -> Forall (fun s => 0 < s) h -> (b < D)%nat ->
  dfield_at m per h v e x c b = Rsum (2 ^ D) (fun k => dshape h x k b * gv m per v e k c).
Proof.
  intros H23 Hm Hh Hx HP Hb. unfold dfield_at, field_at. rewrite Hm. apply is_derive_unique. apply (Rsum_derive (2 ^ D) (fun k t => shape h (set_nth b t x) k * gv m per v e k c)). intros k Hk.
  pose proof (shape_derive D h x k b H23 Hh Hx HP Hk Hb) as S. set (g := gv m per v e k c). clearbody g.
  evar_last; [apply (is_derive_scal_l (fun t => shape h (set_nth b t x) k) (co b x) _ g S)|]. reflexivity.
Qed.
Lemma grad_length D h x : (D = 2 \/ D = 3)%nat -> length h = D -> length x = D -> length (P1_integration_grad x h) = (2 ^ D)%nat.
Proof.
  intros [->| ->] Hh Hx.
  - destruct h as [|h0 [|h1 [|]]]; simpl in Hh; try lia. destruct x as [|x0 [|x1 [|]]]; simpl in Hx; try lia. reflexivity.
  - destruct h as [|h0 [|h1 [|h2 [|]]]]; simpl in Hh; try lia. destruct x as [|x0 [|x1 [|x2 [|]]]]; simpl in Hx; try lia. reflexivity.
Qed.

(** ** contributions *)
Section Sub.
  Variables (D : nat) (scale : Z) (keep : vec -> bool) (h : vec) (bc : list Z -> vec -> vec -> list contrib).
  Definition loc (sub : list Z) : vec := pos_times (pos_of_int sub) (map (fun x => x / IZR scale) h).
  Definition pnt (e : list Z) (sub : list Z) : vec := pos_plus (pos_times (pos_of_int e) h) (loc sub).
  Definition cellc (e : list Z) : list contrib :=
    flat_map (fun sub => if keep (pnt e sub) then bc e (loc sub) (pnt e sub) else []) (grid_pts (mkbox (repeat 0%Z D) (repeat scale D))).
  Lemma over_subpoints_runs b body y : has_dim D b -> (forall e x p y, body e x p y = runs step1 y (bc e x p)) ->
    over_subpoints D scale keep b h body y = runs step1 y (flat_map cellc (grid_pts b)).
  Proof.
    intros Hb HB. unfold over_subpoints. apply (iterate_runs step1 D); [exact Hb|]. intros e y' _. unfold cellc.
    apply (iterate_runs step1 D); [split; apply repeat_length|]. intros sub y'' _. fold (loc sub). fold (pnt e sub). destruct (keep (pnt e sub)); [apply HB|reflexivity].
  Qed.
End Sub.
Lemma loc_offset h scale sub : length sub = length h -> loc scale h sub = sub_offset h scale sub.
Proof.
  unfold loc, sub_offset, pos_times, pos_of_int, pos_mul_assign. revert h. induction sub as [|i sub IH]; intros [|s h] H; cbn [length] in *; try lia; [reflexivity|]. cbn [map zip_with]. f_equal. apply IH. lia.
Qed.
Lemma pnt_position h scale e sub : length sub = length h -> pnt scale h e sub = position_in h e (sub_offset h scale sub).
Proof.
  intros H. unfold pnt, position_in. rewrite loc_offset by exact H. unfold pos_plus, pos_add_assign. f_equal. unfold grid_point, pos_times, pos_of_int, pos_mul_assign.
  clear. revert h. induction e as [|i e IH]; intros [|s h]; [reflexivity..|]. cbn [map zip_with]. f_equal. apply IH.
Qed.
Lemma sub_offset_len h scale sub : length sub = length h -> length (sub_offset h scale sub) = length h.
Proof. unfold sub_offset. revert h. induction sub as [|i sub IH]; intros [|s h] H; cbn [length zip_with] in *; try lia. f_equal. apply IH. lia. Qed.

(** the couples of the two nested loops *)
Lemma seq_shift_n n : forall s, seq (S s) n = map S (seq s n).
Proof. intros. symmetry. apply seq_shift. Qed.
Lemma map_nth_seq_f {A B} (G : A -> B) (d : A) (q : list A) : map (fun k => G (nth k q d)) (seq 0 (length q)) = map G q.
Proof. induction q as [|x q IH]; [reflexivity|]. cbn [length seq map nth]. f_equal. rewrite <- seq_shift, map_map. exact IH. Qed.
Lemma couples_loop {A B} (F : A -> A -> list B) (d : A) (l : list A) :
  flat_map (fun i => flat_map (fun k => F (nth i l d) (nth (i + 1 + k) l d)) (seq 0 (length l - (i + 1)))) (seq 0 (length l - 1)) = flat_map (fun p => F (fst p) (snd p)) (couples l).
Proof.
  induction l as [|a l IH]; [reflexivity|]. cbn [couples]. rewrite flat_map_app, <- IH. cbn [length].
  destruct l as [|b l]; [reflexivity|]. replace (S (length (b :: l)) - 1)%nat with (S (length (b :: l) - 1)) by (cbn [length]; lia).
  cbn [seq flat_map]. f_equal.
  - rewrite flat_map_concat_map, flat_map_concat_map, map_map. f_equal. replace (S (length (b :: l)) - (0 + 1))%nat with (length (b :: l)) by lia.
    apply (map_nth_seq_f (F a) d (b :: l)).
  - rewrite <- seq_shift, !flat_map_concat_map, map_map. reflexivity.
Qed.

(** ** weak form of what the processes add *)
Section Weak.
  Variables (D : nat) (m : list Z) (per : list bool) (h : vec) (dms : list dmda).
  Hypothesis HG : grid_ok m per.
  Hypothesis HD : distributes m per D dms.
  Hypothesis HDm : length m = D.
  Hypothesis HS : steps_ok h m.
  Let H23 : (D = 2 \/ D = 3)%nat. Proof. rewrite <- HDm. apply HG. Qed.
  Definition ok_contrib (e : list Z) (ct : contrib) : Prop := near e (fst (fst ct)) /\ (snd (fst ct) < D)%nat.
  Definition work (v : field) (ct : contrib) : R := snd ct * v (wrap m per (fst (fst ct))) (snd (fst ct)).
  Lemma cell_in dm e : In dm dms -> in_grid_box (get_DM_bounds dm true) e -> in_grid_box (cells_box m per) e.
  Proof. intros Hin He. destruct HD as [HV _]. rewrite Forall_forall in HV. apply (bounds_in m per D dm e (HV dm Hin) (proj1 (proj2 HG))), He. Qed.
  Lemma near_ghost dm e q : In dm dms -> in_grid_box (get_DM_bounds dm true) e -> near e q -> in_grid_box (g_ghost dm) q.
  Proof.
    intros Hin He Hn. destruct HD as [HV _]. rewrite Forall_forall in HV. pose proof (HV dm Hin) as V. assert (HL : length per = length m) by apply HG.
    destruct V as (E1 & E2 & E3 & H1 & H2 & H3 & E4). rewrite E4. unfold get_DM_bounds in He. rewrite E1, E2 in He.
    destruct He as [He1 He2]. simpl in He1, He2. unfold in_grid_box, ghost_box; simpl. apply (ghost_contains _ _ m per e); auto.
  Qed.
  (** every process adds the contributions [CS dm], each near one of its cells *)
  Lemma spread_weak (f : dmda -> outcome lvec) (CS : dmda -> list contrib) rhs :
    (forall dm, In dm dms -> f dm = runs step1 (fill0 dm) (CS dm)) ->
    (forall dm ct, In dm dms -> In ct (CS dm) -> exists e, in_grid_box (get_DM_bounds dm true) e /\ ok_contrib e ct) ->
    exists ys, on_all f dms = Ok ys /\ (forall n d, local_to_global_add dms ys rhs n d = rhs n d + Lsum (fun dm => Lsum (hitsw m per n d) (CS dm)) dms) /\
      forall v N, enumerates N (nodes_box m) -> inner N D (local_to_global_add dms ys rhs) v = inner N D rhs v + Lsum (fun dm => Lsum (work v) (CS dm)) dms.
  Proof.
    intros Hf HC.
    destruct (on_all_ok f (fun dm y => lv_box y = g_ghost dm /\ forall q d, lv_val y q d = Lsum (hits q d) (CS dm)) dms) as [ys [Ey Hy]].
    { intros dm Hin. rewrite Hf by exact Hin. destruct (runs1_ok (CS dm) (fill0 dm)) as (y' & R1 & R2 & R3 & R4).
      { rewrite Forall_forall. intros ct Hct. simpl. apply (point_inside_iff m per D dms HG HD dm); auto. destruct (HC dm ct Hin Hct) as (e & He & Hn & _). apply (near_ghost dm e); assumption. }
      exists y'. split; [exact R1|]. split; [exact R2|]. intros q d. rewrite R4. simpl. unfold zeros. ring. }
    exists ys. split; [exact Ey|].
    assert (EV : forall n d, local_to_global_add dms ys zeros n d = Lsum (fun dm => Lsum (hitsw m per n d) (CS dm)) dms).
    { apply (l2g_strong m per D dms HG HD CS ys); [|exact Hy]. intros dm Hin. rewrite Forall_forall. intros ct Hct. destruct (HC dm ct Hin Hct) as (e & He & Hn & _). apply (near_ghost dm e); assumption. }
    assert (ER : forall n d, local_to_global_add dms ys rhs n d = rhs n d + Lsum (fun dm => Lsum (hitsw m per n d) (CS dm)) dms).
    { intros n d. rewrite <- EV. unfold local_to_global_add, zeros. ring. }
    split; [exact ER|]. intros v N [HN HN'].
    assert (E1 : inner N D (local_to_global_add dms ys rhs) v = inner N D rhs v + inner N D (fun n d => Lsum (fun dm => Lsum (hitsw m per n d) (CS dm)) dms) v).
    { unfold inner. rewrite <- Lsum_plus. apply Lsum_ext. intros n _. rewrite <- Rsum_plus. apply Rsum_ext. intros d _. rewrite ER. ring. }
    rewrite E1. f_equal. unfold inner.
    transitivity (Lsum (fun n => Lsum (fun dm => Lsum (fun ct => Rsum D (fun d => hitsw m per n d ct * v n d)) (CS dm)) dms) N).
    { apply Lsum_ext. intros n _. transitivity (Rsum D (fun d => Lsum (fun dm => Lsum (fun ct => hitsw m per n d ct * v n d) (CS dm)) dms)).
      - apply Rsum_ext. intros d _. rewrite <- Lsum_scal_r. apply Lsum_ext. intros dm _. rewrite <- Lsum_scal_r. reflexivity.
      - rewrite <- Lsum_Rsum. apply Lsum_ext. intros dm _. rewrite Lsum_Rsum. reflexivity. }
    rewrite Lsum_swap. apply Lsum_ext. intros dm Hin. rewrite Lsum_swap. apply Lsum_ext. intros ct Hct. unfold work. destruct (HC dm ct Hin Hct) as (e & He & Hn & Hd).
    assert (Hw : In (wrap m per (fst (fst ct))) N). { apply HN'. eapply wrap_in_nodes; eauto; [apply HG|apply HG|apply (cell_in dm e Hin He)]. }
    rewrite <- (Lsum_pick (list_eq_dec Z.eq_dec) (wrap m per (fst (fst ct))) (fun n => snd ct * v n (snd (fst ct))) N HN Hw).
    apply Lsum_ext. intros n _. unfold hitsw, same_node.
    destruct (list_eq_dec Z.eq_dec (wrap m per (fst (fst ct))) n) as [<-|Hne]; simpl.
    - rewrite <- (Rsum_pick D (snd (fst ct)) (fun d => snd ct * v (wrap m per (fst (fst ct))) d) Hd).
      apply Rsum_ext. intros d _. destruct (Nat.eqb _ d); ring.
    - transitivity (Rsum D (fun _ => 0)); [|apply Rsum_zero]. apply Rsum_ext. intros d _. ring.
  Qed.
End Weak.

(** ** cells of a process in a box *)
Lemma Lsum_when {A} (p : A -> bool) (F : A -> R) l : Lsum (fun a => when (p a) (F a)) l = Lsum F (filter p l).
Proof. induction l as [|a l IH]; [reflexivity|]. cbn [filter]. rewrite Lsum_cons, IH. unfold when. destruct (p a); [rewrite Lsum_cons; reflexivity|ring]. Qed.
Lemma Lsum_cut D b p F : has_dim D b -> has_dim D p ->
  Lsum F (grid_pts (box_inside Z.ltb b p)) = Lsum (fun e => when (in_box p e) (F e)) (grid_pts b).
Proof.
  intros Hb Hp. rewrite Lsum_when. apply Lsum_perm. pose proof (overlap_dim D b p Hb Hp) as Ho.
  destruct (grid_pts_spec D _ Ho) as (I1 & N1 & _). destruct (grid_pts_spec D _ Hb) as (I2 & N2 & _).
  apply NoDup_Permutation; [exact N1|apply NoDup_filter, N2|]. intros e. rewrite filter_In, I1, I2, in_box_iff. apply (overlap_grid D); assumption.
Qed.
Lemma cut_empty D b p : has_dim D b -> has_dim D p -> intersect Z.ltb b p = false -> grid_pts (box_inside Z.ltb b p) = [].
Proof.
  intros Hb Hp HI. pose proof (overlap_dim D b p Hb Hp) as Ho. destruct (grid_pts_spec D _ Ho) as (I1 & _).
  destruct (grid_pts (box_inside Z.ltb b p)) as [|q l]; [reflexivity|]. exfalso. assert (Q : in_grid_box (box_inside Z.ltb b p) q) by (apply I1; left; reflexivity).
  apply (overlap_grid D) in Q; auto. destruct Q as [Q1 Q2]. rewrite (intersect_common_point _ _ _ Q1 Q2) in HI. discriminate.
Qed.
Lemma get_box_dim D s h : has_dim D (get_box D s h).
Proof. unfold get_box, has_dim, pos_floor, pos_ceil. cbn [bottom_left upper_right]. rewrite !map_length, seq_length. split; reflexivity. Qed.

Section Pairs.
  Variables (D : nat) (m : list Z) (per : list bool) (h : vec) (dms : list dmda) (parts : list spart).
  Hypothesis HG : grid_ok m per.
  Hypothesis HD : distributes m per D dms.
  Hypothesis HDm : length m = D.
  (** contributions of a couple in a cell *)
  Variable C : spart -> spart -> list Z -> list contrib.
  Definition pairc (dm : dmda) (p1 p2 : spart) : list contrib :=
    if s_is (sing_of D h p1 p2) then flat_map (C p1 p2) (grid_pts (box_inside Z.ltb (get_DM_bounds dm true) (get_box D (sing_of D h p1 p2) h))) else [].
  Lemma bounds_dim dm : In dm dms -> has_dim D (get_DM_bounds dm true).
  Proof. intros Hin. destruct HD as [HV _]. rewrite Forall_forall in HV. rewrite <- HDm. apply (view_dims m per D dm (HV dm Hin)), HG. Qed.
  Lemma over_pairs_runs dm body y : In dm dms -> parts <> [] ->
    (forall p1 p2 b y, has_dim D b -> body (sing_of D h p1 p2) p1 p2 b y = runs step1 y (flat_map (C p1 p2) (grid_pts b))) ->
    over_pairs D h parts dm body y = runs step1 y (flat_map (fun p => pairc dm (fst p) (snd p)) (couples parts)).
  Proof.
    intros Hin Hne HB. unfold over_pairs. destruct parts as [|p0 l] eqn:EP; [congruence|]. rewrite <- EP. rewrite <- (couples_loop (pairc dm) p0).
    apply for_runs. intros i y' _. apply for_runs. intros k y'' _. cbv zeta. set (q1 := nth i parts p0). set (q2 := nth (i + 1 + k) parts p0). unfold pairc.
    destruct (s_is (sing_of D h q1 q2)); [|reflexivity]. destruct (intersect Z.ltb (get_DM_bounds dm true) (get_box D (sing_of D h q1 q2) h)) eqn:EI.
    - apply HB. apply overlap_dim; [apply bounds_dim, Hin|apply get_box_dim].
    - rewrite (cut_empty D) by (assumption || apply bounds_dim, Hin || apply get_box_dim). reflexivity.
  Qed.
  Lemma pairs_sum (f : contrib -> R) E : enumerates E (cells_box m per) ->
    Lsum (fun dm => Lsum f (flat_map (fun p => pairc dm (fst p) (snd p)) (couples parts))) dms =
    Lsum (fun p => when (s_is (sing_of D h (fst p) (snd p))) (Lsum (fun e => when (in_box (get_box D (sing_of D h (fst p) (snd p)) h) e) (Lsum f (C (fst p) (snd p) e))) E)) (couples parts).
  Proof.
    intros HE. transitivity (Lsum (fun dm => Lsum (fun p => Lsum f (pairc dm (fst p) (snd p))) (couples parts)) dms).
    { apply Lsum_ext. intros dm _. apply Lsum_flat_map. }
    rewrite Lsum_swap. apply Lsum_ext. intros [p1 p2] _. cbn [fst snd]. unfold pairc. destruct (s_is (sing_of D h p1 p2)); cbn [when]; [|apply Lsum_zero].
    set (pb := get_box D (sing_of D h p1 p2) h).
    transitivity (Lsum (fun dm => Lsum f (local_contribs (fun e => if in_box pb e then C p1 p2 e else []) dm)) dms).
    - apply Lsum_ext. intros dm Hin. unfold local_contribs. rewrite !Lsum_flat_map, (Lsum_cut D) by (apply bounds_dim, Hin || apply get_box_dim). apply Lsum_ext. intros e _. unfold when. destruct (in_box pb e); reflexivity.
    - rewrite (elements_sum m per D dms HG HD f _ E HE). apply Lsum_ext. intros e _. unfold when. destruct (in_box pb e); reflexivity.
  Qed.
  Lemma pairs_cells dm ct : In dm dms -> In ct (flat_map (fun p => pairc dm (fst p) (snd p)) (couples parts)) ->
    exists p1 p2 e, in_grid_box (get_DM_bounds dm true) e /\ In ct (C p1 p2 e).
  Proof.
    intros Hin H. apply in_flat_map in H as [[p1 p2] [_ H]]. cbn [fst snd] in H. unfold pairc in H. destruct (s_is _); [|destruct H]. apply in_flat_map in H as [e [He H]].
    exists p1, p2, e. split; [|exact H]. pose proof (overlap_dim D _ _ (bounds_dim dm Hin) (get_box_dim D (sing_of D h p1 p2) h)) as Ho. apply (proj1 (grid_pts_spec D _ Ho)) in He.
    apply (overlap_grid D) in He; [apply He|apply bounds_dim, Hin|apply get_box_dim].
  Qed.
End Pairs.

(** ** the stress term *)
Definition stc (D : nat) (scale : Z) (grad : vec -> list vec) (pr : vec -> R) (h : vec) (e : list Z) (x p : vec) : list contrib :=
  flat_map (fun je => flat_map (fun d1 =>
    map (fun d2 => (nth je (get_element e) [], d1, - (1 / IZR (scale ^ Z.of_nat D) * nth d2 (nth d1 (grad p) []) 0 * nth d2 (nth je (P1_integration_grad x h) []) 0))) (seq 0 D) ++
    [(nth je (get_element e) [], d1, 1 / IZR (scale ^ Z.of_nat D) * pr p * nth d1 (nth je (P1_integration_grad x h) []) 0)]) (seq 0 D)) (seq 0 (length (P1_integration_grad x h))).
Definition adc (scale : Z) (u : vec -> vec) (h : vec) (e : list Z) (x p : vec) : list contrib :=
  flat_map (fun je => map (fun d => (nth je (get_element e) [], d, 1 / IZR (scale ^ 2) * nth d (u p) 0 * nth je (P1_integration x h) 0)) (seq 0 2)) (seq 0 (length (P1_integration x h))).
Lemma flat_map_single {A B} (f : A -> B) l : flat_map (fun a => [f a]) l = map f l.
Proof. induction l as [|a l IH]; [reflexivity|]. cbn [flat_map map]. rewrite <- IH. reflexivity. Qed.
Lemma runs_one y ct : runs step1 y [ct] = step1 y ct.
Proof. reflexivity. Qed.
Lemma computesingularST_runs D scale keep grad pr b h y : has_dim D b ->
  computesingularST D scale keep grad pr b h y = runs step1 y (flat_map (cellc D scale keep h (stc D scale grad pr h)) (grid_pts b)).
Proof.
  intros Hb. unfold computesingularST. apply over_subpoints_runs; [exact Hb|]. intros e x p y'. unfold stc. apply for_runs. intros je y1 _. apply for_runs. intros d1 y2 _.
  rewrite runs_app. rewrite <- flat_map_single. rewrite <- (for_runs step1 D (fun d2 y => at_add y (nth je (get_element e) []) d1 (- (1 / IZR (scale ^ Z.of_nat D) * nth d2 (nth d1 (grad p) []) 0 * nth d2 (nth je (P1_integration_grad x h) []) 0)))); [reflexivity|]. intros; reflexivity.
Qed.
Lemma addsingularity_runs scale keep u b h y : has_dim 2 b ->
  addsingularity scale keep u b h y = runs step1 y (flat_map (cellc 2 scale keep h (adc scale u h)) (grid_pts b)).
Proof.
  intros Hb. unfold addsingularity. apply over_subpoints_runs; [exact Hb|]. intros e x p y'. unfold adc. apply for_runs. intros je y1 _. rewrite <- flat_map_single. apply for_runs. intros; reflexivity.
Qed.
Lemma in_sub_len D scale sub : In sub (grid_pts (mkbox (repeat 0%Z D) (repeat scale D))) -> length sub = D.
Proof.
  intros H. apply (proj1 (grid_pts_spec D (mkbox (repeat 0%Z D) (repeat scale D)) ltac:(split; apply repeat_length))) in H as [H _]. apply Forall2_len in H. cbn [bottom_left] in H. rewrite repeat_length in H. lia.
Qed.
Lemma stc_near D scale grad pr h e x p ct : (D = 2 \/ D = 3)%nat -> length h = D -> length x = D -> length e = D -> In ct (stc D scale grad pr h e x p) -> ok_contrib D e ct.
Proof.
  intros H23 Hh Hx He H. unfold stc in H. rewrite (grad_length D) in H by assumption. apply in_flat_map in H as [je [Hj H]]. apply in_flat_map in H as [d1 [Hd H]]. apply in_seq in Hj, Hd.
  assert (HN : near e (nth je (get_element e) [])). { apply get_element_near, nth_In. rewrite get_element_length; rewrite He; [lia|exact H23]. }
  apply in_app_or in H as [H|[<-|[]]]; [apply in_map_iff in H as [d2 [<- _]]|]; (split; cbn [fst snd]; [exact HN|lia]).
Qed.
Lemma adc_near scale u h e x p ct : length h = 2%nat -> length x = 2%nat -> length e = 2%nat -> In ct (adc scale u h e x p) -> ok_contrib 2 e ct.
Proof.
  intros Hh Hx He H. unfold adc in H. apply in_flat_map in H as [je [Hj H]]. apply in_map_iff in H as [d [<- Hd]]. apply in_seq in Hj, Hd.
  split; cbn [fst snd]; [|lia]. apply get_element_near, nth_In. rewrite get_element_length, He by auto.
  destruct h as [|h0 [|h1 [|]]]; simpl in Hh; try lia. destruct x as [|x0 [|x1 [|]]]; simpl in Hx; try lia. cbn [P1_integration] in Hj. simpl in Hj. simpl. lia.
Qed.
Lemma stc_work D m per h scale grad pr v e x p : (D = 2 \/ D = 3)%nat -> length m = D -> length h = D -> length x = D -> length e = D -> Forall (fun s => 0 < s) h ->
  Lsum (work m per v) (stc D scale grad pr h e x p) = - (cell_volume h / IZR (scale ^ Z.of_nat D) * pseudo_stress D (grad p) (pr p) (dfield_at m per h v e x)).
Proof.
  intros H23 Hm Hh Hx He HP. unfold stc, pseudo_stress. rewrite (grad_length D) by assumption. set (cf := 1 / IZR (scale ^ Z.of_nat D)).
  assert (HV : 0 < cell_volume h). { clear - HP. unfold cell_volume. induction HP; cbn [fold_right]; [lra|]. apply Rmult_lt_0_compat; assumption. }
  rewrite Lsum_flat_map, Lsum_seq.
  transitivity (Rsum (2 ^ D) (fun je => Rsum D (fun d1 => Rsum D (fun b => - (cell_volume h * cf * ((co b (nth d1 (grad p) []) - (if Nat.eqb b d1 then pr p else 0)) * (dshape h x je b * gv m per v e je d1))))))).
  - apply Rsum_ext. intros je Hj. rewrite Lsum_flat_map, Lsum_seq. apply Rsum_ext. intros d1 Hd. rewrite Lsum_app, Lsum_map, Lsum_seq, Lsum_cons. unfold Lsum at 1. cbn [fold_right map].
    unfold work. cbn [fst snd]. rewrite (get_element_corner e je) by (rewrite He; assumption). fold (gv m per v e je d1). set (g := gv m per v e je d1).
    unfold dshape. fold (co d1 (nth je (P1_integration_grad x h) [])).
    transitivity (Rsum D (fun b => - (cf * co b (nth d1 (grad p) []) * co b (nth je (P1_integration_grad x h) [])) * g + (if Nat.eqb d1 b then cf * pr p * co b (nth je (P1_integration_grad x h) []) * g else 0))).
    + rewrite Rsum_plus. f_equal. rewrite (Rsum_pick D d1 (fun b => cf * pr p * co b (nth je (P1_integration_grad x h) []) * g) Hd). ring.
    + apply Rsum_ext. intros b Hb. rewrite (Nat.eqb_sym b d1). destruct (Nat.eqb_spec d1 b); field; lra.
  - rewrite Rsum_swap. replace (cell_volume h / IZR (scale ^ Z.of_nat D)) with (cell_volume h * cf) by (unfold cf; unfold Rdiv; ring).
    rewrite <- Ropp_mult_distr_l_reverse. rewrite <- Rsum_scal. apply Rsum_ext. intros d1 Hd. rewrite Rsum_swap, <- Rsum_scal. apply Rsum_ext. intros b Hb.
    rewrite (dfield_eq D m per h v e x d1 b) by assumption. rewrite <- !Rsum_scal. apply Rsum_ext. intros je _. ring.
Qed.
