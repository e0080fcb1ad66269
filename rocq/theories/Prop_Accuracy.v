(** C85: accuracy of the interpolation from the grid for smooth fields. *)
From Coquelicot Require Import Coquelicot.
From Verif Require Import Base M_Geometry S_Geometry P_Geometry M_Shapes M_Particle S_Particle P_Particle S_Fem M_Quadrature M_MatElem P_Energy M_Mesh M_Operator S_Operator P_Mesh P_Operator P_Precond M_Bc S_Bc P_Bc M_ParticleOp S_ParticleOp P_ParticleOp P_Circle Prop_ParticleOp S_Accuracy P_Accuracy.
From Verif Require Import M_Vec M_Interp Prop_Vec Prop_Interp.
From Flocq Require Import Core BinarySingleNaN.
From Verif Require Import M_Double S_Double P_Double M_DoubleOp S_DoubleOp M_DoubleBc S_DoubleBc M_DoublePart S_DoublePart P_DoublePart Prop_DoublePart.
Open Scope R_scope.

Lemma cell_facts m per D dms dm e : length per = length m -> distributes m per D dms -> In dm dms -> in_grid_box (get_DM_bounds dm true) e -> in_grid_box (cells_box m per) e.
Proof. intros HL [HV _] Hin He. rewrite Forall_forall in HV. apply (bounds_in m per D dm e (HV dm Hin) HL) in He. apply He. Qed.
Lemma surface_position h q : length q = length h -> point_at h (cell_of h q) (pos_minus q (pos_times (pos_of_int (cell_of h q)) h)) = q.
Proof.
  intros HL. unfold point_at, grid_point, pos_minus, pos_sub_assign, pos_times, pos_mul_assign, pos_of_int.
  assert (LC : length (cell_of h q) = length q) by (apply cell_of_length; congruence). revert LC. generalize (cell_of h q) as c. revert h HL. induction q as [|a q IH]; intros [|s h] HL [|z c] LC; simpl in *; try lia; [reflexivity|].
  f_equal; [ring|]. apply IH; lia.
Qed.
Lemma offset_in_cell h q : length q = length h -> Forall (fun s => 0 < s) h -> Forall (fun a => 0 <= a) q -> in_closed_cell h (pos_minus q (pos_times (pos_of_int (cell_of h q)) h)).
Proof.
  intros HL HP HQ. assert (LC : length (cell_of h q) = length q) by (apply cell_of_length; congruence).
  assert (LO : length (pos_minus q (pos_times (pos_of_int (cell_of h q)) h)) = length h).
  { unfold pos_minus, pos_sub_assign. rewrite zip_length; [exact HL|]. unfold pos_times, pos_mul_assign. rewrite zip_length; unfold pos_of_int; rewrite ?map_length; lia. }
  apply (P_Geometry.Forall2_nth_iff _ _ _ 0 0). split; [congruence|]. intros i Hi. rewrite Forall_forall in HP, HQ.
  destruct (surf_offset h q i HL Hi (HP _ (nth_In _ _ Hi))) as (_ & B & _). specialize (B (HQ _ (nth_In _ _ ltac:(rewrite HL; exact Hi)))). cbv zeta in B. split; [apply B|left; apply B].
Qed.
Lemma interp_accuracy m per c u dm (f : nat -> vec -> R) M : ctx_ok m per c -> In dm (x_dms c) -> smooth_samples f m per (x_h c) u M ->
  (forall spts sp, In spts (x_surf c dm) -> In sp spts -> in_closed_cell (x_h c) (snd sp)) ->
  exists v, interp_fluid_to_surf c false u dm = Ok v /\
    Forall2 (Forall2 (fun sp g => length g = x_D c /\ forall d, (d < x_D c)%nat -> Rabs (co d g - f d (point_at (x_h c) (fst sp) (snd sp))) <= bending (x_h c) (M d))) (x_surf c dm) v.
Proof.
  intros OK Hin HF HC. pose proof (interp_ok m per c u dm OK Hin) as E. destruct OK as (HG & Lm & HD & HS & HX). eexists. split; [exact E|].
  assert (G : forall A B (P : A -> B -> Prop) (F : A -> B) l, (forall a, In a l -> P a (F a)) -> Forall2 P l (map F l)). { intros A B P F l. induction l as [|a l IH]; intros H; constructor; [apply H; left; reflexivity|apply IH; intros; apply H; right; assumption]. }
  apply G. intros spts Hs. apply G. intros [e x] Hsp. destruct (HX dm spts (e, x) Hin Hs Hsp) as [He Lx]. specialize (HC spts (e, x) Hs Hsp). cbn [fst snd] in *.
  split; [rewrite map_length, seq_length; reflexivity|]. intros d Hd. unfold co at 1. rewrite (nth_indep _ 0 (field_at m per (x_h c) u e x 0%nat)) by (rewrite map_length, seq_length; exact Hd).
  rewrite (map_nth (field_at m per (x_h c) u e x)), seq_nth by exact Hd. cbn [Nat.add].
  assert (HE : in_grid_box (cells_box m per) e) by (eapply cell_facts; eauto; apply HG).
  destruct (HF e d HE ltac:(lia)) as [B S]. destruct HS as [Lh HP].
  apply (field_bending (x_D c)); try assumption; try lia; [rewrite <- Lm; apply HG|]. destruct HE as [Le _]. apply Forall2_len in Le. unfold cells_box in Le. simpl in Le. rewrite map_length in Le. lia.
Qed.
(** What the code builds, for surface points with no negative coordinates. *)
Theorem C85_surface_points : forall D m per h parts dms bc k scale u (f : nat -> vec -> R) M, grid_ok m per -> length m = D -> distributes m per D dms -> steps_ok h m ->
  Forall (fun p => well_formed D h k (gp p)) parts -> smooth_samples f m per h u M ->
  (forall p q, In p parts -> In q (p_surface (gp p) k) -> in_grid_box (cells_box m per) (cell_of h q) -> Forall (fun a => 0 <= a) q) ->
  let c := create_Mat_and_Vec D h parts dms bc k scale in
  forall dm, In dm dms -> exists v, interp_fluid_to_surf c false u dm = Ok v /\ length v = length parts /\
  forall i p, nth_error parts i = Some p -> exists qs,
    ((exists t, qs = filter t (p_surface (gp p) k)) /\ forall q, In q qs <-> In q (p_surface (gp p) k) /\ in_grid_box (get_DM_bounds dm true) (cell_of h q) /\ in_grid_box (p_bbox (gp p) h) (cell_of h q)) /\
    Forall2 (fun q g => length g = D /\ forall d, (d < D)%nat -> Rabs (co d g - f d q) <= bending h (M d)) qs (nth i v []).
Proof.
  intros D m per h parts dms bc k scale u f M HG Lm HD HS HW HF HQ c dm Hin. rewrite Forall_forall in HW.
  destruct (create_ctx_ok D m per h parts dms bc k scale HG Lm HD HS HW) as [OK LX]. fold c in OK, LX. specialize (LX dm Hin). destruct LX as (_ & LX & _).
  assert (Lh : length h = D) by (destruct HS as [X _]; lia).
  assert (KS : forall i p, nth_error parts i = Some p -> nth i (x_surf c dm) [] = map (fun q => (cell_of h q, pos_minus q (pos_times (pos_of_int (cell_of h q)) h)))
    (filter (fun q => point_inside Z.ltb (get_DM_bounds dm true) (cell_of h q) && point_inside Z.ltb (p_bbox (gp p) h) (cell_of h q)) (p_surface (gp p) k))).
  { intros i p Hp. assert (Hi : (i < length parts)%nat) by (apply nth_error_Some; congruence). pose proof (nth_error_nth parts i gpart0 Hp) as EN.
    destruct (HW p (nth_error_In _ _ Hp)) as (W1 & W2 & _).
    unfold c. rewrite (x_surf_nth D m per h parts dms bc k scale i HG HD Lm Lh Hi) by (rewrite ?EN; assumption). rewrite EN. reflexivity. }
  assert (FI : forall i p q, nth_error parts i = Some p -> In q (filter (fun q => point_inside Z.ltb (get_DM_bounds dm true) (cell_of h q) && point_inside Z.ltb (p_bbox (gp p) h) (cell_of h q)) (p_surface (gp p) k)) <->
     In q (p_surface (gp p) k) /\ in_grid_box (get_DM_bounds dm true) (cell_of h q) /\ in_grid_box (p_bbox (gp p) h) (cell_of h q)).
  { intros i p q Hp. destruct (HW p (nth_error_In _ _ Hp)) as (W1 & W2 & _). rewrite filter_In, andb_true_iff. pose proof (view_dim D m per dms HG HD Lm dm Hin) as VD.
    unfold all_len in W2. rewrite Forall_forall in W2. split; intros [A B]; (split; [exact A|]); pose proof (W2 q A) as Lq; assert (CL : length (cell_of h q) = D) by (apply cell_of_length; auto).
    - split; [apply (point_inside_grid D)|apply (point_inside_grid D)]; tauto.
    - split; [apply (point_inside_grid D)|apply (point_inside_grid D)]; tauto. }
  assert (QL : forall p q, In p parts -> In q (p_surface (gp p) k) -> length q = D). { intros p q Hp Hq. destruct (HW p Hp) as (_ & W2 & _). unfold all_len in W2. rewrite Forall_forall in W2. apply W2, Hq. }
  destruct (interp_accuracy m per c u dm f M OK Hin HF) as (v & E & V).
  { intros spts sp Hs Hsp. destruct (In_nth _ _ [] Hs) as [i [Hi <-]]. rewrite LX in Hi. destruct (nth_error parts i) as [p|] eqn:Hp; [|apply nth_error_None in Hp; lia].
    rewrite (KS i p Hp) in Hsp. apply in_map_iff in Hsp as [q [<- Hq]]. cbn [snd]. change (x_h c) with h. apply (FI i p q Hp) in Hq as (Q1 & Q2 & Q3). pose proof (nth_error_In _ _ Hp) as Pin.
    apply offset_in_cell; [rewrite Lh; eapply QL; eauto|apply HS|]. apply (HQ p q Pin Q1). eapply cell_facts; eauto. apply HG. }
  exists v. split; [exact E|]. apply P_Geometry.Forall2_nth_iff with (da := []) (db := []) in V as [LV V]. split; [etransitivity; [symmetry; exact LV|exact LX]|]. intros i p Hp. assert (Hi : (i < length parts)%nat) by (apply nth_error_Some; congruence).
  eexists. split; [split; [eexists; reflexivity|intros q; apply (FI i p q Hp)]|]. specialize (V i ltac:(eapply Nat.lt_le_trans; [exact Hi|rewrite <- LX; apply Nat.le_refl])). rewrite (KS i p Hp) in V.
  set (qs := filter _ _) in *. assert (QS : forall q, In q qs -> length q = length h). { intros q Hq. unfold qs in Hq. apply filter_In in Hq as [Hq _]. rewrite Lh. eapply QL; eauto. eapply nth_error_In; eauto. }
  clearbody qs. change (@nth (list (list R)) i v []) with (@nth (list vec) i v []) in V. revert V QS. generalize (@nth (list vec) i v []) as gs. clear. induction qs as [|q qs IH]; intros gs V QS; inversion V; subst; constructor; [|apply IH; [assumption|intros; apply QS; right; assumption]].
  cbn [fst snd] in *. change (x_h c) with h in *. rewrite surface_position in H1 by (apply QS; left; reflexivity). exact H1.
Qed.
Print Assumptions C85_surface_points.
(** The whole computation in doubles: the bound above plus the rounding. *)
Theorem C85_in_doubles : forall h m per dms dm u e x (f : nat -> vec -> R) M, good_steps h -> length h = length m -> grid_ok m per -> distributes m per (length m) dms -> In dm dms ->
  in_grid_box (get_DM_bounds dm true) e -> Forall finite x -> in_closed_cell (map dval h) (map dval x) -> smooth_samples f m per (map dval h) (exact u) M ->
  exists g, dinterp_surf_point (length m) h (dglobal_to_local dm u) (e, x) = Ok g /\ length g = length m /\
    forall d, (d < length m)%nat -> finite (nth d g dzero) ->
      Rabs (dval (nth d g dzero) - f d (point_at (map dval h) e (map dval x))) <=
        bending (map dval h) (M d) + (INR (2 ^ length m + 12) * u64 * size_at m per (map dval h) (absolute u) e (map dval x) d + INR (2 ^ length m + 1) * tiny64).
Proof.
  intros h m per dms dm u e x f M Hh HL HG HD Hin He Hx HC HF.
  assert (HP : Forall (fun s => 0 < s) (map dval h)). { destruct Hh as [_ Hh]. clear - Hh. induction Hh as [|s h [F G] Hh IH]; constructor; [|exact IH]. unfold moderate in G. assert (0 < / 2 ^ 200) by (apply Rinv_0_lt_compat, pow_lt; lra). lra. }
  assert (HO : good_offset h x). { clear - Hx HC. revert x Hx HC. induction h as [|s h IH]; intros [|y x] Hx HC; try (inversion HC; fail); constructor; inversion HC; subst; inversion Hx; subst; [split; [assumption|apply Rabs_le; lra]|apply IH; assumption]. }
  destruct (C84_interpolation_in_doubles h m per dms dm u e x Hh HL HG HD Hin He HO) as (g & E & L & V). exists g. split; [exact E|]. split; [exact L|]. intros d Hd F. specialize (V d Hd). cbv zeta in V. destruct V as [V _]. specialize (V F).
  assert (HE : in_grid_box (cells_box m per) e) by (eapply cell_facts; eauto; apply HG). destruct (HF e d HE Hd) as [B S].
  assert (Le : length e = length m). { destruct HE as [Q _]. apply Forall2_len in Q. unfold cells_box in Q. simpl in Q. rewrite map_length in Q. lia. }
  pose proof (field_bending (length m) m per (map dval h) (exact u) e (map dval x) d (f d) (M d) ltac:(apply HG) eq_refl ltac:(rewrite map_length; exact HL) Le HP HC B S) as A.
  set (fa := field_at _ _ _ _ _ _ _) in *. set (rr := _ + INR (2 ^ length m + 1) * tiny64) in *. set (p := f d _) in *. clearbody fa rr p. clear - A V. apply Rabs_le_inv in A. apply Rabs_le_inv in V. apply Rabs_le. lra.
Qed.
Print Assumptions C85_in_doubles.
(** Half the steps: a quarter of the bound. *)
Theorem C85_half_the_steps : forall h M, bending (map (fun s => s / 2) h) M = bending h M / 4.
Proof.
  intros h M. unfold bending. rewrite map_length. unfold Rdiv at 3. rewrite (Rmult_comm (Rsum _ _)), <- Rsum_scal. apply Rsum_ext. intros j Hj. unfold co. rewrite (nth_indep _ 0 (0 / 2)) by (rewrite map_length; exact Hj).
  rewrite (map_nth (fun s => s / 2)). field.
Qed.
(** The bound is reached in the middle of the cell by a quadratic function. *)
Definition quadratic (D : nat) (M : nat -> R) (X : vec) : R := Rsum D (fun j => M j / 2 * co j X ^ 2).
Lemma quadratic_bends D M X j : length X = D -> (j < D)%nat -> 0 <= M j -> bends (quadratic D M) X j (M j).
Proof.
  intros HL Hj HM. unfold bends. set (c := Rsum D (fun i => if Nat.eqb i j then 0 else M i / 2 * co i X ^ 2)).
  assert (E : forall t, quadratic D M (moved X j t) = c + M j / 2 * t ^ 2).
  { intros t. unfold quadratic, c. assert (S : forall n, (n <= D)%nat -> Rsum n (fun i => M i / 2 * co i (moved X j t) ^ 2) = Rsum n (fun i => if Nat.eqb i j then 0 else M i / 2 * co i X ^ 2) + (if Nat.ltb j n then M j / 2 * t ^ 2 else 0)).
    { induction n as [|n IH]; intros Hn; [simpl; lra|]. cbn [Rsum]. rewrite IH by lia. 
      assert (C : co n (moved X j t) = if Nat.eqb n j then t else co n X).
      { unfold co, moved. destruct (Nat.eqb_spec n j) as [->|N].
        - rewrite app_nth2 by (rewrite firstn_length; lia). rewrite firstn_length, Nat.min_l by lia. rewrite Nat.sub_diag. reflexivity.
        - destruct (Nat.lt_ge_cases n j) as [Lt|Ge].
          + rewrite app_nth1 by (rewrite firstn_length; lia). clear - Lt. revert j X Lt. induction n as [|n IH]; intros [|j] [|x X] Lt; simpl; try lia; try reflexivity. apply IH; lia.
          + rewrite app_nth2 by (rewrite firstn_length; lia). rewrite firstn_length, Nat.min_l by lia. destruct (n - j)%nat as [|p] eqn:P; [lia|]. cbn [nth].
            replace n with (S j + p)%nat by lia. clear. revert X. induction (S j) as [|q IH]; intros [|x X]; simpl; auto. destruct p; reflexivity. }
      rewrite C. destruct (Nat.eqb_spec n j) as [->|N].
      - destruct (Nat.ltb_spec j j); [lia|]. destruct (Nat.ltb_spec j (S j)); [|lia]. lra.
      - destruct (Nat.ltb_spec j n), (Nat.ltb_spec j (S n)); try lia; lra. }
    rewrite (S D (Nat.le_refl D)). destruct (Nat.ltb_spec j D); [reflexivity|lia]. }
  clearbody c. assert (D1 : forall t, is_derive (fun t => quadratic D M (moved X j t)) t (M j * t)).
  { intros t. apply (is_derive_ext (fun t => c + M j / 2 * t ^ 2)); [intros; symmetry; apply E|]. auto_derive; [trivial|]. field. }
  assert (E1 : forall t, Derive (fun t => quadratic D M (moved X j t)) t = M j * t) by (intros t; apply is_derive_unique, D1).
  assert (D2 : forall t, is_derive (Derive (fun t => quadratic D M (moved X j t))) t (M j)).
  { intros t. apply (is_derive_ext (fun t => M j * t)); [intros; symmetry; apply E1|]. auto_derive; [trivial|]. ring. }
  split; [eexists; apply D1|]. split; [eexists; apply D2|]. rewrite (is_derive_unique _ _ _ (D2 _)). rewrite Rabs_pos_eq; [lra|exact HM].
Qed.
Lemma point_len h e x : length e = length h -> length x = length h -> length (point_at h e x) = length h.
Proof. intros A B. unfold point_at, grid_point. rewrite zip_length; rewrite zip_length; lia. Qed.
Theorem C85_bound_is_reached : forall m h e M d, (length m = 2 \/ length m = 3)%nat -> steps_ok h m -> length e = length m -> (forall j, 0 <= M j) ->
  let f := quadratic (length m) M in let per := map (fun _ => false) m in
  let u : field := fun n _ => f (grid_point h n) in let middle := map (fun s => s / 2) h in
  bends_in_cell f h e M /\ samples_of f m per h u e d /\ in_closed_cell h middle /\
  field_at m per h u e middle d - f (point_at h e middle) = bending h M.
Proof.
  intros m h e M d HD [Lh HP] Le HM f per u middle.
  assert (HC : in_closed_cell h middle). { unfold middle. clear - HP. induction HP; constructor; [lra|assumption]. }
  assert (HS : samples_of f m per h u e d).
  { intros k Hk. unfold gv, u. f_equal. f_equal. unfold per. 
    assert (LC : length (corner e k) = length m). { unfold corner. rewrite zip_length; rewrite ?seq_length; lia. } revert LC. generalize (corner e k). clear. induction m as [|a m IH]; intros [|z l] LC; simpl in *; try lia; [reflexivity|]. f_equal. apply IH; lia. }
  split; [|split; [exact HS|split; [exact HC|]]].
  { intros x j Hx Hj. apply quadratic_bends; [rewrite point_len; [exact Lh|lia|symmetry; eapply Forall2_len; exact Hx]|lia|apply HM]. }
  unfold samples_of in HS. destruct HD as [D|D]; rewrite D in *.
  - destruct h as [|h0 [|h1 [|]]]; simpl in Lh; try lia. destruct e as [|e0 [|e1 [|]]]; simpl in Le; try lia. inversion HP as [|? ? P0 HP1]; subst. inversion HP1 as [|? ? P1 _]; subst.
    unfold middle. cbn [map]. rewrite field_bil by exact D. rewrite !HS by (simpl; lia). unfold f, quadratic, bending. rewrite D.
    unfold point_at, grid_point, corner. cbn [zip_with length seq Rsum co nth]. 
    repeat match goal with |- context [Z.of_nat ?t] => let v := eval vm_compute in (Z.of_nat t) in change (Z.of_nat t) with v end.
    rewrite !plus_IZR. cbv beta iota. field. lra.
  - destruct h as [|h0 [|h1 [|h2 [|]]]]; simpl in Lh; try lia. destruct e as [|e0 [|e1 [|e2 [|]]]]; simpl in Le; try lia. inversion HP as [|? ? P0 HP1]; subst. inversion HP1 as [|? ? P1 HP2]; subst. inversion HP2 as [|? ? P2 _]; subst.
    unfold middle. cbn [map]. rewrite field_tril by exact D. cbn [Nat.add]. rewrite !HS by (simpl; lia). unfold f, quadratic, bending. rewrite D.
    unfold point_at, grid_point, corner. cbn [zip_with length seq Rsum co nth]. 
    repeat match goal with |- context [Z.of_nat ?t] => let v := eval vm_compute in (Z.of_nat t) in change (Z.of_nat t) with v end.
    rewrite !plus_IZR. field. lra.
Qed.
Print Assumptions C85_bound_is_reached.
(** The refined grid of the post-treatment. *)
Theorem C85_refined_grid : forall (dmc dmr : dmda) (n : nat) (h0 h1 : R) (x : lvec) (mc mr : mem) (m : list Z) (per : list bool) (f : nat -> vec -> R) M,
  (0 < n)%nat -> 0 < h0 -> 0 < h1 -> length m = 2%nat -> grid_ok m per -> view_ok m per 2 dmc -> lv_box x = g_ghost dmc -> lv_dof x = 2%nat -> stores mc x ->
  has_dim 2 (g_ghost dmr) -> g_dof dmr = 2%nat -> m_size mr = vec_size (g_ghost dmr) 2 ->
  let node p0 p1 i j := [(Z.of_nat i + p0 * Z.of_nat n)%Z; (Z.of_nat j + p1 * Z.of_nat n)%Z] in
  (forall p0 p1 i j, in_grid_box (get_DM_bounds dmc true) [p0; p1] -> (i <= n)%nat -> (j <= n)%nat -> in_grid_box (g_ghost dmr) (node p0 p1 i j)) ->
  (forall e d, in_grid_box (get_DM_bounds dmc true) e -> (d < 2)%nat -> bends_in_cell (f d) [h0; h1] e (M d) /\ forall k, (k < 4)%nat -> lv_val x (corner e k) d = f d (grid_point [h0; h1] (corner e k))) ->
  exists mr', linear_interpolation dmc dmr n n h0 h1 mc mr = Ok mr' /\
  forall p0 p1 i j d u, in_grid_box (get_DM_bounds dmc true) [p0; p1] -> (i <= n)%nat -> (j <= n)%nat -> (d < 2)%nat -> at_ (g_ghost dmr) 2 (node p0 p1 i j) = Ok u ->
    exists val, load mr' (u + Z.of_nat d) = Ok val /\ Rabs (val - f d [(IZR p0 + INR i / INR n) * h0; (IZR p1 + INR j / INR n) * h1]) <= bending [h0; h1] (M d).
Proof.
  intros dmc dmr n h0 h1 x mc mr m per f M Hn H0 H1 Lm HG HV Hb Hd Hst Hdr Hdr2 Hs node Hin HF.
  destruct (C34_velocity dmc dmr n h0 h1 x mc mr m per Hn ltac:(lra) ltac:(lra) Lm HG HV Hb Hd Hst Hdr Hdr2 Hs Hin) as (mr' & E & V).
  exists mr'. split; [exact E|]. intros p0 p1 i j d u Hp Hi Hj Hdd Hu. eexists. split; [apply (V p0 p1 i j d u Hp Hi Hj Hdd Hu)|].
  destruct (HF [p0; p1] d Hp Hdd) as [B S]. assert (HN : 0 < INR n) by (apply lt_0_INR; lia).
  assert (X0 : 0 <= INR i / INR n <= 1). { split; [apply Rmult_le_pos; [apply pos_INR|left; apply Rinv_0_lt_compat, HN]|]. apply Rmult_le_reg_r with (INR n); [exact HN|]. unfold Rdiv. rewrite Rmult_assoc, Rinv_l, Rmult_1_r, Rmult_1_l by lra. apply le_INR, Hi. }
  assert (X1 : 0 <= INR j / INR n <= 1). { split; [apply Rmult_le_pos; [apply pos_INR|left; apply Rinv_0_lt_compat, HN]|]. apply Rmult_le_reg_r with (INR n); [exact HN|]. unfold Rdiv. rewrite Rmult_assoc, Rinv_l, Rmult_1_r, Rmult_1_l by lra. apply le_INR, Hj. }
  set (s0 := INR i / INR n) in *. set (s1 := INR j / INR n) in *.
  set (mm := [p0 + 2; p1 + 2]%Z). pose (uu := fun q d => lv_val x q d).
  pose proof (field_bending 2 mm [false; false] [h0; h1] uu [p0; p1] [s0 * h0; s1 * h1] d (f d) (M d) ltac:(left; reflexivity) eq_refl eq_refl eq_refl) as A.
  specialize (A ltac:(apply Forall_cons; [exact H0|apply Forall_cons; [exact H1|apply Forall_nil]]) ltac:(constructor; [split; nra|constructor; [split; nra|constructor]]) B).
  assert (SS : samples_of (f d) mm [false; false] [h0; h1] uu [p0; p1] d).
  { intros k Hk. unfold gv, uu. rewrite <- (S k Hk). f_equal. }
  specialize (A SS). rewrite field_bil in A by reflexivity. unfold samples_of in SS.
  replace (s0 * h0 / h0) with s0 in A by (field; lra). replace (s1 * h1 / h1) with s1 in A by (field; lra).
  unfold point_at, grid_point in A. cbn [zip_with] in A.
  replace (bilinear n n (fun q => lv_val x q d) p0 p1 i j) with
   ((1 - s1) * ((1 - s0) * gv mm [false; false] uu [p0; p1] 0 d + s0 * gv mm [false; false] uu [p0; p1] 1 d) + s1 * ((1 - s0) * gv mm [false; false] uu [p0; p1] 2 d + s0 * gv mm [false; false] uu [p0; p1] 3 d)).
  - replace ((IZR p0 + s0) * h0) with (IZR p0 * h0 + s0 * h0) by ring. replace ((IZR p1 + s1) * h1) with (IZR p1 * h1 + s1 * h1) by ring. exact A.
  - unfold bilinear, lin1, gv, uu, corner, wrap, mm. fold s0 s1. cbn [zip_with length seq].
    repeat match goal with |- context [Z.of_nat ?t] => let v := eval vm_compute in (Z.of_nat t) in change (Z.of_nat t) with v end. rewrite !Z.add_0_r. reflexivity.
Qed.
Print Assumptions C85_refined_grid.
(** The power of the forces spread over the grid: that of the forces on the smooth field, up to the same bound. *)
Lemma Rsum_Rabs n f : Rabs (Rsum n f) <= Rsum n (fun k => Rabs (f k)).
Proof. induction n as [|n IH]; simpl; [rewrite Rabs_R0; lra|]. eapply Rle_trans; [apply Rabs_triang|]. lra. Qed.
Lemma Rsum_minus n f g : Rsum n f - Rsum n g = Rsum n (fun k => f k - g k).
Proof. induction n as [|n IH]; simpl; [lra|]. rewrite <- IH. lra. Qed.
Lemma dotp_Rsum D (u v : vec) : length u = D -> length v = D -> dotp u v = Rsum D (fun d => co d u * co d v).
Proof.
  revert u v. induction D as [|D IH]; intros u v; [destruct u, v; simpl; try lia; reflexivity|]. destruct u as [|a u]; [simpl; lia|]. destruct v as [|b v]; [simpl; lia|]. intros Hu Hv.
  unfold dotp. cbn [zip_with fold_right]. fold (dotp u v). rewrite IH by (simpl in *; lia). clear. 
  assert (G : forall n (F : nat -> R), Rsum (S n) F = F 0%nat + Rsum n (fun k => F (S k))). { induction n as [|n IH]; intros F; [simpl; lra|]. cbn [Rsum] in *. rewrite IH. cbn [Rsum]. lra. }
  rewrite G. unfold co. cbn [nth]. reflexivity.
Qed.
Lemma pairs_power D P (sps : list (list Z * vec)) (gs Is : list vec) (F : list Z * vec -> nat -> R) E :
  length sps = length gs -> all_len D gs -> 
  Forall2 (fun sp g => length g = D /\ forall d, (d < D)%nat -> Rabs (co d g - F sp d) <= E d) sps Is -> P = combine sps gs ->
  Rabs (Lsum (fun gI => dotp (fst gI) (snd gI)) (combine gs Is) - Lsum (fun sg => Rsum D (fun d => co d (snd sg) * F (fst sg) d)) P) <= Lsum (fun sg => Rsum D (fun d => Rabs (co d (snd sg)) * E d)) P.
Proof.
  intros HL HA H ->. revert gs HL HA. induction H as [|sp I sps Is [LI HI] H IH]; intros [|g gs] HL HA; simpl in HL; try lia.
  - cbn. rewrite Rminus_0_r, Rabs_R0. lra.
  - cbn [combine]. rewrite !Lsum_cons. cbn [fst snd]. pose proof (Forall_inv HA) as HA1. pose proof (Forall_inv_tail HA) as HA2. cbv beta in HA1. specialize (IH gs ltac:(lia) HA2).
    rewrite (dotp_Rsum D g I HA1 LI). match goal with |- Rabs (?a + ?b - (?c + ?d)) <= _ => replace (a + b - (c + d)) with ((a - c) + (b - d)) by ring end.
    eapply Rle_trans; [apply Rabs_triang|]. apply Rplus_le_compat; [|exact IH]. rewrite Rsum_minus. eapply Rle_trans; [apply Rsum_Rabs|]. apply Rsum_le. intros d Hd.
    replace (co d g * co d I - co d g * F sp d) with (co d g * (co d I - F sp d)) by ring. rewrite Rabs_mult. apply Rmult_le_compat_l; [apply Rabs_pos|apply HI, Hd].
Qed.
Lemma gathered_Forall2 {A B} (dms : list dmda) i (F : dmda -> list (list A)) (G : dmda -> list (list B)) (P : A -> B -> Prop) : (forall dm, In dm dms -> Forall2 P (nth i (F dm) []) (nth i (G dm) [])) -> Forall2 P (gathered dms i F) (gathered dms i G).
Proof. unfold gathered. induction dms as [|dm dms IH]; intros H; [constructor|]. cbn [flat_map]. apply Forall2_app; [apply H; left; reflexivity|apply IH; intros; apply H; right; assumption]. Qed.
Theorem C85_power_of_the_spread_forces : forall m per c (g : dmda -> list (list vec)) u (f : nat -> vec -> R) M, ctx_ok m per c ->
  (forall dm, In dm (x_dms c) -> length (g dm) = length (x_parts c) /\ same_shape (x_surf c dm) (g dm) /\ Forall (all_len (x_D c)) (g dm)) ->
  (forall dm spts sp, In dm (x_dms c) -> In spts (x_surf c dm) -> In sp spts -> in_closed_cell (x_h c) (snd sp)) -> smooth_samples f m per (x_h c) u M ->
  exists y, SL_to_Rhs_raw c g = Ok y /\ forall N, enumerates N (nodes_box m) ->
    let weight i := gp_surface_area (nth i (x_parts c) gpart0) / IZR (x_nb c i) in
    let points i := combine (gathered (x_dms c) i (x_surf c)) (gathered (x_dms c) i g) in
    Rabs (inner N (x_D c) y u - Rsum (length (x_parts c)) (fun i => weight i * Lsum (fun sg => Rsum (x_D c) (fun d => co d (snd sg) * f d (point_at (x_h c) (fst (fst sg)) (snd (fst sg))))) (points i))) <=
    Rsum (length (x_parts c)) (fun i => Rabs (weight i) * Lsum (fun sg => Rsum (x_D c) (fun d => Rabs (co d (snd sg)) * bending (x_h c) (M d))) (points i)).
Proof.
  intros m per c g u f M OK Hg HC HF. destruct (C41_spreading_is_adjoint_of_interpolation m per c g OK Hg) as (y & E & V). exists y. split; [exact E|]. intros N HN weight points. destruct (V u N HN) as (I & EI & VI). rewrite VI. clear VI V.
  rewrite Rsum_minus. eapply Rle_trans; [apply Rsum_Rabs|]. apply Rsum_le. intros i Hi. unfold weight.
  rewrite <- Rmult_minus_distr_l, Rabs_mult. apply Rmult_le_compat_l; [apply Rabs_pos|].
  assert (NF : forall A B (P : A -> B -> Prop) (l : list (list A)) (l' : list (list B)), Forall2 (Forall2 P) l l' -> forall j, Forall2 P (nth j l []) (nth j l' [])).
  { intros A B P l l' H. induction H as [|a b l l' H HH IH]; intros [|j]; simpl; auto. }
  unfold interp_all in EI. destruct (on_all (interp_fluid_to_surf c false u) (x_dms c)) as [vs| | |] eqn:EO; cbn [bind] in EI; try discriminate. injection EI as <-.
  apply pairs_power with (sps := gathered (x_dms c) i (x_surf c)) (F := fun sp d => f d (point_at (x_h c) (fst sp) (snd sp))) (E := fun d => bending (x_h c) (M d)); [| | |reflexivity].
  - unfold gathered. clear - Hg. induction (x_dms c) as [|dm dms IH]; [reflexivity|]. cbn [flat_map]. rewrite !app_length, IH by (intros; apply Hg; right; assumption). f_equal.
    destruct (Hg dm (or_introl eq_refl)) as (_ & SS & _). clear - SS. revert i. induction SS as [|a b l l' H SS IH]; intros [|i]; simpl; auto.
  - apply Forall_forall. intros v Hv. unfold gathered in Hv. apply in_flat_map in Hv as [dm [Hin Hv]]. destruct (Hg dm Hin) as (_ & _ & HA). rewrite Forall_forall in HA. 
    destruct (Nat.lt_ge_cases i (length (g dm))) as [Li|Li]; [|rewrite nth_overflow in Hv by exact Li; destruct Hv]. specialize (HA _ (nth_In _ [] Li)). unfold all_len in HA. rewrite Forall_forall in HA. apply HA, Hv.
  - apply gathered_Forall2. intros dm Hin. destruct (interp_accuracy m per c u dm f M OK Hin HF) as (v & Ev & HV); [intros spts sp Hs Hsp; eapply HC; eauto|]. rewrite Ev. apply NF, HV.
Qed.
Print Assumptions C85_power_of_the_spread_forces.

(** A disc on two processes and a quadratic velocity satisfy the hypotheses. *)
Example C85_example : let f := fun _ : nat => quadratic 2 (fun _ => 1) in
  smooth_samples f ex2_m ex2_per ex2_h (fun n _ => quadratic 2 (fun _ => 1) (grid_point ex2_h n)) (fun _ _ => 1) /\
  (forall fuel p q, In p [ex2_circle fuel] -> In q (p_surface (gp p) (1 / 10)) -> in_grid_box (cells_box ex2_m ex2_per) (cell_of ex2_h q) -> Forall (fun a => 0 <= a) q) /\
  bending ex2_h (fun _ => 1) = 1 / 256.
Proof.
  intros f. destruct ex2_grid as (_ & HG & Lm & HD & HS & _).
  split; [|split].
  - intros e d He Hd. assert (Le : length e = length ex2_m). { destruct He as [Q _]. apply Forall2_len in Q. symmetry. rewrite <- Q. unfold cells_box. cbn [bottom_left]. rewrite map_length. reflexivity. }
    destruct (C85_bound_is_reached ex2_m ex2_h e (fun _ => 1) d ltac:(left; exact Lm) HS Le ltac:(intros; lra)) as (B & S & _). rewrite Lm in B, S. split; [exact B|]. exact S.
  - intros fuel p q [<-|[]] Hq _. unfold ex2_circle, circle_gpart in Hq. cbn [gp p_surface] in Hq.
    destruct (surface2 fuel _ _ _) as [l| | |] eqn:E in Hq; try (destruct Hq). apply in_map_iff in Hq as [c [<- Hc]].
    destruct (circle_points fuel (1 / 2, 1 / 2) (1 / 4) quat_default (1 / 10) (1 / 1000) l ltac:(lra) ltac:(lra) ltac:(lra) ltac:(left; reflexivity) E) as (_ & _ & _ & C). specialize (C c Hc). cbn [fst snd] in C.
    destruct c as [a b]. unfold vec2. cbn [fst snd] in *. clear - C. pose proof (Rle_0_sqr (a - 1 / 2)) as Qa. pose proof (Rle_0_sqr (b - 1 / 2)) as Qb. unfold Rsqr in Qa, Qb.
    apply Forall_cons; [|apply Forall_cons; [|apply Forall_nil]]; apply Rnot_lt_le; intros Neg; nra.
  - unfold bending, ex2_h. cbn [length Rsum co nth]. field.
Qed.
