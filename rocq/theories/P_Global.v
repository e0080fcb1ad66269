(** Algebra of the global operators: symmetry, positivity, kernels. *)
From Coq Require Import Permutation QArith Qreals.
From Coquelicot Require Import Coquelicot.
From Verif Require Import Base M_Geometry S_Geometry P_Geometry M_Particle S_Particle P_Particle M_Quadrature S_Fem M_MatElem P_MatElem P_Energy Prop_Energy M_Mesh M_Operator S_Operator P_Mesh P_Operator P_Operator2.
Open Scope R_scope.

(** element mass matrices are positive definite *)
Definition e2 (i m : nat) : Q := (md (vx2 i) (m mod 2) * md (vy2 i) (m / 2))%Q.
Definition e3 (i m : nat) : Q := (md (vx3 i) (m mod 2) * md (vy3 i) ((m / 2) mod 2) * md (vz3 i) (m / 4))%Q.
Definition f2 (U : nat -> R) (m : nat) : R := Rsum 4 (fun i => Q2R (e2 i m) * U i).
Definition f3 (U : nat -> R) (m : nat) : R := Rsum 8 (fun i => Q2R (e3 i m) * U i).
Lemma bil2_mass U V : bil 4 matElemMass2d U V = Rsum 4 (fun m => wr2 m * (f2 U m * f2 V m)).
Proof. unfold f2. apply (bil_modes 4 4 _ wr2 (fun i m => Q2R (e2 i m)) (fun i m => Q2R (e2 i m))). apply (table_modes _ 4 4); vm_compute; reflexivity. Qed.
Lemma bil3_mass U V : bil 8 matElemMass3d U V = Rsum 8 (fun m => wr3 m * (f3 U m * f3 V m)).
Proof. unfold f3. apply (bil_modes 8 8 _ wr3 (fun i m => Q2R (e3 i m)) (fun i m => Q2R (e3 i m))). apply (table_modes _ 8 8); vm_compute; reflexivity. Qed.
Lemma mass2_pd h0 h1 U : 0 < h0 -> 0 < h1 -> 0 <= qform 4 (getMatElemMass2 h0 h1) U /\
  (qform 4 (getMatElemMass2 h0 h1) U = 0 -> forall i, (i < 4)%nat -> U i = 0).
Proof.
  intros H0 H1. change (qform 4 (getMatElemMass2 h0 h1) U) with (bil 4 (getMatElemMass2 h0 h1) U U).
  unfold getMatElemMass2. rewrite bil_scal, bil2_mass.
  assert (Hh : 0 < h0 * h1) by (apply Rmult_lt_0_compat; auto).
  assert (N : forall m, (m < 4)%nat -> 0 <= wr2 m * (f2 U m * f2 U m)) by (intros m Hm; apply wsq_nonneg, wr2_pos, Hm).
  split; [apply Rmult_le_pos; [lra|apply Rsum_nonneg, N]|]. intros E.
  assert (E' : Rsum 4 (fun m => wr2 m * (f2 U m * f2 U m)) = 0) by (destruct (Rmult_integral _ _ E); [lra|auto]).
  assert (G : forall m, (m < 4)%nat -> f2 U m = 0).
  { intros m Hm. apply (wsq_zero (wr2 m)); [apply wr2_pos, Hm|]. exact (Rsum_nonneg_0 _ _ N E' m Hm). }
  pose proof (G 0%nat ltac:(lia)) as E0. pose proof (G 1%nat ltac:(lia)) as E1. pose proof (G 2%nat ltac:(lia)) as E2. pose proof (G 3%nat ltac:(lia)) as E3.
  clear G N E E'. unfold f2 in *. cbn [Rsum] in *.
  unfold e2 in *. clear H0 H1 Hh. numeric. intros i Hi. do 4 (destruct i as [|i]; [lra|]). lia.
Qed.
Lemma mass3_pd h0 h1 h2 U : 0 < h0 -> 0 < h1 -> 0 < h2 -> 0 <= qform 8 (getMatElemMass3 h0 h1 h2) U /\
  (qform 8 (getMatElemMass3 h0 h1 h2) U = 0 -> forall i, (i < 8)%nat -> U i = 0).
Proof.
  intros H0 H1 H2. change (qform 8 (getMatElemMass3 h0 h1 h2) U) with (bil 8 (getMatElemMass3 h0 h1 h2) U U).
  unfold getMatElemMass3. rewrite bil_scal, bil3_mass.
  assert (Hh : 0 < h0 * h1 * h2) by (repeat apply Rmult_lt_0_compat; auto).
  assert (N : forall m, (m < 8)%nat -> 0 <= wr3 m * (f3 U m * f3 U m)) by (intros m Hm; apply wsq_nonneg, wr3_pos, Hm).
  split; [apply Rmult_le_pos; [lra|apply Rsum_nonneg, N]|]. intros E.
  assert (E' : Rsum 8 (fun m => wr3 m * (f3 U m * f3 U m)) = 0) by (destruct (Rmult_integral _ _ E); [lra|auto]).
  assert (G : forall m, (m < 8)%nat -> f3 U m = 0).
  { intros m Hm. apply (wsq_zero (wr3 m)); [apply wr3_pos, Hm|]. exact (Rsum_nonneg_0 _ _ N E' m Hm). }
  pose proof (G 0%nat ltac:(lia)) as E0. pose proof (G 1%nat ltac:(lia)) as E1. pose proof (G 2%nat ltac:(lia)) as E2. pose proof (G 3%nat ltac:(lia)) as E3.
  pose proof (G 4%nat ltac:(lia)) as E4. pose proof (G 5%nat ltac:(lia)) as E5. pose proof (G 6%nat ltac:(lia)) as E6. pose proof (G 7%nat ltac:(lia)) as E7.
  clear G N E E'. unfold f3 in *. cbn [Rsum] in *.
  unfold e3 in *. clear H0 H1 Hh. numeric. intros i Hi. do 8 (destruct i as [|i]; [lra|]). lia.
Qed.

Lemma steps_cases h m : steps_ok h m -> (length m = 2%nat \/ length m = 3%nat) ->
  (length m = 2%nat /\ exists a b, h = [a; b] /\ 0 < a /\ 0 < b) \/
  (length m = 3%nat /\ exists a b c, h = [a; b; c] /\ 0 < a /\ 0 < b /\ 0 < c).
Proof.
  intros [HL HF] [H2|H3]; [left|right]; (split; [assumption|]); destruct h as [|a [|b [|c [|]]]]; simpl in HL; try lia.
  - inversion HF as [|? ? A HF']; subst. inversion HF' as [|? ? B _]; subst. eauto.
  - inversion HF as [|? ? A HF']; subst. inversion HF' as [|? ? B HF'']; subst. inversion HF'' as [|? ? C _]; subst. exists a, b, c. auto.
Qed.

Section Elem.
  Variables (h : list R) (m : list Z).
  Hypothesis Hs : steps_ok h m.
  Hypothesis Hd : length m = 2%nat \/ length m = 3%nat.
  Lemma lap_sym i j : (i < 2 ^ length m)%nat -> (j < 2 ^ length m)%nat -> getMatElemLaplacian h i j = getMatElemLaplacian h j i.
  Proof.
    destruct (steps_cases h m Hs Hd) as [[-> (a & b & -> & _)]|[-> (a & b & c & -> & _)]]; simpl; intros Hi Hj;
    [apply (C23_symmetric a b 0 i j 0 0)|apply (C23_symmetric a b c i j 0 0)]; lia.
  Qed.
  Lemma mass_sym i j : (i < 2 ^ length m)%nat -> (j < 2 ^ length m)%nat -> getMatElemMass h i j = getMatElemMass h j i.
  Proof.
    destruct (steps_cases h m Hs Hd) as [[-> (a & b & -> & _)]|[-> (a & b & c & -> & _)]]; simpl; intros Hi Hj;
    [apply (C23_symmetric a b 0 i j 0 0)|apply (C23_symmetric a b c i j 0 0)]; lia.
  Qed.
  Lemma strain_sym i j p q : (i < 2 ^ length m)%nat -> (j < 2 ^ length m)%nat -> (p < length m)%nat -> (q < length m)%nat ->
    getMatElemStrainTensor h i j p q = getMatElemStrainTensor h j i q p.
  Proof.
    destruct (steps_cases h m Hs Hd) as [[-> (a & b & -> & _)]|[-> (a & b & c & -> & _)]]; simpl; intros Hi Hj Hp Hq;
    [apply (C23_symmetric a b 0 i j p q)|apply (C23_symmetric a b c i j p q)]; lia.
  Qed.
  Lemma lap_psd U : 0 <= qform (2 ^ length m) (getMatElemLaplacian h) U /\
    (qform (2 ^ length m) (getMatElemLaplacian h) U = 0 <-> (forall i, (i < 2 ^ length m)%nat -> U i = U 0%nat)).
  Proof.
    destruct (steps_cases h m Hs Hd) as [[-> (a & b & -> & Ha & Hb)]|[-> (a & b & c & -> & Ha & Hb & Hc)]];
    change (2 ^ 2)%nat with 4%nat; change (2 ^ 3)%nat with 8%nat; [apply lap2_psd|apply lap3_psd]; auto.
  Qed.
  Lemma mass_pd U : 0 <= qform (2 ^ length m) (getMatElemMass h) U /\
    (qform (2 ^ length m) (getMatElemMass h) U = 0 -> (forall i, (i < 2 ^ length m)%nat -> U i = 0)).
  Proof.
    destruct (steps_cases h m Hs Hd) as [[-> (a & b & -> & Ha & Hb)]|[-> (a & b & c & -> & Ha & Hb & Hc)]];
    change (2 ^ 2)%nat with 4%nat; change (2 ^ 3)%nat with 8%nat; [apply mass2_pd|apply mass3_pd]; auto.
  Qed.
  Lemma strain_nonneg U : 0 <= vform (2 ^ length m) (length m) (getMatElemStrainTensor h) U.
  Proof.
    destruct (steps_cases h m Hs Hd) as [[-> (a & b & -> & Ha & Hb)]|[-> (a & b & c & -> & Ha & Hb & Hc)]];
    change (2 ^ 2)%nat with 4%nat; change (2 ^ 3)%nat with 8%nat; [apply strain2_psd|apply strain3_psd]; auto.
  Qed.
End Elem.

(** ** forms *)
Lemma scalar_form_sym m per E dof M u v :
  (forall i j, (i < 2 ^ length m)%nat -> (j < 2 ^ length m)%nat -> M i j = M j i) -> scalar_form m per E dof M u v = scalar_form m per E dof M v u.
Proof.
  intros HM. unfold scalar_form. apply Lsum_ext. intros e _. apply Rsum_ext. intros d _.
  rewrite Rsum_swap. apply Rsum_ext. intros i Hi. apply Rsum_ext. intros j Hj. rewrite (HM i j) by auto. ring.
Qed.
Lemma tensor_form_sym m per E dof M u v :
  (forall i j a b, (i < 2 ^ length m)%nat -> (j < 2 ^ length m)%nat -> (a < dof)%nat -> (b < dof)%nat -> M i j a b = M j i b a) ->
  tensor_form m per E dof M u v = tensor_form m per E dof M v u.
Proof.
  intros HM. unfold tensor_form. apply Lsum_ext. intros e _. rewrite Rsum_swap. apply Rsum_ext. intros i Hi. apply Rsum_ext. intros j Hj.
  rewrite Rsum_swap. apply Rsum_ext. intros a Ha. apply Rsum_ext. intros b Hb. rewrite (HM i j a b) by auto. ring.
Qed.
Lemma scalar_form_lin m per E dof M v a b x x' :
  scalar_form m per E dof M v (lin a b x x') = a * scalar_form m per E dof M v x + b * scalar_form m per E dof M v x'.
Proof.
  unfold scalar_form. rewrite <- !Lsum_scal, <- Lsum_plus. apply Lsum_ext. intros e _.
  do 3 (rewrite <- !Rsum_scal, <- Rsum_plus; apply Rsum_ext; intros ? _). unfold gv, lin. ring.
Qed.
Lemma tensor_form_lin m per E dof M v a b x x' :
  tensor_form m per E dof M v (lin a b x x') = a * tensor_form m per E dof M v x + b * tensor_form m per E dof M v x'.
Proof.
  unfold tensor_form. rewrite <- !Lsum_scal, <- Lsum_plus. apply Lsum_ext. intros e _.
  do 4 (rewrite <- !Rsum_scal, <- Rsum_plus; apply Rsum_ext; intros ? _). unfold gv, lin. ring.
Qed.
Lemma inner_lin N dof a b y y' v : inner N dof (lin a b y y') v = a * inner N dof y v + b * inner N dof y' v.
Proof.
  unfold inner. rewrite <- !Lsum_scal, <- Lsum_plus. apply Lsum_ext. intros n _.
  rewrite <- !Rsum_scal, <- Rsum_plus. apply Rsum_ext. intros d _. unfold lin. ring.
Qed.
Lemma inner_sym N dof u v : inner N dof u v = inner N dof v u.
Proof. unfold inner. apply Lsum_ext. intros n _. apply Rsum_ext. intros; ring. Qed.
Lemma inner_ext_nodes N dof u u' v : (forall n d, In n N -> (d < dof)%nat -> u n d = u' n d) -> inner N dof u v = inner N dof u' v.
Proof. intros H. unfold inner. apply Lsum_ext. intros n Hn. apply Rsum_ext. intros d Hd. rewrite H; auto. Qed.
Lemma scalar_form_q m per E dof M x : scalar_form m per E dof M x x = Lsum (fun e => Rsum dof (fun d => qform (2 ^ length m) M (fun k => gv m per x e k d))) E.
Proof. reflexivity. Qed.
Lemma tensor_form_v m per E dof M x : tensor_form m per E dof M x x = Lsum (fun e => vform (2 ^ length m) dof M (fun k d => gv m per x e k d)) E.
Proof. reflexivity. Qed.

(** ** connectivity of the grid through its cells *)
Lemma near_corner e p : (length e = 2%nat \/ length e = 3%nat) -> near e p -> exists k, (k < 2 ^ length e)%nat /\ p = corner e k.
Proof.
  intros HL HN. assert (HI : In p (get_element e)).
  { unfold near in HN. destruct e as [|a [|b [|c [|]]]]; simpl in HL; try lia.
    - inversion HN as [|? x ? l ? HN']; subst. inversion HN' as [|? y ? l' ? HN'']; subst. inversion HN''; subst. simpl.
      assert (x = a \/ x = a + 1)%Z as [->| ->] by lia; assert (y = b \/ y = b + 1)%Z as [->| ->] by lia; tauto.
    - inversion HN as [|? x ? l ? HN']; subst. inversion HN' as [|? y ? l' ? HN'']; subst. inversion HN'' as [|? z ? l'' ? HN3]; subst. inversion HN3; subst. simpl.
      assert (x = a \/ x = a + 1)%Z as [->| ->] by lia; assert (y = b \/ y = b + 1)%Z as [->| ->] by lia; assert (z = c \/ z = c + 1)%Z as [->| ->] by lia; tauto. }
  apply (In_nth _ _ []) in HI as [k [Hk Ek]]. rewrite get_element_length in Hk by auto. exists k. split; [exact Hk|].
  rewrite <- Ek. apply get_element_corner; auto.
Qed.
Lemma corner_near e k : (length e = 2%nat \/ length e = 3%nat) -> (k < 2 ^ length e)%nat -> near e (corner e k).
Proof. intros HL Hk. rewrite <- get_element_corner by auto. apply get_element_near, nth_In. rewrite get_element_length; auto. Qed.

Section Connect.
  Variables (m : list Z) (per : list bool) (f : list Z -> R).
  Hypothesis HG : grid_ok m per.
  (** a property shared by the nodes of each cell... *)
  Hypothesis Hcell : forall e p, in_grid_box (cells_box m per) e -> near e p -> f (wrap m per p) = f (wrap m per e).
  Lemma two_in_cell e n n' : in_grid_box (cells_box m per) e -> in_grid_box (nodes_box m) n -> in_grid_box (nodes_box m) n' -> near e n -> near e n' -> f n = f n'.
  Proof.
    intros He Hn Hn' N1 N2. assert (HL : length per = length m) by apply HG.
    rewrite <- (wrap_id m per n HL Hn), <- (wrap_id m per n' HL Hn'). rewrite (Hcell e n), (Hcell e n'); auto.
  Qed.
End Connect.
Lemma connected m per (f : list Z -> R) : grid_ok m per -> has_cells m per ->
  (forall e p, in_grid_box (cells_box m per) e -> near e p -> f (wrap m per p) = f (wrap m per e)) ->
  forall n, in_grid_box (nodes_box m) n -> f n = f (map (fun _ => 0%Z) m).
Proof.
    intros HG HC Hcell n. pose proof (two_in_cell m per f HG Hcell) as TC. pose proof HG as (HD & HL & HF).
    unfold has_cells in HC.
    destruct HD as [HD|HD]; destruct m as [|m0 [|m1 [|m2 [|]]]]; simpl in HD; try lia;
      destruct per as [|p0 [|p1 [|p2 [|]]]]; simpl in HL; try lia;
      inversion HC as [|? ? ? ? C0 HC']; subst; inversion HC' as [|? ? ? ? C1 HC'']; subst;
      inversion HF as [|? ? M0 HF']; subst; inversion HF' as [|? ? M1 HF'']; subst.
    - set (low := fun (q : bool) (n b : Z) => if (Z.eqb b (n - 1) && negb q) then (b - 1)%Z else b).
      assert (Hlow : forall q n b, (q = true \/ (2 <= n)%Z) -> (0 <= b < n)%Z -> (0 <= low q n b /\ low q n b < (if q then n else n - 1) /\ low q n b <= b <= low q n b + 1)%Z).
      { intros q z b Hq Hb. unfold low. destruct (Z.eqb_spec b (z - 1)), q; simpl; destruct Hq as [Hq|Hq]; try discriminate; lia. }
      assert (S0 : forall b, (0 <= b < m1)%Z -> forall a, (0 <= a)%Z -> (a < m0)%Z -> f [a; b] = f [0; b]%Z).
      { intros b Hb. apply (natlike_ind (fun a => (a < m0)%Z -> f [a; b] = f [0; b]%Z)); [reflexivity|].
        intros a Ha IH Hlt. rewrite <- IH by lia. unfold Z.succ. pose proof (Hlow p1 m1 b C1 Hb).
        apply (TC [a; low p1 m1 b]%Z); unfold nodes_box, cells_box, near, in_grid_box; simpl;
          ((split; repeat constructor; try lia) || (repeat constructor; lia)). destruct p0; lia. }
      assert (S1 : forall b, (0 <= b)%Z -> (b < m1)%Z -> f [0; b]%Z = f [0; 0]%Z).
      { apply (natlike_ind (fun b => (b < m1)%Z -> f [0; b]%Z = f [0; 0]%Z)); [reflexivity|].
        intros b Hb IH Hlt. rewrite <- IH by lia. unfold Z.succ. pose proof (Hlow p0 m0 0%Z C0 ltac:(lia)).
        apply (TC [low p0 m0 0; b]%Z); unfold nodes_box, cells_box, near, in_grid_box; simpl;
          ((split; repeat constructor; try lia) || (repeat constructor; lia)). destruct p1; lia. }
      intros [A B]. simpl in A, B. inversion A as [|? a ? l ? A']; subst. inversion A' as [|? b ? l' ? A'']; subst. inversion A''; subst.
      inversion B as [|? ? ? ? ? B']; subst. inversion B' as [|? ? ? ? ? B'']; subst. simpl. rewrite S0, S1 by lia. reflexivity.
    - inversion HC'' as [|? ? ? ? C2 HC3]; subst. inversion HF'' as [|? ? M2 HF3]; subst.
      set (low := fun (q : bool) (n b : Z) => if (Z.eqb b (n - 1) && negb q) then (b - 1)%Z else b).
      assert (Hlow : forall q n b, (q = true \/ (2 <= n)%Z) -> (0 <= b < n)%Z -> (0 <= low q n b /\ low q n b < (if q then n else n - 1) /\ low q n b <= b <= low q n b + 1)%Z).
      { intros q z b Hq Hb. unfold low. destruct (Z.eqb_spec b (z - 1)), q; simpl; destruct Hq as [Hq|Hq]; try discriminate; lia. }
      assert (S0 : forall b c, (0 <= b < m1)%Z -> (0 <= c < m2)%Z -> forall a, (0 <= a)%Z -> (a < m0)%Z -> f [a; b; c] = f [0; b; c]%Z).
      { intros b c Hb Hc. apply (natlike_ind (fun a => (a < m0)%Z -> f [a; b; c] = f [0; b; c]%Z)); [reflexivity|].
        intros a Ha IH Hlt. rewrite <- IH by lia. unfold Z.succ.
        pose proof (Hlow p1 m1 b C1 Hb). pose proof (Hlow p2 m2 c C2 Hc).
        apply (TC [a; low p1 m1 b; low p2 m2 c]%Z); unfold nodes_box, cells_box, near, in_grid_box; simpl;
          ((split; repeat constructor; try lia) || (repeat constructor; lia)). destruct p0; lia. }
      assert (S1 : forall c, (0 <= c < m2)%Z -> forall b, (0 <= b)%Z -> (b < m1)%Z -> f [0; b; c]%Z = f [0; 0; c]%Z).
      { intros c Hc. apply (natlike_ind (fun b => (b < m1)%Z -> f [0; b; c]%Z = f [0; 0; c]%Z)); [reflexivity|].
        intros b Hb IH Hlt. rewrite <- IH by lia. unfold Z.succ.
        pose proof (Hlow p0 m0 0%Z C0 ltac:(lia)). pose proof (Hlow p2 m2 c C2 Hc).
        apply (TC [low p0 m0 0; b; low p2 m2 c]%Z); unfold nodes_box, cells_box, near, in_grid_box; simpl;
          ((split; repeat constructor; try lia) || (repeat constructor; lia)). destruct p1; lia. }
      assert (S2 : forall c, (0 <= c)%Z -> (c < m2)%Z -> f [0; 0; c]%Z = f [0; 0; 0]%Z).
      { apply (natlike_ind (fun c => (c < m2)%Z -> f [0; 0; c]%Z = f [0; 0; 0]%Z)); [reflexivity|].
        intros c Hc IH Hlt. rewrite <- IH by lia. unfold Z.succ.
        pose proof (Hlow p0 m0 0%Z C0 ltac:(lia)). pose proof (Hlow p1 m1 0%Z C1 ltac:(lia)).
        apply (TC [low p0 m0 0; low p1 m1 0; c]%Z); unfold nodes_box, cells_box, near, in_grid_box; simpl;
          ((split; repeat constructor; try lia) || (repeat constructor; lia)). destruct p2; lia. }
      intros [A B]. simpl in A, B. inversion A as [|? a ? l ? A']; subst. inversion A' as [|? b ? l' ? A'']; subst. inversion A'' as [|? c ? l'' ? A3]; subst. inversion A3; subst.
      inversion B as [|? ? ? ? ? B']; subst. inversion B' as [|? ? ? ? ? B'']; subst. inversion B'' as [|? ? ? ? ? B3]; subst. simpl. rewrite S0, S1, S2 by lia. reflexivity.
  Qed.
Close Scope R_scope.
