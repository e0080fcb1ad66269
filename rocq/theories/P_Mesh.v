(** Proofs about grids, their distribution and element boxes. *)
From Coq Require Import Permutation.
From Verif Require Import Base M_Geometry S_Geometry P_Geometry M_Particle S_Particle P_Particle M_Quadrature M_Mesh M_Operator S_Operator.
Open Scope Z_scope.

Ltac f2inv := repeat match goal with
  | H : Forall2 _ (_ :: _) _ |- _ => inversion H; clear H; subst
  | H : Forall2 _ _ (_ :: _) |- _ => inversion H; clear H; subst
  | H : Forall2 _ [] _ |- _ => inversion H; clear H; subst
  | H : Forall2 _ _ [] |- _ => inversion H; clear H; subst
  | H : Forall _ (_ :: _) |- _ => inversion H; clear H; subst
  end.
Ltac lenlia := solve [repeat match goal with H : Forall2 _ _ _ |- _ => apply Forall2_len in H end; simpl in *; lia].

Lemma NoDup_app_intro {A} (l m : list A) : NoDup l -> NoDup m -> (forall x, In x l -> In x m -> False) -> NoDup (l ++ m).
Proof.
  induction l as [|a l IH]; intros Hl Hm H; [exact Hm|]. inversion Hl; subst. simpl. constructor.
  - intros Hin. apply in_app_or in Hin as [Hin|Hin]; [contradiction|]. apply (H a); [left; reflexivity|exact Hin].
  - apply IH; auto. intros x Hx. apply H. right; exact Hx.
Qed.

Lemma points_of_spec lo : forall up, length lo = length up ->
  (forall p, In p (points_of lo up) <-> Forall2 Z.le lo p /\ Forall2 Z.lt p up) /\ NoDup (points_of lo up).
Proof.
  induction lo as [|a lo IH]; intros [|b up] HL; simpl in HL; try lia.
  - split; [|repeat constructor; auto]. intros p. simpl. split.
    + intros [<-|[]]. split; constructor.
    + intros [H _]. inversion H. auto.
  - destruct (IH up) as [H1 H2]; [lia|]. simpl. split.
    + intros p. rewrite in_flat_map. split.
      * intros [t [Ht Hp]]. apply in_map_iff in Hp as [i [<- Hi]]. apply in_seq in Hi. apply H1 in Ht as [? ?].
        split; constructor; auto; lia.
      * intros [Ha Hb]. inversion Ha as [|? x ? t ? ?]; subst. inversion Hb as [|? ? ? ? ? ?]; subst.
        exists t. split; [apply H1; auto|]. apply in_map_iff. exists (Z.to_nat (x - a)). split; [f_equal; lia|].
        apply in_seq. lia.
    + clear H1 IH HL. induction H2 as [|t ts Ht HN IHt]; simpl; [constructor|].
      apply NoDup_app_intro.
      * apply FinFun.Injective_map_NoDup; [|apply seq_NoDup]. intros i j E. injection E; lia.
      * exact IHt.
      * intros p Hp Hq. apply in_map_iff in Hp as [i [<- _]]. apply in_flat_map in Hq as [t' [Ht' Hq]].
        apply in_map_iff in Hq as [j [E _]]. injection E as _ ->. contradiction.
Qed.

Lemma box_points_list_enum D b : has_dim D b -> enumerates (box_points_list b) b.
Proof.
  intros [H1 H2]. destruct (points_of_spec (bottom_left b) (upper_right b)) as [A B]; [lia|]. split; [exact B|exact A].
Qed.
Lemma enum_perm N N' b : enumerates N b -> enumerates N' b -> Permutation N N'.
Proof. intros [H1 H2] [H3 H4]. apply NoDup_Permutation; auto. intros p. rewrite H2, H4. reflexivity. Qed.
Lemma grid_pts_enum D b : has_dim D b -> enumerates (grid_pts b) b.
Proof. intros H. destruct (grid_pts_spec D b H) as (A & B & _). split; auto. Qed.

(** A tiling is a permutation of the tiled box's points. *)
Lemma tiling_perm D bs B : tiling bs B -> has_dim D B -> Forall (has_dim D) bs ->
  Permutation (flat_map grid_pts bs) (grid_pts B).
Proof.
  intros HT HB Hbs. destruct (grid_pts_enum D B HB) as [N1 I1].
  assert (Hd : forall k, (k < length bs)%nat -> has_dim D (nth k bs B)).
  { intros k Hk. rewrite Forall_forall in Hbs. apply Hbs, nth_In, Hk. }
  apply NoDup_Permutation; [|exact N1|].
  - assert (HU : forall p j k, (j < length bs)%nat -> (k < length bs)%nat ->
       in_grid_box (nth j bs B) p -> in_grid_box (nth k bs B) p -> j = k).
    { intros p j k Hj Hk Pj Pk. destruct (HT p) as [T1 T2]. destruct (T1 (T2 j Hj Pj)) as [i [Hi [_ Hun]]].
      rewrite (Hun j Hj Pj), (Hun k Hk Pk). reflexivity. }
    clear HT. induction bs as [|b bs IH]; simpl; [constructor|]. inversion Hbs; subst.
    destruct (grid_pts_enum D b) as [Nb Ib]; [assumption|]. apply NoDup_app_intro; [exact Nb| |].
    + apply IH; auto.
      * intros k Hk. apply (Hd (S k)). simpl; lia.
      * intros p j k Hj Hk Pj Pk. assert (S j = S k) by (apply (HU p); simpl; auto; lia). lia.
    + intros p Hp Hq. apply Ib in Hp. apply in_flat_map in Hq as [b' [Hb' Hq]]. apply (In_nth _ _ B) in Hb' as [k [Hk <-]].
      destruct (grid_pts_enum D (nth k bs B)) as [_ Ik]; [apply (Hd (S k)); simpl; lia|]. apply Ik in Hq.
      assert (O = S k) by (apply (HU p); simpl; auto; lia). lia.
  - intros p. rewrite I1, in_flat_map. split.
    + intros [b [Hb Hp]]. apply (In_nth _ _ B) in Hb as [k [Hk <-]].
      destruct (grid_pts_enum D _ (Hd k Hk)) as [_ Ik]. apply Ik in Hp. destruct (HT p) as [_ T2]. apply (T2 k Hk Hp).
    + intros Hp. destruct (HT p) as [T1 _]. destruct (T1 Hp) as [k [Hk [Hin _]]]. exists (nth k bs B). split; [apply nth_In, Hk|].
      destruct (grid_pts_enum D _ (Hd k Hk)) as [_ Ik]. apply Ik, Hin.
Qed.

(** ** element boxes *)
Lemma dec_upper_lt ur : forall m per p, Forall2 Z.le ur m -> length per = length m ->
  (Forall2 Z.lt p (dec_upper ur m per) <->
   Forall2 Z.lt p ur /\ Forall2 Z.lt p (zip_with (fun n (b : bool) => if b then n else (n - 1)%Z) m per)).
Proof.
  induction ur as [|u ur IH]; intros m per p HL Hper.
  - inversion HL; subst. destruct per; [|discriminate]. simpl. tauto.
  - inversion HL as [|? n ? m' Hu Hm]; subst. destruct per as [|b per]; [discriminate|]. simpl in Hper.
    simpl. specialize (IH m' per). split.
    + intros H. inversion H as [|x ? p' ? Hx Hp]; subst. destruct (IH p') as [I1 _]; [auto|lia|]. destruct (I1 Hp).
      destruct (Z.eqb_spec u n), b; simpl in *; split; constructor; auto; lia.
    + intros [H1 H2]. inversion H1 as [|x ? p' ? Hx Hp]; subst. inversion H2; subst. destruct (IH p') as [_ I1]; [auto|lia|].
      destruct (Z.eqb_spec u n), b; simpl in *; constructor; auto; try lia.
Qed.
Lemma Forall2_map_const m lo p : Forall2 Z.le (map (fun _ : Z => 0%Z) m) lo -> Forall2 Z.le lo p -> Forall2 Z.le (map (fun _ : Z => 0%Z) m) p.
Proof.
  revert lo p. induction m as [|n m IH]; intros lo p H1 H2; inversion H1; subst; inversion H2; subst; simpl; constructor; [lia|]. eapply IH; eauto.
Qed.
Lemma Forall2_lt_le p u m : Forall2 Z.lt p u -> Forall2 Z.le u m -> Forall2 Z.lt p m.
Proof. revert u m. induction p; intros u m H1 H2; inversion H1; subst; inversion H2; subst; constructor; [lia|]. eapply IHp; eauto. Qed.

Lemma view_dims m per dof dm : view_ok m per dof dm -> length per = length m ->
  has_dim (length m) (g_own dm) /\ has_dim (length m) (get_DM_bounds dm true) /\ has_dim (length m) (g_ghost dm).
Proof.
  intros (E1 & E2 & E3 & H1 & H2 & H3 & E4) Hp. unfold get_DM_bounds. rewrite E1, E2, E4. clear E1 E2 E3 E4.
  destruct (g_own dm) as [lo up]. simpl in *. unfold has_dim, ghost_box; simpl.
  assert (L1 := Forall2_len _ _ _ H1). assert (L2 := Forall2_len _ _ _ H2). rewrite map_length in L1.
  repeat split; try lia.
  - assert (Hd : forall u n b, length n = length u -> length b = length u -> length (dec_upper u n b) = length u).
    { induction u as [|a u IH]; intros [|n ns] [|b bs] A B; simpl in *; try lia. rewrite IH; lia. }
    rewrite Hd; lia.
  - assert (Hd : forall u (b : list bool), length b = length u -> length (ghost_low u b) = length u).
    { induction u as [|a u IH]; intros [|b bs] A; simpl in *; try lia. rewrite IH; lia. }
    rewrite Hd; lia.
  - assert (Hd : forall u n (b : list bool), length n = length u -> length b = length u -> length (ghost_up u n b) = length u).
    { induction u as [|a u IH]; intros [|n ns] [|b bs] A B; simpl in *; try lia. rewrite IH; lia. }
    rewrite Hd; lia.
Qed.
Lemma cells_dim m per : length per = length m -> has_dim (length m) (cells_box m per).
Proof. intros H. unfold has_dim, cells_box; simpl. rewrite map_length, length_zip_with; lia. Qed.
Lemma nodes_dim m : has_dim (length m) (nodes_box m).
Proof. unfold has_dim, nodes_box; simpl. rewrite map_length. lia. Qed.

Lemma bounds_in m per dof dm p : view_ok m per dof dm -> length per = length m ->
  (in_grid_box (get_DM_bounds dm true) p <-> in_grid_box (g_own dm) p /\ in_grid_box (cells_box m per) p).
Proof.
  intros (E1 & E2 & E3 & H1 & H2 & H3 & E4) Hp. unfold in_grid_box, get_DM_bounds, cells_box. rewrite E1, E2. simpl.
  rewrite dec_upper_lt; auto. split; [|tauto]. intros [A [B C]]. repeat split; auto. eapply Forall2_map_const; eauto.
Qed.
Lemma cells_sub_nodes m per p : length per = length m -> in_grid_box (cells_box m per) p -> in_grid_box (nodes_box m) p.
Proof.
  intros Hl [H1 H2]. split; [exact H1|]. simpl in *. clear H1. revert per p Hl H2. induction m as [|n m IH]; intros [|b per] p Hl H2; simpl in *; try lia.
  - exact H2.
  - inversion H2; subst. constructor; [destruct b; lia|]. eapply IH; eauto.
Qed.
Lemma element_boxes_tile m per dof dms : length per = length m -> distributes m per dof dms ->
  tiling (map (fun dm => get_DM_bounds dm true) dms) (cells_box m per).
Proof.
  intros Hl [HV HT]. rewrite Forall_forall in HV.
  assert (Hnth : forall k p, (k < length dms)%nat ->
    (in_grid_box (nth k (map (fun dm => get_DM_bounds dm true) dms) (cells_box m per)) p <->
     in_grid_box (nth k (map g_own dms) (nodes_box m)) p /\ in_grid_box (cells_box m per) p)).
  { intros k p Hk. destruct dms as [|dm0 dms]; [simpl in Hk; lia|].
    rewrite (nth_indep _ (cells_box m per) (get_DM_bounds dm0 true)) by (rewrite map_length; exact Hk).
    rewrite (nth_indep _ (nodes_box m) (g_own dm0)) by (rewrite map_length; exact Hk).
    rewrite (map_nth (fun dm => get_DM_bounds dm true)), (map_nth g_own).
    apply (bounds_in m per dof); [|exact Hl]. apply HV, nth_In, Hk. }
  intros p. destruct (HT p) as [T1 T2]. rewrite map_length in *. split.
  - intros Hp. destruct (T1 (cells_sub_nodes _ _ _ Hl Hp)) as [k [Hk [Hin Hun]]].
    exists k. split; [exact Hk|]. split; [apply Hnth; auto|]. intros j Hj Hj'. apply Hun; auto. apply Hnth in Hj' as [? _]; auto.
  - intros k Hk Hin. apply Hnth in Hin as [_ ?]; auto.
Qed.

(** ** nodes of an element are in the ghosted box, and wrap to nodes of the grid *)
Definition near (e p : list Z) : Prop := Forall2 (fun a b => a <= b <= a + 1) e p.
Lemma ghost_contains lo up m per e p : Forall2 Z.le (map (fun _ : Z => 0) m) lo -> Forall2 Z.le up m -> length per = length m ->
  Forall2 Z.le lo e -> Forall2 Z.lt e (dec_upper up m per) -> near e p ->
  Forall2 Z.le (ghost_low lo per) p /\ Forall2 Z.lt p (ghost_up up m per).
Proof.
  intros H0 H1 Hl H2 H3 H4. revert lo up per e p H0 H1 Hl H2 H3 H4.
  induction m as [|n m IH]; intros lo up per e p H0 H1 Hl H2 H3 H4; destruct per as [|b per]; simpl in Hl; try lia.
  - inversion H0; subst. inversion H1; subst. inversion H2; subst. inversion H4; subst. split; constructor.
  - inversion H0 as [|? l0 ? lo' ? K0]; subst. inversion H1 as [|u ? up' ? ? K1]; subst. inversion H2 as [|? e0 ? e' ? K2]; subst.
    inversion H4 as [|? p0 ? p' ? K4]; subst. simpl in H3. inversion H3 as [|? ? ? ? ? K3]; subst.
    destruct (IH lo' up' per e' p') as [I1 I2]; auto; try lia. simpl.
    destruct (Z.eqb_spec u n), b; simpl in *; split; constructor; auto; lia.
Qed.
Lemma wrap_in_nodes m per e p : Forall (fun n => 1 <= n) m -> length per = length m ->
  in_grid_box (cells_box m per) e -> near e p -> in_grid_box (nodes_box m) (wrap m per p).
Proof.
  unfold in_grid_box, cells_box, nodes_box. simpl. intros HF Hl [H1 H2] H3. revert per e p HF Hl H1 H2 H3.
  induction m as [|n m IH]; intros [|b per] e p HF Hl H1 H2 H3; simpl in *; try lia.
  - split; constructor.
  - inversion HF; subst. inversion H1; subst. inversion H2; subst. inversion H3; subst. simpl.
    edestruct (IH per) as [I1 I2]; eauto; try lia.
    destruct b; split; constructor; auto; try lia; apply Z.mod_pos_bound; lia.
Qed.
Lemma wrap_id m : forall per p, length per = length m -> in_grid_box (nodes_box m) p -> wrap m per p = p.
Proof.
  unfold in_grid_box, nodes_box. simpl. induction m as [|n m IH]; intros [|b per] p Hl [H1 H2]; simpl in *; try lia; inversion H1; subst; [reflexivity|].
  inversion H2; subst. f_equal; [destruct b; auto; apply Z.mod_small; lia|]. apply IH; auto.
Qed.
Lemma wrap_length m : forall per p, length per = length m -> length p = length m -> length (wrap m per p) = length m.
Proof. induction m; intros [|b per] [|x p] H1 H2; simpl in *; try lia. rewrite IHm; lia. Qed.

Lemma get_element_near e p : In p (get_element e) -> near e p.
Proof.
  unfold near. destruct e as [|i [|j [|k [|]]]]; simpl; try tauto; intros H;
  repeat (destruct H as [<-|H]; [repeat constructor; lia|]); destruct H.
Qed.
Lemma get_element_corner e k : (length e = 2%nat \/ length e = 3%nat) -> (k < 2 ^ length e)%nat -> nth k (get_element e) [] = corner e k.
Proof.
  intros [H|H] Hk; destruct e as [|a [|b [|c [|]]]]; simpl in H; try lia; simpl in Hk;
  do 8 (destruct k as [|k]; [first [lia|unfold corner; simpl; rewrite ?Z.add_0_r; reflexivity]|]); lia.
Qed.
Lemma get_element_length e : (length e = 2%nat \/ length e = 3%nat) -> length (get_element e) = (2 ^ length e)%nat.
Proof. intros [H|H]; destruct e as [|a [|b [|c [|]]]]; simpl in H; try lia; reflexivity. Qed.
Lemma get_element_4Q1_corner e k : (length e = 2%nat \/ length e = 3%nat) -> (k < 3 ^ length e)%nat -> nth k (get_element_4Q1 e) [] = corner3 e k.
Proof.
  intros [H|H] Hk; destruct e as [|a [|b [|c [|]]]]; simpl in H; try lia; simpl in Hk;
  do 27 (destruct k as [|k]; [first [lia|unfold corner3; cbn [get_element_4Q1 get_element_4Q1_2 get_element_4Q1_3 nth length seq zip_with]; repeat match goal with |- context [Z.of_nat ?t] => let v := eval vm_compute in (Z.of_nat t) in change (Z.of_nat t) with v end; rewrite ?Z.add_0_r; reflexivity]|]); lia.
Qed.
Lemma get_element_4Q1_length e : (length e = 2%nat \/ length e = 3%nat) -> length (get_element_4Q1 e) = (3 ^ length e)%nat.
Proof. intros [H|H]; destruct e as [|a [|b [|c [|]]]]; simpl in H; try lia; reflexivity. Qed.
Close Scope Z_scope.
