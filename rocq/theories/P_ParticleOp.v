From Verif Require Import Base M_Geometry S_Geometry P_Geometry M_Particle S_Particle P_Particle M_Quadrature S_Fem M_MatElem P_Energy M_Mesh M_Operator S_Operator P_Mesh P_Operator M_Bc M_ParticleOp S_ParticleOp.
From Coq Require Import Permutation.
Open Scope R_scope.

(** ** vectors *)
Lemma zip_length {A B C} (f : A -> B -> C) l : forall m, length l = length m -> length (zip_with f l m) = length l.
Proof. induction l; intros [|b m] H; simpl in *; try lia. rewrite IHl; lia. Qed.
Lemma zip_combine {A B C} (f : A -> B -> C) l : forall m, zip_with f l m = map (fun p => f (fst p) (snd p)) (combine l m).
Proof. induction l; intros [|b m]; simpl; try reflexivity. rewrite IHl; reflexivity. Qed.
Lemma combine_zip {A B C} (f : A -> B -> C) l : forall m, combine l (zip_with f l m) = map (fun p => (fst p, f (fst p) (snd p))) (combine l m).
Proof. induction l; intros [|b m]; simpl; try reflexivity. rewrite IHl; reflexivity. Qed.
Lemma co_add k v : forall w, length v = length w -> co k (vec_add_assign v w) = co k v + co k w.
Proof.
  unfold co, vec_add_assign. revert k. induction v; intros k [|b w] H; simpl in *; try lia.
  - destruct k; ring.
  - destruct k; [reflexivity|]. apply IHv; lia.
Qed.
Lemma co_sub k v : forall w, length v = length w -> co k (vec_sub_assign v w) = co k v - co k w.
Proof.
  unfold co, vec_sub_assign. revert k. induction v; intros k [|b w] H; simpl in *; try lia.
  - destruct k; ring.
  - destruct k; [reflexivity|]. apply IHv; lia.
Qed.
Lemma co_scale k v c : co k (vec_scale_assign v c) = co k v * c.
Proof. unfold co, vec_scale_assign. revert k. induction v; intros [|k]; simpl; try ring. apply IHv. Qed.
Lemma co_div k v c : co k (vec_div_assign v c) = co k v / c.
Proof. unfold co, vec_div_assign. revert k. induction v; intros [|k]; simpl; try (unfold Rdiv; ring). apply IHv. Qed.
Lemma co_zero k n : co k (vzero n) = 0.
Proof. unfold co, vzero. revert k. induction n; intros [|k]; simpl; auto. Qed.
Lemma len_add v w : length v = length w -> length (vec_add_assign v w) = length v. Proof. apply zip_length. Qed.
Lemma len_sub v w : length v = length w -> length (vec_sub_assign v w) = length v. Proof. apply zip_length. Qed.
Lemma len_scale v c : length (vec_scale_assign v c) = length v. Proof. apply map_length. Qed.
Lemma len_div v c : length (vec_div_assign v c) = length v. Proof. apply map_length. Qed.
Lemma len_zero n : length (vzero n) = n. Proof. apply repeat_length. Qed.
Lemma vsum_spec {A} n (f : A -> vec) l : forall acc, length acc = n -> (forall a, In a l -> length (f a) = n) ->
  length (fold_left (fun s a => vec_add_assign s (f a)) l acc) = n /\
  forall k, co k (fold_left (fun s a => vec_add_assign s (f a)) l acc) = co k acc + Lsum (fun a => co k (f a)) l.
Proof.
  induction l as [|a l IH]; intros acc Ha Hl; simpl.
  - split; auto. intros k. unfold Lsum; simpl; ring.
  - assert (E : length acc = length (f a)) by (rewrite Ha; symmetry; apply Hl; left; auto).
    destruct (IH (vec_add_assign acc (f a))) as [H1 H2]; [rewrite len_add; auto|intros; apply Hl; right; auto|].
    split; auto. intros k. rewrite H2, Lsum_cons, co_add by auto. ring.
Qed.
Lemma vsum_id n l acc : length acc = n -> all_len n l ->
  length (fold_left vec_add_assign l acc) = n /\ forall k, co k (fold_left vec_add_assign l acc) = co k acc + total k l.
Proof. intros Ha Hl. apply (vsum_spec n (fun v => v) l acc Ha). unfold all_len in Hl. rewrite Forall_forall in Hl. exact Hl. Qed.
Lemma allsum_spec n l : all_len n l -> length (allsum n l) = n /\ forall k, co k (allsum n l) = total k l.
Proof. intros H. destruct (vsum_id n l (vzero n) (len_zero n) H) as [H1 H2]. split; auto. intros k. unfold allsum. rewrite H2, co_zero. ring. Qed.
Lemma list2 (v : vec) : length v = 2%nat -> v = [co 0 v; co 1 v].
Proof. destruct v as [|a [|b [|]]]; simpl; intros; try lia; reflexivity. Qed.
Lemma list3 (v : vec) : length v = 3%nat -> v = [co 0 v; co 1 v; co 2 v].
Proof. destruct v as [|a [|b [|c [|]]]]; simpl; intros; try lia; reflexivity. Qed.
Lemma list1 (v : vec) : length v = 1%nat -> v = [co 0 v].
Proof. destruct v as [|a [|b]]; simpl; intros; try lia; reflexivity. Qed.
Lemma cross_vv2 r g : length r = 2%nat -> length g = 2%nat -> cross_vv r g = [moment2 r g].
Proof. intros Hr Hg. rewrite (list2 r Hr), (list2 g Hg). reflexivity. Qed.
Lemma cross_vv3 r g : length r = 3%nat -> length g = 3%nat -> cross_vv r g = [moment3 0 r g; moment3 1 r g; moment3 2 r g].
Proof. intros Hr Hg. rewrite (list3 r Hr), (list3 g Hg). reflexivity. Qed.
Lemma cross_sv2 w r : length r = 2%nat -> cross_sv [w] r = [- w * co 1 r; w * co 0 r].
Proof. intros Hr. rewrite (list2 r Hr). reflexivity. Qed.
Lemma cross_sv3 w r : length w = 3%nat -> length r = 3%nat -> cross_sv w r = [moment3 0 w r; moment3 1 w r; moment3 2 w r].
Proof. intros Hr Hg. rewrite (list3 w Hr), (list3 r Hg). reflexivity. Qed.

Lemma nth_map_seq {A} (f : nat -> A) n i d : (i < n)%nat -> nth i (map f (seq 0 n)) d = f i.
Proof.
  intros H. rewrite (nth_indep _ d (f 0%nat)) by (rewrite map_length, seq_length; exact H). rewrite map_nth, seq_nth by exact H. reflexivity.
Qed.
(** ** simple_layer *)
Lemma flat_combine {A B} dms i (r : dmda -> list (list A)) (g : dmda -> list (list B)) :
  matching dms i r g -> combine (gathered dms i r) (gathered dms i g) = flat_map (fun dm => combine (nth i (r dm) []) (nth i (g dm) [])) dms.
Proof.
  unfold gathered. induction dms as [|dm dms IH]; intros H; [reflexivity|]. simpl.
  assert (E : length (nth i (r dm) []) = length (nth i (g dm) [])) by (apply (H dm); left; auto).
  rewrite <- IH by (intros dm' Hd; apply H; right; auto). clear IH H. revert E. generalize (nth i (r dm) []) (nth i (g dm) []).
  intros l1 l2. revert l2. induction l1; intros [|b l2] E; simpl in *; try lia; auto. f_equal. apply IHl1. lia.
Qed.
Lemma gathered_length {A B} dms i (r : dmda -> list (list A)) (g : dmda -> list (list B)) :
  matching dms i r g -> length (gathered dms i r) = length (gathered dms i g).
Proof.
  unfold gathered. induction dms as [|dm dms IH]; intros H; [reflexivity|]. simpl. rewrite !app_length.
  rewrite IH by (intros dm' Hd; apply H; right; auto). f_equal. apply (H dm); left; auto.
Qed.
Lemma Lsum_snd {A B} (f : B -> R) (l : list A) : forall m, length l = length m -> Lsum (fun p => f (snd p)) (combine l m) = Lsum f m.
Proof. induction l; intros [|b m] H; simpl in *; try lia; [reflexivity|]. rewrite !Lsum_cons, IHl by lia. reflexivity. Qed.
Lemma Lsum_fst {A B} (f : A -> R) (l : list A) : forall m : list B, length l = length m -> Lsum (fun p => f (fst p)) (combine l m) = Lsum f l.
Proof. induction l; intros [|b m] H; simpl in *; try lia; [reflexivity|]. rewrite !Lsum_cons, IHl by lia. reflexivity. Qed.
Lemma Lsum_const {A} c (l : list A) : Lsum (fun _ => c) l = INR (length l) * c.
Proof. induction l; [unfold Lsum; simpl; ring|]. rewrite Lsum_cons, IHl. cbn [length]. rewrite S_INR. ring. Qed.
Lemma total_gathered k dms i g : total k (gathered dms i g) = Lsum (fun dm => total k (nth i (g dm) [])) dms.
Proof. unfold total, gathered. apply Lsum_flat_map. Qed.

Section SL.
  Variables (c : pctx) (g : dmda -> list (list vec)) (i D : nat).
  Hypothesis ED : x_D c = D.
  Hypothesis HM : matching (x_dms c) i (x_radial c) g.
  Hypothesis Hr : all_len D (gathered (x_dms c) i (x_radial c)).
  Hypothesis Hg : all_len D (gathered (x_dms c) i g).
  Hypothesis HD : D = 2%nat \/ D = 3%nat.
  Let P := combine (gathered (x_dms c) i (x_radial c)) (gathered (x_dms c) i g).

  Lemma gathered_part dm v (f : dmda -> list (list vec)) : In dm (x_dms c) -> In v (nth i (f dm) []) -> In v (gathered (x_dms c) i f).
  Proof. intros H1 H2. apply in_flat_map. eauto. Qed.
  Lemma sl_mean_spec : length (sl_mean c g i) = D /\ forall k, co k (sl_mean c g i) = total k (gathered (x_dms c) i g) / IZR (x_nb c i).
  Proof.
    assert (HA : forall dm, In dm (x_dms c) -> length (local_mean D (nth i (g dm) [])) = D /\ forall k, co k (local_mean D (nth i (g dm) [])) = total k (nth i (g dm) [])).
    { intros dm Hdm. apply allsum_spec. apply Forall_forall. intros v Hv. unfold all_len in Hg. rewrite Forall_forall in Hg. apply Hg. eapply gathered_part; eauto. }
    unfold sl_mean. rewrite ED.
    destruct (allsum_spec D (map (fun dm => local_mean D (nth i (g dm) [])) (x_dms c))) as [H1 H2].
    { apply Forall_forall. intros v Hv. apply in_map_iff in Hv as [dm [<- Hdm]]. apply HA, Hdm. }
    rewrite len_div. split; [exact H1|]. intros k. rewrite co_div, H2, total_gathered. f_equal. unfold total at 1. rewrite Lsum_map. apply Lsum_ext. intros dm Hdm. apply HA, Hdm.
  Qed.
  Lemma cross_vv_len r v : length r = D -> length v = D -> length (cross_vv r v) = spin_size D.
  Proof. intros H1 H2. destruct HD as [E|E]; rewrite E in *; [rewrite cross_vv2|rewrite cross_vv3]; auto. Qed.
  Lemma pair_lens p : In p P -> length (fst p) = D /\ length (snd p) = D.
  Proof.
    destruct p as [r v]. intros H. unfold P in H. pose proof (in_combine_l _ _ _ _ H) as H1. pose proof (in_combine_r _ _ _ _ H) as H2.
    unfold all_len in *. rewrite Forall_forall in Hr, Hg. split; [apply Hr, H1|apply Hg, H2].
  Qed.
  Lemma sl_cross_spec : length (sl_cross c g i) = spin_size D /\
    forall k, co k (sl_cross c g i) = Lsum (fun p => co k (cross_vv (fst p) (snd p))) P * (gp_Cd_R (nth i (x_parts c) gpart0) / IZR (x_nb c i)).
  Proof.
    assert (HP : P = flat_map (fun dm => combine (nth i (x_radial c dm) []) (nth i (g dm) [])) (x_dms c)) by (apply flat_combine, HM).
    assert (HA : forall dm, In dm (x_dms c) -> length (local_cross D (nth i (x_radial c dm) []) (nth i (g dm) [])) = spin_size D /\
       forall k, co k (local_cross D (nth i (x_radial c dm) []) (nth i (g dm) [])) = Lsum (fun p => co k (cross_vv (fst p) (snd p))) (combine (nth i (x_radial c dm) []) (nth i (g dm) []))).
    { intros dm Hdm. unfold local_cross. destruct (vsum_spec (spin_size D) (fun p => cross_vv (fst p) (snd p)) (combine (nth i (x_radial c dm) []) (nth i (g dm) [])) (vzero (spin_size D))) as [H1 H2].
      - apply len_zero.
      - intros p Hp. apply cross_vv_len; apply pair_lens; rewrite HP; apply in_flat_map; eauto.
      - split; [exact H1|]. intros k. rewrite H2, co_zero. ring. }
    unfold sl_cross. rewrite ED. destruct (allsum_spec (spin_size D) (map (fun dm => local_cross D (nth i (x_radial c dm) []) (nth i (g dm) [])) (x_dms c))) as [H1 H2].
    { apply Forall_forall. intros v Hv. apply in_map_iff in Hv as [dm [<- Hdm]]. apply HA, Hdm. }
    rewrite len_scale. split; [exact H1|]. intros k. rewrite co_scale, H2. f_equal. unfold total. rewrite Lsum_map, HP, Lsum_flat_map. apply Lsum_ext. intros dm Hdm. apply HA, Hdm.
  Qed.
  Definition sl_new (p : vec * vec) : vec := vec_sub_assign (snd p) (vec_plus (sl_mean c g i) (cross_sv (sl_cross c g i) (fst p))).
  Lemma new_gathered : let g' := fst (fst (simple_layer c g)) in
    gathered (x_dms c) i g' = map sl_new P /\ combine (gathered (x_dms c) i (x_radial c)) (gathered (x_dms c) i g') = map (fun p => (fst p, sl_new p)) P.
  Proof.
    intros g'. assert (E : forall dm, In dm (x_dms c) -> nth i (g' dm) [] = map sl_new (combine (nth i (x_radial c dm) []) (nth i (g dm) []))).
    { intros dm Hdm. unfold g', simple_layer. cbn [fst]. destruct (HM dm Hdm) as [Hi _].
      rewrite nth_map_seq by exact Hi. rewrite zip_combine. reflexivity. }
    assert (HP : P = flat_map (fun dm => combine (nth i (x_radial c dm) []) (nth i (g dm) [])) (x_dms c)) by (apply flat_combine, HM).
    assert (G1 : gathered (x_dms c) i g' = map sl_new P).
    { rewrite HP. unfold gathered. clear - E. induction (x_dms c) as [|dm dms IH]; [reflexivity|]. simpl. rewrite map_app, E, IH by (try left; auto; intros; apply E; right; auto). reflexivity. }
    split; [exact G1|]. rewrite G1. unfold P. pose proof (gathered_length _ _ _ _ HM) as HL. revert HL. generalize (gathered (x_dms c) i (x_radial c)) (gathered (x_dms c) i g).
    intros l. induction l as [|a l IH]; intros [|b m] HL; simpl in *; try lia; [reflexivity|]. f_equal. apply IH. lia.
  Qed.
End SL.

Lemma Lsum_minus {A} (f g : A -> R) l : Lsum (fun a => f a - g a) l = Lsum f l - Lsum g l.
Proof. induction l; [unfold Lsum; simpl; ring|]. rewrite !Lsum_cons, IHl. ring. Qed.
Lemma sl2 c (g : dmda -> list (list vec)) i Rr : x_D c = 2%nat -> matching (x_dms c) i (x_radial c) g ->
  let rs := gathered (x_dms c) i (x_radial c) in let gs := gathered (x_dms c) i g in
  all_len 2 rs -> all_len 2 gs -> x_nb c i = Z.of_nat (length rs) -> rs <> [] ->
  total 0 rs = 0 -> total 1 rs = 0 -> Lsum (fun r => co 0 r * co 0 r + co 1 r * co 1 r) rs = INR (length rs) * (Rr * Rr) -> Rr <> 0 ->
  gp_Cd_R (nth i (x_parts c) gpart0) = 1 / (Rr * Rr) ->
  let g' := fst (fst (simple_layer c g)) in
  total 0 (gathered (x_dms c) i g') = 0 /\ total 1 (gathered (x_dms c) i g') = 0 /\
  Lsum (fun p => moment2 (fst p) (snd p)) (combine rs (gathered (x_dms c) i g')) = 0.
Proof.
  intros ED HM rs gs Hr Hg Hnb Hne R0 R1 RR HR HC g'.
  assert (HD : 2%nat = 2%nat \/ 2%nat = 3%nat) by (left; reflexivity).
  destruct (sl_mean_spec c g i 2 ED Hg) as [Lm Cm]. destruct (sl_cross_spec c g i 2 ED HM Hr Hg HD) as [Lc Cc].
  destruct (new_gathered c g i _ ED HM HD) as [G1 G2]. fold g' in G1, G2. fold rs gs in Cm, Cc, G1, G2.
  set (P := combine rs gs) in *.
  assert (HL : length rs = length gs) by (apply gathered_length, HM).
  assert (HN : INR (length rs) <> 0). { apply not_0_INR. destruct rs; [congruence|simpl; lia]. }
  rewrite Hnb, <- INR_IZR_INZ in Cm, Cc. set (N := INR (length rs)) in *.
  assert (LP : forall p, In p P -> length (fst p) = 2%nat /\ length (snd p) = 2%nat).
  { intros p Hp. exact (pair_lens c g i 2 Hr Hg p Hp). }
  set (m0 := co 0 (sl_mean c g i)). set (m1 := co 1 (sl_mean c g i)). set (w := co 0 (sl_cross c g i)).
  assert (NEW : forall p, In p P -> sl_new c g i p = [co 0 (snd p) - (m0 + - w * co 1 (fst p)); co 1 (snd p) - (m1 + w * co 0 (fst p))]).
  { intros p Hp. destruct (LP p Hp) as [L1 L2]. unfold sl_new. rewrite (list1 (sl_cross c g i) Lc), cross_sv2 by exact L1. rewrite (list2 (sl_mean c g i) Lm), (list2 (snd p) L2) at 1. reflexivity. }
  assert (LPn : INR (length P) = N). { unfold P, N. rewrite combine_length. f_equal. lia. }
  assert (S0 : Lsum (fun p => co 0 (snd p)) P = N * m0). { unfold P. rewrite (Lsum_snd (co 0) rs gs HL). unfold m0. rewrite Cm. unfold total. field. exact HN. }
  assert (S1 : Lsum (fun p => co 1 (snd p)) P = N * m1). { unfold P. rewrite (Lsum_snd (co 1) rs gs HL). unfold m1. rewrite Cm. unfold total. field. exact HN. }
  assert (T0 : Lsum (fun p => co 0 (fst p)) P = 0). { unfold P. rewrite (Lsum_fst (co 0) rs gs HL). exact R0. }
  assert (T1 : Lsum (fun p => co 1 (fst p)) P = 0). { unfold P. rewrite (Lsum_fst (co 1) rs gs HL). exact R1. }
  assert (TT : Lsum (fun p => co 0 (fst p) * co 0 (fst p) + co 1 (fst p) * co 1 (fst p)) P = N * (Rr * Rr)). { unfold P. rewrite (Lsum_fst (fun r => co 0 r * co 0 r + co 1 r * co 1 r) rs gs HL). exact RR. }
  assert (SX : Lsum (fun p => moment2 (fst p) (snd p)) P = w * (N * (Rr * Rr))).
  { unfold w. rewrite Cc, HC. rewrite (Lsum_ext (fun p => co 0 (cross_vv (fst p) (snd p))) (fun p => moment2 (fst p) (snd p))).
    - field. split; assumption.
    - intros p Hp. destruct (LP p Hp) as [L1 L2]. rewrite cross_vv2 by assumption. reflexivity. }
  rewrite G2, G1. unfold total. rewrite !Lsum_map. split; [|split].
  - rewrite (Lsum_ext _ (fun p => co 0 (snd p) + (- m0 + w * co 1 (fst p)))) by (intros p Hp; rewrite NEW by exact Hp; unfold co at 1; simpl; ring).
    rewrite Lsum_plus, Lsum_plus, Lsum_scal, Lsum_const, LPn, S0, T1. ring.
  - rewrite (Lsum_ext _ (fun p => co 1 (snd p) + (- m1 + - w * co 0 (fst p)))) by (intros p Hp; rewrite NEW by exact Hp; unfold co at 1; simpl; ring).
    rewrite Lsum_plus, Lsum_plus, Lsum_scal, Lsum_const, LPn, S1, T0. ring.
  - rewrite (Lsum_ext _ (fun p => (moment2 (fst p) (snd p) + (m0 * co 1 (fst p) + - m1 * co 0 (fst p))) + - w * (co 0 (fst p) * co 0 (fst p) + co 1 (fst p) * co 1 (fst p)))).
    2:{ intros p Hp. cbn [fst snd]. rewrite NEW by exact Hp. unfold moment2, co; simpl. ring. }
    rewrite !Lsum_plus, !Lsum_scal, SX, T0, T1, TT. ring.
Qed.
Lemma sl3 c (g : dmda -> list (list vec)) i C : x_D c = 3%nat -> matching (x_dms c) i (x_radial c) g ->
  let rs := gathered (x_dms c) i (x_radial c) in let gs := gathered (x_dms c) i g in
  all_len 3 rs -> all_len 3 gs -> x_nb c i = Z.of_nat (length rs) -> rs <> [] ->
  (forall k, (k < 3)%nat -> total k rs = 0) ->
  (forall a b, (a < 3)%nat -> (b < 3)%nat -> Lsum (fun r => co a r * co b r) rs = if Nat.eqb a b then INR (length rs) / (2 * C) else 0) -> C <> 0 ->
  gp_Cd_R (nth i (x_parts c) gpart0) = C ->
  let g' := fst (fst (simple_layer c g)) in
  (forall k, (k < 3)%nat -> total k (gathered (x_dms c) i g') = 0) /\
  (forall k, (k < 3)%nat -> Lsum (fun p => moment3 k (fst p) (snd p)) (combine rs (gathered (x_dms c) i g')) = 0).
Proof.
  intros ED HM rs gs Hr Hg Hnb Hne RT RQ HC0 HC g'.
  assert (HD : 3%nat = 2%nat \/ 3%nat = 3%nat) by (right; reflexivity).
  destruct (sl_mean_spec c g i 3 ED Hg) as [Lm Cm]. destruct (sl_cross_spec c g i 3 ED HM Hr Hg HD) as [Lc Cc].
  destruct (new_gathered c g i _ ED HM HD) as [G1 G2]. fold g' in G1, G2. fold rs gs in Cm, Cc, G1, G2.
  set (P := combine rs gs) in *.
  assert (HL : length rs = length gs) by (apply gathered_length, HM).
  assert (HN : INR (length rs) <> 0). { apply not_0_INR. destruct rs; [congruence|simpl; lia]. }
  rewrite Hnb, <- INR_IZR_INZ in Cm, Cc. set (N := INR (length rs)) in *.
  assert (LP : forall p, In p P -> length (fst p) = 3%nat /\ length (snd p) = 3%nat).
  { intros p Hp. exact (pair_lens c g i 3 Hr Hg p Hp). }
  set (mm := sl_mean c g i) in *. set (w := sl_cross c g i) in *.
  assert (NEW : forall p, In p P -> sl_new c g i p = [co 0 (snd p) - (co 0 mm + moment3 0 w (fst p)); co 1 (snd p) - (co 1 mm + moment3 1 w (fst p)); co 2 (snd p) - (co 2 mm + moment3 2 w (fst p))]).
  { intros p Hp. destruct (LP p Hp) as [L1 L2]. unfold sl_new. rewrite cross_sv3 by assumption. fold mm w. rewrite (list3 mm Lm), (list3 (snd p) L2) at 1. reflexivity. }
  assert (LPn : INR (length P) = N). { unfold P, N. rewrite combine_length. f_equal. lia. }
  assert (S0 : forall k, Lsum (fun p => co k (snd p)) P = N * co k mm). { intros k. unfold P. rewrite (Lsum_snd (co k) rs gs HL). rewrite Cm. unfold total. field. exact HN. }
  assert (T0 : forall k, (k < 3)%nat -> Lsum (fun p => co k (fst p)) P = 0). { intros k Hk. unfold P. rewrite (Lsum_fst (co k) rs gs HL). apply RT, Hk. }
  assert (TT : forall a b, (a < 3)%nat -> (b < 3)%nat -> Lsum (fun p => co a (fst p) * co b (fst p)) P = if Nat.eqb a b then N / (2 * C) else 0).
  { intros a b Ha Hb. unfold P. rewrite (Lsum_fst (fun r => co a r * co b r) rs gs HL). apply RQ; assumption. }
  assert (SX : forall k, (k < 3)%nat -> Lsum (fun p => moment3 k (fst p) (snd p)) P = co k w * (N / C)).
  { intros k Hk. rewrite Cc, HC. rewrite (Lsum_ext (fun p => co k (cross_vv (fst p) (snd p))) (fun p => moment3 k (fst p) (snd p))).
    - field. split; assumption.
    - intros p Hp. destruct (LP p Hp) as [L1 L2]. rewrite cross_vv3 by assumption. destruct k as [|[|[|]]]; try reflexivity; lia. }
  rewrite G2, G1. unfold total. split; intros k Hk; rewrite !Lsum_map.
  - destruct k as [|[|[|]]]; [| | |lia].
    + rewrite (Lsum_ext _ (fun p => co 0 (snd p) + (- co 0 mm + (- co 1 w * co 2 (fst p) + co 2 w * co 1 (fst p))))) by (intros p Hp; rewrite NEW by exact Hp; unfold moment3; unfold co at 1; simpl; ring).
      rewrite !Lsum_plus, !Lsum_scal, Lsum_const, LPn, S0, !T0 by lia. ring.
    + rewrite (Lsum_ext _ (fun p => co 1 (snd p) + (- co 1 mm + (- co 2 w * co 0 (fst p) + co 0 w * co 2 (fst p))))) by (intros p Hp; rewrite NEW by exact Hp; unfold moment3; unfold co at 1; simpl; ring).
      rewrite !Lsum_plus, !Lsum_scal, Lsum_const, LPn, S0, !T0 by lia. ring.
    + rewrite (Lsum_ext _ (fun p => co 2 (snd p) + (- co 2 mm + (- co 0 w * co 1 (fst p) + co 1 w * co 0 (fst p))))) by (intros p Hp; rewrite NEW by exact Hp; unfold moment3; unfold co at 1; simpl; ring).
      rewrite !Lsum_plus, !Lsum_scal, Lsum_const, LPn, S0, !T0 by lia. ring.
  - cbn [fst snd]. destruct k as [|[|[|]]]; [| | |lia].
    + rewrite (Lsum_ext _ (fun p => (moment3 0 (fst p) (snd p) + (- co 2 mm * co 1 (fst p) + co 1 mm * co 2 (fst p))) + (- co 0 w * (co 1 (fst p) * co 1 (fst p)) + (- co 0 w * (co 2 (fst p) * co 2 (fst p)) + (co 1 w * (co 0 (fst p) * co 1 (fst p)) + co 2 w * (co 0 (fst p) * co 2 (fst p))))))).
      2:{ intros p Hp. rewrite NEW by exact Hp. unfold moment3, co; simpl. ring. }
      rewrite !Lsum_plus, !Lsum_scal, SX, !T0, !TT by lia. simpl. field. exact HC0.
    + rewrite (Lsum_ext _ (fun p => (moment3 1 (fst p) (snd p) + (- co 0 mm * co 2 (fst p) + co 2 mm * co 0 (fst p))) + (- co 1 w * (co 0 (fst p) * co 0 (fst p)) + (- co 1 w * (co 2 (fst p) * co 2 (fst p)) + (co 0 w * (co 0 (fst p) * co 1 (fst p)) + co 2 w * (co 1 (fst p) * co 2 (fst p))))))).
      2:{ intros p Hp. rewrite NEW by exact Hp. unfold moment3, co; simpl. ring. }
      rewrite !Lsum_plus, !Lsum_scal, SX, !T0, !TT by lia. simpl. field. exact HC0.
    + rewrite (Lsum_ext _ (fun p => (moment3 2 (fst p) (snd p) + (- co 1 mm * co 0 (fst p) + co 0 mm * co 1 (fst p))) + (- co 2 w * (co 0 (fst p) * co 0 (fst p)) + (- co 2 w * (co 1 (fst p) * co 1 (fst p)) + (co 0 w * (co 0 (fst p) * co 2 (fst p)) + co 1 w * (co 1 (fst p) * co 2 (fst p))))))).
      2:{ intros p Hp. rewrite NEW by exact Hp. unfold moment3, co; simpl. ring. }
      rewrite !Lsum_plus, !Lsum_scal, SX, !T0, !TT by lia. simpl. field. exact HC0.
Qed.

(** ** what create_Mat_and_Vec builds *)
Lemma flat_map_app_perm {A B} (f g : A -> list B) l : Permutation (flat_map (fun a => f a ++ g a) l) (flat_map f l ++ flat_map g l).
Proof.
  induction l as [|a l IH]; [constructor|]. simpl. rewrite IH, <- !app_assoc. apply Permutation_app_head.
  rewrite !app_assoc. apply Permutation_app_tail. apply Permutation_app_comm.
Qed.
Lemma filter_cut_perm {A B} (t : A -> B -> bool) (bs : list A) l :
  (forall q, In q l -> bsum (fun b => if t b q then 1%Z else 0%Z) bs = 1%Z) -> Permutation (flat_map (fun b => filter (t b) l) bs) l.
Proof.
  induction l as [|q l IH]; intros H.
  - clear H. induction bs; simpl; auto.
  - transitivity (flat_map (fun b => (if t b q then [q] else []) ++ filter (t b) l) bs).
    { apply Permutation_refl'. apply flat_map_ext. intros b. simpl. destruct (t b q); reflexivity. }
    rewrite flat_map_app_perm. rewrite IH by (intros; apply H; right; auto).
    replace (flat_map (fun b => if t b q then [q] else []) bs) with [q]; [reflexivity|].
    specialize (H q (or_introl eq_refl)). clear IH. revert H.
    assert (P : forall bs, exists n, bsum (fun b => if t b q then 1%Z else 0%Z) bs = Z.of_nat n /\ flat_map (fun b => if t b q then [q] else []) bs = repeat q n).
    { clear. induction bs as [|b bs [n [I1 I2]]]; [exists 0%nat; auto|]. change (bsum ?f (b :: bs)) with (f b + bsum f bs)%Z. cbv beta. simpl flat_map. rewrite I1, I2.
      destruct (t b q); [exists (S n)|exists n]; split; try reflexivity; lia. }
    intros H. destruct (P bs) as [n [P1 P2]]. rewrite P2. assert (n = 1%nat) by lia. subst n. reflexivity.
Qed.
Section Create.
  Variables (D : nat) (m : list Z) (per : list bool) (h : vec) (parts : list gpart) (dms : list dmda) (bc : list (option bc_row)) (dpart : R) (scale : Z) (i : nat).
  Hypothesis HG : grid_ok m per.
  Hypothesis HD : distributes m per D dms.
  Hypothesis HDm : length m = D.
  Hypothesis Hh : length h = D.
  Hypothesis Hi : (i < length parts)%nat.
  Let p := gp (nth i parts gpart0).
  Hypothesis Hpb : has_dim D (p_bbox p h).
  Hypothesis Hs : all_len D (p_surface p dpart).
  Let c := create_Mat_and_Vec D h parts dms bc dpart scale.
  Let kept dm := filter (fun q => point_inside Z.ltb (get_DM_bounds dm true) (cell_of h q) && point_inside Z.ltb (p_bbox p h) (cell_of h q)) (p_surface p dpart).

  Lemma mat_nth dm : nth i (snd (local_materials D h parts dpart scale dm)) mat0 = snd (set_material D p (get_DM_bounds dm true) h dpart scale mat0).
  Proof.
    unfold local_materials. rewrite <- (map_length gp parts). rewrite (set_materials_nth D (map gp parts) _ h dpart scale i (gp gpart0)) by (rewrite map_length; exact Hi).
    rewrite map_nth. reflexivity.
  Qed.
  Lemma mats_length dm : length (snd (local_materials D h parts dpart scale dm)) = length parts.
  Proof.
    unfold local_materials. generalize (get_DM_bounds dm true) as b. clear. intros b. induction parts as [|q ps IH]; simpl; [reflexivity|].
    destruct (set_material D (gp q) b h dpart scale mat0) as [n mm]. destruct (set_materials_local D (map gp ps) b h dpart scale (repeat mat0 (length ps))) as [n' ms]. simpl in *. rewrite IH. reflexivity.
  Qed.
  Lemma view_dim dm : In dm dms -> has_dim D (get_DM_bounds dm true).
  Proof.
    intros Hin. destruct HD as [HV _]. rewrite Forall_forall in HV. rewrite <- HDm. apply (view_dims m per D dm (HV dm Hin)). apply HG.
  Qed.
  Lemma kept_spec dm : In dm dms -> let mt := snd (set_material D p (get_DM_bounds dm true) h dpart scale mat0) in
    m_surf mt = map (fun q => (cell_of h q, pos_minus q (pos_times (pos_of_int (cell_of h q)) h))) (kept dm) /\
    m_radial mt = map (fun q => pos_minus q (p_center p)) (kept dm) /\ m_nb mt = Z.of_nat (length (kept dm)).
  Proof.
    intros Hin. pose proof (view_dim dm Hin) as Hb. set (b := get_DM_bounds dm true) in *. unfold kept, set_material. fold b.
    assert (CL : forall q, In q (p_surface p dpart) -> length (cell_of h q) = D).
    { intros q Hq. unfold all_len in Hs. rewrite Forall_forall in Hs. apply cell_of_length; auto. }
    destruct (intersect Z.ltb b (p_bbox p h)) eqn:EI; cbn [snd m_surf m_radial m_nb].
    - rewrite find_surf_points_filter, find_radial_filter, map_length.
      assert (EF : filter (fun q => point_inside Z.ltb (box_inside Z.ltb b (p_bbox p h)) (cell_of h q)) (p_surface p dpart) =
        filter (fun q => point_inside Z.ltb b (cell_of h q) && point_inside Z.ltb (p_bbox p h) (cell_of h q)) (p_surface p dpart)).
      { apply filter_ext_in. intros q Hq. specialize (CL q Hq).
        pose proof (point_inside_grid D b _ Hb CL) as P1. pose proof (point_inside_grid D _ _ Hpb CL) as P2. pose proof (point_inside_grid D _ _ (overlap_dim D _ _ Hb Hpb) CL) as P3.
        pose proof (overlap_grid D b (p_bbox p h) (cell_of h q) Hb Hpb) as P4.
        destruct (point_inside Z.ltb b (cell_of h q)), (point_inside Z.ltb (p_bbox p h) (cell_of h q)), (point_inside Z.ltb (box_inside Z.ltb b (p_bbox p h)) (cell_of h q)); try reflexivity; exfalso; intuition (try discriminate). }
      rewrite EF. auto.
    - assert (EF : filter (fun q => point_inside Z.ltb b (cell_of h q) && point_inside Z.ltb (p_bbox p h) (cell_of h q)) (p_surface p dpart) = []).
      { rewrite <- (filter_ext_in (fun _ => false)).
        - clear. induction (p_surface p dpart); auto.
        - intros q Hq. specialize (CL q Hq). destruct (point_inside Z.ltb b (cell_of h q)) eqn:E1; [|reflexivity]. destruct (point_inside Z.ltb (p_bbox p h) (cell_of h q)) eqn:E2; [|reflexivity].
          apply (point_inside_grid D b _ Hb CL) in E1. apply (point_inside_grid D _ _ Hpb CL) in E2. rewrite (intersect_common_point _ _ _ E1 E2) in EI. discriminate. }
      rewrite EF. auto.
  Qed.
  Lemma x_surf_nth dm : In dm dms -> nth i (x_surf c dm) [] = map (fun q => (cell_of h q, pos_minus q (pos_times (pos_of_int (cell_of h q)) h))) (kept dm).
  Proof. intros Hin. unfold c, create_Mat_and_Vec. cbn [x_surf]. change (@nil (list Z * vec)) with (m_surf mat0). rewrite map_nth, mat_nth. apply (kept_spec dm Hin). Qed.
  Lemma x_radial_nth dm : In dm dms -> nth i (x_radial c dm) [] = map (fun q => pos_minus q (p_center p)) (kept dm).
  Proof. intros Hin. unfold c, create_Mat_and_Vec. cbn [x_radial]. change (@nil vec) with (m_radial mat0). rewrite map_nth, mat_nth. apply (kept_spec dm Hin). Qed.
  Lemma x_nb_spec : x_nb c i = Z.of_nat (length (gathered dms i (x_radial c))).
  Proof.
    unfold c at 1, create_Mat_and_Vec. cbn [x_nb]. rewrite allreduce_bsum, bsum_map. unfold gathered.
    assert (E : forall l, (forall dm, In dm l -> In dm dms) -> bsum (fun dm => m_nb (nth i (snd (local_materials D h parts dpart scale dm)) mat0)) l = Z.of_nat (length (flat_map (fun dm => nth i (x_radial c dm) []) l))).
    { induction l as [|dm l IH]; intros Hl; [reflexivity|]. cbn [flat_map]. rewrite app_length, Nat2Z.inj_add, <- IH by (intros; apply Hl; right; auto).
      assert (Hin : In dm dms) by (apply Hl; left; auto). rewrite x_radial_nth, map_length by exact Hin. change (bsum ?f (dm :: l)) with (f dm + bsum f l)%Z. cbv beta.
      rewrite mat_nth. destruct (kept_spec dm Hin) as (_ & _ & ->). reflexivity. }
    apply E. auto.
  Qed.
  Lemma radial_perm : (forall q, In q (p_surface p dpart) -> in_grid_box (p_bbox p h) (cell_of h q) /\ in_grid_box (cells_box m per) (cell_of h q)) ->
    Permutation (gathered dms i (x_radial c)) (map (fun q => pos_minus q (p_center p)) (p_surface p dpart)).
  Proof.
    intros HC. assert (EG : gathered dms i (x_radial c) = map (fun q => pos_minus q (p_center p)) (flat_map kept dms)).
    { unfold gathered. assert (E : forall l, (forall dm, In dm l -> In dm dms) -> flat_map (fun dm => nth i (x_radial c dm) []) l = map (fun q => pos_minus q (p_center p)) (flat_map kept l)).
      { induction l as [|dm l IH]; intros Hl; [reflexivity|]. cbn [flat_map]. rewrite map_app, <- IH, x_radial_nth by (try (intros; apply Hl; right; assumption); apply Hl; left; auto). reflexivity. }
      apply E. auto. }
    rewrite EG. apply Permutation_map. unfold kept. apply filter_cut_perm. intros q Hq.
    assert (CL : length (cell_of h q) = D). { unfold all_len in Hs. rewrite Forall_forall in Hs. apply cell_of_length; auto. }
    destruct (HC q Hq) as [C1 C2]. assert (HL : length per = length m) by apply HG.
    assert (E2 : point_inside Z.ltb (p_bbox p h) (cell_of h q) = true) by (apply (point_inside_grid D); auto).
    rewrite (bsum_ext _ (fun dm => if inb (get_DM_bounds dm true) (cell_of h q) then 1%Z else 0%Z)) by (intros dm _; rewrite E2, andb_true_r; reflexivity).
    rewrite <- (bsum_map (fun b => if inb b (cell_of h q) then 1%Z else 0%Z) (fun dm => get_DM_bounds dm true)).
    assert (HCD : has_dim D (cells_box m per)). { rewrite <- HDm. apply cells_dim, HL. }
    rewrite (tiling_count _ (cells_box m per) D (cell_of h q)); auto.
    - unfold inb. replace (point_inside Z.ltb (cells_box m per) (cell_of h q)) with true; [reflexivity|]. symmetry. apply (point_inside_grid D); auto.
    - apply (element_boxes_tile m per D dms HL HD).
    - apply Forall_forall. intros b Hb. apply in_map_iff in Hb as [dm [<- Hin]]. apply view_dim, Hin.
  Qed.
End Create.

(** ** interpolation *)
Lemma for_inv {S} n (body : nat -> S -> outcome S) (I : nat -> S -> Prop) s :
  I 0%nat s -> (forall k s, (k < n)%nat -> I k s -> exists s', body k s = Ok s' /\ I (Datatypes.S k) s') -> exists s', for_ n body s = Ok s' /\ I n s'.
Proof.
  intros H0 HS. induction n as [|n IH]; [exists s; auto|].
  destruct IH as (s1 & E1 & I1); [intros; apply HS; auto; lia|]. destruct (HS n s1) as (s2 & E2 & I2); [lia|exact I1|].
  exists s2. split; [|exact I2]. unfold for_ in *. rewrite seq_S, fold_left_app, E1. simpl. exact E2.
Qed.
Lemma co_set_nth k j v (g : vec) : (j < length g)%nat -> co k (set_nth j v g) = if Nat.eqb k j then v else co k g.
Proof.
  unfold co. revert k j. induction g as [|a g IH]; intros k j H; simpl in *; [lia|].
  destruct j, k; simpl; auto. apply IH. lia.
Qed.
Lemma len_set_nth {A} j v (g : list A) : length (set_nth j v g) = length g.
Proof. revert j. induction g; intros [|j]; simpl; auto. Qed.
Lemma vec_ext D (v w : vec) : length v = D -> length w = D -> (forall k, (k < D)%nat -> co k v = co k w) -> v = w.
Proof. intros H1 H2 H. apply (nth_ext v w 0 0); [lia|]. intros k Hk. apply H. lia. Qed.
Lemma co_map_seq (f : nat -> R) D k : (k < D)%nat -> co k (map f (seq 0 D)) = f k.
Proof. intros H. unfold co. apply nth_map_seq, H. Qed.
Lemma interp_acc D nb (rd : nat -> nat -> outcome R) (U : nat -> nat -> R) (b : nat -> R) acc :
  (forall j d, (j < nb)%nat -> (d < D)%nat -> rd j d = Ok (U j d)) -> length acc = D ->
  for_ nb (fun j g => for_ D (fun d g => bind (rd j d) (fun u => Ok (set_nth d (nth d g 0 + u * b j) g))) g) acc
  = Ok (map (fun d => co d acc + Rsum nb (fun j => U j d * b j)) (seq 0 D)).
Proof.
  intros HR HA.
  destruct (for_inv nb (fun j g => for_ D (fun d g => bind (rd j d) (fun u => Ok (set_nth d (nth d g 0 + u * b j) g))) g)
    (fun k g => length g = D /\ forall d, (d < D)%nat -> co d g = co d acc + Rsum k (fun j => U j d * b j)) acc) as (s & E & L & V).
  - split; [exact HA|]. intros d _. simpl. ring.
  - intros k g Hk [Lg Vg].
    destruct (for_inv D (fun d g => bind (rd k d) (fun u => Ok (set_nth d (nth d g 0 + u * b k) g)))
      (fun e g' => length g' = D /\ forall d, (d < D)%nat -> co d g' = co d g + if Nat.ltb d e then U k d * b k else 0) g) as (s & E & L & V).
    + split; [exact Lg|]. intros d _. simpl. ring.
    + intros e g' He [L' V']. rewrite HR by assumption. cbn [bind]. eexists. split; [reflexivity|]. split; [rewrite len_set_nth; exact L'|].
      intros d Hd. rewrite co_set_nth by lia. destruct (Nat.eqb_spec d e) as [->|Hne].
      * change (nth e g' 0) with (co e g'). rewrite V' by exact Hd. rewrite (proj2 (Nat.ltb_ge e e)) by lia. rewrite (proj2 (Nat.ltb_lt e (S e))) by lia. ring.
      * rewrite V' by exact Hd. destruct (Nat.ltb_spec d e), (Nat.ltb_spec d (S e)); try lia; reflexivity.
    + exists s. split; [exact E|]. split; [exact L|]. intros d Hd. rewrite V, Vg by exact Hd. rewrite (proj2 (Nat.ltb_lt d D) Hd). cbn [Rsum]. ring.
  - rewrite E. f_equal. apply (vec_ext D); [exact L|rewrite map_length, seq_length; reflexivity|]. intros k Hk. rewrite co_map_seq by exact Hk. apply V, Hk.
Qed.
Lemma P1_shape D h x : (D = 2 \/ D = 3)%nat -> length h = D -> length x = D -> Forall (fun s => 0 < s) h -> P1_integration x h = map (shape h x) (seq 0 (2 ^ D)).
Proof.
  intros [->| ->] Hh Hx HP.
  - destruct h as [|h0 [|h1 [|]]]; simpl in Hh; try lia. destruct x as [|x0 [|x1 [|]]]; simpl in Hx; try lia.
    inversion HP as [|? ? P0 HP1]; subst. inversion HP1 as [|? ? P1 _]; subst.
    unfold P1_integration, P1_integration2. cbn [map seq Nat.pow Nat.mul Nat.add]. unfold shape. cbn [length seq zip_with fold_right Nat.pow Nat.mul Nat.add].
    repeat match goal with |- context [Nat.odd ?t] => let v := eval vm_compute in (Nat.odd t) in change (Nat.odd t) with v end. cbv iota.
    repeat (apply f_equal2; [field; lra|]). reflexivity.
  - destruct h as [|h0 [|h1 [|h2 [|]]]]; simpl in Hh; try lia. destruct x as [|x0 [|x1 [|x2 [|]]]]; simpl in Hx; try lia.
    inversion HP as [|? ? P0 HP1]; subst. inversion HP1 as [|? ? P1 HP2]; subst. inversion HP2 as [|? ? P2 _]; subst.
    unfold P1_integration, P1_integration3. cbn [map seq Nat.pow Nat.mul Nat.add]. unfold shape. cbn [length seq zip_with fold_right Nat.pow Nat.mul Nat.add].
    repeat match goal with |- context [Nat.odd ?t] => let v := eval vm_compute in (Nat.odd t) in change (Nat.odd t) with v end. cbv iota.
    repeat (apply f_equal2; [field; lra|]). reflexivity.
Qed.
Section Interp.
  Variables (D : nat) (m : list Z) (per : list bool) (h : vec) (dms : list dmda).
  Hypothesis HG : grid_ok m per.
  Hypothesis HD : distributes m per D dms.
  Hypothesis HDm : length m = D.
  Hypothesis HS : steps_ok h m.
  Lemma D23 : (D = 2 \/ D = 3)%nat. Proof. rewrite <- HDm. apply HG. Qed.
  Lemma corner_in_ghost dm e k : In dm dms -> in_grid_box (get_DM_bounds dm true) e -> (k < 2 ^ D)%nat -> in_grid_box (g_ghost dm) (corner e k) /\ near e (corner e k) /\ in_grid_box (cells_box m per) e.
  Proof.
    intros Hin He Hk. destruct HD as [HV _]. rewrite Forall_forall in HV. pose proof (HV dm Hin) as V. assert (HL : length per = length m) by apply HG.
    assert (Hc : in_grid_box (cells_box m per) e) by (apply (bounds_in m per D dm e V HL); exact He).
    assert (Le : length e = D). { rewrite (in_grid_box_len _ _ Hc). unfold cells_box. simpl. rewrite map_length. exact HDm. }
    assert (Hn : near e (corner e k)). { apply get_element_near. rewrite <- get_element_corner; [|rewrite Le; apply D23|rewrite Le; exact Hk]. apply nth_In. rewrite get_element_length, Le; [exact Hk|rewrite Le; apply D23]. }
    split; [|split; assumption]. destruct V as (E1 & E2 & E3 & H1 & H2 & H3 & E4). rewrite E4. unfold get_DM_bounds in He. rewrite E1, E2 in He.
    destruct He as [He1 He2]. simpl in He1, He2. unfold in_grid_box, ghost_box; simpl. apply (ghost_contains _ _ m per e); auto.
  Qed.
  Lemma cell_len dm e : In dm dms -> in_grid_box (get_DM_bounds dm true) e -> length e = D.
  Proof.
    intros Hin He. destruct HD as [HV _]. rewrite Forall_forall in HV. pose proof (HV dm Hin) as V. assert (HL : length per = length m) by apply HG.
    rewrite (in_grid_box_len _ _ (proj2 (proj1 (bounds_in m per D dm e V HL) He))). unfold cells_box. simpl. rewrite map_length. exact HDm.
  Qed.
  Lemma interp_point_ok dm u e x : In dm dms -> in_grid_box (get_DM_bounds dm true) e -> length x = D ->
    interp_surf_point D h (global_to_local dm u) (e, x) = Ok (map (field_at m per h u e x) (seq 0 D)).
  Proof.
    intros Hin He Hx. pose proof (cell_len dm e Hin He) as Le. unfold interp_surf_point. cbn [fst snd].
    destruct HS as [Lh Ph]. rewrite (P1_shape D) by (try exact D23; try exact Ph; lia). rewrite map_length, seq_length.
    rewrite (interp_acc D (2 ^ D) _ (fun j d => gv m per u e j d) (fun j => nth j (map (shape h x) (seq 0 (2 ^ D))) 0)).
    - f_equal. apply map_ext_in. intros d Hd. rewrite co_zero. unfold field_at. rewrite HDm, Rplus_0_l. apply Rsum_ext. intros j Hj. rewrite nth_map_seq by exact Hj. ring.
    - intros j d Hj Hd. rewrite get_element_corner by (rewrite Le; first [apply D23 | exact Hj]). unfold at_read. destruct (corner_in_ghost dm e j Hin He Hj) as (Hg & _).
      unfold global_to_local at 1. cbn [lv_box]. rewrite (point_inside_iff m per D dms HG HD dm _ Hin Hg). unfold global_to_local. cbn [lv_val]. f_equal. unfold gv.
      destruct HD as [HV _]. rewrite Forall_forall in HV. destruct (HV dm Hin) as (E1 & E2 & _). rewrite E1, E2. reflexivity.
    - apply len_zero.
  Qed.
End Interp.
Lemma on_all_map {A B} (f : A -> outcome B) (g : A -> B) l : (forall a, In a l -> f a = Ok (g a)) -> on_all f l = Ok (map g l).
Proof. induction l as [|a l IH]; intros H; [reflexivity|]. simpl. rewrite H by (left; auto). simpl. rewrite IH by (intros; apply H; right; auto). reflexivity. Qed.
(** what the operators need of a context *)
Definition ctx_ok (m : list Z) (per : list bool) (c : pctx) : Prop :=
  grid_ok m per /\ length m = x_D c /\ distributes m per (x_D c) (x_dms c) /\ steps_ok (x_h c) m /\
  forall dm spts sp, In dm (x_dms c) -> In spts (x_surf c dm) -> In sp spts -> in_grid_box (get_DM_bounds dm true) (fst sp) /\ length (snd sp) = x_D c.
Lemma interp_ok m per c u dm : ctx_ok m per c -> In dm (x_dms c) ->
  interp_fluid_to_surf c false u dm = Ok (map (map (fun sp => map (field_at m per (x_h c) u (fst sp) (snd sp)) (seq 0 (x_D c)))) (x_surf c dm)).
Proof.
  intros (HG & HDm & HD & HS & HC) Hin. unfold interp_fluid_to_surf.
  rewrite (on_all_map _ (map (fun sp => map (field_at m per (x_h c) u (fst sp) (snd sp)) (seq 0 (x_D c))))); [reflexivity|].
  intros spts Hs. apply on_all_map. intros [e x] Hsp. destruct (HC dm spts (e, x) Hin Hs Hsp) as [He Hx]. cbn [fst snd] in *.
  apply (interp_point_ok (x_D c) m per (x_h c) (x_dms c)); assumption.
Qed.

(** ** spreading *)
Lemma flat_map_one {A B} (f : A -> B) l : flat_map (fun a => [f a]) l = map f l.
Proof. induction l; simpl; congruence. Qed.
Definition ptc (D : nat) (h : vec) (gm : R) (sp : list Z * vec) (g : vec) : list contrib :=
  flat_map (fun j => map (fun d => (nth j (get_element (fst sp)) [], d, nth d g 0 * nth j (P1_integration (snd sp) h) 0 * gm)) (seq 0 D)) (seq 0 (length (P1_integration (snd sp) h))).
Lemma SL_point_runs D h gm sp g y : SL_point D h gm sp g y = runs step1 y (ptc D h gm sp g).
Proof.
  unfold SL_point, ptc. apply for_runs. intros j y' _.
  rewrite (for_runs step1 D _ (fun d => [(nth j (get_element (fst sp)) [], d, nth d g 0 * nth j (P1_integration (snd sp) h) 0 * gm)])).
  - rewrite flat_map_one. reflexivity.
  - intros d y'' _. reflexivity.
Qed.
Definition CS (c : pctx) (g : dmda -> list (list vec)) (dm : dmda) : list contrib :=
  flat_map (fun i => flat_map (fun k => match nth_error (nth i (x_surf c dm) []) k, nth_error (nth i (g dm) []) k with
      | Some sp, Some gk => ptc (x_D c) (x_h c) (gamma c i) sp gk | _, _ => [] end) (seq 0 (length (nth i (x_surf c dm) [])))) (seq 0 (length (g dm))).
Lemma same_shape_nth {A B} (l : list (list A)) (l' : list (list B)) i : same_shape l l' -> length (nth i l []) = length (nth i l' []).
Proof. intros H. revert i. induction H; intros [|i]; simpl; auto. Qed.
Lemma SL_local_runs c g dm : same_shape (x_surf c dm) (g dm) -> SL_local c (g dm) dm = runs step1 (fill0 dm) (CS c g dm).
Proof.
  intros H. unfold SL_local, CS. apply for_runs. intros i y _. apply for_runs. intros k y' Hk. pose proof (same_shape_nth _ _ i H) as HL.
  destruct (nth_error (nth i (x_surf c dm) []) k) as [sp|] eqn:E1; [|apply nth_error_None in E1; lia].
  destruct (nth_error (nth i (g dm) []) k) as [gk|] eqn:E2; [|apply nth_error_None in E2; lia]. apply SL_point_runs.
Qed.
Lemma Lsum_match {A B} (F : A -> B -> R) (l : list A) : forall (l' : list B), length l = length l' ->
  Lsum (fun k => match nth_error l k, nth_error l' k with Some a, Some b => F a b | _, _ => 0 end) (seq 0 (length l)) = Lsum (fun p => F (fst p) (snd p)) (combine l l').
Proof.
  induction l as [|a l IH]; intros [|b l'] H; simpl in H; try lia; [reflexivity|]. cbn [length seq combine]. rewrite !Lsum_cons. cbn [nth_error fst snd].
  f_equal. rewrite <- seq_shift, Lsum_map. cbn [nth_error]. apply IH. lia.
Qed.
Lemma Lsum_if_nil {A B C} (F : C -> R) (t : option A) (t' : option B) (f : A -> B -> list C) :
  Lsum F (match t, t' with Some a, Some b => f a b | _, _ => [] end) = match t, t' with Some a, Some b => Lsum F (f a b) | _, _ => 0 end.
Proof. destruct t, t'; reflexivity. Qed.
Lemma dotp_co D (u v : vec) : length u = D -> length v = D -> dotp u v = Rsum D (fun d => co d u * co d v).
Proof.
  intros Hu Hv. rewrite <- Lsum_seq. revert D v Hu Hv. induction u as [|a u IH]; intros D [|b v] Hu Hv; simpl in *; subst; try lia; [reflexivity|].
  unfold dotp in *. cbn [zip_with fold_right]. injection Hv as Hv. cbn [length seq]. rewrite Lsum_cons. cbn [co nth]. f_equal. rewrite (IH (length u) v eq_refl Hv), <- seq_shift, Lsum_map. reflexivity.
Qed.
Lemma SL_raw_ok m per c (g : dmda -> list (list vec)) : ctx_ok m per c -> (forall dm, In dm (x_dms c) -> same_shape (x_surf c dm) (g dm) /\ Forall (all_len (x_D c)) (g dm)) ->
  exists y, SL_to_Rhs_raw c g = Ok y /\ forall u N, enumerates N (nodes_box m) ->
    inner N (x_D c) y u = Lsum (fun dm => Lsum (fun i => gamma c i * Lsum (fun gI => dotp (fst gI) (snd gI))
      (combine (nth i (g dm) []) (nth i (map (map (fun sp => map (field_at m per (x_h c) u (fst sp) (snd sp)) (seq 0 (x_D c)))) (x_surf c dm)) []))) (seq 0 (length (g dm)))) (x_dms c).
Proof.
  intros OK Hg. pose proof OK as (HG & HDm & HD & HS & HC).
  assert (HCS : forall dm ct, In dm (x_dms c) -> In ct (CS c g dm) -> in_grid_box (g_ghost dm) (fst (fst ct)) /\ (snd (fst ct) < x_D c)%nat /\ exists e, in_grid_box (cells_box m per) e /\ near e (fst (fst ct))).
  { intros dm ct Hin Hct. apply in_flat_map in Hct as [i [_ Hct]]. apply in_flat_map in Hct as [k [_ Hct]].
    destruct (nth_error (nth i (x_surf c dm) []) k) as [sp|] eqn:E1; [|destruct Hct]. destruct (nth_error (nth i (g dm) []) k) as [gk|] eqn:E2; [|destruct Hct].
    unfold ptc in Hct. apply in_flat_map in Hct as [j [Hj Hct]]. apply in_map_iff in Hct as [d [<- Hd]]. cbn [fst snd].
    apply nth_error_In in E1. assert (Hi : In (nth i (x_surf c dm) []) (x_surf c dm)). { destruct (nth_in_or_default i (x_surf c dm) []) as [H|H]; [exact H|]. rewrite H in E1. inversion E1. }
    destruct (HC dm _ sp Hin Hi E1) as [He Hx]. apply in_seq in Hd, Hj. destruct HS as [Lh Ph].
    rewrite (P1_shape (x_D c)) in Hj by (try (rewrite <- HDm; apply HG); try assumption; lia). rewrite map_length, seq_length in Hj.
    pose proof (cell_len (x_D c) m per (x_dms c) HG HD HDm dm _ Hin He) as Le.
    rewrite get_element_corner by (rewrite Le; first [rewrite <- HDm; apply HG | lia]).
    destruct (corner_in_ghost (x_D c) m per (x_dms c) HG HD HDm dm (fst sp) j Hin He) as (G1 & G2 & G3); [lia|]. split; [exact G1|]. split; [lia|]. exists (fst sp). auto. }
  unfold SL_to_Rhs_raw.
  destruct (on_all_ok (fun dm => SL_local c (g dm) dm) (fun dm y => lv_box y = g_ghost dm /\ forall q d, lv_val y q d = Lsum (hits q d) (CS c g dm)) (x_dms c)) as [ys [Ey Hy]].
  { intros dm Hin. rewrite SL_local_runs by (apply Hg, Hin). destruct (runs1_ok (CS c g dm) (fill0 dm)) as (y' & R1 & R2 & R3 & R4).
    { rewrite Forall_forall. intros ct Hct. simpl. apply (point_inside_iff m per (x_D c) (x_dms c) HG HD dm); auto. apply (HCS dm ct Hin Hct). }
    exists y'. split; [exact R1|]. split; [exact R2|]. intros q d. rewrite R4. simpl. unfold zeros. ring. }
  rewrite Ey. cbn [bind]. eexists. split; [reflexivity|]. intros u N [HN HN'].
  assert (EV : forall n d, local_to_global_add (x_dms c) ys zeros n d = Lsum (fun dm => Lsum (hitsw m per n d) (CS c g dm)) (x_dms c)).
  { apply (l2g_strong m per (x_D c) (x_dms c) HG HD (CS c g) ys); [|exact Hy]. intros dm Hin. rewrite Forall_forall. intros ct Hct. apply (HCS dm ct Hin Hct). }
  unfold inner.
  transitivity (Lsum (fun n => Lsum (fun dm => Lsum (fun ct => Rsum (x_D c) (fun d => hitsw m per n d ct * u n d)) (CS c g dm)) (x_dms c)) N).
  { apply Lsum_ext. intros n _. transitivity (Rsum (x_D c) (fun d => Lsum (fun dm => Lsum (fun ct => hitsw m per n d ct * u n d) (CS c g dm)) (x_dms c))).
    - apply Rsum_ext. intros d _. rewrite EV, <- Lsum_scal_r. apply Lsum_ext. intros dm _. rewrite <- Lsum_scal_r. reflexivity.
    - rewrite <- Lsum_Rsum. apply Lsum_ext. intros dm _. rewrite Lsum_Rsum. reflexivity. }
  rewrite Lsum_swap. apply Lsum_ext. intros dm Hin. rewrite Lsum_swap.
  transitivity (Lsum (fun ct : contrib => snd ct * u (wrap m per (fst (fst ct))) (snd (fst ct))) (CS c g dm)).
  { apply Lsum_ext. intros ct Hct. destruct (HCS dm ct Hin Hct) as (_ & Hd & e & He & Hn).
    assert (Hw : In (wrap m per (fst (fst ct))) N). { apply HN'. eapply wrap_in_nodes; eauto; apply HG. }
    rewrite <- (Lsum_pick (list_eq_dec Z.eq_dec) (wrap m per (fst (fst ct))) (fun n => snd ct * u n (snd (fst ct))) N HN Hw).
    apply Lsum_ext. intros n _. unfold hitsw, same_node.
    destruct (list_eq_dec Z.eq_dec (wrap m per (fst (fst ct))) n) as [<-|Hne]; simpl.
    - rewrite <- (Rsum_pick (x_D c) (snd (fst ct)) (fun d => snd ct * u (wrap m per (fst (fst ct))) d) Hd).
      apply Rsum_ext. intros d _. destruct (Nat.eqb _ d); ring.
    - transitivity (Rsum (x_D c) (fun _ => 0)); [|apply Rsum_zero]. apply Rsum_ext. intros d _. ring. }
  unfold CS. rewrite Lsum_flat_map. apply Lsum_ext. intros i Hi. rewrite Lsum_flat_map.
  destruct (Hg dm Hin) as [HSh HLen]. pose proof (same_shape_nth _ _ i HSh) as HL.
  set (FI := fun sp => map (field_at m per (x_h c) u (fst sp) (snd sp)) (seq 0 (x_D c))).
  assert (EN : nth i (map (map FI) (x_surf c dm)) [] = map FI (nth i (x_surf c dm) [])) by (change (@nil (list R)) with (map FI []); rewrite map_nth; reflexivity).
  rewrite EN.
  rewrite (Lsum_ext _ (fun k => match nth_error (nth i (x_surf c dm) []) k, nth_error (nth i (g dm) []) k with Some sp, Some gk => gamma c i * dotp gk (FI sp) | _, _ => 0 end)).
  - rewrite (Lsum_match (fun sp gk => gamma c i * dotp gk (FI sp)) (nth i (x_surf c dm) []) (nth i (g dm) []) HL). rewrite Lsum_scal. f_equal.
    revert HL. generalize (nth i (x_surf c dm) []) (nth i (g dm) []). intros l1. induction l1 as [|a l1 IH]; intros [|b l2] HL; simpl in HL; try lia; [reflexivity|]. cbn [combine map]. rewrite !Lsum_cons. cbn [fst snd]. f_equal. apply IH. lia.
  - intros k Hk. rewrite Lsum_if_nil. destruct (nth_error (nth i (x_surf c dm) []) k) as [sp|] eqn:E1; [|reflexivity]. destruct (nth_error (nth i (g dm) []) k) as [gk|] eqn:E2; [|reflexivity].
    apply nth_error_In in E1, E2.
    assert (Hi1 : In (nth i (x_surf c dm) []) (x_surf c dm)). { destruct (nth_in_or_default i (x_surf c dm) []) as [H|H]; [exact H|]. rewrite H in E1. inversion E1. }
    assert (Hi2 : In (nth i (g dm) []) (g dm)). { destruct (nth_in_or_default i (g dm) []) as [H|H]; [exact H|]. rewrite H in E2. inversion E2. }
    destruct (HC dm _ sp Hin Hi1 E1) as [He Hx]. destruct HS as [Lh Ph].
    assert (Lg : length gk = x_D c). { rewrite Forall_forall in HLen. specialize (HLen _ Hi2). unfold all_len in HLen. rewrite Forall_forall in HLen. apply HLen, E2. }
    pose proof (cell_len (x_D c) m per (x_dms c) HG HD HDm dm _ Hin He) as Le.
    unfold ptc. rewrite (P1_shape (x_D c)) by (try (rewrite <- HDm; apply HG); try assumption; lia). rewrite map_length, seq_length, Lsum_flat_map.
    rewrite (dotp_co (x_D c)) by (try exact Lg; unfold FI; rewrite map_length, seq_length; reflexivity).
    rewrite Lsum_seq. rewrite <- Rsum_scal.
    rewrite (Rsum_ext (2 ^ x_D c) _ (fun j => Rsum (x_D c) (fun d => gamma c i * (co d gk * (shape (x_h c) (snd sp) j * gv m per u (fst sp) j d))))).
    2:{ intros j Hj. rewrite Lsum_map, Lsum_seq. apply Rsum_ext. intros d Hd. cbn [fst snd]. rewrite nth_map_seq by exact Hj.
        rewrite get_element_corner by (rewrite Le; first [rewrite <- HDm; apply HG | exact Hj]). unfold gv, co. ring. }
    rewrite Rsum_swap. apply Rsum_ext. intros d Hd. unfold FI. rewrite co_map_seq by exact Hd. unfold field_at. rewrite HDm, <- !Rsum_scal. reflexivity.
Qed.

(** ** rigid motions *)
Lemma gathered_map {A B} dms i (r : dmda -> list (list A)) (g : dmda -> list (list B)) f :
  (forall dm, In dm dms -> (i < length (g dm))%nat /\ nth i (g dm) [] = map f (nth i (r dm) [])) ->
  matching dms i r g /\ gathered dms i g = map f (gathered dms i r).
Proof.
  intros H. split.
  - intros dm Hin. destruct (H dm Hin) as [H1 H2]. split; [exact H1|]. rewrite H2, map_length. reflexivity.
  - unfold gathered. induction dms as [|dm dms IH]; [reflexivity|]. cbn [flat_map]. rewrite map_app, (proj2 (H dm (or_introl eq_refl))), IH by (intros; apply H; right; assumption). reflexivity.
Qed.
Lemma combine_map_r {A B} (f : A -> B) l : combine l (map f l) = map (fun a => (a, f a)) l.
Proof. induction l; simpl; congruence. Qed.
Lemma rigid_removed2 c (g : dmda -> list (list vec)) i Rr v w : x_D c = 2%nat ->
  (forall dm, In dm (x_dms c) -> (i < length (g dm))%nat /\ nth i (g dm) [] = map (rigid2 v w) (nth i (x_radial c dm) [])) -> length v = 2%nat ->
  let rs := gathered (x_dms c) i (x_radial c) in
  all_len 2 rs -> x_nb c i = Z.of_nat (length rs) -> rs <> [] ->
  total 0 rs = 0 -> total 1 rs = 0 -> Lsum (fun r => co 0 r * co 0 r + co 1 r * co 1 r) rs = INR (length rs) * (Rr * Rr) -> Rr <> 0 ->
  gp_Cd_R (nth i (x_parts c) gpart0) = 1 / (Rr * Rr) ->
  sl_mean c g i = v /\ sl_cross c g i = [w] /\ Forall (eq [0; 0]) (gathered (x_dms c) i (fst (fst (simple_layer c g)))).
Proof.
  intros ED HR Lv rs Hr Hnb Hne R0 R1 RR HR0 HC. destruct (gathered_map _ _ _ _ _ HR) as [HM EG].
  assert (HD : 2%nat = 2%nat \/ 2%nat = 3%nat) by (left; reflexivity).
  assert (Hg : all_len 2 (gathered (x_dms c) i g)). { rewrite EG. apply Forall_forall. intros u Hu. apply in_map_iff in Hu as [r [<- _]]. reflexivity. }
  destruct (sl_mean_spec c g i 2 ED Hg) as [Lm Cm]. destruct (sl_cross_spec c g i 2 ED HM Hr Hg HD) as [Lc Cc].
  destruct (new_gathered c g i _ ED HM HD) as [G1 _]. rewrite G1. fold rs in G1, Cm, Cc, EG |- *. rewrite EG, combine_map_r in *.
  assert (HN : INR (length rs) <> 0). { apply not_0_INR. destruct rs; [congruence|simpl; lia]. }
  rewrite Hnb, <- INR_IZR_INZ in Cm, Cc. set (N := INR (length rs)) in *.
  assert (EM : sl_mean c g i = v).
  { rewrite (list2 _ Lm), (list2 _ Lv). unfold total in *. rewrite !Cm, !Lsum_map.
    rewrite (Lsum_ext (fun a => co 0 (rigid2 v w a)) (fun a => co 0 v + - w * co 1 a)) by (intros; unfold rigid2, co; simpl; ring).
    rewrite (Lsum_ext (fun a => co 1 (rigid2 v w a)) (fun a => co 1 v + w * co 0 a)) by (intros; unfold rigid2, co; simpl; ring).
    rewrite !Lsum_plus, !Lsum_scal, R0, R1, !Lsum_const. fold N. apply f_equal2; [field; exact HN|]. apply f_equal2; [field; exact HN|reflexivity]. }
  assert (EC : sl_cross c g i = [w]).
  { rewrite (list1 _ Lc), Cc, HC, Lsum_map. apply f_equal2; [|reflexivity]. cbn [fst snd].
    rewrite (Lsum_ext _ (fun r => (co 1 v * co 0 r + - co 0 v * co 1 r) + w * (co 0 r * co 0 r + co 1 r * co 1 r))).
    - unfold total in *. rewrite !Lsum_plus, !Lsum_scal, R0, R1, RR. fold N. field. split; assumption.
    - intros r Hin. unfold all_len in Hr. rewrite Forall_forall in Hr. rewrite cross_vv2 by (try apply Hr, Hin; reflexivity). unfold moment2, rigid2, co; simpl. ring. }
  split; [exact EM|]. split; [exact EC|]. apply Forall_forall. intros x Hx. apply in_map_iff in Hx as [p [<- Hp]]. apply in_map_iff in Hp as [r [<- Hin]].
  unfold all_len in Hr. rewrite Forall_forall in Hr. specialize (Hr r Hin). unfold sl_new. rewrite EM, EC. cbn [fst snd]. rewrite cross_sv2 by exact Hr. clear - Lv. destruct v as [|v0 [|v1 [|]]]; try discriminate.
  unfold vec_sub_assign, vec_plus, rigid2. cbn. apply f_equal2; [ring|]. apply f_equal2; [ring|reflexivity].
Qed.
Lemma rigid_removed3 c (g : dmda -> list (list vec)) i C v w : x_D c = 3%nat ->
  (forall dm, In dm (x_dms c) -> (i < length (g dm))%nat /\ nth i (g dm) [] = map (rigid3 v w) (nth i (x_radial c dm) [])) -> length v = 3%nat -> length w = 3%nat ->
  let rs := gathered (x_dms c) i (x_radial c) in
  all_len 3 rs -> x_nb c i = Z.of_nat (length rs) -> rs <> [] ->
  (forall k, (k < 3)%nat -> total k rs = 0) ->
  (forall a b, (a < 3)%nat -> (b < 3)%nat -> Lsum (fun r => co a r * co b r) rs = if Nat.eqb a b then INR (length rs) / (2 * C) else 0) -> C <> 0 ->
  gp_Cd_R (nth i (x_parts c) gpart0) = C ->
  sl_mean c g i = v /\ sl_cross c g i = w /\ Forall (eq [0; 0; 0]) (gathered (x_dms c) i (fst (fst (simple_layer c g)))).
Proof.
  intros ED HR Lv Lw rs Hr Hnb Hne R0 RR HR0 HC. destruct (gathered_map _ _ _ _ _ HR) as [HM EG].
  assert (HD : 3%nat = 2%nat \/ 3%nat = 3%nat) by (right; reflexivity).
  assert (Hg : all_len 3 (gathered (x_dms c) i g)). { rewrite EG. apply Forall_forall. intros u Hu. apply in_map_iff in Hu as [r [<- _]]. reflexivity. }
  destruct (sl_mean_spec c g i 3 ED Hg) as [Lm Cm]. destruct (sl_cross_spec c g i 3 ED HM Hr Hg HD) as [Lc Cc].
  destruct (new_gathered c g i _ ED HM HD) as [G1 _]. rewrite G1. fold rs in G1, Cm, Cc, EG |- *. rewrite EG, combine_map_r in *.
  assert (HN : INR (length rs) <> 0). { apply not_0_INR. destruct rs; [congruence|simpl; lia]. }
  rewrite Hnb, <- INR_IZR_INZ in Cm, Cc. set (N := INR (length rs)) in *. unfold total in *.
  assert (EM : sl_mean c g i = v).
  { rewrite (list3 _ Lm), (list3 _ Lv). rewrite !Cm, !Lsum_map.
    rewrite (Lsum_ext (fun a => co 0 (rigid3 v w a)) (fun a => co 0 v + (co 1 w * co 2 a + - co 2 w * co 1 a))) by (intros; unfold rigid3, co; simpl; ring).
    rewrite (Lsum_ext (fun a => co 1 (rigid3 v w a)) (fun a => co 1 v + (co 2 w * co 0 a + - co 0 w * co 2 a))) by (intros; unfold rigid3, co; simpl; ring).
    rewrite (Lsum_ext (fun a => co 2 (rigid3 v w a)) (fun a => co 2 v + (co 0 w * co 1 a + - co 1 w * co 0 a))) by (intros; unfold rigid3, co; simpl; ring).
    rewrite !Lsum_plus, !Lsum_scal, !R0, !Lsum_const by lia. fold N. repeat (apply f_equal2; [field; exact HN|]). reflexivity. }
  assert (EC : sl_cross c g i = w).
  { rewrite (list3 _ Lc), (list3 _ Lw). rewrite !Cc, HC, !Lsum_map. cbn [fst snd].
    assert (CV : forall r, In r rs -> cross_vv r (rigid3 v w r) = [moment3 0 r (rigid3 v w r); moment3 1 r (rigid3 v w r); moment3 2 r (rigid3 v w r)]).
    { intros r Hin. unfold all_len in Hr. rewrite Forall_forall in Hr. apply cross_vv3; [apply Hr, Hin|reflexivity]. }
    apply f_equal2; [|apply f_equal2; [|apply f_equal2; [|reflexivity]]].
    - rewrite (Lsum_ext _ (fun r => (co 2 v * co 1 r + - co 1 v * co 2 r) + (co 0 w * (co 1 r * co 1 r) + (co 0 w * (co 2 r * co 2 r) + (- co 1 w * (co 0 r * co 1 r) + - co 2 w * (co 0 r * co 2 r)))))) by (intros r Hin; rewrite CV by exact Hin; unfold moment3, rigid3, co; simpl; ring).
      rewrite !Lsum_plus, !Lsum_scal, !R0, !RR by lia. simpl. field. split; assumption.
    - rewrite (Lsum_ext _ (fun r => (co 0 v * co 2 r + - co 2 v * co 0 r) + (co 1 w * (co 0 r * co 0 r) + (co 1 w * (co 2 r * co 2 r) + (- co 0 w * (co 0 r * co 1 r) + - co 2 w * (co 1 r * co 2 r)))))) by (intros r Hin; rewrite CV by exact Hin; unfold moment3, rigid3, co; simpl; ring).
      rewrite !Lsum_plus, !Lsum_scal, !R0, !RR by lia. simpl. field. split; assumption.
    - rewrite (Lsum_ext _ (fun r => (co 1 v * co 0 r + - co 0 v * co 1 r) + (co 2 w * (co 0 r * co 0 r) + (co 2 w * (co 1 r * co 1 r) + (- co 0 w * (co 0 r * co 2 r) + - co 1 w * (co 1 r * co 2 r)))))) by (intros r Hin; rewrite CV by exact Hin; unfold moment3, rigid3, co; simpl; ring).
      rewrite !Lsum_plus, !Lsum_scal, !R0, !RR by lia. simpl. field. split; assumption. }
  split; [exact EM|]. split; [exact EC|]. apply Forall_forall. intros x Hx. apply in_map_iff in Hx as [p [<- Hp]]. apply in_map_iff in Hp as [r [<- Hin]].
  unfold all_len in Hr. rewrite Forall_forall in Hr. specialize (Hr r Hin). unfold sl_new. rewrite EM, EC. cbn [fst snd]. rewrite cross_sv3 by assumption. clear - Lv. destruct v as [|v0 [|v1 [|v2 [|]]]]; try discriminate.
  unfold vec_sub_assign, vec_plus, rigid3, moment3. cbn. repeat (apply f_equal2; [ring|]). reflexivity.
Qed.

(** ** exactness of the interpolation *)
Lemma shape_sum D h x : (D = 2 \/ D = 3)%nat -> length h = D -> length x = D -> Rsum (2 ^ D) (shape h x) = 1.
Proof.
  intros [->| ->] Hh Hx.
  - destruct h as [|h0 [|h1 [|]]]; simpl in Hh; try lia. destruct x as [|x0 [|x1 [|]]]; simpl in Hx; try lia.
    cbn [Rsum Nat.pow Nat.mul Nat.add]. unfold shape. cbn [length seq zip_with fold_right Nat.pow Nat.mul Nat.add].
    repeat match goal with |- context [Nat.odd ?t] => let v := eval vm_compute in (Nat.odd t) in change (Nat.odd t) with v end. cbv iota. ring.
  - destruct h as [|h0 [|h1 [|h2 [|]]]]; simpl in Hh; try lia. destruct x as [|x0 [|x1 [|x2 [|]]]]; simpl in Hx; try lia.
    cbn [Rsum Nat.pow Nat.mul Nat.add]. unfold shape. cbn [length seq zip_with fold_right Nat.pow Nat.mul Nat.add].
    repeat match goal with |- context [Nat.odd ?t] => let v := eval vm_compute in (Nat.odd t) in change (Nat.odd t) with v end. cbv iota. ring.
Qed.
Lemma field_at_const m per h e x (f : nat -> R) d : (length m = 2 \/ length m = 3)%nat -> length h = length m -> length x = length m ->
  field_at m per h (fun _ => f) e x d = f d.
Proof.
  intros HD Hh Hx. unfold field_at, gv. rewrite (Rsum_ext _ _ (fun k => f d * shape h x k)) by (intros; ring).
  rewrite Rsum_scal, shape_sum by assumption. ring.
Qed.
Lemma field_at_affine m per h e x a b d : (length m = 2 \/ length m = 3)%nat -> per = repeat false (length m) -> length h = length m -> Forall (fun s => 0 < s) h -> length x = length m -> length e = length m ->
  field_at m per h (affine_field h a b) e x d =
  a d + Rsum (length m) (fun j => b d j * (IZR (nth j e 0%Z) * co j h + co j x)).
Proof.
  intros HD -> Hh HP Hx He. unfold field_at.
  destruct HD as [E|E]; rewrite E in *.
  - destruct m as [|m0 [|m1 [|]]]; simpl in E; try lia. destruct h as [|h0 [|h1 [|]]]; simpl in Hh; try lia. destruct x as [|x0 [|x1 [|]]]; simpl in Hx; try lia. destruct e as [|e0 [|e1 [|]]]; simpl in He; try lia.
    inversion HP as [|? ? P0 HP1]; subst. inversion HP1 as [|? ? P1 _]; subst.
    cbn [Rsum Nat.pow Nat.mul Nat.add repeat]. unfold shape, gv, corner, affine_field. cbn [length seq zip_with fold_right Nat.pow Nat.mul Nat.add wrap map].
    repeat match goal with |- context [Nat.odd ?t] => let v := eval vm_compute in (Nat.odd t) in change (Nat.odd t) with v end. cbv iota.
    repeat match goal with |- context [Z.of_nat ?t] => let v := eval vm_compute in (Z.of_nat t) in change (Z.of_nat t) with v end. cbn [wrap length seq zip_with fold_right].
    unfold co. cbn [nth]. rewrite ?plus_IZR. field. lra.
  - destruct m as [|m0 [|m1 [|m2 [|]]]]; simpl in E; try lia. destruct h as [|h0 [|h1 [|h2 [|]]]]; simpl in Hh; try lia. destruct x as [|x0 [|x1 [|x2 [|]]]]; simpl in Hx; try lia. destruct e as [|e0 [|e1 [|e2 [|]]]]; simpl in He; try lia.
    inversion HP as [|? ? P0 HP1]; subst. inversion HP1 as [|? ? P1 HP2]; subst. inversion HP2 as [|? ? P2 _]; subst.
    cbn [Rsum Nat.pow Nat.mul Nat.add repeat]. unfold shape, gv, corner, affine_field. cbn [length seq zip_with fold_right Nat.pow Nat.mul Nat.add wrap map].
    repeat match goal with |- context [Nat.odd ?t] => let v := eval vm_compute in (Nat.odd t) in change (Nat.odd t) with v end. cbv iota.
    repeat match goal with |- context [Z.of_nat ?t] => let v := eval vm_compute in (Z.of_nat t) in change (Z.of_nat t) with v end. cbn [wrap length seq zip_with fold_right].
    unfold co. cbn [nth]. rewrite ?plus_IZR. field. lra.
Qed.

Lemma create_ctx_ok D m per h parts dms bc dpart scale : grid_ok m per -> length m = D -> distributes m per D dms -> steps_ok h m ->
  (forall p, In p parts -> has_dim D (p_bbox (gp p) h) /\ all_len D (p_surface (gp p) dpart) /\ length (p_center (gp p)) = D) ->
  let c := create_Mat_and_Vec D h parts dms bc dpart scale in
  ctx_ok m per c /\ forall dm, In dm dms -> same_shape (x_surf c dm) (x_radial c dm) /\ length (x_surf c dm) = length parts /\ Forall (all_len D) (x_radial c dm).
Proof.
  intros HG Hm HD HS HP c. assert (Lh : length h = D) by (destruct HS as [H _]; lia).
  assert (LS : forall dm, length (x_surf c dm) = length parts) by (intros dm; unfold c; cbn; rewrite map_length; apply mats_length; auto).
  assert (LR : forall dm, length (x_radial c dm) = length parts) by (intros dm; unfold c; cbn; rewrite map_length; apply mats_length; auto).
  assert (HPn : forall i, (i < length parts)%nat -> has_dim D (p_bbox (gp (nth i parts gpart0)) h) /\ all_len D (p_surface (gp (nth i parts gpart0)) dpart)) by (intros i Hi; destruct (HP _ (nth_In _ gpart0 Hi)) as (A & B & _); auto).
  split.
  - split; [exact HG|]. split; [exact Hm|]. split; [exact HD|]. split; [exact HS|]. intros dm spts sp Hin Hs Hsp. change (x_dms c) with dms in Hin. change (x_D c) with D.
    destruct (In_nth _ _ [] Hs) as [i [Hi <-]]. rewrite LS in Hi. destruct (HPn i Hi) as [H1 H2].
    unfold c in Hsp. rewrite (x_surf_nth D m per h parts dms bc dpart scale i HG HD Hm Lh Hi H1 H2 dm Hin) in Hsp.
    apply in_map_iff in Hsp as [q [<- Hq]]. cbn [fst snd]. apply filter_In in Hq as [Hq1 Hq2]. apply andb_prop in Hq2 as [Hq2 _].
    unfold all_len in H2. rewrite Forall_forall in H2. specialize (H2 q Hq1). assert (CL : length (cell_of h q) = D) by (apply cell_of_length; auto).
    split.
    + apply (point_inside_grid D); auto. eapply view_dim; eauto.
    + unfold pos_minus, pos_sub_assign. rewrite zip_length; [exact H2|]. unfold pos_times, pos_mul_assign. rewrite zip_length; unfold pos_of_int; rewrite ?map_length; lia.
  - intros dm Hin. split; [|split; [apply LS|]].
    + unfold same_shape. apply (Forall2_nth_iff _ _ _ [] []). split; [rewrite LS, LR; reflexivity|]. intros i Hi. rewrite LS in Hi. destruct (HPn i Hi) as [H1 H2].
      unfold c. rewrite (x_surf_nth D m per h parts dms bc dpart scale i HG HD Hm Lh Hi H1 H2 dm Hin), (x_radial_nth D m per h parts dms bc dpart scale i HG HD Hm Lh Hi H1 H2 dm Hin), !map_length. reflexivity.
    + apply Forall_forall. intros rs Hrs. destruct (In_nth _ _ (@nil vec) Hrs) as [i [Hi <-]]. rewrite LR in Hi. destruct (HPn i Hi) as [H1 H2].
      unfold c. rewrite (x_radial_nth D m per h parts dms bc dpart scale i HG HD Hm Lh Hi H1 H2 dm Hin). apply Forall_forall. intros v Hv. apply in_map_iff in Hv as [q [<- Hq]].
      apply filter_In in Hq as [Hq _]. unfold all_len in H2. rewrite Forall_forall in H2. specialize (H2 q Hq).
      unfold pos_minus, pos_sub_assign. rewrite zip_length; [exact H2|]. rewrite H2. symmetry. apply HP, nth_In, Hi.
Qed.
