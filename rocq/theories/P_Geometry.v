From Verif Require Import Base M_Geometry S_Geometry.

(** ** generic Forall2 facts *)
Lemma Forall2_nth_iff {A B} (R : A -> B -> Prop) l m da db :
  Forall2 R l m <-> length l = length m /\ forall i, i < length l -> R (nth i l da) (nth i m db).
Proof.
  split.
  - induction 1 as [|a b l m H H2 [IHl IHr]]; simpl; split; try lia.
    intros [|i] Hi; simpl; auto. apply IHr; lia.
  - revert m; induction l as [|a l IH]; intros [|b m] [H1 H2]; simpl in *; try lia; constructor.
    + apply (H2 0); lia.
    + apply IH; split; [lia|]. intros i Hi; apply (H2 (S i)); lia.
Qed.

Lemma Forall2_len {A B} (R : A -> B -> Prop) l m : Forall2 R l m -> length l = length m.
Proof. induction 1; simpl; congruence. Qed.

Section Order.
  Context {T : Type} (le : T -> T -> Prop) (ltb : T -> T -> bool).
  Hypothesis TO : total_order le ltb.
  Let refl : forall a, le a a := proj1 TO.
  Let trans : forall a b c, le a b -> le b c -> le a c := proj1 (proj2 (proj2 TO)).
  Let total : forall a b, le a b \/ le b a := proj1 (proj2 (proj2 (proj2 TO))).
  Let ltbF : forall a b, ltb a b = false <-> le b a := proj2 (proj2 (proj2 (proj2 TO))).

  Lemma ltbT a b : ltb a b = true <-> ~ le b a.
  Proof. rewrite <- ltbF. destruct (ltb a b); split; congruence. Qed.
  Lemma slt_le a b : slt le a b -> le a b.
  Proof. intros H; destruct (total a b); [assumption|contradiction]. Qed.
  Lemma std_max_l a b : le a (std_max ltb a b).
  Proof. unfold std_max; destruct (ltb a b) eqn:E; [apply slt_le, ltbT, E|apply refl]. Qed.
  Lemma std_max_r a b : le b (std_max ltb a b).
  Proof. unfold std_max; destruct (ltb a b) eqn:E; [apply refl|apply ltbF, E]. Qed.
  Lemma std_min_l a b : le (std_min ltb a b) a.
  Proof. unfold std_min; destruct (ltb b a) eqn:E; [apply slt_le, ltbT, E|apply refl]. Qed.
  Lemma std_min_r a b : le (std_min ltb a b) b.
  Proof. unfold std_min; destruct (ltb b a) eqn:E; [apply refl|apply ltbF, E]. Qed.
  Lemma std_max_lub a b c : le (std_max ltb a b) c <-> le a c /\ le b c.
  Proof.
    split; [intros H; split; eapply trans; try exact H; auto using std_max_l, std_max_r|].
    intros [H1 H2]; unfold std_max; destruct (ltb a b); assumption.
  Qed.
  Lemma std_min_glb a b c : le c (std_min ltb a b) <-> le c a /\ le c b.
  Proof.
    split; [intros H; split; (eapply trans; [exact H|]); auto using std_min_l, std_min_r|].
    intros [H1 H2]; unfold std_min; destruct (ltb b a); assumption.
  Qed.

  Lemma Forall2_zip_max l m p :
    length l = length m ->
    (Forall2 le (zip_with (std_max ltb) l m) p <-> Forall2 le l p /\ Forall2 le m p).
  Proof.
    revert m p; induction l as [|a l IH]; intros [|b m] p Hl; simpl in *; try lia.
    - split; intros H; [inversion H; subst; repeat constructor|destruct H as [H _]; inversion H; constructor].
    - split.
      + intros H; inversion H as [|x y l' p' Hx Hy]; subst.
        apply std_max_lub in Hx as [H1 H2]. apply IH in Hy as [H3 H4]; [|lia].
        split; constructor; assumption.
      + intros [H1 H2]; inversion H1; subst; inversion H2; subst. constructor.
        * apply std_max_lub; split; assumption.
        * apply IH; [lia|]. split; assumption.
  Qed.
  Lemma Forall2_zip_min l m p :
    length l = length m ->
    (Forall2 le p (zip_with (std_min ltb) l m) <-> Forall2 le p l /\ Forall2 le p m).
  Proof.
    revert m p; induction l as [|a l IH]; intros [|b m] p Hl; simpl in *; try lia.
    - split; intros H; [inversion H; subst; repeat constructor|destruct H as [H _]; inversion H; constructor].
    - split.
      + intros H; inversion H as [|x y l' p' Hx Hy]; subst.
        apply std_min_glb in Hx as [H1 H2]. apply IH in Hy as [H3 H4]; [|lia].
        split; constructor; assumption.
      + intros [H1 H2]; inversion H1; subst; inversion H2; subst. constructor.
        * apply std_min_glb; split; assumption.
        * apply IH; [lia|]. split; assumption.
  Qed.

  Lemma overlap_box_spec D b1 b2 p :
    has_dim D b1 -> has_dim D b2 ->
    (in_closed le (overlap_box ltb b1 b2) p <-> in_closed le b1 p /\ in_closed le b2 p).
  Proof.
    intros [A1 A2] [B1 B2]. unfold in_closed, overlap_box; simpl.
    rewrite Forall2_zip_max, Forall2_zip_min by lia. tauto.
  Qed.

  Lemma slt_zip_min a b c : slt le c (std_min ltb a b) <-> slt le c a /\ slt le c b.
  Proof.
    unfold slt, std_min. destruct (ltb b a) eqn:E.
    - apply ltbT in E. split; [intros H; split; auto|tauto].
      intros H1. apply H. eapply trans; [|exact H1]. apply slt_le; exact E.
    - apply ltbF in E. split; [intros H; split; auto|tauto].
      intros H1; apply H. eapply trans; eassumption.
  Qed.
  Lemma Forall2_zip_min_slt l m p :
    length l = length m ->
    (Forall2 (slt le) p (zip_with (std_min ltb) l m) <-> Forall2 (slt le) p l /\ Forall2 (slt le) p m).
  Proof.
    revert m p; induction l as [|a l IH]; intros [|b m] p Hl; simpl in *; try lia.
    - split; intros H; [inversion H; subst; repeat constructor|destruct H as [H _]; inversion H; constructor].
    - split.
      + intros H; inversion H as [|x y l' p' Hx Hy]; subst.
        apply slt_zip_min in Hx as [H1 H2]. apply IH in Hy as [H3 H4]; [|lia].
        split; constructor; assumption.
      + intros [H1 H2]; inversion H1; subst; inversion H2; subst. constructor.
        * apply slt_zip_min; split; assumption.
        * apply IH; [lia|]. split; assumption.
  Qed.
  Lemma overlap_box_halfopen_spec D b1 b2 p :
    has_dim D b1 -> has_dim D b2 ->
    (in_halfopen le (overlap_box ltb b1 b2) p <-> in_halfopen le b1 p /\ in_halfopen le b2 p).
  Proof.
    intros [A1 A2] [B1 B2]. unfold in_halfopen, overlap_box; simpl.
    rewrite Forall2_zip_max, Forall2_zip_min_slt by lia. tauto.
  Qed.

  Lemma intersect_spec D b1 b2 :
    has_dim D b1 -> has_dim D b2 -> well_formed le b1 -> well_formed le b2 ->
    (intersect ltb b1 b2 = true <-> exists p, in_closed le b1 p /\ in_closed le b2 p).
  Proof.
    destruct b1 as [bl1 ur1], b2 as [bl2 ur2]. unfold has_dim, well_formed, intersect, in_closed; simpl.
    revert D ur1 bl2 ur2; induction bl1 as [|a1 bl1 IH]; intros D [|c1 ur1] [|a2 bl2] [|c2 ur2] [A1 A2] [B1 B2] W1 W2; simpl in *; try lia.
    - split; [intros _; exists []; repeat constructor|reflexivity].
    - inversion W1 as [|? ? ? ? W1a W1b]; subst. inversion W2 as [|? ? ? ? W2a W2b]; subst.
      specialize (IH (length bl1) ur1 bl2 ur2 ltac:(lia) ltac:(lia) W1b W2b).
      destruct (ltb c2 a1) eqn:E1; [|destruct (ltb c1 a2) eqn:E2].
      + split; [discriminate|]. intros [p [[H1 H2] [H3 H4]]].
        inversion H1; subst; inversion H4; subst. apply ltbT in E1. exfalso; apply E1; eapply trans; eassumption.
      + split; [discriminate|]. intros [p [[H1 H2] [H3 H4]]].
        inversion H3; subst; inversion H2; subst. apply ltbT in E2. exfalso; apply E2; eapply trans; eassumption.
      + apply ltbF in E1, E2. split.
        * intros H; apply IH in H as [p [[H1 H2] [H3 H4]]].
          exists (std_max ltb a1 a2 :: p). repeat split; constructor; auto using std_max_l, std_max_r;
          apply std_max_lub; split; auto.
        * intros [p [[H1 H2] [H3 H4]]]. apply IH.
          inversion H1; subst; inversion H2; subst; inversion H3; subst; inversion H4; subst.
          eexists; repeat split; eassumption.
  Qed.

  Lemma union_box_l D b1 b2 p :
    has_dim D b1 -> has_dim D b2 -> in_closed le b1 p -> in_closed le (union_box ltb b1 b2) p.
  Proof.
    destruct b1 as [bl1 ur1], b2 as [bl2 ur2]. unfold has_dim, in_closed, union_box; simpl.
    intros [A1 A2] [B1 B2] [H1 H2]. split.
    - clear H2 A2 B2 ur1 ur2. revert D bl2 A1 B1; induction H1 as [|a x bl1 p Ha H IH]; intros D [|c bl2] A1 B1; simpl in *; try lia; constructor.
      + eapply trans; [apply std_min_l|exact Ha].
      + apply (IH (length bl1)); lia.
    - clear H1 A1 B1 bl1 bl2. revert D ur2 A2 B2; induction H2 as [|x a p ur1 Ha H IH]; intros D [|c ur2] A1 B1; simpl in *; try lia; constructor.
      + eapply trans; [exact Ha|apply std_max_l].
      + apply (IH (length ur1)); lia.
  Qed.
  Lemma union_box_r D b1 b2 p :
    has_dim D b1 -> has_dim D b2 -> in_closed le b2 p -> in_closed le (union_box ltb b1 b2) p.
  Proof.
    destruct b1 as [bl1 ur1], b2 as [bl2 ur2]. unfold has_dim, in_closed, union_box; simpl.
    intros [A1 A2] [B1 B2] [H1 H2]. split.
    - clear H2 A2 B2 ur1 ur2. revert D bl1 A1 B1; induction H1 as [|a x bl2 p Ha H IH]; intros D [|c bl1] A1 B1; simpl in *; try lia; constructor.
      + eapply trans; [apply std_min_r|exact Ha].
      + apply (IH (length bl2)); lia.
    - clear H1 A1 B1 bl1 bl2. revert D ur1 A2 B2; induction H2 as [|x a p ur2 Ha H IH]; intros D [|c ur1] A1 B1; simpl in *; try lia; constructor.
      + eapply trans; [exact Ha|apply std_max_r].
      + apply (IH (length ur2)); lia.
  Qed.

  Lemma Forall2_le_trans l m n : Forall2 le l m -> Forall2 le m n -> Forall2 le l n.
  Proof.
    intros H; revert n; induction H as [|a b l m Ha H IH]; intros n Hn; inversion Hn; subst; constructor; eauto.
  Qed.
  Lemma Forall2_refl l : Forall2 le l l.
  Proof. induction l; constructor; auto. Qed.
  Lemma Forall2_zip_max' l m p :
    length l = length m ->
    (Forall2 le (zip_with (std_max ltb) l m) p <-> Forall2 le l p /\ Forall2 le m p).
  Proof. apply Forall2_zip_max. Qed.

  Lemma union_box_least D b1 b2 b :
    has_dim D b1 -> has_dim D b2 -> well_formed le b1 -> well_formed le b2 ->
    (forall p, in_closed le b1 p \/ in_closed le b2 p -> in_closed le b p) ->
    forall p, in_closed le (union_box ltb b1 b2) p -> in_closed le b p.
  Proof.
    intros [A1 A2] [B1 B2] W1 W2 H p [Hp1 Hp2].
    destruct (H (bottom_left b1)) as [C1 _]; [left; split; [apply Forall2_refl|exact W1]|].
    destruct (H (bottom_left b2)) as [C2 _]; [right; split; [apply Forall2_refl|exact W2]|].
    destruct (H (upper_right b1)) as [_ C3]; [left; split; [exact W1|apply Forall2_refl]|].
    destruct (H (upper_right b2)) as [_ C4]; [right; split; [exact W2|apply Forall2_refl]|].
    split.
    - eapply Forall2_le_trans; [|exact Hp1]. unfold union_box; simpl.
      apply Forall2_zip_min; [lia|]. split; assumption.
    - eapply Forall2_le_trans; [exact Hp2|]. unfold union_box; simpl.
      apply Forall2_zip_max; [lia|]. split; assumption.
  Qed.

  Lemma box_inside_overlap b1 b2 : box_inside ltb b1 b2 = overlap_box ltb b1 b2.
  Proof. reflexivity. Qed.

  Lemma point_inside_spec D b p :
    has_dim D b -> length p = D ->
    (point_inside ltb b p = true <-> in_halfopen le b p).
  Proof.
    destruct b as [bl ur]. unfold has_dim, point_inside, in_halfopen; simpl.
    revert D ur p; induction bl as [|a bl IH]; intros D [|c ur] [|x p] [A1 A2] Hp; simpl in *; try lia.
    - split; [repeat constructor|reflexivity].
    - specialize (IH (length bl) ur p ltac:(lia) ltac:(lia)).
      destruct (ltb x a) eqn:E1; simpl; [|destruct (ltb x c) eqn:E2; simpl].
      + split; [discriminate|]. intros [H _]; inversion H; subst. apply ltbT in E1; contradiction.
      + rewrite IH. apply ltbF in E1. apply ltbT in E2. split.
        * intros [H1 H2]; split; constructor; assumption.
        * intros [H1 H2]; inversion H1; subst; inversion H2; subst. split; assumption.
      + split; [discriminate|]. intros [_ H]; inversion H; subst.
        apply ltbF in E2. contradiction.
  Qed.

  Lemma Forall2_set_nth {A B} (Q : A -> B -> Prop) k c l (p : list B) (d : B) :
    k < length p ->
    (Forall2 Q (set_nth k c l) p <->
     length l = length p /\ Q c (nth k p d) /\ forall i da, i < length p -> i <> k -> Q (nth i l da) (nth i p d)).
  Proof.
    intros Hk. revert k p Hk; induction l as [|a l IH]; intros k p Hk.
    - simpl. split; [intros H; inversion H; subst; simpl in Hk; lia|]. intros [H _]; destruct p; simpl in *; lia.
    - destruct p as [|x p]; [simpl in Hk; lia|]. destruct k as [|k]; simpl in *.
      + split.
        * intros H; inversion H as [|? ? ? ? H1 H2]; subst. split; [f_equal; apply (Forall2_len _ _ _ H2)|].
          split; [assumption|]. intros [|i] da Hi Hn; [lia|].
          apply (Forall2_nth_iff Q l p da d) in H2 as [H2 H3]. apply H3. lia.
        * intros [H1 [H2 H3]]. constructor; [assumption|].
          destruct l as [|a' l']; [destruct p; simpl in *; [constructor|lia]|].
          apply (Forall2_nth_iff Q (a' :: l') p a' d). split; [simpl in *; lia|]. intros i Hi. apply (H3 (S i) a'); [rewrite <- H1; simpl in *; lia|lia].
      + split.
        * intros H; inversion H as [|? ? ? ? H1 H2]; subst. apply IH in H2 as [H2 [H3 H4]]; [|lia].
          split; [lia|]. split; [assumption|]. intros [|i] da Hi Hn; [assumption|]. apply H4; lia.
        * intros [H1 [H2 H3]]. constructor; [apply (H3 0 a); lia|].
          apply IH; [lia|]. split; [lia|]. split; [assumption|]. intros i da Hi Hn. apply (H3 (S i)); lia.
  Qed.
End Order.

Lemma Forall2_flip_iff {A B} (Q : A -> B -> Prop) l m :
  Forall2 Q l m <-> Forall2 (fun b a => Q a b) m l.
Proof. split; induction 1; constructor; auto. Qed.

Lemma cut_spec {T} (le : T -> T -> Prop) ltb (TO : total_order le ltb) D b k c p :
  has_dim D b -> k < D -> length p = D ->
  le (nth k (bottom_left b) c) c -> le c (nth k (upper_right b) c) ->
  (in_halfopen le b p <-> in_halfopen le (cut_low k c b) p \/ in_halfopen le (cut_high k c b) p)
  /\ ~ (in_halfopen le (cut_low k c b) p /\ in_halfopen le (cut_high k c b) p).
Proof.
  intros [A1 A2] Hk Hp L1 L2. destruct TO as [refl [anti [trans [total ltbF]]]].
  destruct b as [bl ur]; unfold in_halfopen, cut_low, cut_high; simpl in *.
  assert (Hkp : k < length p) by lia.
  rewrite (Forall2_flip_iff (slt le) p (set_nth k c ur)).
  rewrite (Forall2_set_nth (fun b a => slt le a b) k c ur p c Hkp).
  rewrite (Forall2_set_nth le k c bl p c Hkp).
  rewrite (Forall2_nth_iff le bl p c c), (Forall2_nth_iff (slt le) p ur c c).
  assert (Hd : le c (nth k p c) \/ slt le (nth k p c) c).
  { destruct (ltb (nth k p c) c) eqn:E; [right|left; apply ltbF, E].
    intros H; apply ltbF in H; congruence. }
  split; [|unfold slt; tauto].
  split.
  - intros [[_ H1] [_ H2]]. destruct Hd as [Hd|Hd].
    + right. split; [|split; [lia|exact H2]]. split; [lia|]. split; [exact Hd|].
      intros i da Hi Hn. rewrite (nth_indep bl da c) by lia. apply H1; lia.
    + left. split; [split; [lia|exact H1]|]. split; [lia|]. split; [exact Hd|].
      intros i da Hi Hn. rewrite (nth_indep ur da c) by lia. apply H2; lia.
  - intros [[[_ H1] [_ [H2 H3]]]|[[_ [H1 H2]] [_ H3]]].
    + split; [split; [lia|exact H1]|]. split; [lia|]. intros i Hi.
      destruct (Nat.eq_dec i k) as [->|Hn]; [|apply (H3 i c); lia].
      unfold slt in *. intros H. apply H2. eapply trans; eassumption.
    + split; [|split; [lia|exact H3]]. split; [lia|]. intros i Hi.
      destruct (Nat.eq_dec i k) as [->|Hn]; [|apply (H2 i c); lia].
      eapply trans; eassumption.
Qed.

Lemma total_order_Z : total_order Z.le Z.ltb.
Proof. unfold total_order; repeat split; intros; try lia. Qed.
Lemma total_order_R : total_order Rle Rltb.
Proof.
  unfold total_order; repeat split; intros; try lra;
  destruct (Rltb_spec a b) as [Hab|Hab]; try lra; try reflexivity; try discriminate.
Qed.

(** ** check_box_inside *)
Lemma check_box_inside_sub {T} (le : T -> T -> Prop) ltb (TO : total_order le ltb) D b1 b2 :
  0 < D -> has_dim D b1 -> has_dim D b2 -> well_formed le b2 ->
  (forall p, in_closed le b2 p -> in_closed le b1 p) ->
  check_box_inside ltb b1 b2 = true.
Proof.
  intros HD [A1 A2] [B1 B2] W H.
  destruct (H (bottom_left b2)) as [H1 H2]; [split; [apply (Forall2_refl le ltb TO)|exact W]|].
  destruct TO as [refl [anti [trans [total ltbF]]]].
  destruct b1 as [[|a1 bl1] [|c1 ur1]], b2 as [[|a2 bl2] [|c2 ur2]]; simpl in *; try lia.
  inversion H1; subst; inversion H2; subst.
  unfold check_box_inside; simpl.
  assert (E1 : ltb a2 a1 = false) by (apply ltbF; assumption).
  assert (E2 : ltb c1 a2 = false) by (apply ltbF; assumption).
  rewrite E1, E2; reflexivity.
Qed.

Lemma check_box_inside_false {T} (le : T -> T -> Prop) ltb (TO : total_order le ltb) D b1 b2 :
  0 < D -> has_dim D b1 -> has_dim D b2 ->
  check_box_inside ltb b1 b2 = false ->
  ~ in_closed le b1 (bottom_left b2) /\ ~ in_closed le b1 (upper_right b2).
Proof.
  intros HD [A1 A2] [B1 B2] H.
  destruct TO as [refl [anti [trans [total ltbF]]]].
  destruct b1 as [[|a1 bl1] [|c1 ur1]], b2 as [[|a2 bl2] [|c2 ur2]]; simpl in *; try lia.
  unfold check_box_inside in H; simpl in H. split; intros [H1 H2]; inversion H1; subst; inversion H2; subst; simpl in *.
  - assert (E1 : ltb a2 a1 = false) by (apply ltbF; assumption).
    assert (E2 : ltb c1 a2 = false) by (apply ltbF; assumption).
    rewrite E1, E2 in H; discriminate.
  - assert (E1 : ltb c2 a1 = false) by (apply ltbF; assumption).
    assert (E2 : ltb c1 c2 = false) by (apply ltbF; assumption).
    rewrite E1, E2 in H; simpl in H.
    destruct (negb (ltb a2 a1) && negb (ltb c1 a2)); discriminate.
Qed.

(** ** linspace *)
Lemma linspace_ok (beg en : R) (num : Z) (ie : bool) :
  (beg <= en)%R -> (0 <= num)%Z ->
  let ns := if ie then (num - 1)%Z else num in
  (ns <> 0)%Z ->
  exists l, linspace beg en num ie = Ok (map Some l) /\ length l = Z.to_nat num /\
    forall i, i < length l -> nth i l 0%R = (beg + INR i * ((en - beg) / IZR ns))%R.
Proof.
  intros Hb Hn ns Hns. unfold linspace.
  destruct (Rltb_spec en beg) as [H|H]; [lra|].
  destruct (Z.ltb_spec num 0); [lia|]. fold ns. unfold fdiv.
  destruct (Req_EM_T (IZR ns) 0) as [E|E]; [apply eq_IZR in E; contradiction|].
  exists (map (fun i => (beg + INR i * ((en - beg) / IZR ns))%R) (seq 0 (Z.to_nat num))).
  rewrite map_map, map_length, seq_length. split; [reflexivity|]. split; [reflexivity|].
  intros i Hi. erewrite nth_indep by (rewrite map_length, seq_length; exact Hi).
  rewrite (map_nth (fun i => (beg + INR i * ((en - beg) / IZR ns))%R) _ 0), seq_nth by lia. reflexivity.
Qed.

(** ** iterate *)
Definition zrange (lo hi : Z) : list Z := map (fun i => (lo + Z.of_nat i)%Z) (seq 0 (Z.to_nat (hi - lo))).

Lemma zrange_empty lo hi : (hi <= lo)%Z -> zrange lo hi = [].
Proof. intros H; unfold zrange. replace (Z.to_nat (hi - lo)) with 0 by lia. reflexivity. Qed.
Lemma zrange_cons lo hi : (lo < hi)%Z -> zrange lo hi = lo :: zrange (lo + 1) hi.
Proof.
  intros H; unfold zrange. replace (Z.to_nat (hi - lo)) with (S (Z.to_nat (hi - (lo + 1)))) by lia.
  simpl. f_equal; [lia|]. rewrite <- seq_shift, map_map. apply map_ext; intros; lia.
Qed.
Lemma in_zrange lo hi z : In z (zrange lo hi) <-> (lo <= z < hi)%Z.
Proof.
  unfold zrange. rewrite in_map_iff. split.
  - intros [i [<- Hi]]. apply in_seq in Hi. lia.
  - intros H. exists (Z.to_nat (z - lo)). split; [lia|]. apply in_seq. lia.
Qed.

Fixpoint pts (b : box Z) (m : nat) (p : list Z) : list (list Z) :=
  match m with
  | O => [p]
  | S n => flat_map (fun z => pts b n (set_nth n z p))
                    (zrange (nth n (bottom_left b) 0%Z) (nth n (upper_right b) 0%Z))
  end.

Definition agree (m : nat) (p q : list Z) : Prop :=
  length p = length q /\ forall j, m <= j -> nth j p 0%Z = nth j q 0%Z.

Lemma list_eq_nth (p q : list Z) :
  length p = length q -> (forall j, nth j p 0%Z = nth j q 0%Z) -> p = q.
Proof. intros H1 H2; apply nth_ext with (d := 0%Z) (d' := 0%Z); auto. Qed.

Lemma agree_set_nth n z p q : n < length p -> agree (S n) p q -> agree n (set_nth n z p) (set_nth n z q).
Proof.
  intros Hn [H1 H2]; split; [rewrite !length_set_nth; exact H1|].
  intros j Hj. destruct (Nat.eq_dec n j) as [<-|Hne].
  - rewrite !nth_set_nth_eq by lia; reflexivity.
  - rewrite !nth_set_nth_neq by lia. apply H2; lia.
Qed.

Lemma pts_agree b m : forall p q, m <= length p -> agree m p q -> pts b m p = pts b m q.
Proof.
  induction m as [|n IH]; intros p q Hm Ha; simpl.
  - destruct Ha as [H1 H2]. f_equal. apply list_eq_nth; auto. intros j; apply H2; lia.
  - rewrite !flat_map_concat_map. f_equal. apply map_ext. intros z. apply IH.
    + rewrite length_set_nth; lia.
    + apply agree_set_nth; [lia|exact Ha].
Qed.

Section IterateProof.
  Context {St : Type}.
  Variable b : box Z.
  Variable f : list Z -> St -> St.
  Let run (l : list (list Z)) (s : St) : St := fold_left (fun s p => f p s) l s.

  Lemma iterate_loop_spec n body
    (Hbody : forall p s, n <= length p ->
        exists p', body p s = Ok (p', run (pts b n p) s) /\ agree n p' p) :
    forall fuel hi p s, n < length p -> Z.to_nat (hi - nth n p 0%Z) = fuel ->
    exists p', iterate_loop fuel n hi body p s
      = Ok (p', run (flat_map (fun z => pts b n (set_nth n z p)) (zrange (nth n p 0%Z) hi)) s)
      /\ agree (S n) p' p.
  Proof.
    induction fuel as [|fuel IH]; intros hi p s Hn Hf.
    - exists p. rewrite zrange_empty by lia. simpl.
      destruct (Z.ltb_spec (nth n p 0%Z) hi); [lia|]. split; [reflexivity|split; auto].
    - simpl. destruct (Z.ltb_spec (nth n p 0%Z) hi) as [Hlt|]; [|lia].
      destruct (Hbody p s) as [p1 [E [La Ha]]]; [lia|]. rewrite E; simpl.
      assert (Hn1 : nth n p1 0%Z = nth n p 0%Z) by (apply Ha; lia).
      destruct (IH hi (set_nth n (nth n p1 0 + 1)%Z p1) (run (pts b n p) s)) as [p2 [E2 [La2 Ha2]]].
      { rewrite length_set_nth; lia. }
      { rewrite nth_set_nth_eq by lia. lia. }
      exists p2. rewrite E2. split.
      + f_equal. f_equal. rewrite nth_set_nth_eq by lia. rewrite (zrange_cons (nth n p 0%Z)) by lia.
        simpl. unfold run. rewrite fold_left_app. rewrite Hn1.
        assert (Eq1 : pts b n (set_nth n (nth n p 0%Z) p) = pts b n p).
        { apply pts_agree; [rewrite length_set_nth; lia|]. split; [apply length_set_nth|].
          intros j Hj. destruct (Nat.eq_dec n j) as [<-|Hne]; [rewrite nth_set_nth_eq by lia; reflexivity|].
          rewrite nth_set_nth_neq by lia; reflexivity. }
        rewrite Eq1. f_equal. rewrite !flat_map_concat_map. f_equal. apply map_ext. intros z.
        apply pts_agree; [rewrite !length_set_nth; lia|].
        split; [rewrite !length_set_nth; exact La|].
        intros j Hj. destruct (Nat.eq_dec n j) as [<-|Hne].
        * rewrite !nth_set_nth_eq by (rewrite ?length_set_nth; lia); reflexivity.
        * rewrite !nth_set_nth_neq by lia. apply Ha; lia.
      + split; [rewrite La2, length_set_nth; exact La|].
        intros j Hj. rewrite Ha2 by lia. rewrite nth_set_nth_neq by lia. apply Ha; lia.
  Qed.

  Lemma iterate_impl_spec m : forall p s, m <= length p ->
    exists p', iterate_impl b f m p s = Ok (p', run (pts b m p) s) /\ agree m p' p.
  Proof.
    induction m as [|n IH]; intros p s Hm; simpl.
    - exists p. split; [reflexivity|split; auto].
    - destruct (iterate_loop_spec n (iterate_impl b f n)) with
        (fuel := Z.to_nat (nth n (upper_right b) 0 - nth n (bottom_left b) 0)%Z)
        (hi := nth n (upper_right b) 0%Z) (p := set_nth n (nth n (bottom_left b) 0%Z) p) (s := s)
        as [p' [E [La Ha]]].
      + intros q t Hq. apply IH; lia.
      + rewrite length_set_nth; lia.
      + rewrite nth_set_nth_eq by lia. reflexivity.
      + exists p'. rewrite E. split.
        * rewrite nth_set_nth_eq by lia. f_equal. f_equal. f_equal.
          rewrite !flat_map_concat_map. f_equal. apply map_ext. intros z.
          apply pts_agree; [rewrite !length_set_nth; lia|].
          split; [rewrite !length_set_nth; reflexivity|].
          intros j Hj. destruct (Nat.eq_dec n j) as [<-|Hne].
          -- rewrite !nth_set_nth_eq by (rewrite ?length_set_nth; lia); reflexivity.
          -- rewrite !nth_set_nth_neq by lia. reflexivity.
        * split; [rewrite La; apply length_set_nth|]. intros j Hj. rewrite Ha by lia.
          apply nth_set_nth_neq; lia.
  Qed.
End IterateProof.

Lemma in_pts b m : forall p q, m <= length p ->
  (In q (pts b m p) <-> agree m q p /\
     forall j, j < m -> (nth j (bottom_left b) 0 <= nth j q 0 < nth j (upper_right b) 0)%Z).
Proof.
  induction m as [|n IH]; intros p q Hm; simpl.
  - split.
    + intros [<-|[]]. split; [split; auto|lia].
    + intros [[H1 H2] _]. left. symmetry. apply list_eq_nth; auto. intros j; apply H2; lia.
  - rewrite in_flat_map. split.
    + intros [z [Hz Hq]]. apply in_zrange in Hz.
      apply IH in Hq as [[La Ha] Hb]; [|rewrite length_set_nth; lia].
      rewrite length_set_nth in La. split; [split; [exact La|]|].
      * intros j Hj. rewrite Ha by lia. apply nth_set_nth_neq; lia.
      * intros j Hj. destruct (Nat.eq_dec j n) as [->|Hne]; [|apply Hb; lia].
        rewrite (Ha n) by lia. rewrite nth_set_nth_eq by lia. exact Hz.
    + intros [[La Ha] Hb]. exists (nth n q 0%Z). split; [apply in_zrange, Hb; lia|].
      apply IH; [rewrite length_set_nth; lia|]. split; [split; [rewrite length_set_nth; exact La|]|].
      * intros j Hj. destruct (Nat.eq_dec n j) as [<-|Hne].
        -- rewrite nth_set_nth_eq by lia; reflexivity.
        -- rewrite nth_set_nth_neq by lia. apply Ha; lia.
      * intros j Hj; apply Hb; lia.
Qed.

Lemma strictly_increasing_app {A} (lt : A -> A -> Prop) l m :
  strictly_increasing lt l -> strictly_increasing lt m ->
  (forall x y, In x l -> In y m -> lt x y) -> strictly_increasing lt (l ++ m).
Proof.
  induction l as [|a l IH]; simpl; intros H1 H2 H3; auto.
  destruct H1 as [Ha Hl]. split.
  - intros x Hx. apply in_app_or in Hx as [Hx|Hx]; auto.
  - apply IH; auto.
Qed.

Lemma pts_increasing b m : forall p, m <= length p -> strictly_increasing colex_lt (pts b m p).
Proof.
  induction m as [|n IH]; intros p Hm; simpl; [split; [intros x []|exact I]|].
  generalize (nth n (bottom_left b) 0%Z) as lo, (nth n (upper_right b) 0%Z) as hi. intros lo hi.
  remember (Z.to_nat (hi - lo)) as k eqn:Hk. revert lo Hk.
  induction k as [|k IHk]; intros lo Hk.
  - rewrite zrange_empty by lia. exact I.
  - rewrite zrange_cons by lia. simpl. apply strictly_increasing_app.
    + apply IH; rewrite length_set_nth; lia.
    + apply IHk; lia.
    + intros x y Hx Hy. apply in_flat_map in Hy as [z [Hz Hy]]. apply in_zrange in Hz.
      apply in_pts in Hx as [[Lx Ax] _]; [|rewrite length_set_nth; lia].
      apply in_pts in Hy as [[Ly Ay] _]; [|rewrite length_set_nth; lia].
      rewrite length_set_nth in Lx, Ly.
      exists n. split; [lia|]. rewrite (Ax n), (Ay n) by lia.
      rewrite !nth_set_nth_eq by lia. split; [lia|].
      intros j Hj. rewrite (Ax j), (Ay j) by lia. rewrite !nth_set_nth_neq by lia. reflexivity.
Qed.

Lemma strictly_increasing_NoDup {A} (lt : A -> A -> Prop) l :
  (forall x, ~ lt x x) -> strictly_increasing lt l -> NoDup l.
Proof.
  intros Hirr; induction l as [|a l IH]; intros H; constructor.
  - intros Hin. apply (Hirr a). apply H, Hin.
  - apply IH, H.
Qed.
Lemma colex_irrefl p : ~ colex_lt p p.
Proof. intros [k [_ [H _]]]; lia. Qed.

Lemma iterate_spec D b (Hb : has_dim D b) :
  exists l : list (list Z),
    (forall p, In p l <-> in_grid_box b p) /\ NoDup l /\ strictly_increasing colex_lt l /\
    forall St (f : list Z -> St -> St) p0 s, length p0 = D ->
      iterate b f p0 s = Ok (fold_left (fun s p => f p s) l s).
Proof.
  destruct Hb as [A1 A2]. exists (pts b D (repeat 0%Z D)).
  assert (Hinc : strictly_increasing colex_lt (pts b D (repeat 0%Z D))).
  { apply pts_increasing. rewrite repeat_length; lia. }
  repeat split.
  - apply in_pts in H as [[La Ha] Hb]; [|rewrite repeat_length; lia]. rewrite repeat_length in La.
    apply (Forall2_nth_iff Z.le _ _ 0%Z 0%Z). split; [lia|]. intros i Hi. apply Hb; lia.
  - apply in_pts in H as [[La Ha] Hb]; [|rewrite repeat_length; lia]. rewrite repeat_length in La.
    apply (Forall2_nth_iff Z.lt _ _ 0%Z 0%Z). split; [lia|]. intros i Hi. apply Hb; lia.
  - intros [H1 H2]. apply (Forall2_nth_iff Z.le _ _ 0%Z 0%Z) in H1 as [L1 H1].
    apply (Forall2_nth_iff Z.lt _ _ 0%Z 0%Z) in H2 as [L2 H2].
    apply in_pts; [rewrite repeat_length; lia|]. split.
    + split; [rewrite repeat_length; lia|]. intros j Hj. rewrite !nth_overflow; auto; rewrite ?repeat_length; lia.
    + intros j Hj. split; [apply H1|apply H2]; lia.
  - apply strictly_increasing_NoDup with colex_lt; [apply colex_irrefl|exact Hinc].
  - exact Hinc.
  - intros St f p0 s Hp. unfold iterate.
    destruct (iterate_impl_spec b f (length (bottom_left b)) p0 s) as [p' [E _]]; [lia|].
    rewrite E; simpl. f_equal. f_equal. rewrite A1. apply pts_agree; [lia|].
    split; [rewrite repeat_length; lia|]. intros j Hj. rewrite !nth_overflow; auto; rewrite ?repeat_length; lia.
Qed.

(** ** component-wise operators *)
Lemma zip_componentwise f : componentwise2 f (zip_with f).
Proof.
  intros v w H. split; [apply length_zip_with, H|]. intros i Hi. apply nth_zip_with; assumption.
Qed.
Lemma map_componentwise f : componentwise_scalar f (fun v c => map (fun x => f x c) v).
Proof.
  intros v c. split; [apply map_length|]. intros i Hi.
  rewrite (nth_indep _ 0%R (f 0%R c)) by (rewrite map_length; exact Hi).
  apply (map_nth (fun x => f x c)).
Qed.

Lemma vec_add_assign_velocity_wrong v w i :
  length v = length w -> i < length v ->
  nth i (vec_add_assign_velocity v w) 0%R = (nth i v 0 - nth i w 0)%R /\
  (nth i (vec_add_assign_velocity v w) 0%R = (nth i v 0 + nth i w 0)%R <-> nth i w 0%R = 0%R).
Proof.
  intros H Hi. unfold vec_add_assign_velocity.
  rewrite (nth_zip_with Rminus v w i 0%R 0%R) by assumption. split; [reflexivity|split; intros; lra].
Qed.
Lemma velocity_minus_vec_wrong v p i :
  length v = length p -> i < length v ->
  nth i (velocity_minus_vec v p) 0%R = (- (nth i v 0 - nth i p 0))%R.
Proof.
  intros H Hi. unfold velocity_minus_vec, vec_sub_assign.
  rewrite (nth_zip_with Rminus p v i 0%R 0%R) by lia. lra.
Qed.

Lemma box_ops_componentwise :
  componentwise2 Rplus pos_plus /\ componentwise2 Rplus pos_plus_velocity /\
  componentwise2 Rminus pos_minus /\ componentwise2 Rmult pos_times /\
  componentwise2 Rdiv pos_div /\ componentwise_scalar Rplus pos_plus_scalar /\
  componentwise_scalar Rminus pos_minus_scalar /\ componentwise_scalar Rdiv pos_div_scalar /\
  componentwise2 Rplus vec_plus /\ componentwise2 Rminus vec_sub_assign /\
  componentwise2 Rminus vec_minus_velocity /\ componentwise_scalar Rmult vec_times_scalar /\
  componentwise_scalar Rdiv vec_div_scalar /\
  componentwise2 Rplus velocity_plus /\ componentwise2 Rplus force_plus /\
  componentwise2 Rminus force_minus /\ componentwise_scalar Rmult force_times_scalar /\
  componentwise_scalar Rplus force_add_assign_scalar.
Proof.
  repeat split; first [apply zip_componentwise; assumption | apply (map_componentwise Rplus) | apply (map_componentwise Rminus)
   | apply (map_componentwise Rmult) | apply (map_componentwise Rdiv) | idtac]; try assumption.
Qed.

Lemma vec_opp_spec v i : i < length v -> nth i (vec_opp v) 0%R = (- nth i v 0)%R.
Proof.
  intros Hi. unfold vec_opp, vec_scale_assign.
  destruct (map_componentwise Rmult v (-1)%R) as [_ H]. rewrite H by exact Hi. lra.
Qed.

Lemma pos_to_int_trunc p i :
  i < length p ->
  let z := nth i (pos_to_int p) 0%Z in let x := nth i p 0%R in
  (Rabs (IZR z) <= Rabs x)%R /\ (Rabs (x - IZR z) < 1)%R /\ (0 <= IZR z * x)%R.
Proof.
  intros Hi. unfold pos_to_int. simpl.
  rewrite (nth_indep (map Rtrunc p) 0%Z (Rtrunc 0%R)) by (rewrite map_length; exact Hi).
  rewrite (map_nth Rtrunc). generalize (nth i p 0%R); clear. intros x.
  unfold Rtrunc. destruct (Rle_dec 0 x) as [H|H].
  - destruct (Int_part_bounds x) as [H1 H2].
    assert (0 <= IZR (Int_part x))%R.
    { apply (IZR_le 0). assert (-1 < Int_part x)%Z; [|lia]. apply lt_IZR. lra. }
    rewrite !Rabs_right by lra. repeat split; try lra. apply Rmult_le_pos; lra.
  - destruct (Int_part_bounds (-x)) as [H1 H2]. rewrite opp_IZR.
    assert (0 <= IZR (Int_part (- x)))%R.
    { apply (IZR_le 0). assert (-1 < Int_part (- x))%Z; [|lia]. apply lt_IZR. lra. }
    rewrite Rabs_Ropp, (Rabs_right (IZR _)) by lra. rewrite (Rabs_left x) by lra.
    rewrite Rabs_left1 by lra. repeat split; try lra. nra.
Qed.

Lemma pos_ceil_floor p i :
  i < length p ->
  let x := nth i p 0%R in
  (IZR (nth i (pos_floor p) 0%Z) <= x < IZR (nth i (pos_floor p) 0%Z) + 1)%R /\
  (IZR (nth i (pos_ceil p) 0%Z) - 1 < x <= IZR (nth i (pos_ceil p) 0%Z))%R.
Proof.
  intros Hi; simpl. unfold pos_floor, pos_ceil.
  rewrite (nth_indep (map _ p) 0%Z (Rtrunc (IZR (Int_part 0)))) by (rewrite map_length; exact Hi).
  rewrite (map_nth (fun x => Rtrunc (IZR (Int_part x)))).
  rewrite (nth_indep (map _ p) 0%Z (Rtrunc (IZR (- Int_part (- 0))))) by (rewrite map_length; exact Hi).
  rewrite (map_nth (fun x => Rtrunc (IZR (- Int_part (- x))))).
  rewrite !Rtrunc_IZR, opp_IZR.
  destruct (Int_part_bounds (nth i p 0%R)), (Int_part_bounds (- nth i p 0%R)). lra.
Qed.

(** ** cross products *)
Lemma cross33_laws x y z :
  dot3 (cross33 x y) x = 0%R /\ dot3 (cross33 x y) y = 0%R /\
  cross33 y x = opp3 (cross33 x y) /\
  dot3 (cross33 x y) (cross33 x y) = (dot3 x x * dot3 y y - dot3 x y * dot3 x y)%R /\
  add3 (cross33 x (cross33 y z)) (add3 (cross33 y (cross33 z x)) (cross33 z (cross33 x y))) = (0, 0, 0)%R /\
  dot3 (cross33 x y) z = dot3 x (cross33 y z).
Proof.
  destruct x as [[x0 x1] x2], y as [[y0 y1] y2], z as [[z0 z1] z2].
  unfold dot3, cross33, add3, opp3. repeat split; try ring; pair_eq; ring.
Qed.
Lemma cross_planar x y rz :
  cross33 (embed x) (embed y) = spin (cross22 x y) /\
  cross33 (spin rz) (embed x) = embed (cross12 rz x) /\
  cross33 (embed x) (spin rz) = embed (cross21 x rz).
Proof.
  destruct x as [x0 x1], y as [y0 y1]. unfold cross33, embed, spin, cross22, cross12, cross21; simpl.
  repeat split; pair_eq; ring.
Qed.

(** ** box length and corners *)
Lemma box_length_prod b :
  box_length b = fold_right Rmult 1%R (zip_with (fun a c => Rabs (c - a)) (bottom_left b) (upper_right b)).
Proof.
  unfold box_length, box_length_dir. destruct b as [bl ur]; simpl.
  assert (G : forall l (acc : R), fold_left (fun r p => (r * Rabs (snd p - fst p))%R) l acc
             = (acc * fold_right Rmult 1 (map (fun p : R * R => Rabs (snd p - fst p)) l))%R).
  { induction l as [|p l IH]; intros acc; simpl; [ring|]. rewrite IH. ring. }
  rewrite G, Rmult_1_l. f_equal.
  revert ur; induction bl as [|a bl IH]; intros [|c ur]; simpl; auto. f_equal; apply IH.
Qed.
Lemma box_points2 {T} (x0 y0 x1 y1 : T) :
  (forall x y, In (x, y) (get_box_points2 x0 y0 x1 y1) <-> (x = x0 \/ x = x1) /\ (y = y0 \/ y = y1)) /\
  get_box_points2 x0 y0 x1 y1 = [(x0, y0); (x1, y0); (x0, y1); (x1, y1)].
Proof.
  split; [|reflexivity]. intros x y; simpl. split.
  - intros [H|[H|[H|[H|[]]]]]; inversion H; subst; tauto.
  - intros [[->| ->] [->| ->]]; tauto.
Qed.
Lemma box_points3 {T} (x0 y0 z0 x1 y1 z1 : T) :
  (forall x y z, In (x, y, z) (get_box_points3 x0 y0 z0 x1 y1 z1)
     <-> (x = x0 \/ x = x1) /\ (y = y0 \/ y = y1) /\ (z = z0 \/ z = z1)) /\
  get_box_points3 x0 y0 z0 x1 y1 z1
  = [(x0, y0, z0); (x1, y0, z0); (x0, y1, z0); (x1, y1, z0);
     (x0, y0, z1); (x1, y0, z1); (x0, y1, z1); (x1, y1, z1)].
Proof.
  split; [|reflexivity]. intros x y z; simpl. split.
  - intros [H|[H|[H|[H|[H|[H|[H|[H|[]]]]]]]]]; inversion H; subst; tauto.
  - intros [[->| ->] [[->| ->] [->| ->]]]; tauto.
Qed.

(** ** check_box_inside: witnesses *)
Lemma check_box_inside_disjoint_witness :
  let b1 := mkbox [0; 0]%Z [1; 1]%Z in
  let b2 := mkbox [0; 5]%Z [1; 6]%Z in
  well_formed Z.le b1 /\ well_formed Z.le b2 /\
  (forall p, ~ (in_closed Z.le b1 p /\ in_closed Z.le b2 p)) /\ check_box_inside Z.ltb b1 b2 = true.
Proof.
  simpl. split; [repeat constructor; lia|]. split; [repeat constructor; lia|]. split; [|reflexivity].
  intros p [[H1 H2] [H3 H4]]; simpl in *.
  inversion H2 as [|? ? ? ? _ H2']; subst. inversion H2' as [|? ? ? ? H5 _]; subst.
  inversion H3 as [|? ? ? ? _ H3']; subst. inversion H3' as [|? ? ? ? H6 _]; subst. lia.
Qed.
Lemma check_box_inside_enclosing_witness :
  let b1 := mkbox [1; 1]%Z [2; 2]%Z in
  let b2 := mkbox [0; 0]%Z [3; 3]%Z in
  well_formed Z.le b1 /\ well_formed Z.le b2 /\
  (forall p, in_closed Z.le b1 p -> in_closed Z.le b2 p) /\ check_box_inside Z.ltb b1 b2 = false.
Proof.
  simpl. split; [repeat constructor; lia|]. split; [repeat constructor; lia|]. split; [|reflexivity].
  intros p [H1 H2]; simpl in *.
  repeat match goal with H : Forall2 _ _ _ |- _ => inversion H; clear H; subst end.
  split; repeat constructor; simpl; lia.
Qed.

Lemma linspace_spec (beg en : R) (num : Z) :
  (beg <= en)%R -> (2 <= num)%Z ->
  exists l, linspace beg en num true = Ok (map Some l) /\ length l = Z.to_nat num /\
    nth 0 l 0%R = beg /\ nth (length l - 1) l 0%R = en /\
    (forall i, S i < length l -> (nth (S i) l 0 - nth i l 0)%R = ((en - beg) / IZR (num - 1))%R) /\
    (forall x, In x l -> (beg <= x <= en)%R).
Proof.
  intros Hb Hn. destruct (linspace_ok beg en num true) as [l [E [Hl H]]]; [assumption|lia|lia|].
  set (d := ((en - beg) / IZR (num - 1))%R) in *.
  assert (Hpos : (0 < IZR (num - 1))%R) by (apply IZR_lt; lia).
  assert (Hd : (0 <= d)%R) by (apply Rmult_le_pos; [lra|left; apply Rinv_0_lt_compat, Hpos]).
  assert (Hend : (beg + IZR (num - 1) * d = en)%R) by (unfold d; field; lra).
  exists l. split; [exact E|]. split; [exact Hl|]. split; [rewrite H by lia; simpl; ring|]. split.
  { rewrite H by lia. rewrite <- Hend, INR_IZR_INZ. repeat f_equal. lia. }
  split.
  { intros i Hi. rewrite !H by lia. rewrite S_INR. ring. }
  intros x Hx. apply In_nth with (d := 0%R) in Hx as [i [Hi <-]]. rewrite H by exact Hi.
  rewrite INR_IZR_INZ. rewrite <- Hend.
  assert (0 <= IZR (Z.of_nat i) <= IZR (num - 1))%R.
  { split; [apply (IZR_le 0); lia|apply IZR_le; lia]. }
  nra.
Qed.
Lemma linspace_open_spec (beg en : R) (num : Z) :
  (beg <= en)%R -> (1 <= num)%Z ->
  exists l, linspace beg en num false = Ok (map Some l) /\ length l = Z.to_nat num /\
    nth 0 l 0%R = beg /\
    (forall i, S i < length l -> (nth (S i) l 0 - nth i l 0)%R = ((en - beg) / IZR num)%R) /\
    (nth (length l - 1) l 0 + (en - beg) / IZR num = en)%R /\
    (forall x, In x l -> (beg <= x)%R /\ (beg < en -> x < en)%R).
Proof.
  intros Hb Hn. destruct (linspace_ok beg en num false) as [l [E [Hl H]]]; [assumption|lia|lia|].
  set (d := ((en - beg) / IZR num)%R) in *.
  assert (Hpos : (0 < IZR num)%R) by (apply IZR_lt; lia).
  assert (Hd : (0 <= d)%R) by (apply Rmult_le_pos; [lra|left; apply Rinv_0_lt_compat, Hpos]).
  assert (Hend : (beg + IZR num * d = en)%R) by (unfold d; field; lra).
  exists l. split; [exact E|]. split; [exact Hl|]. split; [rewrite H by lia; simpl; ring|]. split.
  { intros i Hi. rewrite !H by lia. rewrite S_INR. ring. }
  split.
  { rewrite H by lia. rewrite INR_IZR_INZ.
    replace (Z.of_nat (length l - 1)) with (num - 1)%Z by lia. rewrite minus_IZR. fold d. lra. }
  intros x Hx. apply In_nth with (d := 0%R) in Hx as [i [Hi <-]]. rewrite H by exact Hi.
  rewrite INR_IZR_INZ.
  assert (0 <= IZR (Z.of_nat i))%R by (apply (IZR_le 0); lia).
  assert (IZR (Z.of_nat i) <= IZR num - 1)%R by (rewrite <- minus_IZR; apply IZR_le; lia).
  split; [nra|]. intros Hlt. assert (0 < d)%R; [|nra].
  apply Rmult_lt_0_compat; [lra|apply Rinv_0_lt_compat, Hpos].
Qed.
Lemma linspace_degenerate beg en :
  (beg <= en)%R ->
  linspace beg en 1 true = Ok [None] /\
  (forall ie, linspace beg en 0 ie = Ok []) /\
  (forall ie num, (num < 0)%Z -> linspace beg en num ie = Abort).
Proof.
  intros H. unfold linspace, fdiv. destruct (Rltb_spec en beg) as [H1|H1]; [lra|]. split; [|split].
  - simpl. destruct (Req_EM_T 0 0); [reflexivity|congruence].
  - intros ie. reflexivity.
  - intros ie num Hn. destruct (Z.ltb_spec num 0); [reflexivity|lia].
Qed.
Lemma check_box_inside_refutation :
  (exists b1 b2 : box Z, has_dim 2 b1 /\ has_dim 2 b2 /\ well_formed Z.le b1 /\ well_formed Z.le b2 /\
     (forall p, ~ (in_closed Z.le b1 p /\ in_closed Z.le b2 p)) /\ check_box_inside Z.ltb b1 b2 = true) /\
  (exists b1 b2 : box Z, has_dim 2 b1 /\ has_dim 2 b2 /\ well_formed Z.le b1 /\ well_formed Z.le b2 /\
     (forall p, in_closed Z.le b1 p -> in_closed Z.le b2 p) /\ check_box_inside Z.ltb b1 b2 = false).
Proof.
  split.
  - eexists; eexists; split; [|split]; [| |exact check_box_inside_disjoint_witness]; split; reflexivity.
  - eexists; eexists; split; [|split]; [| |exact check_box_inside_enclosing_witness]; split; reflexivity.
Qed.
