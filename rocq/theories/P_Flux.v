(** The discrete divergence theorem: the sum of the divergence of a velocity over the pressure nodes is its flux through the non-periodic sides. *)
From Coq Require Import Permutation QArith Qreals.
From Coquelicot Require Import Coquelicot.
From Verif Require Import Base M_Geometry S_Geometry P_Geometry M_Particle S_Particle P_Particle M_Quadrature S_Fem M_MatElem P_MatElem P_Energy M_Mesh M_Operator M_Bc M_Assembly S_Operator S_Bc P_Mesh P_Operator P_Operator2 P_Global P_Stokes P_Operator3 P_Assembly P_Assembly2 P_Telescope P_Constant.
Open Scope R_scope.

(** ** specification: flux of a nodal velocity through the sides *)
(** measure of a face of a cell orthogonal to axis d *)
Definition face_area (h : list R) (d : nat) : R := fold_right Rmult 1 (firstn d h ++ skipn (S d) h).
(** mean of component d over the vertices of the lower (upper) face of cell e along axis d *)
Definition face_mean (m : list Z) (per : list bool) (v : field) (e : list Z) (d : nat) (up : bool) : R :=
  Rsum (2 ^ length m) (fun k => if Nat.eqb (k / 2 ^ d mod 2) (if up then 1 else 0) then gv m per v e k d else 0) / 2 ^ (length m - 1).
(** outgoing flux through the faces that the cells E have on the non-periodic sides *)
Definition flux (h : list R) (m : list Z) (per : list bool) (E : list (list Z)) (v : field) : R :=
  Lsum (fun e => Rsum (length m) (fun d => if nth d per false then 0 else
    face_area h d * ((if (nth d e 0 + 2 =? nth d m 0)%Z then face_mean m per v e d true else 0) - (if (nth d e 0 =? 0)%Z then face_mean m per v e d false else 0)))) E.

Lemma nth_bump d : forall e, (d < length e)%nat -> nth d (bump d e) 0%Z = (nth d e 0 + 1)%Z.
Proof. induction d; intros [|a e] H; cbn in *; try lia. apply IHd. lia. Qed.
Lemma nth_roll d : forall n e, length e = length n -> (d < length e)%nat -> nth d (roll d n e) 0%Z = (if (nth d e 0 + 1 =? nth d n 0)%Z then 0 else nth d e 0 + 1)%Z.
Proof. induction d; intros [|m n] [|a e] L H; cbn in *; try lia. apply IHd; lia. Qed.
Lemma in_box0 n e d : in_grid_box (box0 n) e -> length e = length n /\ ((d < length n)%nat -> (0 <= nth d e 0 < nth d n 0)%Z).
Proof.
  unfold in_grid_box, box0. cbn [bottom_left upper_right]. intros [A B]. revert d e A B. induction n as [|n0 n IH]; intros d e A B; cbn [map] in A; [inversion A; subst; split; [reflexivity|cbn; lia]|]. inversion A as [|? a ? t A1 A2]; subst. inversion B as [|? ? ? ? B1 B2]; subst.
  destruct (IH (pred d) t A2 B2) as [L K]. split; [cbn; lia|]. intros Hd. destruct d; cbn [nth]; [lia|]. apply K. cbn in Hd |- *. lia.
Qed.
Lemma tele n d E (f : list Z -> R) : enumerates E (box0 n) -> (d < length n)%nat ->
  Lsum (fun e => f (bump d e)) E - Lsum f E = Lsum (fun e => (if (nth d e 0 + 1 =? nth d n 0)%Z then f (bump d e) else 0) - (if (nth d e 0 =? 0)%Z then f e else 0)) E.
Proof.
  intros HE Hd. pose (g := fun e => if (0 <? nth d e 0)%Z && (nth d e 0 <? nth d n 0)%Z then f e else 0).
  assert (S : Lsum (fun e => g (bump d e)) E = Lsum g E).
  { apply (shift_sum n d E g HE). intros e He Eq. destruct (in_box0 n e d He) as [L K]. specialize (K Hd). rewrite nth_bump in Eq by lia. unfold g. rewrite nth_bump, nth_roll by lia. rewrite Eq, Z.eqb_refl. rewrite Z.ltb_irrefl, Z.ltb_irrefl, andb_false_r. reflexivity. }
  assert (S1 : Lsum (fun e => f (bump d e)) E = Lsum (fun e => g (bump d e)) E + Lsum (fun e => if (nth d e 0 + 1 =? nth d n 0)%Z then f (bump d e) else 0) E).
  { rewrite <- Lsum_plus. apply Lsum_ext. intros e He. apply HE in He. destruct (in_box0 n e d He) as [L K]. specialize (K Hd). unfold g. rewrite nth_bump by lia.
    destruct (Z.ltb_spec 0%Z (nth d e 0 + 1)%Z); [|lia]. destruct (Z.ltb_spec (nth d e 0 + 1)%Z (nth d n 0)%Z), (Z.eqb_spec (nth d e 0 + 1)%Z (nth d n 0)%Z); try lia; cbn [andb]; ring. }
  assert (S2 : Lsum f E = Lsum g E + Lsum (fun e => if (nth d e 0 =? 0)%Z then f e else 0) E).
  { rewrite <- Lsum_plus. apply Lsum_ext. intros e He. apply HE in He. destruct (in_box0 n e d He) as [L K]. specialize (K Hd). unfold g.
    destruct (Z.ltb_spec (nth d e 0)%Z (nth d n 0)%Z); [|lia]. destruct (Z.ltb_spec 0%Z (nth d e 0)%Z), (Z.eqb_spec (nth d e 0)%Z 0%Z); try lia; cbn [andb]; ring. }
  rewrite S1, S2, S. assert (M : forall a b, Lsum (fun e => a e - b e) E = Lsum a E - Lsum b E) by (intros a b; clear; induction E as [|e E IH]; unfold Lsum in *; cbn; [ring|]; rewrite IH; ring). rewrite M. ring.
Qed.
Lemma tele_per n d E (f : list Z -> R) : enumerates E (box0 n) ->
  (forall e, in_grid_box (box0 n) e -> nth d (bump d e) 0%Z = nth d n 0%Z -> f (bump d e) = f (roll d n e)) ->
  Lsum (fun e => f (bump d e)) E - Lsum f E = 0.
Proof. intros HE H. rewrite (shift_sum n d E f HE H). ring. Qed.

Lemma NoDup_flat_map_key {A B} (F : A -> list B) (g : B -> A) E : NoDup E -> (forall e, In e E -> NoDup (F e)) -> (forall e x, In e E -> In x (F e) -> g x = e) -> NoDup (flat_map F E).
Proof.
  induction E as [|e E IH]; intros HN HF HG; [constructor|]. inversion HN; subst. cbn [flat_map].
  assert (N2 : NoDup (flat_map F E)) by (apply IH; auto; intros; [apply HF|eapply HG]; eauto; right; auto).
  assert (N1 : NoDup (F e)) by (apply HF; left; auto).
  assert (DJ : forall x, In x (F e) -> ~ In x (flat_map F E)).
  { intros x Hx Hin. apply in_flat_map in Hin as (e' & He' & Hx'). assert (e = e'); [|subst; contradiction]. rewrite <- (HG e x (or_introl eq_refl) Hx). apply (HG e' x); auto. right; auto. }
  revert N1 DJ. generalize (F e). induction l as [|x l IHl]; intros N1 DJ; [exact N2|]. inversion N1; subst. cbn [app]. constructor; [|apply IHl; auto; intros y Hy; apply DJ; right; auto].
  rewrite in_app_iff. intros [H|H]; [contradiction|]. exact (DJ x (or_introl eq_refl) H).
Qed.
(** the cells of the refined grid are the sub-cells of the cells *)
Definition subcells (e : list Z) : list (list Z) := map (corner (map (fun a => (2 * a)%Z) e)) (seq 0 (2 ^ length e)).
Lemma half a b : (0 <= b < 2)%Z -> ((2 * a + b) / 2 = a)%Z.
Proof. intros H. symmetry. apply (Z.div_unique (2 * a + b) 2 a b); lia. Qed.
Ltac inlen := repeat match goal with H : Forall2 _ _ (_ :: _) |- _ => inversion H; subst; clear H | H : Forall2 _ (_ :: _) _ |- _ => inversion H; subst; clear H | H : Forall2 _ [] _ |- _ => inversion H; subst; clear H end.
Lemma sub_enum n E : (length n = 2%nat \/ length n = 3%nat) -> enumerates E (box0 n) -> enumerates (flat_map subcells E) (box0 (map (fun a => (2 * a)%Z) n)).
Proof.
  intros HL [HN HE]. split.
  - apply (NoDup_flat_map_key subcells (map (fun a => (a / 2)%Z))); auto.
    + intros e He. apply HE in He. destruct (in_box0 n e 0 He) as [L _]. destruct HL as [L'|L'].
      * destruct e as [|i [|j [|]]]; try (cbn in L; lia). cbn. repeat constructor; cbn; intros X; repeat (destruct X as [X|X]; [injection X; lia|]); exact X.
      * destruct e as [|i [|j [|k [|]]]]; try (cbn in L; lia). cbn. repeat constructor; cbn; intros X; repeat (destruct X as [X|X]; [injection X; lia|]); exact X.
    + intros e x He Hx. apply HE in He. destruct (in_box0 n e 0 He) as [L _]. unfold subcells in Hx. apply in_map_iff in Hx as (k & <- & _). unfold corner.
      assert (G : forall e s, map (fun a => (a / 2)%Z) (zip_with (fun a i => (a + Z.of_nat (k / 2 ^ i mod 2))%Z) (map (fun a => (2 * a)%Z) e) (seq s (length e))) = e).
      { clear. induction e as [|a e IH]; intros s; [reflexivity|]. cbn [map length seq zip_with]. rewrite IH. f_equal. apply half. pose proof (Nat.mod_upper_bound (k / 2 ^ s) 2 ltac:(lia)). lia. }
      rewrite map_length. apply G.
  - intros x. rewrite in_flat_map. split.
    + intros (e & He & Hx). apply HE in He. unfold subcells in Hx. apply in_map_iff in Hx as (k & <- & _). destruct (in_box0 n e 0 He) as [L _]. destruct He as [A B]. unfold box0 in A, B. cbn [bottom_left upper_right] in A, B. unfold corner, in_grid_box, box0. cbn [bottom_left upper_right].
      rewrite map_length. assert (G : forall n e s, Forall2 Z.le (map (fun _ => 0%Z) n) e -> Forall2 Z.lt e n -> let y := zip_with (fun a i => (a + Z.of_nat (k / 2 ^ i mod 2))%Z) (map (fun a => (2 * a)%Z) e) (seq s (length e)) in
        Forall2 Z.le (map (fun _ => 0%Z) (map (fun a => (2 * a)%Z) n)) y /\ Forall2 Z.lt y (map (fun a => (2 * a)%Z) n)).
      { clear. induction n as [|n0 n IH]; intros e s A B; cbn [map] in A; [inversion A; subst; cbn; split; constructor|]. inversion A as [|? a ? t A1 A2]; subst. inversion B as [|? ? ? ? B1 B2]; subst. cbn [map length seq zip_with]. cbv zeta. destruct (IH t (S s) A2 B2) as [I1 I2]. pose proof (Nat.mod_upper_bound (k / 2 ^ s) 2 ltac:(lia)). split; constructor; auto; lia. }
      apply G; auto.
    + intros Hx. exists (map (fun a => (a / 2)%Z) x). destruct (in_box0 _ x 0 Hx) as [L _]. rewrite map_length in L. destruct Hx as [A B]. unfold box0 in A, B. cbn [bottom_left upper_right] in A, B. split.
      * apply HE. unfold in_grid_box, box0. cbn [bottom_left upper_right]. clear HE HN HL. revert x A B L. induction n as [|n0 n IH]; intros [|a x] A B L; try discriminate L; cbn [map] in *; [split; constructor|]. inversion A as [|? ? ? ? A1 A2]; subst. inversion B as [|? ? ? ? B1 B2]; subst. destruct (IH x A2 B2 ltac:(cbn in L; lia)) as [I1 I2]. split; constructor; auto; [apply Z.div_pos; lia|apply Z.div_lt_upper_bound; [lia|exact B1]].
      * unfold subcells. apply in_map_iff.
        assert (M : forall a, exists b, (b < 2)%nat /\ (2 * (a / 2) + Z.of_nat b = a)%Z).
        { intros a. exists (Z.to_nat (a mod 2)). pose proof (Z.mod_pos_bound a 2 ltac:(lia)). rewrite Z2Nat.id by lia. split; [lia|]. pose proof (Z.div_mod a 2). lia. }
        destruct HL as [L'|L'].
        -- destruct x as [|a [|c [|]]]; try (cbn in L; lia). destruct (M a) as (b0 & B0 & E0). destruct (M c) as (b1 & B1 & E1). exists (b0 + 2 * b1)%nat. split; [|apply in_seq; cbn; lia].
           rewrite <- E0 at 2. rewrite <- E1 at 2. destruct b0 as [|[|]]; [| |lia]; (destruct b1 as [|[|]]; [| |lia]); reflexivity.
        -- destruct x as [|a [|c [|g [|]]]]; try (cbn in L; lia). destruct (M a) as (b0 & B0 & E0). destruct (M c) as (b1 & B1 & E1). destruct (M g) as (b2 & B2 & E2). exists (b0 + 2 * b1 + 4 * b2)%nat. split; [|apply in_seq; cbn; lia].
           rewrite <- E0 at 2. rewrite <- E1 at 2. rewrite <- E2 at 2. destruct b0 as [|[|]]; [| |lia]; (destruct b1 as [|[|]]; [| |lia]); (destruct b2 as [|[|]]; [| |lia]); reflexivity.
Qed.
Lemma regroup n E E' f : (length n = 2%nat \/ length n = 3%nat) -> enumerates E (box0 n) -> enumerates E' (box0 (map (fun a => (2 * a)%Z) n)) ->
  Lsum f E' = Lsum (fun e => Rsum (2 ^ length n) (fun k => f (corner (map (fun a => (2 * a)%Z) e) k))) E.
Proof.
  intros HL HE HE'. rewrite (Lsum_perm f E' (flat_map subcells E)) by (apply (enum_perm _ _ _ HE'), sub_enum; auto). rewrite Lsum_flat_map. apply Lsum_ext. intros e He. unfold subcells. rewrite Lsum_map, Lsum_seq.
  apply HE in He. destruct (in_box0 n e 0 He) as [L _]. rewrite L. reflexivity.
Qed.

(** ** the flux telescopes *)
Lemma face_up m per v e d : (length m = 2%nat \/ length m = 3%nat) -> length e = length m -> (d < length m)%nat -> face_mean m per v e d true = face_mean m per v (bump d e) d false.
Proof.
  intros HL Le Hd. unfold face_mean. f_equal. unfold gv, corner. destruct HL as [L|L]; rewrite L in *.
  - destruct e as [|i [|j [|]]]; try discriminate Le. destruct d as [|[|]]; [| |lia]; cbn [Rsum Nat.pow Nat.mul Nat.add bump length seq zip_with Nat.div Nat.modulo Nat.divmod fst snd Nat.sub Nat.eqb Z.of_nat Pos.of_succ_nat]; rewrite ?Z.add_0_r; ring.
  - destruct e as [|i [|j [|k [|]]]]; try discriminate Le. destruct d as [|[|[|]]]; [| | |lia]; cbn [Rsum Nat.pow Nat.mul Nat.add bump length seq zip_with Nat.div Nat.modulo Nat.divmod fst snd Nat.sub Nat.eqb Z.of_nat Pos.of_succ_nat]; rewrite ?Z.add_0_r; ring.
Qed.
Lemma wrap_roll m per e d k : (length m = 2%nat \/ length m = 3%nat) -> length per = length m -> length e = length m -> (d < length m)%nat -> nth d per false = true -> (1 <= nth d m 0)%Z -> nth d (bump d e) 0%Z = nth d m 0%Z ->
  wrap m per (corner (bump d e) k) = wrap m per (corner (roll d (zip_with (fun n (p : bool) => if p then n else (n - 1)%Z) m per) e) k).
Proof.
  intros HL Lp Le Hd Hp Hm Eq. destruct HL as [L|L].
  - destruct m as [|m0 [|m1 [|]]]; try discriminate L. destruct per as [|q0 [|q1 [|]]]; try discriminate Lp. destruct e as [|i [|j [|]]]; try discriminate Le.
    destruct d as [|[|]]; [| |cbn in Hd; lia]; cbn [nth bump] in *; rewrite Hp; cbn [bump roll zip_with]; rewrite Eq, Z.eqb_refl; unfold corner; cbn [length seq zip_with wrap combine fst snd]; repeat (f_equal; try (rewrite <- Z.add_mod_idemp_l, Z.mod_same by lia; reflexivity)).
  - destruct m as [|m0 [|m1 [|m2 [|]]]]; try discriminate L. destruct per as [|q0 [|q1 [|q2 [|]]]]; try discriminate Lp. destruct e as [|i [|j [|l [|]]]]; try discriminate Le.
    destruct d as [|[|[|]]]; [| | |cbn in Hd; lia]; cbn [nth bump] in *; rewrite Hp; cbn [bump roll zip_with]; rewrite Eq, Z.eqb_refl; unfold corner; cbn [length seq zip_with wrap combine fst snd]; repeat (f_equal; try (rewrite <- Z.add_mod_idemp_l, Z.mod_same by lia; reflexivity)).
Qed.
Lemma Lsum_Rsum {A} (f : A -> nat -> R) l n : Lsum (fun a => Rsum n (f a)) l = Rsum n (fun d => Lsum (fun a => f a d) l).
Proof. induction n; cbn [Rsum]; [apply Lsum_zero|]. rewrite Lsum_plus, IHn. reflexivity. Qed.
Lemma Lsum_minus {A} (f g : A -> R) l : Lsum (fun a => f a - g a) l = Lsum f l - Lsum g l.
Proof. induction l as [|a l IH]; unfold Lsum in *; cbn; [ring|]. rewrite IH. ring. Qed.
Lemma zeros_len : forall m n : list Z, length m = length n -> map (fun _ => 0%Z) m = map (fun _ => 0%Z) n.
Proof. induction m; intros [|] L; try discriminate L; [reflexivity|]. cbn. f_equal. apply IHm. cbn in L. lia. Qed.
Lemma flux_tele h m per E v : grid_ok m per -> enumerates E (cells_box m per) ->
  flux h m per E v = Lsum (fun e => Rsum (length m) (fun d => face_area h d * (face_mean m per v (bump d e) d false - face_mean m per v e d false))) E.
Proof.
  intros (HL & Lp & HM) HE. set (n := zip_with (fun n (p : bool) => if p then n else (n - 1)%Z) m per). change (cells_box m per) with (mkbox (map (fun _ => 0%Z) m) n) in HE.
  assert (Ln : length n = length m) by (unfold n; rewrite length_zip_with; auto).
  assert (HB : mkbox (map (fun _ => 0%Z) m) n = box0 n). { unfold box0. f_equal. apply zeros_len. lia. }
  rewrite HB in HE. unfold flux. rewrite !Lsum_Rsum. apply Rsum_ext. intros d Hd. rewrite Lsum_scal, Lsum_minus.
  assert (Nd : nth d n 0%Z = if nth d per false then nth d m 0%Z else (nth d m 0 - 1)%Z).
  { unfold n. clear - Lp Hd. revert d m Lp Hd. induction per as [|p per IH]; intros d [|m0 m] Lp Hd; cbn in *; try lia. destruct d; [reflexivity|]. apply IH; lia. }
  assert (Md : (1 <= nth d m 0)%Z) by (rewrite Forall_forall in HM; apply HM, nth_In, Hd).
  destruct (nth d per false) eqn:P.
  - rewrite Lsum_zero. rewrite (tele_per n d E (fun e => face_mean m per v e d false) HE); [ring|]. intros e He Eq. destruct (in_box0 n e d He) as [Le _].
    unfold face_mean. f_equal. apply Rsum_ext. intros k _. destruct (Nat.eqb _ _); [|reflexivity]. unfold gv. f_equal. rewrite Nd in Eq. apply wrap_roll; auto; lia.
  - rewrite (tele n d E (fun e => face_mean m per v e d false) HE) by lia. rewrite Lsum_scal. f_equal. apply Lsum_ext. intros e He. apply HE in He. destruct (in_box0 n e d He) as [Le _]. f_equal.
    rewrite Nd. replace (nth d e 0 + 1 =? nth d m 0 - 1)%Z with (nth d e 0 + 2 =? nth d m 0)%Z by (destruct (Z.eqb_spec (nth d e 0 + 2)%Z (nth d m 0%Z)), (Z.eqb_spec (nth d e 0 + 1)%Z (nth d m 0 - 1)%Z); lia || reflexivity).
    rewrite face_up by (auto; lia). reflexivity.
Qed.

Lemma double_cells mp per : grid_ok mp per -> cells_box (refined_size mp per) per = box0 (map (fun a => (2 * a)%Z) (zip_with (fun n (p : bool) => if p then n else (n - 1)%Z) mp per)).
Proof.
  intros (_ & Lp & _). unfold cells_box, box0. f_equal.
  - apply zeros_len. rewrite map_length, length_zip_with by auto. unfold refined_size. rewrite length_zip_with; auto.
  - unfold refined_size. revert mp Lp. induction per as [|p per IH]; intros [|n mp] Lp; try discriminate Lp; [reflexivity|]. cbn [zip_with map]. rewrite IH by (cbn in Lp; lia). f_equal. destruct p; lia.
Qed.
Lemma cells_box1 mp per : length per = length mp -> cells_box mp per = box0 (zip_with (fun n (p : bool) => if p then n else (n - 1)%Z) mp per).
Proof. intros Lp. unfold cells_box, box0. f_equal. apply zeros_len. rewrite length_zip_with; auto. Qed.
Lemma div_flux h mp per E E' c v : grid_ok mp per -> length h = length mp -> enumerates E (cells_box mp per) -> enumerates E' (cells_box (refined_size mp per) per) ->
  div_form (refined_size mp per) mp per E (length mp) (getMatElemPressure h) (fun _ _ => c) v = c * flux h (refined_size mp per) per E' v.
Proof.
  intros HG Lh HE HE'. rewrite (flux_tele h _ per E' v (refined_grid mp per HG) HE').
  rewrite (double_cells mp per HG) in HE'. pose proof HG as (HL & Lp & HM). rewrite (cells_box1 mp per Lp) in HE.
  assert (Ln : length (zip_with (fun n (p : bool) => if p then n else (n - 1)%Z) mp per) = length mp) by (rewrite length_zip_with; auto).
  rewrite (regroup _ E E' _ ltac:(rewrite Ln; exact HL) HE HE'), Ln, <- Lsum_scal. unfold div_form. apply Lsum_ext. intros e He. apply HE in He. destruct (in_box0 _ e 0 He) as [Le _]. rewrite Ln in Le.
  assert (Lr : length (refined_size mp per) = length mp) by (unfold refined_size; rewrite length_zip_with; auto). rewrite Lr.
  destruct HL as [L|L].
  - destruct mp as [|m0 [|m1 [|]]]; try discriminate L. destruct per as [|q0 [|q1 [|]]]; try discriminate Lp. destruct h as [|h0 [|h1 [|]]]; try discriminate Lh. destruct e as [|i [|j [|]]]; try discriminate Le.
    change (2 ^ length [m0; m1])%nat with 4%nat. change (3 ^ length [m0; m1])%nat with 9%nat. change (length [m0; m1]) with 2%nat.
    etransitivity; [exact (const_elem m0 m1 q0 q1 h0 h1 c v i j)|]. f_equal.
    unfold face_mean, face_area, gv. rewrite Lr. unfold corner.
    cbn [Rsum Nat.pow Nat.mul Nat.add bump map length seq zip_with Nat.div Nat.modulo Nat.divmod fst snd Nat.sub Nat.eqb Z.of_nat Pos.of_succ_nat firstn skipn app fold_right pow].
    rewrite !Z.add_0_r. replace (2 * (i + 1))%Z with (2 * i + 2)%Z by ring. replace (2 * (j + 1))%Z with (2 * j + 2)%Z by ring. replace (2 * i + 1 + 1)%Z with (2 * i + 2)%Z by ring. replace (2 * j + 1 + 1)%Z with (2 * j + 2)%Z by ring.
    field.
  - destruct mp as [|m0 [|m1 [|m2 [|]]]]; try discriminate L. destruct per as [|q0 [|q1 [|q2 [|]]]]; try discriminate Lp. destruct h as [|h0 [|h1 [|h2 [|]]]]; try discriminate Lh. destruct e as [|i [|j [|k [|]]]]; try discriminate Le.
    change (2 ^ length [m0; m1; m2])%nat with 8%nat. change (3 ^ length [m0; m1; m2])%nat with 27%nat. change (length [m0; m1; m2]) with 3%nat.
    etransitivity; [exact (const_elem3 m0 m1 m2 q0 q1 q2 h0 h1 h2 c v i j k)|]. f_equal.
    unfold face_mean, face_area, gv. rewrite Lr. unfold corner, w3.
    cbn [Rsum Nat.pow Nat.mul Nat.add bump map length seq zip_with Nat.div Nat.modulo Nat.divmod fst snd Nat.sub Nat.eqb Z.of_nat Pos.of_succ_nat firstn skipn app fold_right pow].
    rewrite !Z.add_0_r. replace (2 * (i + 1))%Z with (2 * i + 2)%Z by ring. replace (2 * (j + 1))%Z with (2 * j + 2)%Z by ring. replace (2 * (k + 1))%Z with (2 * k + 2)%Z by ring.
    replace (2 * i + 1 + 1)%Z with (2 * i + 2)%Z by ring. replace (2 * j + 1 + 1)%Z with (2 * j + 2)%Z by ring. replace (2 * k + 1 + 1)%Z with (2 * k + 2)%Z by ring.
    field.
Qed.
