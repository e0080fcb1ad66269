(** Preallocation against assembly. *)
From Coq Require Import Permutation.
From Verif Require Import Base M_Geometry S_Geometry P_Geometry M_Particle S_Particle P_Particle M_Quadrature S_Fem M_MatElem M_Mesh M_Operator M_Bc M_Assembly S_Operator P_Mesh P_Operator P_Operator2 P_Global P_Stokes P_Operator3 P_Assembly P_Assembly2 P_AssemblyBc P_CreateMesh M_Prealloc.
Local Open Scope Z_scope.

(** ** one axis *)
Definition w1 (b : bool) (m x : Z) : Z := if b then x mod m else x.
Definition vM (b : bool) (m : Z) : Z := if b then 2 * m else 2 * m - 1.
Definition vu (b : bool) (c m : Z) : Z := if (c =? m) && negb b then 2 * c - 1 else 2 * c.
Definition ncell (b : bool) (m : Z) : Z := if b then m else m - 1.
Lemma mod_shift a x y m : 0 < m -> x mod m = y -> (y + a) mod m = (x + a) mod m.
Proof. intros Hm <-. rewrite Zplus_mod_idemp_l. reflexivity. Qed.
Lemma ax_ghost b a c m i p : 0 <= a -> c <= m -> a <= i < c -> st_low b 1 i <= p <= st_up b 1 m i -> glo b a <= i + p < gup b c m.
Proof. unfold st_low, st_up, glo, gup. destruct b; lia. Qed.
Lemma ax_cover b m e k k' i : 1 <= m -> 0 <= e < ncell b m -> 0 <= k <= 1 -> 0 <= k' <= 1 -> w1 b m (e + k) = i -> exists p, st_low b 1 i <= p <= st_up b 1 m i /\ w1 b m (i + p) = w1 b m (e + k').
Proof.
  unfold st_low, st_up, w1, ncell. intros Hm He Hk Hk' E. exists (k' - k). destruct b; [|lia]. split; [lia|]. replace (e + k') with (e + k + (k' - k)) by lia. apply mod_shift; [lia|exact E].
Qed.
Lemma ax_B_cover (b : bool) (m e k t i : Z) : 1 <= m -> 0 <= e < ncell b m -> 0 <= k <= 1 -> 0 <= t <= 2 -> w1 b m (e + k) = i ->
  exists p, (if b then -2 else Z.max (-2) (-2 * i)) <= p <= (if b then 2 else Z.min 2 (vM b m - 2 * i - 1)) /\ w1 b (vM b m) (2 * i + p) = w1 b (vM b m) (2 * e + t).
Proof.
  unfold w1, ncell, vM. intros Hm He Hk Ht E. exists (t - 2 * k). destruct b; [|lia]. split; [lia|].
  replace (2 * e + t) with (2 * (e + k) + (t - 2 * k)) by lia. apply mod_shift; [lia|]. rewrite <- E. rewrite Z.mul_mod_distr_l by lia. reflexivity.
Qed.
Lemma ax_B_declared (b : bool) (m a c np i p : Z) : 1 <= m -> 0 <= a -> a < c -> c <= m -> (np = 1 <-> a = 0 /\ c = m) -> a <= i < c ->
  (if b then -2 else Z.max (-2) (-2 * i)) <= p <= (if b then 2 else Z.min 2 (vM b m - 2 * i - 1)) ->
  let g := glo b (2 * a) in let u := vu b c m in let ii := if b then SetInRange (2 * i + p - g) (vM b m) else 2 * i + p - g in let px := if np =? 1 then 0 else g in
  ((ii + px <? 2 * a) || (2 * a + (u - 2 * a) <? ii + px) = false -> g <= g + ii < gup b u (vM b m) /\ w1 b (vM b m) (g + ii) = w1 b (vM b m) (2 * i + p)) /\
  ((ii + px <? 2 * a) || (2 * a + (u - 2 * a) <? ii + px) = true -> ~ 2 * a <= w1 b (vM b m) (2 * i + p) < u).
Proof.
  intros Hm Ha Hac Hc Hnp Hi Hp g u ii px. replace (2 * a + (u - 2 * a)) with u by lia. split.
  - intros H. apply orb_false_iff in H as [H1 H2]. apply Z.ltb_ge in H1, H2. unfold g, ii, px, u, vM, vu, w1, glo, gup, SetInRange in *.
    (destruct (Z.eqb_spec np 1) as [E|E]; [pose proof (proj1 Hnp E)|]); destruct b; destruct (Z.eqb_spec c m); cbn [andb negb] in *; try lia;
      repeat match goal with |- context [?x <? ?y] => destruct (Z.ltb_spec x y) | |- context [?x <=? ?y] => destruct (Z.leb_spec x y) | H : context [?x <? ?y] |- _ => destruct (Z.ltb_spec x y) | H : context [?x <=? ?y] |- _ => destruct (Z.leb_spec x y) end; try lia;
      (split; [lia|]); try lia; match goal with |- ?x mod ?n = ?y mod ?n => first [replace x with y by lia; reflexivity | replace x with (y + 1 * n) by lia; rewrite Z.mod_add by lia; reflexivity | replace x with (y + (-1) * n) by lia; rewrite Z.mod_add by lia; reflexivity] end.
  - intros H HW. apply orb_true_iff in H. unfold g, ii, px, u, vM, vu, w1, glo, SetInRange in *.
    destruct b; [|destruct H as [H|H]; apply Z.ltb_lt in H; (destruct (Z.eqb_spec np 1) as [E|E]; [pose proof (proj1 Hnp E)|]); destruct (Z.eqb_spec c m); cbn [andb negb] in *; lia].
    rewrite andb_false_r in *. cbn [negb] in *.
    assert (Q : exists z, (2 * i + p) = (2 * i + p) mod (2 * m) + 2 * m * z). { exists ((2 * i + p) / (2 * m)). pose proof (Z.div_mod (2 * i + p) (2 * m)). lia. }
    destruct Q as [z Q]. pose proof (Z.mod_pos_bound (2 * i + p) (2 * m)) as QB. set (y := (2 * i + p) mod (2 * m)) in *. clearbody y.
    assert (z = -1 \/ z = 0 \/ z = 1) as Hz by nia.
    (destruct (Z.eqb_spec np 1) as [E|E]; [pose proof (proj1 Hnp E)|]); destruct H as [H|H]; apply Z.ltb_lt in H;
      repeat match goal with H : context [?x <? ?y] |- _ => destruct (Z.ltb_spec x y) | H : context [?x <=? ?y] |- _ => destruct (Z.leb_spec x y) end; try lia;
      assert (a <> 0 \/ c <> m) by lia; lia.
Qed.
Definition bt_low (per : bool) (i : Z) := if per then - (1 - Z.land i 1) else Z.max (- (1 - Z.land i 1)) (Z.quot (- i) 2).
Definition bt_up (per : bool) (m i : Z) := if per then 1 else Z.min 1 (m - Z.quot i 2 - 1).
Lemma land1 i : Z.land i 1 = i mod 2. Proof. exact (Z.land_ones i 1 ltac:(lia)). Qed.
Lemma quot_opp i : 0 <= i -> Z.quot (- i) 2 = - (i / 2). Proof. intros H. rewrite Z.quot_opp_l by lia. rewrite Z.quot_div_nonneg by lia. reflexivity. Qed.
Lemma ax_BT_ghost b a c m i p : 0 <= a -> a < c -> c <= m -> 2 * a <= i < vu b c m -> bt_low b i <= p <= bt_up b m i -> glo b a <= Z.quot i 2 + p < gup b c m.
Proof.
  unfold bt_low, bt_up, vu, glo, gup. intros Ha Hac Hc Hi. rewrite land1, quot_opp, Z.quot_div_nonneg by lia. pose proof (Z.div_mod i 2). pose proof (Z.mod_pos_bound i 2). destruct b; destruct (Z.eqb_spec c m); cbn [andb negb] in *; lia.
Qed.
Lemma ax_BT_cover b m e k t i : 1 <= m -> 0 <= e < ncell b m -> 0 <= k <= 1 -> 0 <= t <= 2 -> w1 b (vM b m) (2 * e + t) = i ->
  exists p, bt_low b i <= p <= bt_up b m i /\ w1 b m (Z.quot i 2 + p) = w1 b m (e + k).
Proof.
  unfold bt_low, bt_up, vM, ncell, w1. intros Hm He Hk Ht E. assert (Hi : 0 <= i) by (destruct b; [subst i; apply Z.mod_pos_bound; lia|lia]).
  rewrite land1, quot_opp, Z.quot_div_nonneg by lia. pose proof (Z.div_mod i 2 ltac:(lia)) as D. pose proof (Z.mod_pos_bound i 2 ltac:(lia)) as B. destruct b.
  - destruct (Z.lt_ge_cases (2 * e + t) (2 * m)) as [L|L].
    + rewrite Z.mod_small in E by lia. exists (e + k - i / 2). split; [lia|]. f_equal. lia.
    + assert (e = m - 1 /\ t = 2) as [-> ->] by lia. replace (2 * (m - 1) + 2) with (1 * (2 * m)) in E by lia. rewrite Z.mod_mul in E by lia. subst i. exists (k - 1). cbn in *. split; [lia|].
      replace (m - 1 + k) with (k - 1 + 1 * m) by lia. rewrite Z.mod_add by lia. reflexivity.
  - exists (e + k - i / 2). split; lia.
Qed.

(** ** declared pairs *)
Section Declares.
  Variable dm : dmda * dmda.
  Definition good (t : decl * gdof) : Prop := snd (fst t) = Some (snd t) \/ (snd (fst t) = None /\ owned dm (snd t) = false).
  (** [F] declares, for each pair (row, column) of [pat], that column, or a negative index when it is not owned *)
  Definition declares (F : list decl -> outcome (list decl)) (pat : gdof -> gdof -> Prop) : Prop :=
    exists T, (forall L, F L = Ok (L ++ map fst T)) /\ Forall good T /\ forall r c, pat r c -> exists d, In ((r, d), c) T.
  Lemma declares_mono F (pat pat' : gdof -> gdof -> Prop) : declares F pat -> (forall r c, pat' r c -> pat r c) -> declares F pat'.
  Proof. intros (T & H1 & H2 & H3) H. exists T. auto. Qed.
  Lemma declares_ext F G pat : (forall L, F L = G L) -> declares F pat -> declares G pat.
  Proof. intros E (T & H1 & H2). exists T. split; [intros L; rewrite <- E; apply H1|exact H2]. Qed.
  Lemma declares_none : declares (fun L => Ok L) (fun _ _ => False).
  Proof. exists []. split; [intros L; cbn; rewrite app_nil_r; reflexivity|]. split; [constructor|intros r c []]. Qed.
  Lemma declares_bind F G p1 p2 : declares F p1 -> declares G p2 -> declares (fun L => bind (F L) G) (fun r c => p1 r c \/ p2 r c).
  Proof.
    intros (T1 & A1 & A2 & A3) (T2 & B1 & B2 & B3). exists (T1 ++ T2). split; [intros L; rewrite A1; cbn [bind]; rewrite B1, map_app, app_assoc; reflexivity|].
    split; [apply Forall_app; auto|]. intros r c [H|H]; [destruct (A3 r c H) as [d I]|destruct (B3 r c H) as [d I]]; exists d; apply in_or_app; auto.
  Qed.
  Lemma for_snoc {S} n (body : nat -> S -> outcome S) s : for_ (Datatypes.S n) body s = bind (for_ n body s) (body n).
  Proof. unfold for_. rewrite seq_S, fold_left_app. reflexivity. Qed.
  Lemma declares_for n body (pat : nat -> gdof -> gdof -> Prop) : (forall k, (k < n)%nat -> declares (body k) (pat k)) -> declares (for_ n body) (fun r c => exists k, (k < n)%nat /\ pat k r c).
  Proof.
    induction n as [|n IH]; intros H.
    - eapply declares_mono; [apply declares_none|]. intros r c (k & Hk & _). lia.
    - eapply declares_ext; [intros L; symmetry; apply for_snoc|]. eapply declares_mono; [apply (declares_bind _ _ _ (pat n) (IH (fun k Hk => H k ltac:(lia))) (H n ltac:(lia)))|].
      intros r c (k & Hk & P). destruct (Nat.eq_dec k n) as [->|]; [right; exact P|left; exists k; split; [lia|exact P]].
  Qed.
  Lemma declares_loop a b body (pat : Z -> gdof -> gdof -> Prop) : (forall k, a <= k < b -> declares (body k) (pat k)) -> declares (loop a b body) (fun r c => exists k, a <= k < b /\ pat k r c).
  Proof.
    intros H. unfold loop. eapply declares_mono; [apply (declares_for _ _ (fun k => pat (a + Z.of_nat k)))|].
    - intros k Hk. apply H. lia.
    - intros r c (k & Hk & P). exists (Z.to_nat (k - a)). split; [lia|]. rewrite Z2Nat.id by lia. replace (a + (k - a)) with k by lia. exact P.
  Qed.
  Lemma on_all_map2 {A B C} (f : B -> outcome C) (g : A -> B) (h : A -> C) l : (forall a, In a l -> f (g a) = Ok (h a)) -> on_all f (map g l) = Ok (map h l).
  Proof. induction l as [|a l IH]; intros H; [reflexivity|]. cbn [map on_all]. rewrite (H a (or_introl eq_refl)). cbn [bind]. rewrite IH by (intros; apply H; right; assumption). reflexivity. Qed.
  Lemma declares_set {A B} (R : list A) (gr : A -> Z) (rd : A -> gdof) (Q : list B) (gc : B -> Z) (tc : B -> gdof) :
    (forall r, In r R -> 0 <= gr r /\ ltog dm (gr r) = Ok (rd r) /\ owned dm (rd r) = true) ->
    (forall q, In q Q -> (gc q < 0 /\ owned dm (tc q) = false) \/ (0 <= gc q /\ ltog dm (gc q) = Ok (tc q))) ->
    declares (MatPreallocateSetLocal dm (map gr R) (map gc Q)) (fun r c => exists a q, In a R /\ In q Q /\ r = rd a /\ c = tc q).
  Proof.
    intros HR HQ. set (dc := fun q => if gc q <? 0 then None else Some (tc q)).
    exists (flat_map (fun r => map (fun q => ((rd r, dc q), tc q)) Q) R). split; [|split].
    - intros L. unfold MatPreallocateSetLocal, mapping_apply. rewrite (on_all_map2 _ gr (fun r => Some (rd r)) R).
      2: { intros r Hr. destruct (HR r Hr) as (H0 & H1 & _). destruct (Z.ltb_spec (gr r) 0); [lia|]. rewrite H1. reflexivity. }
      cbn [bind]. rewrite (on_all_map2 _ gc dc Q).
      2: { intros q Hq. unfold dc. destruct (HQ q Hq) as [[H _]|[H0 H1]]; destruct (Z.ltb_spec (gc q) 0); try lia; [reflexivity|]. rewrite H1. reflexivity. }
      cbn [bind]. clear HQ. revert L. induction R as [|r R' IH]; intros L; cbn [map fold_left flat_map]; [rewrite app_nil_r; reflexivity|].
      cbn [bind]. destruct (HR r (or_introl eq_refl)) as (_ & _ & ->). rewrite IH by (intros; apply HR; right; assumption). rewrite map_app, app_assoc, !map_map. reflexivity.
    - rewrite Forall_forall. intros t Ht. apply in_flat_map in Ht as [r [Hr Ht]]. apply in_map_iff in Ht as [q [<- Hq]]. unfold good, dc. cbn [fst snd].
      destruct (HQ q Hq) as [[H O]|[H0 _]]; destruct (Z.ltb_spec (gc q) 0); try lia; auto.
    - intros r c (a & q & Ha & Hq & -> & ->). exists (dc q). apply in_flat_map. exists a. split; [exact Ha|]. apply in_map_iff. exists q. auto.
  Qed.
  Lemma declares_buffer cap l F pat : Z.of_nat (length l) <= cap -> declares F pat -> declares (fun L => in_buffer cap l (F L)) pat.
  Proof. intros H D. eapply declares_ext; [|exact D]. intros L. unfold in_buffer. destruct (Z.leb_spec (Z.of_nat (length l)) cap); [reflexivity|lia]. Qed.
  (** ** the counters *)
  Lemma count_cover F pat L : declares F pat -> F [] = Ok L -> forall r,
    (forall C, NoDup C -> (forall c, In c C -> owned dm c = true /\ pat r c) -> (length C <= dnz dm L r)%nat) /\
    (forall C, NoDup C -> (forall c, In c C -> owned dm c = false /\ pat r c) -> (length C <= onz dm L r)%nat).
  Proof.
    intros (T & H1 & H2 & H3) E r. rewrite H1 in E. injection E as <-. cbn [app]. rewrite Forall_forall in H2.
    assert (K : forall (bb : bool) C, NoDup C -> (forall c, In c C -> owned dm c = bb /\ pat r c) ->
      (length C <= length (filter (fun d : decl => same_dof (fst d) r && Bool.eqb bb match snd d with Some c => owned dm c | None => false end) (map fst T)))%nat).
    { intros bb C HN HC. set (T' := filter (fun t : decl * gdof => same_dof (fst (fst t)) r && Bool.eqb bb match snd (fst t) with Some c => owned dm c | None => false end) T).
      assert (LE : length (filter (fun d : decl => same_dof (fst d) r && Bool.eqb bb match snd d with Some c => owned dm c | None => false end) (map fst T)) = length (map snd T')).
      { unfold T'. rewrite map_length. clear. induction T as [|t T IH]; [reflexivity|]. cbn [map filter]. destruct (_ && _); cbn [length]; rewrite IH; reflexivity. }
      rewrite LE. apply NoDup_incl_length; [exact HN|]. intros c Hc. destruct (HC c Hc) as [O P]. destruct (H3 r c P) as [d I].
      apply in_map_iff. exists ((r, d), c). split; [reflexivity|]. apply filter_In. split; [exact I|]. cbn [fst snd]. apply andb_true_iff. split; [destruct (same_dof_spec r r); congruence|].
      destruct (H2 _ I) as [G|[G G']]; cbn [fst snd] in *; subst d; [rewrite O|]; destruct bb; try reflexivity; congruence. }
    split; intros C HN HC.
    - unfold dnz. eapply Nat.le_trans; [apply (K true C HN HC)|]. apply Nat.eq_le_incl. f_equal. apply filter_ext. intros [a o]. cbn [fst snd]. destruct o; [|reflexivity]. destruct (owned dm _); reflexivity.
    - unfold onz. eapply Nat.le_trans; [apply (K false C HN HC)|]. apply Nat.eq_le_incl. reflexivity.
  Qed.
End Declares.

Lemma in_zrange a b x : In x (zrange a b) <-> a <= x < b.
Proof.
  unfold zrange. rewrite in_map_iff. split; [intros (k & <- & H); apply in_seq in H; lia|]. intros H. exists (Z.to_nat (x - a)). split; [lia|]. apply in_seq. lia.
Qed.
Lemma zrange_length a b : length (zrange a b) = Z.to_nat (b - a).
Proof. unfold zrange. rewrite map_length, seq_length. reflexivity. Qed.
Lemma flat_map_length_le {A B} (f : A -> list B) l n : (forall a, In a l -> (length (f a) <= n)%nat) -> (length (flat_map f l) <= length l * n)%nat.
Proof. induction l as [|a l IH]; intros H; [apply Nat.le_0_l|]. cbn [flat_map length]. rewrite app_length. specialize (IH (fun x Hx => H x (or_intror Hx))). specialize (H a (or_introl eq_refl)). lia. Qed.
(** grid of positions: second coordinate outer *)
Definition grid2 (P Q : list Z) : list (Z * Z) := flat_map (fun l => map (fun p => (p, l)) P) Q.
Lemma in_grid2 P Q p l : In (p, l) (grid2 P Q) <-> In p P /\ In l Q.
Proof.
  unfold grid2. rewrite in_flat_map. split.
  - intros (l' & Hl & H). apply in_map_iff in H as (p' & E & Hp). injection E as <- <-. auto.
  - intros [Hp Hl]. exists l. split; [exact Hl|]. apply in_map_iff. exists p. auto.
Qed.
Lemma grid2_length P Q : length (grid2 P Q) = (length Q * length P)%nat.
Proof. unfold grid2. induction Q as [|l Q IH]; [reflexivity|]. cbn [flat_map length]. rewrite app_length, map_length, IH. reflexivity. Qed.
Lemma flat_map_grid2 {A} (f : Z -> Z -> A) P Q : flat_map (fun l => map (fun p => f p l) P) Q = map (fun q => f (fst q) (snd q)) (grid2 P Q).
Proof. unfold grid2. induction Q as [|l Q IH]; [reflexivity|]. cbn [flat_map]. rewrite map_app, IH, map_map. reflexivity. Qed.
Lemma flat_map_grid2' {A} (f : Z -> Z -> list A) P Q : flat_map (fun l => flat_map (fun p => f p l) P) Q = flat_map (fun q => f (fst q) (snd q)) (grid2 P Q).
Proof.
  unfold grid2. induction Q as [|l Q IH]; [reflexivity|]. cbn [flat_map]. rewrite flat_map_app, IH. f_equal. clear. induction P as [|p P IH]; [reflexivity|]. cbn [flat_map map fst snd]. rewrite IH. reflexivity.
Qed.
Lemma flat_map_prod {A B C} (f : A -> B -> C) (P : list A) (Q : list B) : flat_map (fun a => map (f a) Q) P = map (fun ab => f (fst ab) (snd ab)) (list_prod P Q).
Proof. induction P as [|a P IH]; [reflexivity|]. cbn [flat_map list_prod]. rewrite map_app, IH, map_map. reflexivity. Qed.

Lemma inb2 lo0 lo1 up0 up1 x y : in_grid_box (mkbox [lo0; lo1] [up0; up1]) [x; y] <-> lo0 <= x < up0 /\ lo1 <= y < up1.
Proof.
  unfold in_grid_box. cbn [bottom_left upper_right]. split.
  - intros [A B]. inversion A as [|? ? ? ? A1 A2]; subst. inversion A2 as [|? ? ? ? A3 A4]; subst. inversion B as [|? ? ? ? B1 B2]; subst. inversion B2; subst. lia.
  - intros [A B]. split; repeat apply Forall2_cons; try apply Forall2_nil; lia.
Qed.
Section One.
  Variables (m0 m1 : Z) (b0 b1 : bool) (dms : list (dmda * dmda)).
  Let mp := [m0; m1].
  Let per := [b0; b1].
  Let mv := [vM b0 m0; vM b1 m1].
  Hypothesis HG : grid_ok mp per.
  Hypothesis HS : stokes_layout mp per 2 dms.
  Variable dm : dmda * dmda.
  Hypothesis Hin : In dm dms.
  Variables a0 a1 c0 c1 : Z.
  Hypothesis HO : g_own (snd dm) = mkbox [a0; a1] [c0; c1].
  Hypothesis H0 : 0 <= a0 /\ a0 < c0 /\ c0 <= m0.
  Hypothesis H1 : 0 <= a1 /\ a1 < c1 /\ c1 <= m1.
  Let u0 := vu b0 c0 m0.
  Let u1 := vu b1 c1 m1.
  Lemma mv_eq : refined_size mp per = mv. Proof. reflexivity. Qed.
  Lemma own_v : g_own (fst dm) = mkbox [2 * a0; 2 * a1] [u0; u1].
  Proof. destruct HS as (_ & _ & HF). rewrite Forall_forall in HF. rewrite (HF dm Hin), HO. reflexivity. Qed.
  Lemma info_v : info_of (fst dm) = mkinfo (vM b0 m0) (vM b1 m1) (2 * a0) (2 * a1) (u0 - 2 * a0) (u1 - 2 * a1) (glo b0 (2 * a0)) (glo b1 (2 * a1)) (gup b0 u0 (vM b0 m0) - glo b0 (2 * a0)) (gup b1 u1 (vM b1 m1) - glo b1 (2 * a1)) 2.
  Proof. pose proof (vv mp per dms HS dm Hin) as (E1 & E2 & E3 & _ & _ & _ & E4). unfold info_of. rewrite E1, E3, E4, own_v. reflexivity. Qed.
  Lemma info_p : info_of (snd dm) = mkinfo m0 m1 a0 a1 (c0 - a0) (c1 - a1) (glo b0 a0) (glo b1 a1) (gup b0 c0 m0 - glo b0 a0) (gup b1 c1 m1 - glo b1 a1) 1.
  Proof. pose proof (vp mp per dms HS dm Hin) as (E1 & E2 & E3 & _ & _ & _ & E4). unfold info_of. rewrite E1, E3, E4, HO. reflexivity. Qed.
  Lemma ghost_v : g_ghost (fst dm) = mkbox [glo b0 (2 * a0); glo b1 (2 * a1)] [gup b0 u0 (vM b0 m0); gup b1 u1 (vM b1 m1)].
  Proof. pose proof (vv mp per dms HS dm Hin) as (E1 & E2 & E3 & _ & _ & _ & E4). rewrite E4, own_v. reflexivity. Qed.
  Lemma ghost_p : g_ghost (snd dm) = mkbox [glo b0 a0; glo b1 a1] [gup b0 c0 m0; gup b1 c1 m1].
  Proof. pose proof (vp mp per dms HS dm Hin) as (E1 & E2 & E3 & _ & _ & _ & E4). rewrite E4, HO. reflexivity. Qed.
  Lemma per_v d : axis_per (fst dm) d = nth d per false. Proof. pose proof (vv mp per dms HS dm Hin) as (E1 & E2 & _). unfold axis_per. rewrite E2. reflexivity. Qed.
  Lemma per_p d : axis_per (snd dm) d = nth d per false. Proof. pose proof (vp mp per dms HS dm Hin) as (E1 & E2 & _). unfold axis_per. rewrite E2. reflexivity. Qed.
  Lemma bounds_u : (2 * a0 < u0 /\ u0 <= vM b0 m0) /\ (2 * a1 < u1 /\ u1 <= vM b1 m1).
  Proof. unfold u0, u1, vu, vM. destruct b0, b1; destruct (Z.eqb_spec c0 m0), (Z.eqb_spec c1 m1); cbn [andb negb]; lia. Qed.
  Lemma owned_v x y kd : owned dm (false, [x; y], kd) = true <-> 2 * a0 <= x < u0 /\ 2 * a1 <= y < u1.
  Proof. unfold owned. cbn [fst snd]. rewrite own_v. rewrite (point_inside_grid 2) by (try split; reflexivity). apply inb2. Qed.
  Lemma owned_p x y kd : owned dm (true, [x; y], kd) = true <-> a0 <= x < c0 /\ a1 <= y < c1.
  Proof. unfold owned. cbn [fst snd]. rewrite HO. rewrite (point_inside_grid 2) by (try split; reflexivity). apply inb2. Qed.
  Lemma wrap2 n0 n1 x y : wrap [n0; n1] per [x; y] = [w1 b0 n0 x; w1 b1 n1 y]. Proof. reflexivity. Qed.
  (** local indices *)
  Lemma loc_v x y kd : glo b0 (2 * a0) <= x < gup b0 u0 (vM b0 m0) -> glo b1 (2 * a1) <= y < gup b1 u1 (vM b1 m1) -> (kd < 2)%nat ->
    0 <= Z.of_nat kd + DMDALocalIndex2D (info_of (fst dm)) x y /\ ltog dm (Z.of_nat kd + DMDALocalIndex2D (info_of (fst dm)) x y) = Ok (false, [w1 b0 (vM b0 m0) x; w1 b1 (vM b1 m1) y], kd).
  Proof.
    intros Hx Hy Hk. assert (I : in_grid_box (g_ghost (fst dm)) [x; y]) by (rewrite ghost_v; apply inb2; auto).
    split; [|exact (ltog_v mp per dms eq_refl HG HS dm [x; y] kd Hin I Hk)].
    pose proof (vv mp per dms HS dm Hin) as (_ & _ & E3 & _). refine (proj1 (proj2 (ltog1_lidx (fst dm) [x; y] kd _ _ I _))); [rewrite ghost_v; reflexivity|rewrite ghost_v; reflexivity|rewrite E3; exact Hk].
  Qed.
  Lemma loc_p x y : glo b0 a0 <= x < gup b0 c0 m0 -> glo b1 a1 <= y < gup b1 c1 m1 ->
    0 <= local_size (fst dm) + DMDALocalIndex2D (info_of (snd dm)) x y /\ ltog dm (local_size (fst dm) + DMDALocalIndex2D (info_of (snd dm)) x y) = Ok (true, [w1 b0 m0 x; w1 b1 m1 y], 0%nat).
  Proof.
    intros Hx Hy. assert (I : in_grid_box (g_ghost (snd dm)) [x; y]) by (rewrite ghost_p; apply inb2; auto).
    split; [|exact (ltog_p mp per dms eq_refl HG HS dm [x; y] Hin I)].
    pose proof (vp mp per dms HS dm Hin) as (_ & _ & E3 & _). assert (K := proj1 (proj2 (ltog1_lidx (snd dm) [x; y] 0 ltac:(rewrite ghost_p; reflexivity) ltac:(rewrite ghost_p; reflexivity) I ltac:(rewrite E3; lia)))).
    assert (N : 0 <= local_size (fst dm)). { unfold local_size. rewrite info_v. cbn [i_dof i_gxm i_gym]. destruct bounds_u as [U0 U1]. unfold glo, gup. destruct b0, b1; nia. }
    unfold lidx in K. cbn [nth] in K. lia.
  Qed.
  Lemma w_own b a c m x : 0 <= a -> c <= m -> a <= x < c -> w1 b m x = x.
  Proof. unfold w1. destruct b; [|reflexivity]. intros. apply Z.mod_small. lia. Qed.
  Lemma own_ghost b a c m x : 0 <= a -> c <= m -> a <= x < c -> glo b a <= x < gup b c m.
  Proof. unfold glo, gup. destruct b; lia. Qed.
  Lemma row_v x y kd : 2 * a0 <= x < u0 -> 2 * a1 <= y < u1 -> (kd < 2)%nat ->
    0 <= Z.of_nat kd + DMDALocalIndex2D (info_of (fst dm)) x y /\ ltog dm (Z.of_nat kd + DMDALocalIndex2D (info_of (fst dm)) x y) = Ok (false, [x; y], kd) /\ owned dm (false, [x; y], kd) = true.
  Proof.
    intros Hx Hy Hk. destruct bounds_u as [U0 U1]. destruct (loc_v x y kd) as [K1 K2]; try (apply own_ghost; lia); [exact Hk|]. split; [exact K1|].
    rewrite (w_own b0 (2 * a0) u0), (w_own b1 (2 * a1) u1) in K2 by lia. split; [exact K2|]. apply owned_v. auto.
  Qed.
  Lemma row_p x y : a0 <= x < c0 -> a1 <= y < c1 ->
    0 <= local_size (fst dm) + DMDALocalIndex2D (info_of (snd dm)) x y /\ ltog dm (local_size (fst dm) + DMDALocalIndex2D (info_of (snd dm)) x y) = Ok (true, [x; y], 0%nat) /\ owned dm (true, [x; y], 0%nat) = true.
  Proof.
    intros Hx Hy. destruct (loc_p x y) as [K1 K2]; try (apply own_ghost; lia). split; [exact K1|].
    rewrite (w_own b0 a0 c0), (w_own b1 a1 c1) in K2 by lia. split; [exact K2|]. apply owned_p. auto.
  Qed.
  Definition nb (s n0 n1 i j : Z) : list (Z * Z) := grid2 (zrange (st_low b0 s i) (st_up b0 s n0 i + 1)) (zrange (st_low b1 s j) (st_up b1 s n1 j + 1)).
  Lemma neighbours_v i j : neighbours 1 (fst dm) i j = map (fun q => (i + fst q, j + snd q)) (nb 1 (vM b0 m0) (vM b1 m1) i j).
  Proof. unfold neighbours. rewrite !per_v, info_v. cbn [nth per i_mx i_my]. rewrite flat_map_grid2. reflexivity. Qed.
  Lemma neighbours_p i j : neighbours 1 (snd dm) i j = map (fun q => (i + fst q, j + snd q)) (nb 1 m0 m1 i j).
  Proof. unfold neighbours. rewrite !per_p, info_p. cbn [nth per i_mx i_my]. rewrite flat_map_grid2. reflexivity. Qed.
  Lemma st_len b m i : (length (zrange (st_low b 1 i) (st_up b 1 m i + 1)) <= 3)%nat.
  Proof. rewrite zrange_length. unfold st_low, st_up. destruct b; lia. Qed.
  Lemma nb_len n0 n1 i j : (length (nb 1 n0 n1 i j) <= 9)%nat.
  Proof. unfold nb. rewrite grid2_length. pose proof (st_len b0 n0 i). pose proof (st_len b1 n1 j). nia. Qed.
  Lemma in_nb n0 n1 i j p l : In (p, l) (nb 1 n0 n1 i j) <-> st_low b0 1 i <= p <= st_up b0 1 n0 i /\ st_low b1 1 j <= l <= st_up b1 1 n1 j.
  Proof. unfold nb. rewrite in_grid2, !in_zrange. lia. Qed.

  Definition patA (strain : bool) (r c : gdof) : Prop := exists i j p l kd kd', 2 * a0 <= i < u0 /\ 2 * a1 <= j < u1 /\ In (p, l) (nb 1 (vM b0 m0) (vM b1 m1) i j) /\ (kd < 2)%nat /\ (kd' < 2)%nat /\ (strain = false -> kd = kd') /\
    r = (false, [i; j], kd) /\ c = (false, [w1 b0 (vM b0 m0) (i + p); w1 b1 (vM b1 m1) (j + l)], kd').
  Lemma ax_gv i p : 2 * a0 <= i < u0 -> st_low b0 1 i <= p <= st_up b0 1 (vM b0 m0) i -> glo b0 (2 * a0) <= i + p < gup b0 u0 (vM b0 m0).
  Proof. intros. destruct bounds_u as [U0 U1]. apply ax_ghost; lia. Qed.
  Lemma ay_gv i p : 2 * a1 <= i < u1 -> st_low b1 1 i <= p <= st_up b1 1 (vM b1 m1) i -> glo b1 (2 * a1) <= i + p < gup b1 u1 (vM b1 m1).
  Proof. intros. destruct bounds_u as [U0 U1]. apply ax_ghost; lia. Qed.
  Lemma prealloc_A_ok strain : declares dm (prealloc_A strain dm) (patA strain).
  Proof.
    unfold prealloc_A. rewrite info_v. cbn [i_xs i_xm i_ys i_ym i_dof]. rewrite <- info_v. replace (2 * a0 + (u0 - 2 * a0)) with u0 by lia. replace (2 * a1 + (u1 - 2 * a1)) with u1 by lia. cbn zeta. change (Z.to_nat 2) with 2%nat.
    eapply declares_mono.
    - apply (declares_loop dm _ _ _ (fun i r c => exists j, 2 * a1 <= j < u1 /\ exists p l kd kd', In (p, l) (nb 1 (vM b0 m0) (vM b1 m1) i j) /\ (kd < 2)%nat /\ (kd' < 2)%nat /\ (strain = false -> kd = kd') /\
        r = (false, [i; j], kd) /\ c = (false, [w1 b0 (vM b0 m0) (i + p); w1 b1 (vM b1 m1) (j + l)], kd'))). intros i Hi.
      apply (declares_loop dm _ _ _ (fun j r c => exists p l kd kd', In (p, l) (nb 1 (vM b0 m0) (vM b1 m1) i j) /\ (kd < 2)%nat /\ (kd' < 2)%nat /\ (strain = false -> kd = kd') /\
        r = (false, [i; j], kd) /\ c = (false, [w1 b0 (vM b0 m0) (i + p); w1 b1 (vM b1 m1) (j + l)], kd'))). intros j Hj.
      rewrite neighbours_v. destruct strain.
      + assert (EC : flat_map (fun kd : nat => map (fun q => Z.of_nat kd + DMDALocalIndex2D (info_of (fst dm)) (fst q) (snd q)) (map (fun q => (i + fst q, j + snd q)) (nb 1 (vM b0 m0) (vM b1 m1) i j))) (seq 0 2)
          = map (fun kq : nat * (Z * Z) => Z.of_nat (fst kq) + DMDALocalIndex2D (info_of (fst dm)) (i + fst (snd kq)) (j + snd (snd kq))) (list_prod (seq 0 2) (nb 1 (vM b0 m0) (vM b1 m1) i j))).
        { etransitivity; [|apply (flat_map_prod (fun (kd : nat) (q : Z * Z) => Z.of_nat kd + DMDALocalIndex2D (info_of (fst dm)) (i + fst q) (j + snd q)))]. apply flat_map_ext. intros kd. rewrite map_map. reflexivity. }
        rewrite EC. apply declares_buffer; [rewrite map_length, prod_length, seq_length; pose proof (nb_len (vM b0 m0) (vM b1 m1) i j); unfold colu; lia|]. apply declares_buffer; [rewrite map_length, seq_length; lia|].
        eapply declares_mono; [apply (declares_set dm _ _ (fun kd => (false, [i; j], kd)) _ _ (fun kq => (false, [w1 b0 (vM b0 m0) (i + fst (snd kq)); w1 b1 (vM b1 m1) (j + snd (snd kq))], fst kq)))|].
        * intros kd Hkd. apply in_seq in Hkd. apply row_v; try lia.
        * intros [kd [p l]] Hq. apply in_prod_iff in Hq as [Hk Hq]. apply in_seq in Hk. apply in_nb in Hq as [Hp Hl]. cbn [fst snd]. right. apply loc_v; [apply ax_gv; auto|apply ay_gv; auto|lia].
        * intros r c (p & l & kd & kd' & Hn & Hk & Hk' & _ & -> & ->). exists kd, (kd', (p, l)). split; [apply in_seq; lia|]. split; [apply in_prod_iff; split; [apply in_seq; lia|exact Hn]|]. split; reflexivity.
      + rewrite seq_length. eapply declares_mono.
        * apply (declares_for dm _ _ (fun kd r c => exists p l, In (p, l) (nb 1 (vM b0 m0) (vM b1 m1) i j) /\ r = (false, [i; j], kd) /\ c = (false, [w1 b0 (vM b0 m0) (i + p); w1 b1 (vM b1 m1) (j + l)], kd))). intros kd Hkd.
          rewrite map_map. apply declares_buffer; [rewrite map_length; pose proof (nb_len (vM b0 m0) (vM b1 m1) i j); unfold colu; lia|].
          change [Z.of_nat kd + DMDALocalIndex2D (info_of (fst dm)) i j] with (map (fun kd : nat => Z.of_nat kd + DMDALocalIndex2D (info_of (fst dm)) i j) [kd]).
          eapply declares_mono; [apply (declares_set dm _ _ (fun kd => (false, [i; j], kd)) _ _ (fun q => (false, [w1 b0 (vM b0 m0) (i + fst q); w1 b1 (vM b1 m1) (j + snd q)], kd)))|].
          -- intros k [<-|[]]. apply row_v; lia.
          -- intros [p l] Hq. apply in_nb in Hq as [Hp Hl]. cbn [fst snd]. right. apply loc_v; [apply ax_gv; auto|apply ay_gv; auto|lia].
          -- intros r c (p & l & Hn & -> & ->). exists kd, (p, l). split; [left; reflexivity|]. split; [exact Hn|]. split; reflexivity.
        * intros r c (p & l & kd & kd' & Hn & Hk & Hk' & EK & -> & ->). rewrite (EK eq_refl) in *. exists kd'. split; [exact Hk'|]. exists p, l. auto.
    - intros r c (i & j & p & l & kd & kd' & Hi & Hj & H). exists i. split; [exact Hi|]. exists j. split; [exact Hj|]. exists p, l, kd, kd'. exact H.
  Qed.
  Definition patP (r c : gdof) : Prop := exists i j p l, a0 <= i < c0 /\ a1 <= j < c1 /\ In (p, l) (nb 1 m0 m1 i j) /\ r = (true, [i; j], 0%nat) /\ c = (true, [w1 b0 m0 (i + p); w1 b1 m1 (j + l)], 0%nat).
  Lemma prealloc_P_ok : declares dm (prealloc_P dm) patP.
  Proof.
    unfold prealloc_P. rewrite info_p. cbn [i_xs i_xm i_ys i_ym i_dof]. rewrite <- info_p. replace (a0 + (c0 - a0)) with c0 by lia. replace (a1 + (c1 - a1)) with c1 by lia. cbn zeta.
    eapply declares_mono.
    - apply (declares_loop dm _ _ _ (fun i r c => exists j, a1 <= j < c1 /\ exists p l, In (p, l) (nb 1 m0 m1 i j) /\ r = (true, [i; j], 0%nat) /\ c = (true, [w1 b0 m0 (i + p); w1 b1 m1 (j + l)], 0%nat))). intros i Hi.
      apply (declares_loop dm _ _ _ (fun j r c => exists p l, In (p, l) (nb 1 m0 m1 i j) /\ r = (true, [i; j], 0%nat) /\ c = (true, [w1 b0 m0 (i + p); w1 b1 m1 (j + l)], 0%nat))). intros j Hj.
      rewrite neighbours_p, map_map. apply declares_buffer; [rewrite map_length; pose proof (nb_len m0 m1 i j); unfold colp; lia|].
      change [local_size (fst dm) + DMDALocalIndex2D (info_of (snd dm)) i j] with (map (fun _ : unit => local_size (fst dm) + DMDALocalIndex2D (info_of (snd dm)) i j) [tt]).
      eapply declares_mono; [apply (declares_set dm _ _ (fun _ => (true, [i; j], 0%nat)) _ _ (fun q => (true, [w1 b0 m0 (i + fst q); w1 b1 m1 (j + snd q)], 0%nat)))|].
      + intros k _. apply row_p; lia.
      + intros [p l] Hq. apply in_nb in Hq as [Hp Hl]. cbn [fst snd]. right. apply loc_p; apply ax_ghost; lia.
      + intros r c (p & l & Hn & -> & ->). exists tt, (p, l). split; [left; reflexivity|]. split; [exact Hn|]. split; reflexivity.
    - intros r c (i & j & p & l & Hi & Hj & H). exists i. split; [exact Hi|]. exists j. split; [exact Hj|]. exists p, l. exact H.
  Qed.
  (** *** block (2, 1) *)
  Variable np : Z * Z.
  Hypothesis HN0 : fst np = 1 <-> a0 = 0 /\ c0 = m0.
  Hypothesis HN1 : snd np = 1 <-> a1 = 0 /\ c1 = m1.
  Definition nbB (i j : Z) : list (Z * Z) := grid2 (zrange (if b0 then -2 else Z.max (-2) (-2 * i)) ((if b0 then 2 else Z.min 2 (vM b0 m0 - 2 * i - 1)) + 1))
    (zrange (if b1 then -2 else Z.max (-2) (-2 * j)) ((if b1 then 2 else Z.min 2 (vM b1 m1 - 2 * j - 1)) + 1)).
  Lemma nbB_len i j : (length (nbB i j) <= 25)%nat.
  Proof.
    unfold nbB. rewrite grid2_length, !zrange_length.
    match goal with |- (Z.to_nat ?x * Z.to_nat ?y <= _)%nat => assert (Z.to_nat x <= 5)%nat by (destruct b1; lia); assert (Z.to_nat y <= 5)%nat by (destruct b0; lia); nia end.
  Qed.
  Lemma in_nbB i j p l : In (p, l) (nbB i j) <-> (if b0 then -2 else Z.max (-2) (-2 * i)) <= p <= (if b0 then 2 else Z.min 2 (vM b0 m0 - 2 * i - 1)) /\ (if b1 then -2 else Z.max (-2) (-2 * j)) <= l <= (if b1 then 2 else Z.min 2 (vM b1 m1 - 2 * j - 1)).
  Proof. unfold nbB. rewrite in_grid2, !in_zrange. destruct b0, b1; lia. Qed.
  Definition patB (r c : gdof) : Prop := exists i j p l kd, a0 <= i < c0 /\ a1 <= j < c1 /\ In (p, l) (nbB i j) /\ (kd < 2)%nat /\ r = (true, [i; j], 0%nat) /\ c = (false, [w1 b0 (vM b0 m0) (2 * i + p); w1 b1 (vM b1 m1) (2 * j + l)], kd).
  Lemma prealloc_B_ok : declares dm (prealloc_B np dm) patB.
  Proof.
    unfold prealloc_B. rewrite !per_p. cbn [nth per]. rewrite info_p, info_v. cbn [i_xs i_xm i_ys i_ym i_dof i_gxs i_gys i_gxm i_mx i_my]. rewrite <- info_p. replace (a0 + (c0 - a0)) with c0 by lia. replace (a1 + (c1 - a1)) with c1 by lia. cbn zeta. change (Z.to_nat 2) with 2%nat.
    eapply declares_mono.
    - apply (declares_loop dm _ _ _ (fun j r c => exists i, a0 <= i < c0 /\ exists p l kd, In (p, l) (nbB i j) /\ (kd < 2)%nat /\ r = (true, [i; j], 0%nat) /\ c = (false, [w1 b0 (vM b0 m0) (2 * i + p); w1 b1 (vM b1 m1) (2 * j + l)], kd))). intros j Hj.
      apply (declares_loop dm _ _ _ (fun i r c => exists p l kd, In (p, l) (nbB i j) /\ (kd < 2)%nat /\ r = (true, [i; j], 0%nat) /\ c = (false, [w1 b0 (vM b0 m0) (2 * i + p); w1 b1 (vM b1 m1) (2 * j + l)], kd))). intros i Hi.
      set (g0 := glo b0 (2 * a0)). set (g1 := glo b1 (2 * a1)). set (px := if fst np =? 1 then 0 else g0). set (py := if snd np =? 1 then 0 else g1).
      set (ii := fun p => if b0 then SetInRange (2 * i + p - g0) (vM b0 m0) else 2 * i + p - g0). set (jj := fun l => if b1 then SetInRange (2 * j + l - g1) (vM b1 m1) else 2 * j + l - g1).
      set (G := fun (q : Z * Z) (kd : nat) => if (ii (fst q) + px <? 2 * a0) || (2 * a0 + (u0 - 2 * a0) <? ii (fst q) + px) || (jj (snd q) + py <? 2 * a1) || (2 * a1 + (u1 - 2 * a1) <? jj (snd q) + py)
        then -1 else 2 * (jj (snd q) * (gup b0 u0 (vM b0 m0) - g0) + ii (fst q)) + Z.of_nat kd).
      match goal with |- context [in_buffer (2 * colu) ?l] => assert (EC : l = map (fun qk => G (fst qk) (snd qk)) (list_prod (nbB i j) (seq 0 2))) end.
      { etransitivity; [|apply (flat_map_prod G)]. unfold nbB. rewrite <- (flat_map_grid2' (fun p l => map (G (p, l)) (seq 0 2))). reflexivity. }
      rewrite EC. clear EC. apply declares_buffer; [rewrite map_length, prod_length, seq_length; pose proof (nbB_len i j); unfold colu; lia|].
      change [local_size (fst dm) + DMDALocalIndex2D (info_of (snd dm)) i j] with (map (fun _ : unit => local_size (fst dm) + DMDALocalIndex2D (info_of (snd dm)) i j) [tt]).
      eapply declares_mono; [apply (declares_set dm _ _ (fun _ => (true, [i; j], 0%nat)) _ _ (fun qk => (false, [w1 b0 (vM b0 m0) (2 * i + fst (fst qk)); w1 b1 (vM b1 m1) (2 * j + snd (fst qk))], snd qk)))|].
      + intros k _. apply row_p; lia.
      + intros [[p l] kd] Hq. apply in_prod_iff in Hq as [Hq Hk]. apply in_seq in Hk. apply in_nbB in Hq as [Hp Hl]. cbn [fst snd]. unfold G. cbn [fst snd].
        destruct (ax_B_declared b0 m0 a0 c0 (fst np) i p ltac:(lia) ltac:(lia) ltac:(lia) ltac:(lia) HN0 Hi Hp) as [X1 X2]. destruct (ax_B_declared b1 m1 a1 c1 (snd np) j l ltac:(lia) ltac:(lia) ltac:(lia) ltac:(lia) HN1 Hj Hl) as [Y1 Y2].
        fold g0 in X1, X2. fold g1 in Y1, Y2. fold u0 in X1, X2. fold u1 in Y1, Y2. fold px in X1, X2. fold py in Y1, Y2. change (if b0 then SetInRange (2 * i + p - g0) (vM b0 m0) else 2 * i + p - g0) with (ii p) in X1, X2. change (if b1 then SetInRange (2 * j + l - g1) (vM b1 m1) else 2 * j + l - g1) with (jj l) in Y1, Y2.
        rewrite <- orb_assoc. destruct ((ii p + px <? 2 * a0) || (2 * a0 + (u0 - 2 * a0) <? ii p + px)) eqn:EX; cbn [orb].
        * left. split; [lia|]. apply not_true_iff_false. rewrite owned_v. intros [Q _]. exact (X2 eq_refl Q).
        * destruct ((jj l + py <? 2 * a1) || (2 * a1 + (u1 - 2 * a1) <? jj l + py)) eqn:EY.
          -- left. split; [lia|]. apply not_true_iff_false. rewrite owned_v. intros [_ Q]. exact (Y2 eq_refl Q).
          -- right. destruct (X1 eq_refl) as [X3 X4]. destruct (Y1 eq_refl) as [Y3 Y4]. destruct (loc_v (g0 + ii p) (g1 + jj l) kd X3 Y3 ltac:(lia)) as [Z1 Z2].
             rewrite X4, Y4 in Z2. replace (2 * (jj l * (gup b0 u0 (vM b0 m0) - g0) + ii p) + Z.of_nat kd) with (Z.of_nat kd + DMDALocalIndex2D (info_of (fst dm)) (g0 + ii p) (g1 + jj l)); [auto|].
             rewrite info_v. unfold DMDALocalIndex2D. cbn [i_dof i_gxs i_gys i_gxm]. fold g0 g1. ring.
      + intros r c (p & l & kd & Hn & Hk & -> & ->). exists tt, ((p, l), kd). split; [left; reflexivity|]. split; [apply in_prod_iff; split; [exact Hn|apply in_seq; lia]|]. split; reflexivity.
    - intros r c (i & j & p & l & kd & Hi & Hj & H). exists j. split; [exact Hj|]. exists i. split; [exact Hi|]. exists p, l, kd. exact H.
  Qed.
  (** *** block (1, 2) *)
  Definition nbT (i j : Z) : list (Z * Z) := grid2 (zrange (bt_low b0 i) (bt_up b0 m0 i + 1)) (zrange (bt_low b1 j) (bt_up b1 m1 j + 1)).
  Lemma nbT_len i j : (length (nbT i j) <= 9)%nat.
  Proof.
    unfold nbT. rewrite grid2_length, !zrange_length. unfold bt_low, bt_up. rewrite !land1. pose proof (Z.mod_pos_bound i 2). pose proof (Z.mod_pos_bound j 2).
    match goal with |- (Z.to_nat ?x * Z.to_nat ?y <= _)%nat => assert (Z.to_nat x <= 3)%nat by (destruct b1; lia); assert (Z.to_nat y <= 3)%nat by (destruct b0; lia); nia end.
  Qed.
  Lemma in_nbT i j p l : In (p, l) (nbT i j) <-> bt_low b0 i <= p <= bt_up b0 m0 i /\ bt_low b1 j <= l <= bt_up b1 m1 j.
  Proof. unfold nbT. rewrite in_grid2, !in_zrange. lia. Qed.
  Definition patT (r c : gdof) : Prop := exists i j p l kd, 2 * a0 <= i < u0 /\ 2 * a1 <= j < u1 /\ In (p, l) (nbT i j) /\ (kd < 2)%nat /\ r = (false, [i; j], kd) /\ c = (true, [w1 b0 m0 (Z.quot i 2 + p); w1 b1 m1 (Z.quot j 2 + l)], 0%nat).
  Lemma prealloc_BT_ok : declares dm (prealloc_BT dm) patT.
  Proof.
    unfold prealloc_BT. rewrite !per_p. cbn [nth per]. rewrite info_p, info_v. cbn [i_xs i_xm i_ys i_ym i_dof i_gxs i_gys i_gxm i_mx i_my]. replace (2 * a0 + (u0 - 2 * a0)) with u0 by lia. replace (2 * a1 + (u1 - 2 * a1)) with u1 by lia. cbn zeta. change (Z.to_nat 2) with 2%nat.
    eapply declares_mono.
    - apply (declares_loop dm _ _ _ (fun i r c => exists j, 2 * a1 <= j < u1 /\ exists p l kd, In (p, l) (nbT i j) /\ (kd < 2)%nat /\ r = (false, [i; j], kd) /\ c = (true, [w1 b0 m0 (Z.quot i 2 + p); w1 b1 m1 (Z.quot j 2 + l)], 0%nat))). intros i Hi.
      apply (declares_loop dm _ _ _ (fun j r c => exists p l kd, In (p, l) (nbT i j) /\ (kd < 2)%nat /\ r = (false, [i; j], kd) /\ c = (true, [w1 b0 m0 (Z.quot i 2 + p); w1 b1 m1 (Z.quot j 2 + l)], 0%nat))). intros j Hj.
      match goal with |- context [in_buffer colp ?l] => assert (EC : l = map (fun q => local_size (fst dm) + DMDALocalIndex2D (info_of (snd dm)) (Z.quot i 2 + fst q) (Z.quot j 2 + snd q)) (nbT i j)) end.
      { unfold nbT. rewrite <- (flat_map_grid2 (fun p l => local_size (fst dm) + DMDALocalIndex2D (info_of (snd dm)) (Z.quot i 2 + p) (Z.quot j 2 + l))). apply flat_map_ext. intros l. apply map_ext. intros p. rewrite info_p. unfold DMDALocalIndex2D. cbn [i_dof i_gxs i_gys i_gxm]. ring. }
      match goal with |- context [in_buffer (2 * colu) ?l] => assert (ER : l = map (fun kd : nat => Z.of_nat kd + DMDALocalIndex2D (info_of (fst dm)) i j) (seq 0 2)) end.
      { apply map_ext. intros kd. rewrite info_v. unfold DMDALocalIndex2D. cbn [i_dof i_gxs i_gys i_gxm]. ring. }
      rewrite EC, ER. clear EC ER. apply declares_buffer; [rewrite map_length; pose proof (nbT_len i j); unfold colp; lia|]. apply declares_buffer; [rewrite map_length, seq_length; unfold colu; lia|].
      eapply declares_mono; [apply (declares_set dm _ _ (fun kd => (false, [i; j], kd)) _ _ (fun q => (true, [w1 b0 m0 (Z.quot i 2 + fst q); w1 b1 m1 (Z.quot j 2 + snd q)], 0%nat)))|].
      + intros kd Hk. apply in_seq in Hk. apply row_v; lia.
      + intros [p l] Hq. apply in_nbT in Hq as [Hp Hl]. cbn [fst snd]. right. apply loc_p; apply ax_BT_ghost; auto; try lia.
      + intros r c (p & l & kd & Hn & Hk & -> & ->). exists kd, (p, l). split; [apply in_seq; lia|]. split; [exact Hn|]. split; reflexivity.
    - intros r c (i & j & p & l & kd & Hi & Hj & H). exists i. split; [exact Hi|]. exists j. split; [exact Hj|]. exists p, l, kd. exact H.
  Qed.
  Definition pat (strain precond : bool) (r c : gdof) : Prop := patA strain r c \/ patP r c \/ (precond = false /\ (patB r c \/ patT r c)).
  Lemma prealloc_ok strain precond : exists L, PreallocateMat strain precond np dm = Ok L /\ exists F, declares dm F (pat strain precond) /\ F [] = Ok L.
  Proof.
    assert (D : declares dm (fun L => bind (prealloc_A strain dm L) (fun L => bind (prealloc_P dm L) (fun L => if precond then Ok L else bind (prealloc_B np dm L) (prealloc_BT dm)))) (pat strain precond)).
    { eapply declares_mono; [apply declares_bind; [apply prealloc_A_ok|apply declares_bind; [apply prealloc_P_ok|]]|].
      - instantiate (1 := fun r c => precond = false /\ (patB r c \/ patT r c)). destruct precond.
        + eapply declares_mono; [apply declares_none|]. intros r c [? _]. discriminate.
        + eapply declares_mono; [apply declares_bind; [apply prealloc_B_ok|apply prealloc_BT_ok]|]. intros r c [_ H]. exact H.
      - intros r c H. exact H. }
    pose proof D as (T & E & _). exists (map fst T). split; [apply (E [])|]. eexists. split; [exact D|]. apply (E []).
  Qed.
  (** *** assembled entries are declared *)
  Definition covered (strain precond : bool) (e : mentry) : Prop := owned dm (erow e) = true -> pat strain precond (erow e) (ecol e).
  Lemma corner2 x y k : (k < 4)%nat -> exists kx ky, corner [x; y] k = [x + kx; y + ky] /\ 0 <= kx <= 1 /\ 0 <= ky <= 1.
  Proof. intros Hk. exists (Z.of_nat (k mod 2)), (Z.of_nat (k / 2 mod 2)). split; [unfold corner; cbn [length seq zip_with]; change (2 ^ 0)%nat with 1%nat; rewrite Nat.div_1_r; reflexivity|]. pose proof (Nat.mod_upper_bound k 2). pose proof (Nat.mod_upper_bound (k / 2) 2). lia. Qed.
  Lemma corner32 x y k : (k < 9)%nat -> exists kx ky, corner3 [x; y] k = [2 * x + kx; 2 * y + ky] /\ 0 <= kx <= 2 /\ 0 <= ky <= 2.
  Proof. intros Hk. exists (Z.of_nat (k mod 3)), (Z.of_nat (k / 3 mod 3)). split; [unfold corner3; cbn [length seq zip_with]; change (3 ^ 0)%nat with 1%nat; rewrite Nat.div_1_r; reflexivity|]. pose proof (Nat.mod_upper_bound k 3). pose proof (Nat.mod_upper_bound (k / 3) 3). lia. Qed.
  Lemma cell2 n0 n1 e : in_grid_box (cells_box [n0; n1] per) e -> exists x y, e = [x; y] /\ 0 <= x < ncell b0 n0 /\ 0 <= y < ncell b1 n1.
  Proof.
    intros He. assert (L : length e = 2%nat) by (destruct He as [He _]; apply Forall2_len in He; symmetry; exact He). destruct e as [|x [|y [|]]]; try discriminate L. exists x, y. split; [reflexivity|].
    unfold cells_box, per in He. cbn [map zip_with] in He. apply inb2 in He. exact He.
  Qed.
  Lemma cov_v (strain precond : bool) e k k' d d' r : in_grid_box (cells_box mv per) e -> (k < 4)%nat -> (k' < 4)%nat -> (d < 2)%nat -> (d' < 2)%nat -> (strain = false -> d = d') ->
    covered strain precond ((false, wrap mv per (corner e k), d), (false, wrap mv per (corner e k'), d'), r).
  Proof.
    intros He Hk Hk' Hd Hd' Hs. destruct (cell2 _ _ e He) as (x & y & -> & Hx & Hy). destruct (corner2 x y k Hk) as (kx & ky & -> & Kx & Ky). destruct (corner2 x y k' Hk') as (kx' & ky' & -> & Kx' & Ky').
    unfold covered, erow, ecol. cbn [fst snd]. unfold mv. rewrite !wrap2. intros O. apply owned_v in O as [O0 O1]. left.
    assert (M0 : 1 <= vM b0 m0) by (unfold vM; destruct b0; lia). assert (M1 : 1 <= vM b1 m1) by (unfold vM; destruct b1; lia).
    destruct (ax_cover b0 (vM b0 m0) x kx kx' _ M0 Hx Kx Kx' eq_refl) as (p & Hp & Ep). destruct (ax_cover b1 (vM b1 m1) y ky ky' _ M1 Hy Ky Ky' eq_refl) as (l & Hl & El).
    exists (w1 b0 (vM b0 m0) (x + kx)), (w1 b1 (vM b1 m1) (y + ky)), p, l, d, d'. rewrite Ep, El. repeat (split; [first [exact O0|exact O1|exact Hd|exact Hd'|exact Hs|apply in_nb; split; assumption|reflexivity]|]). reflexivity.
  Qed.
  Lemma cov_p (strain precond : bool) e k k' r : in_grid_box (cells_box mp per) e -> (k < 4)%nat -> (k' < 4)%nat ->
    covered strain precond ((true, wrap mp per (corner e k), 0%nat), (true, wrap mp per (corner e k'), 0%nat), r).
  Proof.
    intros He Hk Hk'. destruct (cell2 _ _ e He) as (x & y & -> & Hx & Hy). destruct (corner2 x y k Hk) as (kx & ky & -> & Kx & Ky). destruct (corner2 x y k' Hk') as (kx' & ky' & -> & Kx' & Ky').
    unfold covered, erow, ecol. cbn [fst snd]. unfold mp. rewrite !wrap2. intros O. apply owned_p in O as [O0 O1]. right. left.
    destruct (ax_cover b0 m0 x kx kx' _ ltac:(lia) Hx Kx Kx' eq_refl) as (p & Hp & Ep). destruct (ax_cover b1 m1 y ky ky' _ ltac:(lia) Hy Ky Ky' eq_refl) as (l & Hl & El).
    exists (w1 b0 m0 (x + kx)), (w1 b1 m1 (y + ky)), p, l. rewrite Ep, El. repeat (split; [first [exact O0|exact O1|apply in_nb; split; assumption|reflexivity]|]). reflexivity.
  Qed.
  Lemma cov_B (strain : bool) e k a d r : in_grid_box (cells_box mp per) e -> (k < 4)%nat -> (a < 9)%nat -> (d < 2)%nat ->
    covered strain false ((true, wrap mp per (corner e k), 0%nat), (false, wrap mv per (corner3 e a), d), r).
  Proof.
    intros He Hk Ha Hd. destruct (cell2 _ _ e He) as (x & y & -> & Hx & Hy). destruct (corner2 x y k Hk) as (kx & ky & -> & Kx & Ky). destruct (corner32 x y a Ha) as (tx & ty & -> & Tx & Ty).
    unfold covered, erow, ecol. cbn [fst snd]. unfold mp, mv. rewrite !wrap2. intros O. apply owned_p in O as [O0 O1]. right. right. split; [reflexivity|]. left.
    destruct (ax_B_cover b0 m0 x kx tx _ ltac:(lia) Hx Kx Tx eq_refl) as (p & Hp & Ep). destruct (ax_B_cover b1 m1 y ky ty _ ltac:(lia) Hy Ky Ty eq_refl) as (l & Hl & El).
    exists (w1 b0 m0 (x + kx)), (w1 b1 m1 (y + ky)), p, l, d. rewrite Ep, El. repeat (split; [first [exact O0|exact O1|exact Hd|apply in_nbB; split; assumption|reflexivity]|]). reflexivity.
  Qed.
  Lemma cov_BT (strain : bool) e k a d r : in_grid_box (cells_box mp per) e -> (k < 4)%nat -> (a < 9)%nat -> (d < 2)%nat ->
    covered strain false ((false, wrap mv per (corner3 e a), d), (true, wrap mp per (corner e k), 0%nat), r).
  Proof.
    intros He Hk Ha Hd. destruct (cell2 _ _ e He) as (x & y & -> & Hx & Hy). destruct (corner2 x y k Hk) as (kx & ky & -> & Kx & Ky). destruct (corner32 x y a Ha) as (tx & ty & -> & Tx & Ty).
    unfold covered, erow, ecol. cbn [fst snd]. unfold mp, mv. rewrite !wrap2. intros O. apply owned_v in O as [O0 O1]. right. right. split; [reflexivity|]. right.
    destruct (ax_BT_cover b0 m0 x kx tx _ ltac:(lia) Hx Kx Tx eq_refl) as (p & Hp & Ep). destruct (ax_BT_cover b1 m1 y ky ty _ ltac:(lia) Hy Ky Ty eq_refl) as (l & Hl & El).
    exists (w1 b0 (vM b0 m0) (2 * x + tx)), (w1 b1 (vM b1 m1) (2 * y + ty)), p, l, d. rewrite Ep, El. repeat (split; [first [exact O0|exact O1|exact Hd|apply in_nbT; split; assumption|reflexivity]|]). reflexivity.
  Qed.
  Lemma Forall_block2 (P : mentry -> Prop) nr nc rd cd V : (forall a b, (a < nr)%nat -> (b < nc)%nat -> P (rd a, cd b, V a b)) -> Forall P (block nr nc rd cd V).
  Proof.
    intros H. unfold block. rewrite Forall_forall. intros x Hx. apply in_flat_map in Hx as [a [Ha Hx]]. apply in_flat_map in Hx as [b [Hb Hx]].
    apply in_seq in Ha. apply in_seq in Hb. destruct Hx as [<-|[]]. apply H; lia.
  Qed.
  Lemma all_dblock_v strain precond M : Forall (covered strain precond) (all_v dms (dblock per false mv 2 M)).
  Proof.
    apply (cells_all_v mp per dms HG HS). intros e He. unfold dblock. rewrite Forall_forall. intros x Hx. apply in_flat_map in Hx as [d [Hd Hx]]. apply in_seq in Hd.
    revert x Hx. rewrite <- Forall_forall. apply Forall_block2. intros a b Ha Hb. apply cov_v; auto; lia.
  Qed.
  Lemma all_tblock_v precond V : Forall (covered true precond) (all_v dms (tblock mp per V)).
  Proof.
    apply (cells_all_v mp per dms HG HS). intros e He. unfold tblock. apply Forall_block2. intros a b Ha Hb. apply cov_v; auto; try discriminate; try (apply Nat.mod_upper_bound; lia); apply (Nat.div_lt_upper_bound _ 4 2); lia.
  Qed.
  Lemma all_dblock_p strain precond M : Forall (covered strain precond) (all_p dms (dblock per true mp 1 M)).
  Proof.
    apply (cells_all_p mp per dms HG HS). intros e He. unfold dblock. rewrite Forall_forall. intros x Hx. apply in_flat_map in Hx as [d [Hd Hx]]. apply in_seq in Hd. assert (d = 0%nat) as -> by lia.
    revert x Hx. rewrite <- Forall_forall. apply Forall_block2. intros a b Ha Hb. apply cov_p; auto.
  Qed.
  Lemma all_oblock strain VB VT : Forall (covered strain false) (all_p dms (oblock mp per VB VT)).
  Proof.
    apply (cells_all_p mp per dms HG HS). intros e He. unfold oblock. apply Forall_app. split; apply Forall_block2; intros a b Ha Hb.
    - apply cov_B; auto; [apply Nat.mod_upper_bound; lia|apply (Nat.div_lt_upper_bound b 9 2); lia].
    - apply cov_BT; auto; [apply Nat.mod_upper_bound; lia|apply (Nat.div_lt_upper_bound a 9 2); lia].
  Qed.
  (** *** the two assembled matrices *)
  Lemma stokes_A_covered strain h0 h1 A : stokes_A strain h0 h1 dms = Ok A -> Forall (covered strain false) A.
  Proof.
    assert (ML : length mp = 2%nat) by reflexivity. unfold stokes_A. destruct strain.
    - rewrite (run_strain mp per dms ML HG HS). cbn [bind]. rewrite (run_B mp per dms ML HG HS). cbn [bind]. rewrite (run_diag mp per dms ML HG HS). intros E. injection E as <-.
      cbn [app]. apply Forall_app. split; [apply Forall_app; split; [apply all_tblock_v|apply all_oblock]|apply all_dblock_p].
    - rewrite (run_lap mp per dms ML HG HS). cbn [bind]. rewrite (run_B mp per dms ML HG HS). cbn [bind]. rewrite (run_diag mp per dms ML HG HS). intros E. injection E as <-.
      cbn [app]. apply Forall_app. split; [apply Forall_app; split; [apply all_dblock_v|apply all_oblock]|apply all_dblock_p].
  Qed.
  Lemma stokes_P_covered strain h0 h1 hp0 hp1 A : stokes_P strain h0 h1 hp0 hp1 dms = Ok A -> Forall (covered strain true) A.
  Proof.
    assert (ML : length mp = 2%nat) by reflexivity. unfold stokes_P. destruct strain.
    - rewrite (run_strain mp per dms ML HG HS). cbn [bind]. rewrite (run_mass mp per dms ML HG HS). intros E. injection E as <-.
      cbn [app]. apply Forall_app. split; [apply all_tblock_v|apply all_dblock_p].
    - rewrite (run_lap mp per dms ML HG HS). cbn [bind]. rewrite (run_mass mp per dms ML HG HS). intros E. injection E as <-.
      cbn [app]. apply Forall_app. split; [apply all_dblock_v|apply all_dblock_p].
  Qed.
  Lemma diag_covered strain precond x y kd (t : bool) : owned dm (t, [x; y], kd) = true -> (kd < if t then 1 else 2)%nat -> pat strain precond (t, [x; y], kd) (t, [x; y], kd).
  Proof.
    destruct t; intros O Hk.
    - apply owned_p in O as [O0 O1]. assert (kd = 0%nat) as -> by lia. right. left. exists x, y, 0, 0. repeat (split; [first [exact O0|exact O1|reflexivity|apply in_nb; unfold st_low, st_up; destruct b0, b1; lia]|]).
      rewrite !Z.add_0_r, (w_own b0 a0 c0), (w_own b1 a1 c1) by lia. reflexivity.
    - apply owned_v in O as [O0 O1]. destruct bounds_u as [U0 U1]. left. exists x, y, 0, 0, kd, kd. repeat (split; [first [exact O0|exact O1|exact Hk|reflexivity|apply in_nb; unfold st_low, st_up; destruct b0, b1; lia]|]).
      rewrite !Z.add_0_r, (w_own b0 (2 * a0) u0), (w_own b1 (2 * a1) u1) by lia. reflexivity.
  Qed.
  Definition owns (g : gdof) : Prop := in_grid_box (g_own (if fst (fst g) then snd dm else fst dm)) (snd (fst g)).
  Lemma owns_pos g : owns g -> exists x y, snd (fst g) = [x; y].
  Proof.
    unfold owns. intros [A _]. assert (E : length (bottom_left (g_own (if fst (fst g) then snd dm else fst dm))) = 2%nat) by (destruct (fst (fst g)); [rewrite HO|rewrite own_v]; reflexivity).
    apply Forall2_len in A. rewrite E in A. destruct (snd (fst g)) as [|x [|y [|]]]; try discriminate A. eauto.
  Qed.
  Lemma owns_owned t x y kd : owns (t, [x; y], kd) <-> owned dm (t, [x; y], kd) = true.
  Proof. unfold owns. cbn [fst snd]. destruct t; [rewrite owned_p, HO|rewrite owned_v, own_v]; apply inb2. Qed.
  Lemma pat_pos strain precond r c : pat strain precond r c -> exists x y, snd (fst c) = [x; y].
  Proof.
    intros [(i & j & p & l & kd & kd' & _ & _ & _ & _ & _ & _ & _ & ->)|[(i & j & p & l & _ & _ & _ & _ & ->)|[_ [(i & j & p & l & kd & _ & _ & _ & _ & _ & ->)|(i & j & p & l & kd & _ & _ & _ & _ & _ & ->)]]]]; cbn [fst snd]; eauto.
  Qed.
  Lemma counters_ok strain precond A : Forall (covered strain precond) A -> exists L, PreallocateMat strain precond np dm = Ok L /\
    forall r, owns r -> (snd r < if fst (fst r) then 1 else 2)%nat -> forall C, NoDup C -> (forall c, In c C -> c = r \/ exists v, In (r, c, v) A) ->
    ((forall c, In c C -> owns c) -> (length C <= dnz dm L r)%nat) /\ ((forall c, In c C -> ~ owns c) -> (length C <= onz dm L r)%nat).
  Proof.
    intros HA. destruct (prealloc_ok strain precond) as (L & E & F & D & EF). exists L. split; [exact E|]. intros r O Hr C HC HI.
    assert (P : forall c, In c C -> pat strain precond r c).
    { intros c Hc. destruct r as [[t q] kd]. destruct (owns_pos _ O) as (x & y & EQ). cbn [fst snd] in EQ. subst q. apply owns_owned in O. destruct (HI c Hc) as [->|[v I]].
      - apply diag_covered; auto.
      - rewrite Forall_forall in HA. exact (HA _ I O). }
    destruct (count_cover dm F _ L D EF r) as [K1 K2]. split; intros Q; [apply K1|apply K2]; auto; intros c Hc; (split; [|apply P, Hc]); destruct (pat_pos _ _ _ _ (P c Hc)) as (x & y & EQ); specialize (Q c Hc);
      destruct c as [[t' q'] kd']; cbn [fst snd] in EQ; subst q'; [apply owns_owned, Q|]. apply not_true_iff_false. intros W. apply Q, owns_owned, W.
  Qed.
End One.
(** ** the blocks of [createMesh] *)
Lemma block_bounds l n c : zsum l = n -> Forall (fun a => 1 <= a) l -> (c < length l)%nat ->
  (0 <= own_start l c /\ own_start l c < own_end l c /\ own_end l c <= n) /\ (Z.of_nat (length l) = 1 <-> own_start l c = 0 /\ own_end l c = n).
Proof.
  intros <-. revert c. induction l as [|a l IH]; intros c HF Hc; cbn [length] in *; [lia|]. inversion HF as [|? ? Ha HF']; subst.
  assert (NN : 0 <= zsum l /\ (l <> [] -> 0 < zsum l)). { clear - HF'. induction HF' as [|b l Hb HF IH]; cbn; [split; [lia|congruence]|]. unfold zsum in *. cbn. lia. }
  change (zsum (a :: l)) with (a + zsum l). destruct c as [|c].
  - rewrite own_end_0, own_start_0. split; [lia|]. destruct l as [|b l]; [cbn; lia|]. cbn [length]. destruct NN as [_ NN]. specialize (NN ltac:(discriminate)). lia.
  - rewrite own_end_cons, own_start_cons. destruct (IH c HF' ltac:(lia)) as [K1 K2]. split; [lia|]. lia.
Qed.
