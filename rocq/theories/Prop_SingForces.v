(** C61: the singular forces on the particles. *)
From Coq Require Import FunctionalExtensionality.
From Coquelicot Require Import Coquelicot.
From Verif Require Import Base M_Geometry S_Geometry M_Particle S_Particle P_Particle S_Fem P_MatElem P_Energy M_Mesh M_Operator S_Operator P_Operator P_Operator3 M_Shapes M_ParticleOp S_ParticleOp P_ParticleOp Prop_ParticleOp M_Truncation M_SingNormal M_SingTang M_SingWrap M_Singularity Prop_Singularity M_AddSing S_AddSing P_AddSing Prop_AddSing Prop_SingBox.
Open Scope R_scope.

Lemma csf_eq D h parts q l on1 on2 : parts = q :: l -> compute_singular_forces D h parts on1 on2 =
    for_ (length parts - 1) (fun ipart fs =>
    for_ (length parts - (ipart + 1)) (fun k fs =>
      let jpart := (ipart + 1 + k)%nat in
      let s := sing_of D h (nth ipart parts q) (nth jpart parts q) in
      if s_is s then
        bind (on1 s) (fun f1 => let fs := set_nth ipart (vec_minus (nth ipart fs []) f1) fs in
        bind (on2 s) (fun f2 => Ok (set_nth jpart (vec_minus (nth jpart fs []) f2) fs)))
      else Ok fs) fs) (map (fun _ => vzero D) parts).
Proof. intros ->. reflexivity. Qed.
(** Every couple in contact takes [f1] away from its first particle and [f2] from its second one; nothing else, and the previous forces are forgotten. *)
Section Couples.
  Variables (D : nat) (h : vec) (parts : list spart) (f1 f2 : sing -> vec) (p0 : spart).
  Hypothesis H1 : forall s, length (f1 s) = D.
  Hypothesis H2 : forall s, length (f2 s) = D.
  Let sg (i j : nat) : sing := sing_of D h (nth i parts p0) (nth j parts p0).
  Let share (a d i j : nat) : R := when (s_is (sg i j)) ((if Nat.eqb a i then co d (f1 (sg i j)) else 0) + (if Nat.eqb a j then co d (f2 (sg i j)) else 0)).
  Lemma zip_minus_co d (v w : vec) : length v = D -> length w = D -> (d < D)%nat -> co d (vec_minus v w) = co d v - co d w.
  Proof.
    unfold vec_minus, co. intros Hv Hw Hd. clear - Hv Hw Hd. revert v w d Hv Hw Hd. induction D as [|n IH]; intros [|x v] [|y w] [|d] Hv Hw Hd; simpl in Hv, Hw; try lia; cbn [zip_with nth]; [reflexivity|]. apply (IH v w d); lia.
  Qed.
  Lemma forces_loop : parts <> [] -> exists fs, compute_singular_forces D h parts (fun s => Ok (f1 s)) (fun s => Ok (f2 s)) = Ok fs /\ length fs = length parts /\ (forall a, (a < length parts)%nat -> length (nth a fs []) = D) /\
    forall a d, (a < length parts)%nat -> (d < D)%nat -> co d (nth a fs []) = - Rsum (length parts - 1) (fun i => Rsum (length parts - (i + 1)) (fun k => share a d i (i + 1 + k))).
  Proof.
    intros Hne. assert (EP : exists q l, parts = q :: l) by (destruct parts as [|q l]; [congruence|eauto]). destruct EP as (q & l & EP). rewrite (csf_eq D h parts q l _ _ EP). clear EP l. set (n := length parts).
    assert (ED : forall i, (i < n)%nat -> nth i parts q = nth i parts p0) by (intros; apply nth_indep; assumption).
    set (Inv := fun (X : nat -> nat -> R) (fs : list vec) => length fs = n /\ (forall a, (a < n)%nat -> length (nth a fs []) = D) /\ forall a d, (a < n)%nat -> (d < D)%nat -> co d (nth a fs []) = - X a d).
    destruct (for_inv (n - 1) (fun ipart fs =>
        for_ (n - (ipart + 1)) (fun k fs => let jpart := (ipart + 1 + k)%nat in let s := sing_of D h (nth ipart parts q) (nth jpart parts q) in
        if s_is s then bind (Ok (f1 s)) (fun g1 => let fs := set_nth ipart (vec_minus (nth ipart fs []) g1) fs in bind (Ok (f2 s)) (fun g2 => Ok (set_nth jpart (vec_minus (nth jpart fs []) g2) fs))) else Ok fs) fs)
      (fun i fs => Inv (fun a d => Rsum i (fun i => Rsum (n - (i + 1)) (fun k => share a d i (i + 1 + k)))) fs) (map (fun _ => vzero D) parts)) as (fs & E & L & LL & V).
    - split; [apply map_length|]. split.
      + intros a Ha. rewrite (nth_indep _ _ (vzero D)) by (rewrite map_length; exact Ha). rewrite (map_nth (fun _ => vzero D) parts q a). apply repeat_length.
      + intros a d Ha Hd. rewrite (nth_indep _ _ (vzero D)) by (rewrite map_length; exact Ha). rewrite (map_nth (fun _ => vzero D) parts q a). unfold co, vzero. rewrite nth_repeat. cbn [Rsum]. ring.
    - intros i fs Hi HI. cbv beta.
      destruct (for_inv (n - (i + 1)) (fun k fs => let jpart := (i + 1 + k)%nat in let s := sing_of D h (nth i parts q) (nth jpart parts q) in
        if s_is s then bind (Ok (f1 s)) (fun g1 => let fs := set_nth i (vec_minus (nth i fs []) g1) fs in bind (Ok (f2 s)) (fun g2 => Ok (set_nth jpart (vec_minus (nth jpart fs []) g2) fs))) else Ok fs)
        (fun k' fs => Inv (fun a d => Rsum i (fun i => Rsum (n - (i + 1)) (fun k => share a d i (i + 1 + k))) + Rsum k' (fun k => share a d i (i + 1 + k))) fs) fs) as (fs' & E' & I').
      + destruct HI as (A & B & C). repeat split; auto. intros a d Ha Hd. rewrite C by assumption. cbn [Rsum]. ring.
      + intros k fs1 Hk (A & B & C). cbv zeta. rewrite (ED i) by lia. rewrite (ED (i + 1 + k)%nat) by lia. fold (sg i (i + 1 + k)). unfold Inv. cbn [Rsum]. set (j := (i + 1 + k)%nat) in *. assert (Hj : (j < n)%nat) by lia. assert (Hij : i <> j) by lia.
        destruct (s_is (sg i j)) eqn:ES; cbn [bind].
        * eexists. split; [reflexivity|]. split; [rewrite !length_set_nth; exact A|].
          assert (Bi : length (nth i fs1 []) = D) by (apply B; lia). assert (Bj : length (nth j fs1 []) = D) by (apply B; lia).
          assert (LM : forall v w : vec, length v = D -> length w = D -> length (vec_minus v w) = D) by (intros v w Hv Hw; unfold vec_minus; rewrite length_zip_with; lia).
          split.
          { intros a Ha. destruct (Nat.eq_dec a j) as [->|Haj]; [rewrite nth_set_nth_eq by (rewrite length_set_nth; lia); rewrite nth_set_nth_neq by lia; apply LM; auto|].
            rewrite nth_set_nth_neq by lia. destruct (Nat.eq_dec a i) as [->|Hai]; [rewrite nth_set_nth_eq by lia; apply LM; auto|rewrite nth_set_nth_neq by lia; apply B, Ha]. }
          { intros a d Ha Hd. assert (ESh : share a d i j = (if Nat.eqb a i then co d (f1 (sg i j)) else 0) + (if Nat.eqb a j then co d (f2 (sg i j)) else 0)) by (unfold share; rewrite ES; reflexivity). rewrite ESh. clear ESh. destruct (Nat.eq_dec a j) as [->|Haj].
            - rewrite nth_set_nth_eq by (rewrite length_set_nth; lia). rewrite nth_set_nth_neq by lia. rewrite zip_minus_co by auto. rewrite C by assumption. rewrite Nat.eqb_refl. destruct (Nat.eqb_spec j i); [lia|]. ring.
            - rewrite nth_set_nth_neq by lia. destruct (Nat.eqb_spec a j); [lia|]. destruct (Nat.eqb_spec a i) as [->|Hai].
              + rewrite nth_set_nth_eq by lia. rewrite zip_minus_co by auto. rewrite C by assumption. ring.
              + rewrite nth_set_nth_neq by lia. rewrite C by assumption. ring. }
        * exists fs1. split; [reflexivity|]. split; [exact A|]. split; [exact B|]. intros a d Ha Hd. rewrite C by assumption. assert (ESh : share a d i j = 0) by (unfold share; rewrite ES; reflexivity). rewrite ESh. ring.
      + exists fs'. split; [exact E'|]. destruct I' as (A & B & C). repeat split; auto.
    - exists fs. split; [exact E|]. split; [exact L|]. split; [exact LL|]. exact V.
  Qed.
End Couples.
Lemma couples_index_sum n (F : nat -> nat -> R) : Lsum (fun p => F (fst p) (snd p)) (couples (seq 0 n)) = Rsum (n - 1) (fun i => Rsum (n - (i + 1)) (fun k => F i (i + 1 + k)%nat)).
Proof.
  pose proof (couples_loop (fun i j => [F i j]) 0%nat (seq 0 n)) as H. rewrite seq_length in H.
  transitivity (Lsum (fun x => x) (flat_map (fun p => [F (fst p) (snd p)]) (couples (seq 0 n)))).
  { rewrite Lsum_flat_map. apply Lsum_ext. intros p _. unfold Lsum. cbn. ring. }
  rewrite <- H, Lsum_flat_map, Lsum_seq. apply Rsum_ext. intros i Hi. rewrite Lsum_flat_map, Lsum_seq. apply Rsum_ext. intros k Hk. rewrite !seq_nth by lia. unfold Lsum. cbn [map fold_right]. rewrite !Nat.add_0_l. ring.
Qed.
(** The force of particle a: minus the sum over the couples (i,j), i < j, in contact, of f1 when a = i and f2 when a = j. *)
Definition couple_forces (D : nat) (h : vec) (parts : list spart) (f1 f2 : sing -> vec) (p0 : spart) (a d : nat) : R :=
  Lsum (fun ij : nat * nat => let s := sing_of D h (nth (fst ij) parts p0) (nth (snd ij) parts p0) in
    when (s_is s) ((if Nat.eqb a (fst ij) then co d (f1 s) else 0) + (if Nat.eqb a (snd ij) then co d (f2 s) else 0))) (couples (seq 0 (length parts))).
Theorem C61_couples : forall D h parts f1 f2 p0, (forall s, length (f1 s) = D) -> (forall s, length (f2 s) = D) -> parts <> [] ->
  exists fs, compute_singular_forces D h parts (fun s => Ok (f1 s)) (fun s => Ok (f2 s)) = Ok fs /\ length fs = length parts /\
  forall a, (a < length parts)%nat -> length (nth a fs []) = D /\ forall d, (d < D)%nat -> co d (nth a fs []) = - couple_forces D h parts f1 f2 p0 a d.
Proof.
  intros D h parts f1 f2 p0 H1 H2 Hne. destruct (forces_loop D h parts f1 f2 p0 H1 H2 Hne) as (fs & E & L & LL & V). exists fs. split; [exact E|]. split; [exact L|]. intros a Ha. split; [apply LL, Ha|]. intros d Hd.
  rewrite V by assumption. f_equal. unfold couple_forces. cbv zeta. symmetry. apply (couples_index_sum (length parts) (fun i j => when (s_is (sing_of D h (nth i parts p0) (nth j parts p0)))
    ((if Nat.eqb a i then co d (f1 (sing_of D h (nth i parts p0) (nth j parts p0))) else 0) + (if Nat.eqb a j then co d (f2 (sing_of D h (nth i parts p0) (nth j parts p0))) else 0)))).
Qed.
Print Assumptions C61_couples.

(** ** 2D: the loop from the unsigned -N to N never runs *)
Theorem C61_force_2d_refuted : forall fuel N term, (0 <= N <= 2 ^ 63)%Z -> (1 <= fuel)%nat -> singular_force2 fuel N term = Ok [0; 0].
Proof.
  intros fuel N term HN Hf. destruct fuel as [|fuel]; [lia|]. unfold singular_force2. cbn [size_t_loop].
  assert (E : (((- N) mod 2 ^ 64) <? N)%Z = false).
  { apply Z.ltb_ge. destruct (Z.eq_dec N 0) as [->|Hn]; [rewrite Z.mod_0_l by lia; lia|]. replace ((- N) mod 2 ^ 64)%Z with (2 ^ 64 - N)%Z; [lia|]. apply (Z.mod_unique_pos _ _ (-1)); lia. }
  rewrite E. reflexivity.
Qed.
Theorem C61_forces_2d_refuted : forall fuel h parts N, (0 <= N <= 2 ^ 63)%Z -> (1 <= fuel)%nat -> parts <> [] ->
  exists fs, compute_singular_forces2 fuel h parts N = Ok fs /\ length fs = length parts /\ forall a, (a < length parts)%nat -> nth a fs [] = [0; 0].
Proof.
  intros fuel h parts N HN Hf Hne. destruct parts as [|p0 l] eqn:EP; [congruence|]. rewrite <- EP in *.
  destruct (C61_couples 2 h parts (fun _ => [0; 0]) (fun _ => [0; 0]) p0 (fun _ => eq_refl) (fun _ => eq_refl) Hne) as (fs & E & L & V).
  exists fs. split; [|split; [exact L|]].
  - rewrite <- E. unfold compute_singular_forces2. rewrite !(csf_eq 2 h parts p0 l _ _ EP).
    f_equal. apply functional_extensionality. intros i. apply functional_extensionality. intros fs0. f_equal. apply functional_extensionality. intros k. apply functional_extensionality. intros fs1. cbv zeta. rewrite !(C61_force_2d_refuted fuel N) by assumption. reflexivity.
  - intros a Ha. destruct (V a Ha) as [La Va].
    assert (Z0 : forall d, couple_forces 2 h parts (fun _ => [0; 0]) (fun _ => [0; 0]) p0 a d = 0).
    { intros d. unfold couple_forces. apply Lsum_all_zero. intros ij _. cbv zeta. assert (Cd : co d [0; 0] = 0) by (unfold co; destruct d as [|[|d]]; [reflexivity..|destruct d; reflexivity]). rewrite Cd. unfold when. destruct (s_is _); [|reflexivity]. destruct (Nat.eqb _ _), (Nat.eqb _ _); ring. }
    assert (V0 := Va 0%nat ltac:(lia)). assert (V1 := Va 1%nat ltac:(lia)). rewrite Z0 in V0, V1. destruct (nth a fs []) as [|x [|y [|]]]; try discriminate. unfold co in V0, V1. cbn [nth] in V0, V1. subst. apply f_equal2; [ring|]. apply f_equal2; [ring|reflexivity].
Qed.
Print Assumptions C61_forces_2d_refuted.

(** ** 3D *)
(** the stress of the code is 2 mu D(u) - p I with mu = 1 *)
Theorem C61_stress_3d : forall s X p i j, length (s_base s) = 3%nat -> (i < 3)%nat -> (j < 3)%nat ->
  let g := get_grad_u_sing_ref s X in nth j (nth i (stress3 g p) []) 0 = nth j (nth i g []) 0 + nth i (nth j g []) 0 - (if Nat.eqb i j then p else 0).
Proof.
  intros s X p i j HB Hi Hj. unfold get_grad_u_sing_ref. rewrite HB. cbn [Nat.eqb]. cbv zeta beta.
  assert (Sy : dyux_sing_normalMvt3D X (s_H1 s) (s_H2 s) (s_contact s) (s_UN s) (s_param s) (s_param s) = dxuy_sing_normalMvt3D X (s_H1 s) (s_H2 s) (s_contact s) (s_UN s) (s_param s) (s_param s)) by reflexivity.
  unfold stress3. destruct i as [|[|[|]]]; [| | |lia]; (destruct j as [|[|[|]]]; [| | |lia]); cbn [nth Nat.eqb]; rewrite ?Sy; ring.
Qed.
Lemma Rsum_shift n f : Rsum (S n) f = f 0%nat + Rsum n (fun k => f (S k)).
Proof. induction n as [|n IH]; [cbn [Rsum]; ring|]. change (Rsum (S (S n)) f) with (Rsum (S n) f + f (S n)). rewrite IH. cbn [Rsum]. ring. Qed.
Lemma Rsum_le n f g : (forall k, (k < n)%nat -> f k <= g k) -> Rsum n f <= Rsum n g.
Proof. induction n as [|n IH]; intros H; cbn [Rsum]; [lra|]. apply Rplus_le_compat; [apply IH; intros; apply H; lia|apply H; lia]. Qed.
(** one pass *)
Definition tr (sigma : list vec) (n : vec) (coef : R) (d : nat) : R := coef * Rsum 3 (fun d2 => co d2 (nth d sigma []) * co d2 n).
Lemma force_pass_spec base sigma n coef f fr : length f = 3%nat -> length fr = 3%nat ->
  let st := force_pass base sigma n coef (f, fr) in length (fst st) = 3%nat /\ length (snd st) = 3%nat /\
  (forall d, (d < 3)%nat -> co d (snd st) = co d fr + tr sigma n coef d) /\
  (forall d, (d < 3)%nat -> co d (fst st) = co d f + Rsum 3 (fun d2 => co d (nth d2 base []) * (co d2 fr + tr sigma n coef d2))).
Proof.
  intros Hf Hr. destruct f as [|a0 [|a1 [|a2 [|]]]]; try discriminate. destruct fr as [|b0 [|b1 [|b2 [|]]]]; try discriminate. unfold force_pass, tr, co. cbn [fst snd seq fold_left set_nth nth].
  split; [reflexivity|]. split; [reflexivity|]. split; intros d Hd; (destruct d as [|[|[|]]]; [| | |lia]); cbn [nth Rsum]; ring.
Qed.
Section Passes.
  Context {A : Type} (base : list vec) (sigma : A -> list vec) (n : A -> vec) (coef : A -> R).
  Lemma passes l (d : A) : forall f fr, length f = 3%nat -> length fr = 3%nat ->
    let st := fold_left (fun st a => force_pass base (sigma a) (n a) (coef a) st) l (f, fr) in length (fst st) = 3%nat /\ length (snd st) = 3%nat /\
    forall c, (c < 3)%nat -> co c (fst st) = co c f + Rsum 3 (fun d2 => co c (nth d2 base []) * (INR (length l) * co d2 fr + Rsum (length l) (fun k => INR (length l - k) * tr (sigma (nth k l d)) (n (nth k l d)) (coef (nth k l d)) d2))).
  Proof.
    induction l as [|a l IH]; intros f fr Hf Hr; cbn [fold_left].
    - split; [exact Hf|]. split; [exact Hr|]. intros c Hc. cbn [length Rsum INR fst]. ring.
    - destruct (force_pass_spec base (sigma a) (n a) (coef a) f fr Hf Hr) as (L1 & L2 & V2 & V1). destruct (force_pass base (sigma a) (n a) (coef a) (f, fr)) as [f' fr']. cbn [fst snd] in *.
      destruct (IH f' fr' L1 L2) as (M1 & M2 & W). split; [exact M1|]. split; [exact M2|]. intros c Hc. rewrite W, V1 by exact Hc. rewrite Rplus_assoc. f_equal. rewrite <- Rsum_plus. apply Rsum_ext. intros d2 Hd2. rewrite V2 by exact Hd2.
      assert (ES : Rsum (length (a :: l)) (fun k => INR (length (a :: l) - k) * tr (sigma (nth k (a :: l) d)) (n (nth k (a :: l) d)) (coef (nth k (a :: l) d)) d2) =
        INR (S (length l)) * tr (sigma a) (n a) (coef a) d2 + Rsum (length l) (fun k => INR (length l - k) * tr (sigma (nth k l d)) (n (nth k l d)) (coef (nth k l d)) d2)).
      { cbn [length]. rewrite Rsum_shift. rewrite Nat.sub_0_r. reflexivity. }
      rewrite ES. cbn [length]. rewrite S_INR. ring.
  Qed.
End Passes.
Lemma nested_fold {A S} (F : S -> A -> A -> S) (l1 l2 : list A) s : fold_left (fun s i => fold_left (fun s j => F s i j) l2 s) l1 s = fold_left (fun s p => F s (fst p) (snd p)) (list_prod l1 l2) s.
Proof.
  revert s. induction l1 as [|a l1 IH]; intros s; [reflexivity|]. cbn [fold_left list_prod]. rewrite fold_left_app, <- IH. f_equal. clear. revert s. induction l2 as [|b l2 IH]; intros s; [reflexivity|]. cbn [map fold_left fst snd]. apply IH.
Qed.
Lemma nth_list_prod {A} (l1 l2 : list A) d : forall k, (k < length l1 * length l2)%nat -> nth k (list_prod l1 l2) (d, d) = (nth (k / length l2) l1 d, nth (k mod length l2) l2 d).
Proof.
  induction l1 as [|a l1 IH]; intros k Hk; cbn [length] in Hk; [lia|]. assert (H2 : (length l2 <> 0)%nat) by (intros E; rewrite E in Hk; lia). cbn [list_prod]. destruct (Nat.lt_ge_cases k (length l2)) as [Hlt|Hge].
  - rewrite app_nth1 by (rewrite map_length; exact Hlt). rewrite (Nat.div_small k), (Nat.mod_small k) by exact Hlt. rewrite (nth_indep _ _ (a, d)) by (rewrite map_length; exact Hlt). apply (map_nth (fun y => (a, y))).
  - rewrite app_nth2, map_length by (rewrite map_length; exact Hge). rewrite IH by lia. replace k with ((k - length l2) + 1 * length l2)%nat at 3 4 by lia. rewrite Nat.div_add, Nat.mod_add by exact H2. rewrite Nat.add_1_r. reflexivity.
Qed.
(** Point (i, j) of the arc of particle 1 or 2, its weight and its traction sigma n (contact frame). *)
Definition arc_traction (second : bool) (s : sing) (N : nat) (i j d : nat) : R :=
  let H := if second then s_H2 s else s_H1 s in let theta := asin (s_cutoff s * H) in
  let '(pos, n) := surf_point3 second H (s_contact s) theta (Z.of_nat N) (Z.of_nat i) (Z.of_nat j) in
  Rsum 3 (fun d2 => co d2 (nth d (stress3 (get_grad_u_sing_ref s pos) (get_p_sing_ref3 s pos)) []) * co d2 n).
Definition arc_weight (second : bool) (s : sing) (N i : nat) : R :=
  let H := if second then s_H2 s else s_H1 s in let theta := asin (s_cutoff s * H) in
  2 * PI * theta / INR N / INR N / H / H * sin (INR i * theta / INR N).
(** The quadrature point number k (from 0) of the N x N points is counted N^2 - k times instead of once: the sum is accumulated inside the loop. *)
Theorem C61_force_3d_refuted : forall second s N c, (c < 3)%nat ->
  co c (singular_force3 second s (Z.of_nat N)) = Rsum 3 (fun d => co c (nth d (s_base s) []) *
    Rsum (N * N) (fun k => INR (N * N - k) * (arc_weight second s N (1 + k / N) * arc_traction second s N (1 + k / N) (1 + k mod N) d))).
Proof.
  intros second s N c Hc. unfold singular_force3. set (H := if second then s_H2 s else s_H1 s). set (theta := asin (s_cutoff s * H)). set (A := 2 * PI * theta / IZR (Z.of_nat N) / IZR (Z.of_nat N) / H / H). cbv zeta. rewrite Nat2Z.id.
  set (pt := fun p : nat * nat => surf_point3 second H (s_contact s) theta (Z.of_nat N) (Z.of_nat (fst p)) (Z.of_nat (snd p))).
  set (sg := fun p => stress3 (get_grad_u_sing_ref s (fst (pt p))) (get_p_sing_ref3 s (fst (pt p)))). set (cf := fun p : nat * nat => A * sin (IZR (Z.of_nat (fst p)) * theta / IZR (Z.of_nat N))).
  transitivity (co c (fst (fold_left (fun st p => force_pass (s_base s) (sg p) (snd (pt p)) (cf p) st) (list_prod (seq 1 N) (seq 1 N)) (vzero 3, vzero 3)))).
  { do 2 f_equal. symmetry. refine (eq_trans _ (eq_trans (eq_sym (nested_fold (fun st i j => force_pass (s_base s) (sg (i, j)) (snd (pt (i, j))) (cf (i, j)) st) (seq 1 N) (seq 1 N) (vzero 3, vzero 3))) _)); [reflexivity|].
    f_equal. apply functional_extensionality. intros st. apply functional_extensionality. intros i. f_equal. apply functional_extensionality. intros st'. apply functional_extensionality. intros j.
    unfold sg, cf, pt. cbn [fst snd]. destruct (surf_point3 second H (s_contact s) theta (Z.of_nat N) (Z.of_nat i) (Z.of_nat j)) as [pos n]. reflexivity. }
  destruct (passes (s_base s) sg (fun p => snd (pt p)) cf (list_prod (seq 1 N) (seq 1 N)) (0, 0)%nat (vzero 3) (vzero 3) eq_refl eq_refl) as (_ & _ & W). refine (eq_trans (W c Hc) _).
  assert (Z0 : forall d, co d (vzero 3) = 0) by (intros d; unfold co, vzero; apply nth_repeat). rewrite Z0, Rplus_0_l. apply Rsum_ext. intros d Hd. rewrite Z0, Rmult_0_r, Rplus_0_l. rewrite prod_length, !seq_length.
  f_equal. apply Rsum_ext. intros k Hk. f_equal. rewrite (nth_list_prod (seq 1 N) (seq 1 N) 0%nat k) by (rewrite !seq_length; exact Hk). rewrite !seq_length.
  assert (HN : N <> 0%nat) by (intros ->; lia). rewrite !seq_nth by (try apply Nat.mod_upper_bound; try apply Nat.div_lt_upper_bound; lia).
  unfold tr, arc_weight, arc_traction. fold H. fold theta. unfold sg, cf, pt. cbn [fst snd]. destruct (surf_point3 _ _ _ _ _ _ _) as [pos n]. cbn [fst snd]. unfold A. rewrite !INR_IZR_INZ. reflexivity.
Qed.
Print Assumptions C61_force_3d_refuted.
Lemma singular_force3_length second s N : length (singular_force3 second s (Z.of_nat N)) = 3%nat.
Proof.
  unfold singular_force3. cbv zeta. rewrite Nat2Z.id. generalize (seq 1 N) at 1 as l1. generalize (seq 1 N) as l2. intros l2 l1.
  assert (G : forall l1 st, length (fst st) = 3%nat /\ length (snd st) = 3%nat -> forall A H theta i, length (fst (fold_left (fun st j => let '(pos, n) := surf_point3 second H (s_contact s) theta (Z.of_nat N) (Z.of_nat i) (Z.of_nat j) in
      force_pass (s_base s) (stress3 (get_grad_u_sing_ref s pos) (get_p_sing_ref3 s pos)) n (A * sin (IZR (Z.of_nat i) * theta / IZR (Z.of_nat N))) st) l1 st)) = 3%nat /\ length (snd (fold_left (fun st j => let '(pos, n) := surf_point3 second H (s_contact s) theta (Z.of_nat N) (Z.of_nat i) (Z.of_nat j) in
      force_pass (s_base s) (stress3 (get_grad_u_sing_ref s pos) (get_p_sing_ref3 s pos)) n (A * sin (IZR (Z.of_nat i) * theta / IZR (Z.of_nat N))) st) l1 st)) = 3%nat).
  { clear. induction l1 as [|j l1 IH]; intros st Hst A H theta i; cbn [fold_left]; [exact Hst|]. apply IH. destruct (surf_point3 _ _ _ _ _ _ _) as [pos n]. destruct st as [f fr]. destruct Hst as [F1 F2]. destruct (force_pass_spec (s_base s) (stress3 (get_grad_u_sing_ref s pos) (get_p_sing_ref3 s pos)) n (A * sin (IZR (Z.of_nat i) * theta / IZR (Z.of_nat N))) f fr F1 F2) as (L1 & L2 & _). split; assumption. }
  assert (Q : forall st, length (fst st) = 3%nat /\ length (snd st) = 3%nat -> forall A H theta, let r := fold_left (fun st i => fold_left (fun st j => let '(pos, n) := surf_point3 second H (s_contact s) theta (Z.of_nat N) (Z.of_nat i) (Z.of_nat j) in
      force_pass (s_base s) (stress3 (get_grad_u_sing_ref s pos) (get_p_sing_ref3 s pos)) n (A * sin (IZR (Z.of_nat i) * theta / IZR (Z.of_nat N))) st) l1 st) l2 st in length (fst r) = 3%nat /\ length (snd r) = 3%nat).
  { induction l2 as [|i l2 IH]; intros st Hst A H theta; cbn [fold_left]; [exact Hst|]. apply IH. apply G, Hst. }
  refine (proj1 (Q (vzero 3, vzero 3) _ _ _ _)). split; reflexivity.
Qed.
(** The force given to every particle, in 3D. *)
Theorem C61_forces_3d : forall h parts N p0, parts <> [] ->
  exists fs, compute_singular_forces3 h parts (Z.of_nat N) = Ok fs /\ length fs = length parts /\
  forall a, (a < length parts)%nat -> length (nth a fs []) = 3%nat /\ forall d, (d < 3)%nat ->
    co d (nth a fs []) = - couple_forces 3 h parts (fun s => singular_force3 false s (Z.of_nat N)) (fun s => singular_force3 true s (Z.of_nat N)) p0 a d.
Proof. intros h parts N p0 Hne. apply C61_couples; [intros; apply singular_force3_length..|exact Hne]. Qed.
(** The sample points lie on the sphere of radius 1/H of their particle (contact frame: its first point of contact is the origin, the second sphere
    is on the other side of the gap), at polar angle i theta / N from the axis and longitude 2 pi j / N, and the normals point out of the particle. *)
Theorem C61_sample_points_3d : forall (second : bool) H contact theta N i j, H <> 0 ->
  let a := IZR i * theta / IZR N in let b := 2 * PI * IZR j / IZR N in
  let centre := if second then [0; 0; contact + 1 / H] else [0; 0; - (1 / H)] in
  let axis := if second then -1 else 1 in
  exists pos n, surf_point3 second H contact theta N i j = (pos, n) /\ length pos = 3%nat /\
    n = [sin a * cos b; sin a * sin b; axis * cos a] /\ forall d, (d < 3)%nat -> co d pos = co d centre + 1 / H * co d n.
Proof.
  intros second H contact theta N i j HH a b centre axis. unfold surf_point3. fold a. fold b. unfold centre, axis, co.
  destruct second; (do 2 eexists; split; [reflexivity|]; split; [reflexivity|]; split;
    [repeat (apply f_equal2; [ring|]); reflexivity|intros d Hd; destruct d as [|[|[|d]]]; [| | |lia]; cbn [nth]; field; exact HH]).
Qed.
Print Assumptions C61_sample_points_3d.
(** The pressure of the stress is the singular pressure of the contact, as [get_p_sing] gives it at the points of space. *)
Theorem C61_pressure_3d : forall s pts, length (s_base s) = 3%nat -> get_p_sing s pts = get_p_sing_ref3 s (get_pos_in_part_ref s pts).
Proof. intros s pts HB. unfold get_p_sing. rewrite HB. reflexivity. Qed.
Print Assumptions C61_pressure_3d.
(** When every traction has the same sign along an axis of the contact, the excess is at least (N^2 - 1) times the first term. *)
Theorem C61_overcount_3d : forall n (t : nat -> R), (1 <= n)%nat -> (forall k, (k < n)%nat -> 0 <= t k) -> Rsum n t + (INR n - 1) * t 0%nat <= Rsum n (fun k => INR (n - k) * t k).
Proof.
  intros n t Hn Ht. destruct n as [|n]; [lia|]. rewrite !Rsum_shift. rewrite Nat.sub_0_r.
  assert (L : Rsum n (fun k => t (S k)) <= Rsum n (fun k => INR (S n - S k) * t (S k))).
  { apply Rsum_le. intros k Hk. assert (1 <= INR (S n - S k)). { change 1 with (INR 1). apply le_INR. lia. } assert (0 <= t (S k)) by (apply Ht; lia). nra. }
  lra.
Qed.
Example C61_example : let p1 := ex_disc (1 / 4) [1; 0] in let p2 := ex_disc (3 / 4) [0; 0] in s_is (sing_of 2 [1 / 8; 1 / 8] p1 p2) = true /\ couples (seq 0 (length [p1; p2])) = [(0, 1)]%nat /\
  exists fs, compute_singular_forces2 1 [1 / 8; 1 / 8] [p1; p2] 100 = Ok fs /\ length fs = 2%nat /\ nth 0 fs [] = [0; 0] /\ nth 1 fs [] = [0; 0].
Proof.
  intros p1 p2. split; [apply ex_couple|]. split; [reflexivity|]. destruct (C61_forces_2d_refuted 1 [1 / 8; 1 / 8] [p1; p2] 100 ltac:(lia) ltac:(lia) ltac:(discriminate)) as (fs & E & L & V). exists fs. split; [exact E|]. split; [exact L|]. split; apply V; cbn; lia.
Qed.
