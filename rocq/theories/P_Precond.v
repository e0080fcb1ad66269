(** Quadratic forms against their diagonals, element by element. *)
From Coq Require Import QArith Qreals FunctionalExtensionality.
From Coquelicot Require Import Coquelicot.
From Verif Require Import Base M_Geometry S_Geometry P_Geometry M_Particle S_Particle P_Particle M_Quadrature S_Fem P_Energy M_MatElem P_MatElem M_Mesh M_Operator M_Bc S_Operator S_Bc P_Mesh P_Operator P_Operator2 P_Global P_Stokes P_Operator3 P_Bc P_Stencil P_Diag Prop_Assembly.
Local Open Scope R_scope.

Definition dl (i k : nat) : R := if Nat.eqb i k then 1 else 0.
Lemma Rsum_dl n i f : (i < n)%nat -> Rsum n (fun k => dl i k * f k) = f i.
Proof. intros H. rewrite <- (Rsum_pick n i f H). apply Rsum_ext. intros k _. unfold dl. destruct (Nat.eqb i k); ring. Qed.
Lemma Rsum_le n f g : (forall k, (k < n)%nat -> f k <= g k) -> Rsum n f <= Rsum n g.
Proof. induction n as [|n IH]; intros H; cbn [Rsum]; [lra|]. specialize (IH ltac:(intros; apply H; lia)). specialize (H n ltac:(lia)). lra. Qed.
Lemma Rsum_const n c : Rsum n (fun _ => c) = INR n * c.
Proof. induction n as [|n IH]; [cbn; ring|]. cbn [Rsum]. rewrite IH, S_INR. ring. Qed.

Lemma qform_pair n M i j a b : (i < n)%nat -> (j < n)%nat -> qform n M (fun k => a * dl i k + b * dl j k) = a * a * M i i + a * b * M i j + b * a * M j i + b * b * M j j.
Proof.
  intros Hi Hj. unfold qform.
  transitivity (Rsum n (fun k => dl i k * (a * (a * M k i + b * M k j)) + dl j k * (b * (a * M k i + b * M k j)))).
  - apply Rsum_ext. intros k _. transitivity (Rsum n (fun l => dl i l * ((a * dl i k + b * dl j k) * a * M k l) + dl j l * ((a * dl i k + b * dl j k) * b * M k l))).
    { apply Rsum_ext. intros l _. ring. } rewrite Rsum_plus, !Rsum_dl by assumption. ring.
  - rewrite Rsum_plus, !Rsum_dl by assumption. ring.
Qed.
Lemma psd_diag n M U : (forall V, 0 <= qform n M V) -> (forall i j, (i < n)%nat -> (j < n)%nat -> M i j = M j i) -> qform n M U <= INR n * Rsum n (fun k => M k k * U k ^ 2).
Proof.
  intros HP HS. assert (K : forall i j, (i < n)%nat -> (j < n)%nat -> U i * M i j * U j <= / 2 * (M i i * U i ^ 2) + / 2 * (M j j * U j ^ 2)).
  { intros i j Hi Hj. pose proof (HP (fun k => U i * dl i k + - U j * dl j k)) as P. rewrite qform_pair in P by assumption. rewrite (HS j i) in P by assumption. nra. }
  unfold qform. eapply Rle_trans; [apply Rsum_le; intros i Hi; apply Rsum_le; intros j Hj; apply K; assumption|]. apply Req_le.
  transitivity (Rsum n (fun i => INR n * (/ 2 * (M i i * U i ^ 2)) + / 2 * Rsum n (fun k => M k k * U k ^ 2))).
  - apply Rsum_ext. intros i _. rewrite Rsum_plus, Rsum_const, Rsum_scal. reflexivity.
  - rewrite Rsum_plus, Rsum_const, !Rsum_scal. field.
Qed.
Lemma vform_pair n D M i p j q a b : (i < n)%nat -> (j < n)%nat -> (p < D)%nat -> (q < D)%nat ->
  vform n D M (fun k c => a * (dl i k * dl p c) + b * (dl j k * dl q c)) = a * a * M i i p p + a * b * M i j p q + b * a * M j i q p + b * b * M j j q q.
Proof.
  intros Hi Hj Hp Hq. unfold vform.
  transitivity (Rsum n (fun k => dl i k * (a * (a * M k i p p + b * M k j p q)) + dl j k * (b * (a * M k i q p + b * M k j q q)))).
  - apply Rsum_ext. intros k _.
    transitivity (Rsum n (fun l => dl i l * (dl i k * (a * a * M k l p p) + dl j k * (b * a * M k l q p)) + dl j l * (dl i k * (a * b * M k l p q) + dl j k * (b * b * M k l q q)))).
    { apply Rsum_ext. intros l _.
      transitivity (Rsum D (fun c => dl p c * (a * dl i k * (a * dl i l * M k l c p + b * dl j l * M k l c q)) + dl q c * (b * dl j k * (a * dl i l * M k l c p + b * dl j l * M k l c q)))).
      - apply Rsum_ext. intros c _. transitivity (Rsum D (fun d => dl p d * ((a * (dl i k * dl p c) + b * (dl j k * dl q c)) * (a * dl i l) * M k l c d) + dl q d * ((a * (dl i k * dl p c) + b * (dl j k * dl q c)) * (b * dl j l) * M k l c d))).
        + apply Rsum_ext. intros d _. ring.
        + rewrite Rsum_plus, !Rsum_dl by assumption. ring.
      - rewrite Rsum_plus, !Rsum_dl by assumption. ring. }
    rewrite Rsum_plus, !Rsum_dl by assumption. ring.
  - rewrite Rsum_plus, !Rsum_dl by assumption. ring.
Qed.
Lemma psd_vdiag n D M U : (forall V, 0 <= vform n D M V) -> (forall i j p q, (i < n)%nat -> (j < n)%nat -> (p < D)%nat -> (q < D)%nat -> M i j p q = M j i q p) ->
  vform n D M U <= INR n * INR D * Rsum n (fun k => Rsum D (fun c => M k k c c * U k c ^ 2)).
Proof.
  intros HP HS. set (T := Rsum n (fun k => Rsum D (fun c => M k k c c * U k c ^ 2))).
  assert (K : forall i j p q, (i < n)%nat -> (j < n)%nat -> (p < D)%nat -> (q < D)%nat -> U i p * M i j p q * U j q <= / 2 * (M i i p p * U i p ^ 2) + / 2 * (M j j q q * U j q ^ 2)).
  { intros i j p q Hi Hj Hp Hq. pose proof (HP (fun k c => U i p * (dl i k * dl p c) + - U j q * (dl j k * dl q c))) as P. rewrite vform_pair in P by assumption. rewrite (HS j i q p) in P by assumption. nra. }
  unfold vform. eapply Rle_trans; [apply Rsum_le; intros i Hi; apply Rsum_le; intros j Hj; apply Rsum_le; intros p Hp; apply Rsum_le; intros q Hq; apply K; assumption|]. apply Req_le.
  transitivity (Rsum n (fun i => INR n * (INR D * (/ 2 * Rsum D (fun p => M i i p p * U i p ^ 2))) + INR D * (/ 2 * T))).
  - apply Rsum_ext. intros i _. transitivity (Rsum n (fun j => INR D * (/ 2 * Rsum D (fun p => M i i p p * U i p ^ 2)) + INR D * (/ 2 * Rsum D (fun q => M j j q q * U j q ^ 2)))).
    + apply Rsum_ext. intros j _. transitivity (Rsum D (fun p => INR D * (/ 2 * (M i i p p * U i p ^ 2)) + / 2 * Rsum D (fun q => M j j q q * U j q ^ 2))).
      * apply Rsum_ext. intros p _. rewrite Rsum_plus, Rsum_const, Rsum_scal. reflexivity.
      * rewrite Rsum_plus, Rsum_const, !Rsum_scal. ring.
    + rewrite Rsum_plus, Rsum_const, !Rsum_scal. unfold T. ring.
  - rewrite Rsum_plus, Rsum_const, !Rsum_scal. unfold T. field.
Qed.

(** the mass matrix of an element between (1/2)^D and (3/2)^D times its diagonal *)
Lemma mass2_between h0 h1 U : 0 < h0 -> 0 < h1 ->
  (1 / 2) ^ 2 * Rsum 4 (fun k => getMatElemMass2 h0 h1 k k * U k ^ 2) <= qform 4 (getMatElemMass2 h0 h1) U <= (3 / 2) ^ 2 * Rsum 4 (fun k => getMatElemMass2 h0 h1 k k * U k ^ 2).
Proof.
  intros H0 H1. assert (P : 0 < h0 * h1) by (apply Rmult_lt_0_compat; assumption). unfold qform. stencil.
  generalize (U 0%nat) (U 1%nat) (U 2%nat) (U 3%nat). intros a b c d.
  set (w0 := a + b + c + d). set (w1 := a - b + c - d). set (w2 := a + b - c - d). set (w3 := a - b - c + d).
  pose proof (pow2_ge_0 w0). pose proof (pow2_ge_0 w1). pose proof (pow2_ge_0 w2). pose proof (pow2_ge_0 w3).
  split; apply Rminus_le_0.
  - match goal with |- 0 <= ?g => assert (E : g = h0 * h1 * (8 * w0 ^ 2 + 2 * w1 ^ 2 + 2 * w2 ^ 2) / 144) by (unfold w0, w1, w2; field); rewrite E end. apply Rmult_le_pos; [|lra]. apply Rmult_le_pos; lra.
  - match goal with |- 0 <= ?g => assert (E : g = h0 * h1 * (6 * w1 ^ 2 + 6 * w2 ^ 2 + 8 * w3 ^ 2) / 144) by (unfold w1, w2, w3; field); rewrite E end. apply Rmult_le_pos; [|lra]. apply Rmult_le_pos; lra.
Qed.

Lemma mass3_between h0 h1 h2 U : 0 < h0 -> 0 < h1 -> 0 < h2 ->
  (1 / 2) ^ 3 * Rsum 8 (fun k => getMatElemMass3 h0 h1 h2 k k * U k ^ 2) <= qform 8 (getMatElemMass3 h0 h1 h2) U <= (3 / 2) ^ 3 * Rsum 8 (fun k => getMatElemMass3 h0 h1 h2 k k * U k ^ 2).
Proof.
  intros H0 H1 H2. assert (P : 0 < h0 * h1 * h2) by (repeat apply Rmult_lt_0_compat; assumption). unfold qform. stencil.
  generalize (U 0%nat) (U 1%nat) (U 2%nat) (U 3%nat) (U 4%nat) (U 5%nat) (U 6%nat) (U 7%nat). intros a b c d e f g h.
  set (w0 := a + b + c + d + e + f + g + h). set (w1 := a - b + c - d + e - f + g - h). set (w2 := a + b - c - d + e + f - g - h). set (w3 := a - b - c + d + e - f - g + h).
  set (w4 := a + b + c + d - e - f - g - h). set (w5 := a - b + c - d - e + f - g + h). set (w6 := a + b - c - d - e - f + g + h). set (w7 := a - b - c + d - e + f + g - h).
  pose proof (pow2_ge_0 w0). pose proof (pow2_ge_0 w1). pose proof (pow2_ge_0 w2). pose proof (pow2_ge_0 w3). pose proof (pow2_ge_0 w4). pose proof (pow2_ge_0 w5). pose proof (pow2_ge_0 w6). pose proof (pow2_ge_0 w7).
  split; apply Rminus_le_0.
  - match goal with |- 0 <= ?g => assert (E : g = h0 * h1 * h2 * (26 * w0 ^ 2 + 8 * (w1 ^ 2 + w2 ^ 2 + w4 ^ 2) + 2 * (w3 ^ 2 + w5 ^ 2 + w6 ^ 2)) / 1728) by (unfold w0, w1, w2, w3, w4, w5, w6; field); rewrite E end. apply Rmult_le_pos; [|lra]. apply Rmult_le_pos; lra.
  - match goal with |- 0 <= ?g => assert (E : g = h0 * h1 * h2 * (18 * (w1 ^ 2 + w2 ^ 2 + w4 ^ 2) + 24 * (w3 ^ 2 + w5 ^ 2 + w6 ^ 2) + 26 * w7 ^ 2) / 1728) by (unfold w1, w2, w3, w4, w5, w6, w7; field); rewrite E end. apply Rmult_le_pos; [|lra]. apply Rmult_le_pos; lra.
Qed.
Lemma mass_between h m U : steps_ok h m -> (length m = 2%nat \/ length m = 3%nat) ->
  (1 / 2) ^ length m * Rsum (2 ^ length m) (fun k => getMatElemMass h k k * U k ^ 2) <= qform (2 ^ length m) (getMatElemMass h) U <= (3 / 2) ^ length m * Rsum (2 ^ length m) (fun k => getMatElemMass h k k * U k ^ 2).
Proof.
  intros Hs Hd. destruct (steps_cases h m Hs Hd) as [[-> (a & b & -> & Ha & Hb)]|[-> (a & b & c & -> & Ha & Hb & Hc)]];
  change (2 ^ 2)%nat with 4%nat; change (2 ^ 3)%nat with 8%nat; [apply mass2_between|apply mass3_between]; auto.
Qed.
Ltac cases8 k := destruct k as [|[|[|[|[|[|[|[|k]]]]]]]]; try (simpl in *; lia).
Lemma mass_diag_pos h m k : steps_ok h m -> (length m = 2%nat \/ length m = 3%nat) -> (k < 2 ^ length m)%nat -> 0 < getMatElemMass h k k.
Proof.
  intros Hs Hd. destruct (steps_cases h m Hs Hd) as [[-> (a & b & -> & Ha & Hb)]|[-> (a & b & c & -> & Ha & Hb & Hc)]]; intros Hk.
  - assert (0 < a * b) by (apply Rmult_lt_0_compat; auto). simpl in Hk. cases8 k; stencil; lra.
  - assert (0 < a * b * c) by (repeat apply Rmult_lt_0_compat; auto). cases8 k; stencil; lra.
Qed.
(** the diagonals of the Laplacian and of the strain tensor of an element *)
Lemma visc_diag h m k c : steps_ok h m -> (length m = 2%nat \/ length m = 3%nat) -> (k < 2 ^ length m)%nat -> (c < length m)%nat ->
  0 < getMatElemLaplacian h k k /\ getMatElemLaplacian h k k < getMatElemStrainTensor h k k c c /\ getMatElemStrainTensor h k k c c < 2 * getMatElemLaplacian h k k.
Proof.
  intros Hs Hd. destruct (steps_cases h m Hs Hd) as [[-> (a & b & -> & Ha & Hb)]|[-> (a & b & d & -> & Ha & Hb & Hc)]]; intros Hk Hcc.
  - assert (P : 0 < a / b) by (apply Rdiv_lt_0_compat; auto). assert (Q : 0 < b / a) by (apply Rdiv_lt_0_compat; auto).
    destruct c as [|[|c]]; try (simpl in *; lia); cases8 k; stencil; lra.
  - assert (P : 0 < a * b / d) by (apply Rdiv_lt_0_compat; auto; apply Rmult_lt_0_compat; auto). assert (Q : 0 < a * d / b) by (apply Rdiv_lt_0_compat; auto; apply Rmult_lt_0_compat; auto). assert (S : 0 < b * d / a) by (apply Rdiv_lt_0_compat; auto; apply Rmult_lt_0_compat; auto).
    destruct c as [|[|[|c]]]; try (simpl in *; lia); cases8 k; stencil; lra.
Qed.

Lemma Lsum_le {A} (f g : A -> R) l : (forall a, In a l -> f a <= g a) -> Lsum f l <= Lsum g l.
Proof. induction l as [|a l IH]; intros H; [unfold Lsum; simpl; lra|]. rewrite !Lsum_cons. specialize (IH ltac:(intros; apply H; right; auto)). specialize (H a (or_introl eq_refl)). lra. Qed.
Lemma Lsum_lt {A} (f g : A -> R) l a : (forall a, In a l -> f a <= g a) -> In a l -> f a < g a -> Lsum f l < Lsum g l.
Proof.
  induction l as [|b l IH]; intros H Hin Hlt; [destruct Hin|]. rewrite !Lsum_cons. assert (Hl : Lsum f l <= Lsum g l) by (apply Lsum_le; intros; apply H; right; auto).
  destruct Hin as [->|Hin]; [lra|]. specialize (IH ltac:(intros; apply H; right; auto) Hin Hlt). specialize (H b (or_introl eq_refl)). lra.
Qed.
Lemma Rsum_lt n f g i : (forall k, (k < n)%nat -> f k <= g k) -> (i < n)%nat -> f i < g i -> Rsum n f < Rsum n g.
Proof.
  induction n as [|n IH]; intros H Hi Hlt; [lia|]. cbn [Rsum]. assert (Hl : Rsum n f <= Rsum n g) by (apply Rsum_le; intros; apply H; lia).
  destruct (Nat.eq_dec i n) as [->|]; [lra|]. specialize (IH ltac:(intros; apply H; lia) ltac:(lia) Hlt). specialize (H n ltac:(lia)). lra.
Qed.
(** ** From the elements to the grid *)
Definition sq (x : field) : field := fun n c => x n c ^ 2.
Section Grid.
  Variables (h : list R) (m : list Z) (per : list bool).
  Hypothesis HG : grid_ok m per.
  Hypothesis HS : steps_ok h m.
  Let Hd := proj1 HG.
  Lemma jac_sum dof dms M : distributes m per dof dms -> exists d, diag_diag_block_matrix (diag_diag_block_mult (kernel_diag_diag_block M)) dms = Ok d /\
    (forall x, inner (N0 m) dof d (sq x) = Lsum (fun e => Rsum dof (fun c => Rsum (2 ^ length m) (fun k => M k k * gv m per x e k c ^ 2))) (E0 m per)).
  Proof.
    intros HD. destruct (dd_weak m per dof dms M HG HD) as (d & E & W). exists d. split; [exact E|]. intros x. rewrite (W _ _ (N0_enum m) (E0_enum m per (proj1 (proj2 HG)))). apply Lsum_ext. intros e _. rewrite Rsum_swap. apply Rsum_ext. intros c _. apply Rsum_ext. intros k _. unfold gv, sq. ring.
  Qed.
  (** is the k-th vertex of e the node n? *)
  Let t (n e : list Z) (k : nat) : R := if same_node n (wrap m per (corner e k)) then 1 else 0.
  Lemma t_sq n e k : t n e k ^ 2 = t n e k.
  Proof. unfold t. destruct (same_node _ _); ring. Qed.
  Lemma t_pos n e k : 0 <= t n e k.
  Proof. unfold t. destruct (same_node _ _); lra. Qed.
  Lemma gv_unit n c e k c' : gv m per (unit_field n c) e k c' = t n e k * dl c c'.
  Proof. unfold gv, unit_field, t, dl. destruct (same_node _ _), (Nat.eqb c c'); cbn [andb]; ring. Qed.
  Lemma sq_unit n c : sq (unit_field n c) = unit_field n c.
  Proof. apply functional_extensionality; intros q; apply functional_extensionality; intros c'. unfold sq, unit_field. destruct (_ && _); ring. Qed.
  Lemma jac_entry dof dms M d n c : distributes m per dof dms -> diag_diag_block_matrix (diag_diag_block_mult (kernel_diag_diag_block M)) dms = Ok d ->
    in_grid_box (nodes_box m) n -> (c < dof)%nat -> d n c = Lsum (fun e => Rsum (2 ^ length m) (fun k => M k k * t n e k)) (E0 m per).
  Proof.
    intros HD E Hn Hc. destruct (jac_sum dof dms M HD) as (d' & E' & W). rewrite E in E'. injection E' as <-.
    rewrite <- (inner_unit m dof d n c Hn Hc), <- sq_unit, W. apply Lsum_ext. intros e _. rewrite <- (Rsum_dl dof c (fun _ => Rsum (2 ^ length m) (fun k => M k k * t n e k)) Hc). apply Rsum_ext. intros c' _. rewrite <- Rsum_scal. apply Rsum_ext. intros k _. rewrite gv_unit. unfold dl. destruct (Nat.eqb c c'); rewrite Rpow_mult_distr, t_sq; ring.
  Qed.
  Hypothesis HC : has_cells m per.
  (** some vertex of some cell is the node n *)
  Lemma t_one n : in_grid_box (nodes_box m) n -> exists e k, In e (E0 m per) /\ (k < 2 ^ length m)%nat /\ t n e k = 1.
  Proof.
    intros Hn. destruct (node_in_cell m per n (proj1 (proj2 HG)) HC Hn) as (e & He & Hne). assert (Le : length e = length m) by (eapply cell_dim; eauto).
    destruct (near_corner e n ltac:(rewrite Le; exact Hd) Hne) as (k & Hk & Ek). exists e, k. rewrite Le in Hk. split; [apply E0_enum; [apply HG|exact He]|]. split; [exact Hk|].
    unfold t. rewrite <- Ek. rewrite (wrap_id m per n (proj1 (proj2 HG)) Hn). destruct (same_node_spec n n); congruence.
  Qed.
  Lemma t_lt n (f g : nat -> R) : in_grid_box (nodes_box m) n -> (forall k, (k < 2 ^ length m)%nat -> f k < g k) ->
    Lsum (fun e => Rsum (2 ^ length m) (fun k => f k * t n e k)) (E0 m per) < Lsum (fun e => Rsum (2 ^ length m) (fun k => g k * t n e k)) (E0 m per).
  Proof.
    intros Hn HF. destruct (t_one n Hn) as (e & k & He & Hk & Hone). apply Lsum_lt with (a := e); auto.
    - intros e' _. apply Rsum_le. intros k' Hk'. specialize (HF k' Hk'). pose proof (t_pos n e' k'). nra.
    - apply Rsum_lt with (i := k); auto.
      + intros k' Hk'. specialize (HF k' Hk'). pose proof (t_pos n e k'). nra.
      + rewrite Hone. specialize (HF k Hk). lra.
  Qed.
  Hypothesis HX : no_self_contact m per.
  Lemma unit_form M n c : (c < length m)%nat -> in_grid_box (nodes_box m) n ->
    tensor_form m per (E0 m per) (length m) M (unit_field n c) (unit_field n c) = Lsum (fun e => Rsum (2 ^ length m) (fun k => M k k c c * t n e k)) (E0 m per).
  Proof.
    intros Hc Hn. unfold tensor_form. apply Lsum_ext. intros e He. apply E0_enum in He; [|apply HG]. assert (Le : length e = length m) by (eapply cell_dim; eauto).
    apply Rsum_ext. intros k Hk. rewrite <- (Rsum_dl (2 ^ length m) k (fun k2 => M k k2 c c * t n e k) Hk). apply Rsum_ext. intros k2 Hk2.
    transitivity (t n e k * t n e k2 * M k k2 c c).
    { rewrite <- (Rsum_dl (length m) c (fun p => t n e k * t n e k2 * M k k2 p c) Hc). apply Rsum_ext. intros p _. rewrite <- (Rsum_dl (length m) c (fun q => dl c p * (t n e k * t n e k2 * M k k2 p q)) Hc) at 1.
      - apply Rsum_ext. intros q _. rewrite !gv_unit. ring. }
    unfold dl. destruct (Nat.eqb_spec k k2) as [<-|Hne]; [transitivity (t n e k ^ 2 * M k k c c); [ring|]; rewrite t_sq; ring|].
    assert (Z : t n e k * t n e k2 = 0). { unfold t. destruct (same_node_spec n (wrap m per (corner e k))) as [E1|]; [|ring]. destruct (same_node_spec n (wrap m per (corner e k2))) as [E2|]; [|ring]. exfalso. apply Hne. rewrite <- Le in Hk, Hk2. pose proof Hd as Hd'. rewrite <- Le in Hd'. apply (corner_inj e); auto. apply (wrap_inj m per e); auto; try (apply corner_near; auto); try congruence; apply HG. }
    rewrite Z. ring.
  Qed.
End Grid.
