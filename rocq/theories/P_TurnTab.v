(** The element tables under the symmetries of the reference cell. *)
From Coq Require Import QArith Qreals Permutation.
From Coquelicot Require Import Coquelicot.
From Verif Require Import Base M_Geometry S_Geometry P_Geometry M_Particle S_Particle P_Particle M_Quadrature S_Fem P_Energy M_MatElem P_MatElem M_Mesh M_Operator M_Bc S_Operator S_Bc P_Mesh P_Operator P_Operator2 P_Global P_Stokes P_Operator3.
From Verif Require Import P_Precond P_QuadTab P_Div.
From Verif Require Import S_Turn.
Local Open Scope R_scope.

(** the vertex (b = 2) or velocity node (b = 3) of the image that is the image of the k-th *)
Definition loc (a : list nat) (f : list bool) (b k : nat) : nat :=
  fold_right (fun i s => ((if nth i f false then b - 1 - dig b k (nth i a 0%nat) else dig b k (nth i a 0%nat)) * b ^ i + s)%nat) 0%nat (seq 0 (length a)).
Fixpoint bools (n : nat) : list (list bool) := match n with O => [[]] | S n => flat_map (fun l => [false :: l; true :: l]) (bools n) end.
Definition perms (D : nat) : list (list nat) := (match D with 2 => [[0; 1]; [1; 0]] | 3 => [[0; 1; 2]; [0; 2; 1]; [1; 0; 2]; [1; 2; 0]; [2; 0; 1]; [2; 1; 0]] | _ => [] end)%nat.
Lemma bools_in f : In f (bools (length f)).
Proof. induction f as [|b f IH]; [left; reflexivity|]. cbn [length bools]. apply in_flat_map. exists f. split; [exact IH|]. destruct b; cbn; auto. Qed.
Lemma perms_in D a : (D = 2 \/ D = 3)%nat -> Permutation a (seq 0 D) -> In a (perms D).
Proof.
  intros HD P. assert (L : length a = D) by (rewrite (Permutation_length P); apply seq_length).
  assert (N : NoDup a) by (apply (Permutation_NoDup (l := seq 0 D)); [symmetry; exact P|apply seq_NoDup]).
  assert (B : forall x, In x a -> (x < D)%nat) by (intros x Hx; apply (Permutation_in _ P), in_seq in Hx; lia).
  destruct HD as [-> | ->].
  - destruct a as [|x [|y [|]]]; try discriminate. pose proof (B x ltac:(cbn; auto)). pose proof (B y ltac:(cbn; auto)). inversion N as [|? ? N1 _]. subst. cbn in N1. assert (x <> y) by (intros ->; tauto).
    destruct x as [|[|]], y as [|[|]]; try lia; cbn; auto.
  - destruct a as [|x [|y [|z [|]]]]; try discriminate. pose proof (B x ltac:(cbn; auto)). pose proof (B y ltac:(cbn; auto)). pose proof (B z ltac:(cbn; auto)). inversion N as [|? ? N1 N2]. subst. inversion N2 as [|? ? N3 _]. subst. cbn in N1, N3. assert (x <> y) by (intros ->; tauto). assert (x <> z) by (intros ->; tauto). assert (y <> z) by (intros ->; tauto).
    destruct x as [|[|[|]]], y as [|[|[|]]], z as [|[|[|]]]; try lia; cbn; tauto.
Qed.

Definition sq_ (f : list bool) (c : nat) : Q := if nth c f false then (-1)%Q else 1%Q.
(** memo of the tables *)
Definition memo2 {A} (n m : nat) (f : nat -> nat -> A) : list (list A) := map (fun i => map (f i) (seq 0 m)) (seq 0 n).
Definition get2 {A} (d : A) (t : list (list A)) i j := nth j (nth i t []) d.
Lemma get2_memo {A} (d : A) n m f i j : (i < n)%nat -> (j < m)%nat -> get2 d (memo2 n m f) i j = f i j.
Proof.
  intros Hi Hj. unfold get2, memo2. rewrite (nth_indep _ [] (map (f 0%nat) (seq 0 m))) by (rewrite map_length, seq_length; exact Hi). rewrite (map_nth (fun i => map (f i) (seq 0 m))), seq_nth by exact Hi. cbn [Nat.add].
  rewrite (nth_indep _ d (f i 0%nat)) by (rewrite map_length, seq_length; exact Hj). rewrite map_nth, seq_nth by exact Hj. reflexivity.
Qed.
Definition cross_memo (D : nat) : list (list (list (list Q))) := memo2 D D (fun a b => memo2 (2 ^ D) (2 ^ D) (crossq D a b)).
Definition press_memo (D : nat) : list (list (list Q)) := map (fun d => memo2 (2 ^ D) (3 ^ D) (pressq D d)) (seq 0 D).
Definition mass_memo (D : nat) : list (list Q) := memo2 (2 ^ D) (2 ^ D) (massq D).
Definition check_perm (D : nat) (a : list nat) (f : list bool) (b : nat) : bool :=
  forallb (fun k => existsb (Nat.eqb k) (map (loc a f b) (seq 0 (b ^ D)))) (seq 0 (b ^ D)).
Definition all {A} (l : list A) (P : A -> bool) : bool := forallb P l.
Definition check_cross (D : nat) (t : list (list (list (list Q)))) (a : list nat) (f : list bool) : bool :=
  all (seq 0 D) (fun c => all (seq 0 D) (fun d => all (seq 0 (2 ^ D)) (fun i => all (seq 0 (2 ^ D)) (fun j =>
    Qeq_bool (get2 0%Q (get2 [] t c d) (loc a f 2 i) (loc a f 2 j)) (sq_ f c * sq_ f d * get2 0%Q (get2 [] t (nth c a 0%nat) (nth d a 0%nat)) i j))))).
Definition check_mass (D : nat) (t : list (list Q)) (a : list nat) (f : list bool) : bool :=
  all (seq 0 (2 ^ D)) (fun i => all (seq 0 (2 ^ D)) (fun j => Qeq_bool (get2 0%Q t (loc a f 2 i) (loc a f 2 j)) (get2 0%Q t i j))).
Definition check_press (D : nat) (t : list (list (list Q))) (a : list nat) (f : list bool) : bool :=
  all (seq 0 D) (fun d => all (seq 0 (2 ^ D)) (fun i => all (seq 0 (3 ^ D)) (fun v =>
    Qeq_bool (get2 0%Q (nth d t []) (loc a f 2 i) (loc a f 3 v)) (sq_ f d * get2 0%Q (nth (nth d a 0%nat) t []) i v)))).
Definition check_all (D : nat) : bool :=
  let tc := cross_memo D in let tm := mass_memo D in let tp := press_memo D in
  all (perms D) (fun a => all (bools D) (fun f => (check_perm D a f 2 && check_perm D a f 3 && check_cross D tc a f && check_mass D tm a f && check_press D tp a f)%bool)).
Lemma checked D : (D = 2 \/ D = 3)%nat -> check_all D = true.
Proof. intros [-> | ->]; vm_compute; reflexivity. Qed.

Section Sym.
  Variables (D : nat) (s : similarity).
  Hypothesis HD : (D = 2 \/ D = 3)%nat.
  Hypothesis HS : sim_ok D s.
  Let L b k := loc (ax s) (fl s) b k.
  Lemma ax_len : length (ax s) = D. Proof. rewrite (Permutation_length (proj1 HS)). apply seq_length. Qed.
  Lemma ax_lt c : (c < D)%nat -> (nth c (ax s) 0 < D)%nat.
  Proof using HS. clear HD. intros Hc. assert (I : In (nth c (ax s) 0%nat) (seq 0 D)) by (apply (Permutation_in _ (proj1 HS)), nth_In; rewrite ax_len; exact Hc). apply in_seq in I. lia. Qed.
  Lemma the_checks : check_perm D (ax s) (fl s) 2 = true /\ check_perm D (ax s) (fl s) 3 = true /\ check_cross D (cross_memo D) (ax s) (fl s) = true /\ check_mass D (mass_memo D) (ax s) (fl s) = true /\ check_press D (press_memo D) (ax s) (fl s) = true.
  Proof.
    pose proof (checked D HD) as C. unfold check_all in C. cbv zeta in C. unfold all at 1 in C. rewrite forallb_forall in C. specialize (C _ (perms_in D _ HD (proj1 HS))). unfold all at 1 in C. rewrite forallb_forall in C.
    specialize (C (fl s)). rewrite !Bool.andb_true_iff in C. destruct HS as (_ & Lf & _). rewrite <- Lf in C at 1. specialize (C (bools_in _)). tauto.
  Qed.
  Lemma loc_perm b : (b = 2 \/ b = 3)%nat -> Permutation (map (L b) (seq 0 (b ^ D))) (seq 0 (b ^ D)).
  Proof.
    intros Hb. assert (C : check_perm D (ax s) (fl s) b = true) by (destruct the_checks as (A & B & _), Hb as [-> | ->]; assumption). unfold check_perm in C. rewrite forallb_forall in C. symmetry. apply NoDup_Permutation_bis.
    - apply seq_NoDup. - rewrite map_length. lia.
    - intros k Hk. specialize (C k Hk). apply existsb_exists in C. destruct C as (k' & H & E). apply Nat.eqb_eq in E. subst. exact H.
  Qed.
  Lemma loc_lt b k : (b = 2 \/ b = 3)%nat -> (k < b ^ D)%nat -> (L b k < b ^ D)%nat.
  Proof. intros Hb Hk. assert (I : In (L b k) (seq 0 (b ^ D))) by (apply (Permutation_in _ (loc_perm b Hb)), in_map, in_seq; lia). apply in_seq in I. lia. Qed.
  Lemma loc_sum b F : (b = 2 \/ b = 3)%nat -> Rsum (b ^ D) (fun k => F (L b k)) = Rsum (b ^ D) F.
  Proof. intros Hb. rewrite <- !Lsum_seq. rewrite <- (Lsum_map F (L b)). apply Lsum_perm, loc_perm, Hb. Qed.
  Lemma ax_sum F : Rsum D (fun c => F (nth c (ax s) 0%nat)) = Rsum D F.
  Proof.
    rewrite <- !Lsum_seq. rewrite <- (Lsum_map F (fun c => nth c (ax s) 0%nat)). apply Lsum_perm.
    replace (map (fun c => nth c (ax s) 0%nat) (seq 0 D)) with (ax s); [apply HS|]. rewrite <- ax_len. clear. induction (ax s) as [|x l IH]; [reflexivity|]. cbn [length seq map nth]. f_equal. rewrite <- seq_shift, map_map. exact IH.
  Qed.
  Lemma sq_sgn c : Q2R (sq_ (fl s) c) = sgn s c.
  Proof. unfold sq_, sgn. destruct (nth c (fl s) false); unfold Q2R; cbn; lra. Qed.
  Lemma sgn2 c : sgn s c * sgn s c = 1. Proof. unfold sgn. destruct (nth c (fl s) false); ring. Qed.
  Lemma sgn_nz c : sgn s c <> 0. Proof. unfold sgn. destruct (nth c (fl s) false); lra. Qed.
  Lemma cross_turn c d i j : (c < D)%nat -> (d < D)%nat -> (i < 2 ^ D)%nat -> (j < 2 ^ D)%nat ->
    cross D c d (L 2 i) (L 2 j) = sgn s c * sgn s d * cross D (nth c (ax s) 0%nat) (nth d (ax s) 0%nat) i j.
  Proof.
    intros Hc Hd Hi Hj. destruct the_checks as (_ & _ & C & _). unfold check_cross, all in C. rewrite forallb_forall in C. specialize (C c ltac:(apply in_seq; lia)). rewrite forallb_forall in C. specialize (C d ltac:(apply in_seq; lia)). rewrite forallb_forall in C. specialize (C i ltac:(apply in_seq; lia)). rewrite forallb_forall in C. specialize (C j ltac:(apply in_seq; lia)).
    apply Qeq_bool_eq in C. unfold cross_memo in C. pose proof (ax_lt c Hc). pose proof (ax_lt d Hd). rewrite !(get2_memo []) in C by assumption. pose proof (loc_lt 2 i ltac:(auto) Hi). pose proof (loc_lt 2 j ltac:(auto) Hj). rewrite !get2_memo in C by assumption.
    apply Qeq_eqR in C. rewrite !Q2R_mult, !sq_sgn, !cross_q in C. exact C.
  Qed.
  Lemma mass_turn i j : (i < 2 ^ D)%nat -> (j < 2 ^ D)%nat -> massF D (L 2 i) (L 2 j) = massF D i j.
  Proof.
    intros Hi Hj. destruct the_checks as (_ & _ & _ & C & _). unfold check_mass, all in C. rewrite forallb_forall in C. specialize (C i ltac:(apply in_seq; lia)). rewrite forallb_forall in C. specialize (C j ltac:(apply in_seq; lia)).
    apply Qeq_bool_eq in C. unfold mass_memo in C. pose proof (loc_lt 2 i ltac:(auto) Hi). pose proof (loc_lt 2 j ltac:(auto) Hj). rewrite !get2_memo in C by assumption. apply Qeq_eqR in C. rewrite !mass_q in C. exact C.
  Qed.
  Lemma press_turn d i v : (d < D)%nat -> (i < 2 ^ D)%nat -> (v < 3 ^ D)%nat -> press D d (L 2 i) (L 3 v) = sgn s d * press D (nth d (ax s) 0%nat) i v.
  Proof.
    intros Hd Hi Hv. destruct the_checks as (_ & _ & _ & _ & C). unfold check_press, all in C. rewrite forallb_forall in C. specialize (C d ltac:(apply in_seq; lia)). rewrite forallb_forall in C. specialize (C i ltac:(apply in_seq; lia)). rewrite forallb_forall in C. specialize (C v ltac:(apply in_seq; lia)).
    apply Qeq_bool_eq in C. unfold press_memo in C. pose proof (ax_lt d Hd). assert (N : forall k, (k < D)%nat -> nth k (map (fun d => memo2 (2 ^ D) (3 ^ D) (pressq D d)) (seq 0 D)) [] = memo2 (2 ^ D) (3 ^ D) (pressq D k)).
    { intros k Hk. rewrite (nth_indep _ [] (memo2 (2 ^ D) (3 ^ D) (pressq D 0))) by (rewrite map_length, seq_length; exact Hk). rewrite (map_nth (fun d => memo2 (2 ^ D) (3 ^ D) (pressq D d))), seq_nth by exact Hk. reflexivity. }
    rewrite !N in C by assumption. pose proof (loc_lt 2 i ltac:(auto) Hi). pose proof (loc_lt 3 v ltac:(auto) Hv). rewrite !get2_memo in C by assumption. apply Qeq_eqR in C. rewrite Q2R_mult, sq_sgn, !press_q in C. exact C.
  Qed.
End Sym.
