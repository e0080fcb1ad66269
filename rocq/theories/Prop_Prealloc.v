(** C33: what PreallocateMat reserves covers what the assembly inserts (2D). *)
From Coq Require Import Permutation.
From Verif Require Import Base M_Geometry S_Geometry P_Geometry M_Particle S_Particle P_Particle M_Quadrature S_Fem M_MatElem M_Mesh M_Operator M_Bc M_Assembly S_Operator P_Mesh P_Operator P_Assembly P_Assembly2 P_AssemblyBc P_CreateMesh M_Prealloc P_Prealloc Prop_Operator.
Local Open Scope Z_scope.

(** ** specification *)
(** the node of the degree of freedom [g] (pressure?, node, component) belongs to the process *)
Definition proc_owns (dm : dmda * dmda) (g : gdof) : Prop := in_grid_box (g_own (if fst (fst g) then snd dm else fst dm)) (snd (fst g)).
(** a row the process owns: its node is owned, its component exists *)
Definition proc_row (dm : dmda * dmda) (r : gdof) : Prop := proc_owns dm r /\ (snd r < if fst (fst r) then 1 else 2)%nat.
(** the reservations suffice on one process for the matrix [A]: on every row it owns, any set of distinct columns that are the diagonal or hold an
    entry fits in the diagonal part if the process owns these columns, in the off-diagonal part if it does not *)
Definition suffices (dm : dmda * dmda) (dn on : gdof -> nat) (A : list mentry) : Prop :=
  forall r, proc_row dm r -> forall C, NoDup C -> (forall c, In c C -> c = r \/ exists v, In (r, c, v) A) ->
  ((forall c, In c C -> proc_owns dm c) -> (length C <= dn r)%nat) /\ ((forall c, In c C -> ~ proc_owns dm c) -> (length C <= on r)%nat).

Lemma mesh_dm_shape npoints per ls dm : length npoints = 2%nat -> length per = 2%nat -> ranges_ok (mesh_pres npoints per) ls -> In dm (createMesh npoints per ls) ->
  exists m0 m1 b0 b1 l0 l1 a0 a1 c0 c1, mesh_pres npoints per = [m0; m1] /\ per = [b0; b1] /\ ls = [l0; l1] /\ g_own (snd dm) = mkbox [a0; a1] [c0; c1] /\
    (0 <= a0 /\ a0 < c0 /\ c0 <= m0) /\ (0 <= a1 /\ a1 < c1 /\ c1 <= m1) /\ (Z.of_nat (length l0) = 1 <-> a0 = 0 /\ c0 = m0) /\ (Z.of_nat (length l1) = 1 <-> a1 = 0 /\ c1 = m1).
Proof.
  intros Hn Hp HR Hin. destruct npoints as [|n0 [|n1 [|]]]; try discriminate Hn. destruct per as [|b0 [|b1 [|]]]; try discriminate Hp.
  unfold createMesh in Hin. set (mp := mesh_pres [n0; n1] [b0; b1]) in *. cbn in mp. set (m0 := if b0 then n0 - 1 else n0) in *. set (m1 := if b1 then n1 - 1 else n1) in *. unfold mp in *. clear mp.
  inversion HR as [|? l0 ? ls0 (E0 & _ & F0) HR']; subst. inversion HR' as [|? l1 ? ls1 (E1 & _ & F1) HR'']; subst. inversion HR''; subst. clear HR HR' HR''.
  apply in_map_iff in Hin as (c & <- & Hc). apply proc_coords_in in Hc. cbn [map] in Hc. inversion Hc as [|? k0 ? c' K0 Hc']; subst. inversion Hc' as [|? k1 ? c'' K1 Hc'']; subst. inversion Hc''; subst.
  exists m0, m1, b0, b1, l0, l1, (own_start l0 k0), (own_start l1 k1), (own_end l0 k0), (own_end l1 k1).
  destruct (block_bounds l0 m0 k0 E0 F0 K0) as [A0 B0]. destruct (block_bounds l1 m1 k1 E1 F1 K1) as [A1 B1].
  repeat (split; [first [reflexivity|exact A0|exact A1|exact B0]|]). exact B1.
Qed.
Lemma mesh_grid_ok npoints per ls : length npoints = 2%nat -> length per = 2%nat -> ranges_ok (mesh_pres npoints per) ls -> grid_ok (mesh_pres npoints per) per.
Proof.
  intros Hn Hp HR. destruct npoints as [|n0 [|n1 [|]]]; try discriminate Hn. destruct per as [|b0 [|b1 [|]]]; try discriminate Hp. cbn in *.
  split; [left; reflexivity|]. split; [reflexivity|]. inversion HR as [|? l0 ? ls0 (E0 & N0 & F0) HR']; subst. inversion HR' as [|? l1 ? ls1 (E1 & N1 & F1) HR'']; subst.
  assert (K : forall l n, zsum l = n -> l <> [] -> Forall (fun a => 1 <= a) l -> 1 <= n). { intros l n E NE F. destruct l as [|a l]; [congruence|]. destruct (block_bounds (a :: l) n 0 E F ltac:(cbn; lia)) as [K _]. lia. }
  constructor; [eapply K; eauto|]. constructor; [eapply K; eauto|constructor].
Qed.

(** [createMesh] with any number of points, any periodicity and any ownership ranges: on every process the preallocation raises no error and overruns no
    buffer, and what it reserves suffices for the assembled Stokes matrix (saddle point: [precond = false]) and for the assembled preconditioner *)
Theorem C33_preallocation_covers_assembly : forall npoints per ls dm (strain : bool) h0 h1, length npoints = 2%nat -> length per = 2%nat ->
  ranges_ok (mesh_pres npoints per) ls -> let dms := createMesh npoints per ls in let np := (Z.of_nat (length (nth 0 ls [])), Z.of_nat (length (nth 1 ls []))) in In dm dms ->
  (exists A L, stokes_A strain h0 h1 dms = Ok A /\ PreallocateMat strain false np dm = Ok L /\ suffices dm (dnz dm L) (onz dm L) A) /\
  (forall hp0 hp1, exists P L, stokes_P strain h0 h1 hp0 hp1 dms = Ok P /\ PreallocateMat strain true np dm = Ok L /\ suffices dm (dnz dm L) (onz dm L) P).
Proof.
  intros npoints per ls dm strain h0 h1 Hn Hp HR dms np Hin. pose proof (mesh_grid_ok npoints per ls Hn Hp HR) as HG.
  pose proof (C28_createMesh_layout npoints per ls ltac:(congruence) HR) as HS. fold dms in HS. rewrite Hn in HS.
  destruct (mesh_dm_shape npoints per ls dm Hn Hp HR Hin) as (m0 & m1 & b0 & b1 & l0 & l1 & a0 & a1 & c0 & c1 & EM & EP & EL & EO & A0 & A1 & N0 & N1).
  rewrite EM, EP in HG, HS. subst ls. cbn [nth] in np. assert (ML : length [m0; m1] = 2%nat) by reflexivity.
  split.
  - assert (EA : exists A, stokes_A strain h0 h1 dms = Ok A).
    { unfold stokes_A. destruct strain; [rewrite (run_strain _ _ _ ML HG HS)|rewrite (run_lap _ _ _ ML HG HS)]; cbn [bind]; rewrite (run_B _ _ _ ML HG HS); cbn [bind]; rewrite (run_diag _ _ _ ML HG HS); eauto. }
    destruct EA as [A EA]. exists A. destruct (counters_ok m0 m1 b0 b1 dms HG HS dm Hin a0 a1 c0 c1 EO A0 A1 np N0 N1 strain false A ltac:(eapply stokes_A_covered with (np := np); eauto)) as (L & E & K).
    exists L. split; [exact EA|]. split; [exact E|]. intros r [R1 R2]. exact (K r R1 R2).
  - intros hp0 hp1. assert (EA : exists A, stokes_P strain h0 h1 hp0 hp1 dms = Ok A).
    { unfold stokes_P. destruct strain; [rewrite (run_strain _ _ _ ML HG HS)|rewrite (run_lap _ _ _ ML HG HS)]; cbn [bind]; rewrite (run_mass _ _ _ ML HG HS); eauto. }
    destruct EA as [A EA]. exists A. destruct (counters_ok m0 m1 b0 b1 dms HG HS dm Hin a0 a1 c0 c1 EO A0 A1 np N0 N1 strain true A ltac:(eapply stokes_P_covered with (np := np); eauto)) as (L & E & K).
    exists L. split; [exact EA|]. split; [exact E|]. intros r [R1 R2]. exact (K r R1 R2).
Qed.
(** a concrete case: 5 x 4 points, first axis periodic, 2 x 2 processes; the second process *)
Definition ex_ls : list (list Z) := [[2; 2]; [3; 1]].
Example ex_ranges : ranges_ok (mesh_pres [5; 4] [true; false]) ex_ls.
Proof. unfold ranges_ok, ex_ls. repeat constructor; cbn; try lia; discriminate. Qed.
Definition ex_dm : dmda * dmda := nth 1 (createMesh [5; 4] [true; false] ex_ls) (mk_dm [] [] 0 (mkbox [] []), mk_dm [] [] 0 (mkbox [] [])).
Example ex_in : In ex_dm (createMesh [5; 4] [true; false] ex_ls). Proof. apply nth_In. cbn. lia. Qed.
Example ex_own : g_own (fst ex_dm) = mkbox [4; 0] [8; 6] /\ g_own (snd ex_dm) = mkbox [2; 0] [4; 3]. Proof. split; reflexivity. Qed.
(** the row of component 0 at the velocity node (4, 2), the process's left border: 2 x 3 velocity columns and the pressure columns it owns, then those of its neighbour *)
Definition ex_counts (strain precond : bool) (r : gdof) : option (nat * nat) :=
  match PreallocateMat strain precond (2, 2) ex_dm with Ok L => Some (dnz ex_dm L r, onz ex_dm L r) | _ => None end.
Example ex_counts_A : ex_counts false false (false, [4; 2], 0%nat) = Some (12, 6)%nat. Proof. vm_compute. reflexivity. Qed.
Example ex_counts_strain : ex_counts true true (false, [4; 2], 0%nat) = Some (12, 6)%nat. Proof. vm_compute. reflexivity. Qed.
Example ex_counts_p : ex_counts true false (true, [2; 1], 0%nat) = Some (36, 23)%nat. Proof. vm_compute. reflexivity. Qed.
Print Assumptions C33_preallocation_covers_assembly.
