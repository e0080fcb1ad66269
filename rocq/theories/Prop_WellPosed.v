(** C55 (existence): the constrained Laplacian problem has exactly one solution. *)
From Coq Require Import FunctionalExtensionality.
From Verif Require Import Base M_Geometry S_Geometry P_Geometry M_Shapes M_Particle S_Particle P_Particle M_Quadrature S_Fem P_Energy M_MatElem M_Mesh M_Operator S_Operator P_Mesh P_Operator P_Operator3 M_Bc S_Bc Prop_Operator P_LinAlg.
Local Open Scope R_scope.

Definition dof_eqd : forall a b : list Z * nat, {a = b} + {a <> b}.
Proof. decide equality; [apply Nat.eq_dec|apply list_eq_dec, Z.eq_dec]. Defined.
(** the unknowns of a nodal field *)
Definition unknowns (m : list Z) (dof : nat) : list (list Z * nat) := list_prod (N0 m) (seq 0 dof).
Lemma list_prod_NoDup {A B} (l : list A) (l' : list B) : NoDup l -> NoDup l' -> NoDup (list_prod l l').
Proof.
  intros H H'. induction H as [|a l Ha H IH]; [constructor|]. cbn [list_prod]. apply NoDup_app_intro; [apply FinFun.Injective_map_NoDup; [intros x y E; injection E; auto|exact H']|exact IH|].
  intros [x y] H1 H2. apply in_map_iff in H1. destruct H1 as (y' & E & _). injection E as -> ->. apply in_prod_iff in H2. tauto.
Qed.
Lemma unknowns_NoDup m dof : NoDup (unknowns m dof).
Proof. apply list_prod_NoDup; [apply N0_enum|apply seq_NoDup]. Qed.
Lemma in_unknowns m dof n c : In (n, c) (unknowns m dof) <-> in_grid_box (nodes_box m) n /\ (c < dof)%nat.
Proof. unfold unknowns. rewrite in_prod_iff, in_seq, (proj2 (N0_enum m)). split; intros [A B]; split; auto; lia. Qed.
Definition vec_of (x : field) : list Z * nat -> R := fun i => x (fst i) (snd i).
Definition field_of (x : list Z * nat -> R) : field := fun n c => x (n, c).

(** for every right-hand side there is exactly one field: existence (uniqueness is C55_constrained_laplacian_unique_solution) *)
Theorem C55_constrained_laplacian_has_a_solution : forall h m per dof bc dms b,
  grid_ok m per -> has_cells m per -> steps_ok h m -> distributes m per dof dms -> nonempty_views dms -> table_ok (length m) dof bc ->
  (forall c, (c < dof)%nat -> exists n, in_grid_box (nodes_box m) n /\ prescribed (length m) m per bc n c <> None) ->
  exists x y, diag_block_matrix (laplacian_mult h) (length m) (Some (map Some bc)) dms x = Ok y /\ same_field m dof y b.
Proof.
  intros h m per dof bc dms b HG HC HS HD HN HT HB.
  set (op := fun x => diag_block_matrix (laplacian_mult h) (length m) (Some (map Some bc)) dms x).
  set (G := fun x : list Z * nat -> R => match op (field_of x) with Ok y => vec_of y | _ => fun _ => 0 end).
  destruct (injective_onto dof_eqd (unknowns m dof) G) with (b := vec_of b) as (x & Hx).
  - apply unknowns_NoDup.
  - intros a c x y [n d] Hi. apply in_unknowns in Hi. destruct Hi as [Hn Hd]. unfold G, op.
    destruct (C31_laplacian h m per dof bc dms (field_of x) HG HD HN HT) as (r & y1 & Er & Ey1 & V).
    destruct (C31_laplacian h m per dof bc dms (field_of y) HG HD HN HT) as (r' & y1' & Er' & Ey1' & V').
    destruct (C31_laplacian h m per dof bc dms (field_of (fun j => a * x j + c * y j)) HG HD HN HT) as (rz & z & Erz & Ez & Vz).
    rewrite Ey1, Ey1', Ez. unfold vec_of. cbn [fst snd]. rewrite (V n d Hn Hd), (V' n d Hn Hd), (Vz n d Hn Hd).
    destruct (C24_laplacian_linear h m per dof dms a c (field_of x) (field_of y) HG HD) as (r1 & r2 & r3 & E1 & E2 & E3 & L).
    rewrite Er in E1. injection E1 as <-. rewrite Er' in E2. injection E2 as <-. change (lin a c (field_of x) (field_of y)) with (field_of (fun j => a * x j + c * y j)) in E3. rewrite Erz in E3. injection E3 as <-.
    destruct (prescribed (length m) m per bc n d); [reflexivity|]. apply (L n d Hn Hd).
  - intros x H0 [n d] Hi. destruct (proj1 (in_unknowns m dof n d) Hi) as [Hn Hd]. destruct (C31_laplacian h m per dof bc dms (field_of x) HG HD HN HT) as (r & y1 & Er & Ey1 & V).
    change (field_of x n d = 0). apply (C55_constrained_laplacian_injective h m per dof bc dms (field_of x) y1); auto. intros n' c' Hn' Hc'. specialize (H0 (n', c') (proj2 (in_unknowns m dof n' c') (conj Hn' Hc'))).
    unfold G, op in H0. rewrite Ey1 in H0. exact H0.
  - destruct (C31_laplacian h m per dof bc dms (field_of x) HG HD HN HT) as (r & y1 & Er & Ey1 & V). exists (field_of x), y1. split; [exact Ey1|]. intros n d Hn Hd.
    specialize (Hx (n, d) (proj2 (in_unknowns m dof n d) (conj Hn Hd))). unfold G, op in Hx. rewrite Ey1 in Hx. exact Hx.
Qed.
