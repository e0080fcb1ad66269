(** Independent specification of boundary conditions on vectors of doubles. *)
From Flocq Require Import BinarySingleNaN.
From Verif Require Import Base M_Geometry S_Geometry S_Particle S_Fem M_Mesh M_Operator M_Bc S_Operator S_Bc.
From Verif Require Import M_Double S_Double M_DoubleOp S_DoubleOp.
From Verif Require Import M_DoubleBc.
(** The condition that applies to component c at node n, for a table of any kind of functions: the last one, in the
    order of the sides, among the non-null conditions of the sides n lies on (as [prescribed] of S_Bc). *)
Definition prescribed_by {F} (D : nat) (m : list Z) (per : list bool) (bc : list (list (option F))) (n : list Z) (c : nat) : option F :=
  fold_left (fun acc s => if on_side m per n s then
                            match nth c (nth (side_index s) bc []) None with Some f => Some f | None => acc end
                          else acc) (sides D) None.
(** A complete table: one row per side, one entry per component. *)
Definition full_table {F} (D dof : nat) (bc : list (list (option F))) : Prop := length bc = 2 * D /\ Forall (fun r => length r = dof) bc.
(** component c of the load at node n, in doubles: the load function at the computed coordinates of the node *)
Definition dload (conds : dbc_row) (h : list double) : dfield :=
  fun n c => match nth c conds None with Some f => f (dcoord n h) | None => dzero end.
(** [rounded] of S_DoubleOp for the entries of the nodes of the grid *)
Definition rounded_on (m : list Z) (dof p q : nat) (fin : Prop) (Y : dfield) (y a : field) : Prop := forall n d, in_grid_box (nodes_box m) n -> (d < dof)%nat ->
  (finite (Y n d) -> (Rabs (dval (Y n d) - y n d) <= INR p * u64 * a n d + INR q * tiny64)%R) /\ (fin -> (a n d <= 2 ^ 1000)%R -> finite (Y n d)).
(** Y has the prescribed values v at the constrained entries and those of Z elsewhere *)
Definition overwritten {F} (D : nat) (m : list Z) (per : list bool) (dof : nat) (bc : list (list (option F))) (v : list Z -> nat -> F -> double) (Z Y : dfield) : Prop :=
  forall n d, in_grid_box (nodes_box m) n -> (d < dof)%nat -> Y n d = match prescribed_by D m per bc n d with Some f => v n d f | None => Z n d end.
