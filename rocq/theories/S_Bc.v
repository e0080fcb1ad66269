(** Independent specification of boundary conditions. *)
From Verif Require Import Base M_Geometry S_Geometry S_Particle S_Fem M_Mesh M_Operator M_Bc S_Operator.

(** Sides of the domain in the order they are numbered: (axis, upper side?). *)
Definition sides (D : nat) : list (nat * bool) := flat_map (fun d => [(d, false); (d, true)]) (seq 0 D).
Definition side_index (s : nat * bool) : nat := 2 * fst s + (if snd s then 1 else 0).
(** node n lies on side s, and the axis is not periodic *)
Definition on_side (m : list Z) (per : list bool) (n : list Z) (s : nat * bool) : bool :=
  negb (nth (fst s) per false) && Z.eqb (nth (fst s) n 0%Z) (if snd s then nth (fst s) m 0 - 1 else 0)%Z.
(** The condition that applies to component c at node n: the last one, in the order of the
    sides, among the non-null conditions of the sides n lies on. *)
Definition prescribed (D : nat) (m : list Z) (per : list bool) (bc : list bc_row) (n : list Z) (c : nat) : option condition_fn :=
  fold_left (fun acc s => if on_side m per n s then
                            match nth c (nth (side_index s) bc []) None with Some f => Some f | None => acc end
                          else acc) (sides D) None.
(** A complete table: one row per side, one entry per component. *)
Definition table_ok (D dof : nat) (bc : list bc_row) : Prop := length bc = 2 * D /\ Forall (fun r => length r = dof) bc.
(** every process owns at least one point per axis *)
Definition nonempty_views (dms : list dmda) : Prop := Forall (fun dm => Forall2 Z.lt (bottom_left (g_own dm)) (upper_right (g_own dm))) dms.
(** the unit vector of component c at node n *)
Definition unit_field (n : list Z) (c : nat) : field := fun q d => if same_node n q && Nat.eqb c d then 1%R else 0%R.
(** the load has at least one component / none at all *)
Definition loaded (conds : bc_row) : Prop := exists c f, nth c conds None = Some f.
Definition unloaded (conds : bc_row) : Prop := forall c, nth c conds None = None.
