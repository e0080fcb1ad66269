(** Independent specification for the finite elements: tensor-product shape functions. *)
From Coquelicot Require Import Coquelicot.
From Verif Require Import Base.
Open Scope R_scope.

(** 1D shape functions on [0,1]: t for the right vertex, 1-t for the left one. *)
Definition hat (right : bool) (t : R) : R := if right then t else 1 - t.
Definition dhat (right : bool) : R := if right then 1 else -1.
Lemma dhat_is_derivative right t : is_derive (hat right) t (dhat right).
Proof. destruct right; unfold hat, dhat; auto_derive; auto; ring. Qed.

(** Vertices of the reference cell, first axis fastest. *)
Definition vertices2 : list (bool * bool) := [(false, false); (true, false); (false, true); (true, true)].
Definition vertices3 : list (bool * bool * bool) :=
  [(false, false, false); (true, false, false); (false, true, false); (true, true, false);
   (false, false, true); (true, false, true); (false, true, true); (true, true, true)].
Definition Q1_2 (v : bool * bool) (x y : R) : R := hat (fst v) x * hat (snd v) y.
Definition Q1_3 (v : bool * bool * bool) (x y z : R) : R := hat (fst (fst v)) x * hat (snd (fst v)) y * hat (snd v) z.

Definition b2r (b : bool) : R := if b then 1 else 0.
Definition b2z (b : bool) : Z := if b then 1%Z else 0%Z.

(** ---- derivatives and integrals ---- *)
(** Partial derivative along axis k (Coquelicot's [Derive]). *)
Definition D2 (k : nat) (f : R -> R -> R) (x y : R) : R :=
  match k with O => Derive (fun t => f t y) x | _ => Derive (fun t => f x t) y end.
Definition D3 (k : nat) (f : R -> R -> R -> R) (x y z : R) : R :=
  match k with
  | O => Derive (fun t => f t y z) x
  | S O => Derive (fun t => f x t z) y
  | _ => Derive (fun t => f x y t) z
  end.
(** [is_int2 f a0 b0 a1 b1 v]: f is integrable on the rectangle, with integral v (iterated
    Riemann integrals; values on the edges of the rectangle are irrelevant). *)
Definition is_int2 (f : R -> R -> R) (a0 b0 a1 b1 v : R) : Prop :=
  exists g, (forall y, a1 < y < b1 -> is_RInt (fun x => f x y) a0 b0 (g y)) /\ is_RInt g a1 b1 v.
Definition is_int3 (f : R -> R -> R -> R) (a0 b0 a1 b1 a2 b2 v : R) : Prop :=
  exists g, (forall z, a2 < z < b2 -> is_int2 (fun x y => f x y z) a0 b0 a1 b1 (g z)) /\ is_RInt g a2 b2 v.

(** Q1 shape functions of a cell [0,h0]x[0,h1](x[0,h2]), numbered as [vertices2]/[vertices3]. *)
Definition phi2 (h0 h1 : R) (i : nat) (x y : R) : R := Q1_2 (nth i vertices2 (false, false)) (x / h0) (y / h1).
Definition phi3 (h0 h1 h2 : R) (i : nat) (x y z : R) : R :=
  Q1_3 (nth i vertices3 (false, false, false)) (x / h0) (y / h1) (z / h2).
(** Tent function of node k of the unit-spaced grid 0,1,2; velocity shape functions of a
    doubled cell [0,2h0]x[0,2h1](x[0,2h2]), 3^D nodes, first axis fastest. *)
Definition tent (k : nat) (t : R) : R := Rmax 0 (1 - Rabs (t - INR k)).
Definition psi2 (h0 h1 : R) (j : nat) (x y : R) : R := tent (j mod 3) (x / h0) * tent (j / 3) (y / h1).
Definition psi3 (h0 h1 h2 : R) (j : nat) (x y z : R) : R :=
  tent (j mod 3) (x / h0) * tent ((j / 3) mod 3) (y / h1) * tent (j / 9) (z / h2).

(** Vector fields: component index to scalar field.  Symmetrised gradient and the viscous
    integrand 2 D(u):D(v). *)
Definition field2 := nat -> R -> R -> R.
Definition field3 := nat -> R -> R -> R -> R.
Definition along2 (f : R -> R -> R) (a : nat) : field2 := fun c x y => if Nat.eqb c a then f x y else 0.
Definition along3 (f : R -> R -> R -> R) (a : nat) : field3 := fun c x y z => if Nat.eqb c a then f x y z else 0.
Definition strain2 (u : field2) (k l : nat) (x y : R) : R := (D2 k (u l) x y + D2 l (u k) x y) / 2.
Definition strain3 (u : field3) (k l : nat) (x y z : R) : R := (D3 k (u l) x y z + D3 l (u k) x y z) / 2.
Definition viscous2 (u v : field2) (x y : R) : R :=
  2 * (strain2 u 0 0 x y * strain2 v 0 0 x y + strain2 u 0 1 x y * strain2 v 0 1 x y +
       strain2 u 1 0 x y * strain2 v 1 0 x y + strain2 u 1 1 x y * strain2 v 1 1 x y).
Definition viscous3 (u v : field3) (x y z : R) : R :=
  2 * (strain3 u 0 0 x y z * strain3 v 0 0 x y z + strain3 u 0 1 x y z * strain3 v 0 1 x y z + strain3 u 0 2 x y z * strain3 v 0 2 x y z +
       strain3 u 1 0 x y z * strain3 v 1 0 x y z + strain3 u 1 1 x y z * strain3 v 1 1 x y z + strain3 u 1 2 x y z * strain3 v 1 2 x y z +
       strain3 u 2 0 x y z * strain3 v 2 0 x y z + strain3 u 2 1 x y z * strain3 v 2 1 x y z + strain3 u 2 2 x y z * strain3 v 2 2 x y z).

(** finite sums over 0..n-1 *)
Fixpoint Rsum (n : nat) (f : nat -> R) : R := match n with O => 0 | S k => Rsum k f + f k end.
(** coordinates of the vertices of a cell *)
Definition node2 (h : R) (k i : nat) : R := h * b2r (match k with O => fst | _ => snd end (nth i vertices2 (false, false))).
Definition node3 (h : R) (k i : nat) : R :=
  let v := nth i vertices3 (false, false, false) in
  h * b2r (match k with O => fst (fst v) | S O => snd (fst v) | _ => snd v end).
(** nodal values of rigid motions: translation + rotation *)
Definition rigid2 (h0 h1 : R) (U : nat -> nat -> R) : Prop := exists t0 t1 w, forall i, (i < 4)%nat ->
  U i 0%nat = t0 - w * node2 h1 1 i /\ U i 1%nat = t1 + w * node2 h0 0 i.
Definition rigid3 (h0 h1 h2 : R) (U : nat -> nat -> R) : Prop := exists t0 t1 t2 w0 w1 w2, forall i, (i < 8)%nat ->
  U i 0%nat = t0 + w1 * node3 h2 2 i - w2 * node3 h1 1 i /\
  U i 1%nat = t1 + w2 * node3 h0 0 i - w0 * node3 h2 2 i /\
  U i 2%nat = t2 + w0 * node3 h1 1 i - w1 * node3 h0 0 i.
(** quadratic forms of nodal scalars and nodal vectors *)
Definition qform (n : nat) (M : nat -> nat -> R) (U : nat -> R) : R := Rsum n (fun i => Rsum n (fun j => U i * M i j * U j)).
Definition vform (n D : nat) (M : nat -> nat -> nat -> nat -> R) (U : nat -> nat -> R) : R :=
  Rsum n (fun i => Rsum n (fun j => Rsum D (fun a => Rsum D (fun b => U i a * M i j a b * U j b)))).

Fixpoint sum_list (l : list R) : R := match l with [] => 0 | a :: t => a + sum_list t end.
Close Scope R_scope.
