(** Independent specification of the polynomial Stokes flows. *)
From Coquelicot Require Import Coquelicot.
From Verif Require Import Base S_Fem.
Open Scope R_scope.

(** the position of a grid node: index times step, axis by axis *)
Definition position (h : list R) (n : list Z) : list R := zip_with (fun i s => IZR i * s) n h.
(** the point x with coordinate k replaced by t *)
Definition moved (k : nat) (t : R) (x : list R) : list R := firstn k x ++ t :: skipn (S k) x.
(** partial derivative along axis k *)
Definition partial (k : nat) (g : list R -> R) (x : list R) : R := Derive (fun t => g (moved k t x)) (nth k x 0).
(** polynomials of degree at most 1 and 2 in D variables *)
Definition affine (D : nat) (g : list R -> R) : Prop :=
  exists a b, forall x, length x = D -> g x = a + Rsum D (fun i => b i * nth i x 0).
Definition quadratic (D : nat) (g : list R -> R) : Prop :=
  exists a b q, forall x, length x = D -> g x = a + Rsum D (fun i => b i * nth i x 0) + Rsum D (fun i => Rsum D (fun j => q i j * nth i x 0 * nth j x 0)).
(** g does not depend on the coordinates of the periodic axes *)
Definition periodic_ok (D : nat) (per : list bool) (g : list R -> R) : Prop :=
  forall k t x, (k < D)%nat -> length x = D -> nth k per false = true -> g (moved k t x) = g x.
(** velocity u, pressure p and force f: - Laplacian u + grad p = f, div u = 0; u quadratic with
    component c affine along axis c, p affine *)
Definition stokes_flow (D : nat) (u : nat -> list R -> R) (p : list R -> R) (f : nat -> R) : Prop :=
  (forall c, (c < D)%nat -> quadratic D (u c)) /\ affine D p /\
  (forall c x, (c < D)%nat -> length x = D -> partial c (partial c (u c)) x = 0) /\
  (forall c x, (c < D)%nat -> length x = D -> - Rsum D (fun i => partial i (partial i (u c)) x) + partial c p x = f c) /\
  (forall x, length x = D -> Rsum D (fun c => partial c (u c) x) = 0).
