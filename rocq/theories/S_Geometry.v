(** Independent specification of the geometric notions: sets of points. *)
From Verif Require Import Base M_Geometry.

(** A totally ordered coordinate type with its boolean strict comparison. *)
Definition total_order {T} (le : T -> T -> Prop) (ltb : T -> T -> bool) : Prop :=
  (forall a, le a a) /\
  (forall a b, le a b -> le b a -> a = b) /\
  (forall a b c, le a b -> le b c -> le a c) /\
  (forall a b, le a b \/ le b a) /\
  (forall a b, ltb a b = false <-> le b a).

(** Strict order derived from [le]. *)
Definition slt {T} (le : T -> T -> Prop) (a b : T) : Prop := ~ le b a.

(** Closed box: bottom_left <= p <= upper_right, component-wise. *)
Definition in_closed {T} (le : T -> T -> Prop) (b : box T) (p : list T) : Prop :=
  Forall2 le (bottom_left b) p /\ Forall2 le p (upper_right b).

(** Half-open box: bottom_left <= p < upper_right, component-wise. *)
Definition in_halfopen {T} (le : T -> T -> Prop) (b : box T) (p : list T) : Prop :=
  Forall2 le (bottom_left b) p /\ Forall2 (slt le) p (upper_right b).

(** A box of dimension D whose corners are ordered. *)
Definition well_formed {T} (le : T -> T -> Prop) (b : box T) : Prop :=
  Forall2 le (bottom_left b) (upper_right b).

Definition has_dim {T} (D : nat) (b : box T) : Prop :=
  length (bottom_left b) = D /\ length (upper_right b) = D.

(** Integer points of the half-open box. *)
Definition in_grid_box (b : box Z) (p : list Z) : Prop :=
  Forall2 Z.le (bottom_left b) p /\ Forall2 Z.lt p (upper_right b).

(** Colexicographic order: the last axis is the most significant,
    i.e. the first axis varies fastest. *)
Definition colex_lt (p q : list Z) : Prop :=
  exists k, k < length p /\ (nth k p 0 < nth k q 0)%Z /\
            forall j, k < j -> nth j p 0%Z = nth j q 0%Z.

(** [l] lists a set of points in strictly increasing colexicographic order. *)
Fixpoint strictly_increasing {A} (lt : A -> A -> Prop) (l : list A) : Prop :=
  match l with
  | [] => True
  | a :: t => (forall x, In x t -> lt a x) /\ strictly_increasing lt t
  end.

(** Replace the corner of a box along one axis. *)
Definition cut_low {T} (k : nat) (c : T) (b : box T) : box T :=
  mkbox (bottom_left b) (set_nth k c (upper_right b)).
Definition cut_high {T} (k : nat) (c : T) (b : box T) : box T :=
  mkbox (set_nth k c (bottom_left b)) (upper_right b).

(** Component-wise meaning of a binary / unary operation on coordinate arrays. *)
Definition componentwise2 (f : R -> R -> R) (op : vec -> vec -> vec) : Prop :=
  forall v w, length v = length w ->
    length (op v w) = length v /\
    forall i, i < length v -> nth i (op v w) 0%R = f (nth i v 0%R) (nth i w 0%R).
Definition componentwise_scalar (f : R -> R -> R) (op : vec -> R -> vec) : Prop :=
  forall v c, length (op v c) = length v /\
    forall i, i < length v -> nth i (op v c) 0%R = f (nth i v 0%R) c.

(** Scalar products. *)
Definition dot2 (x y : R * R) : R := (fst x * fst y + snd x * snd y)%R.
Definition dot3 (x y : R * R * R) : R :=
  let '(x0, x1, x2) := x in let '(y0, y1, y2) := y in (x0 * y0 + x1 * y1 + x2 * y2)%R.
Definition add3 (x y : R * R * R) : R * R * R :=
  let '(x0, x1, x2) := x in let '(y0, y1, y2) := y in (x0 + y0, x1 + y1, x2 + y2)%R.
Definition opp3 (x : R * R * R) : R * R * R :=
  let '(x0, x1, x2) := x in (- x0, - x1, - x2)%R.
(** The plane z = 0 in space, and the axis e_z. *)
Definition embed (x : R * R) : R * R * R := (fst x, snd x, 0%R).
Definition spin (rz : R) : R * R * R := (0%R, 0%R, rz).
