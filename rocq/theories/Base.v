(** Base definitions shared by the model.  Nothing here models a particular
    piece of /repo; it fixes how C++ outcomes are represented. *)
From Coq Require Export List ZArith Lia Bool Reals Lra Psatz.
Export ListNotations.

(** Result of running a piece of C++:
    - [Ok a]       normal termination with value [a];
    - [UB]         undefined behaviour (out-of-bounds access, ...);
    - [Abort]      failed [assert] or uncaught C++ exception;
    - [OutOfFuel]  the loop bound given to the model was not enough
                   (a run that diverges is [OutOfFuel] for every fuel). *)
Inductive outcome (A : Type) : Type :=
| Ok (a : A)
| UB
| Abort
| OutOfFuel.
Arguments Ok {A} a.
Arguments UB {A}.
Arguments Abort {A}.
Arguments OutOfFuel {A}.

Definition bind {A B} (x : outcome A) (f : A -> outcome B) : outcome B :=
  match x with
  | Ok a => f a
  | UB => UB
  | Abort => Abort
  | OutOfFuel => OutOfFuel
  end.

(** [x[n] = v] on a fixed-size array. *)
Fixpoint set_nth {A} (n : nat) (v : A) (l : list A) {struct l} : list A :=
  match l, n with
  | [], _ => []
  | _ :: t, O => v :: t
  | a :: t, S m => a :: set_nth m v t
  end.

(** Component-wise loop [for i<D: out[i] = f(x[i], y[i])]. *)
Fixpoint zip_with {A B C} (f : A -> B -> C) (l : list A) (m : list B) : list C :=
  match l, m with
  | a :: l', b :: m' => f a b :: zip_with f l' m'
  | _, _ => []
  end.

(** Boolean tests on doubles (modelled by reals). *)
Definition Rltb (a b : R) : bool := if Rlt_dec a b then true else false.
Definition Rleb (a b : R) : bool := if Rle_dec a b then true else false.
Definition Reqb (a b : R) : bool := if Req_EM_T a b then true else false.

Lemma Rltb_spec a b : reflect (a < b)%R (Rltb a b).
Proof. unfold Rltb; destruct (Rlt_dec a b); constructor; assumption. Qed.
Lemma Rleb_spec a b : reflect (a <= b)%R (Rleb a b).
Proof. unfold Rleb; destruct (Rle_dec a b); constructor; assumption. Qed.
Lemma Reqb_spec a b : reflect (a = b) (Reqb a b).
Proof. unfold Reqb; destruct (Req_EM_T a b); constructor; assumption. Qed.

(** [static_cast<int>(double)]: truncation toward zero. *)
Definition Rtrunc (x : R) : Z :=
  if Rle_dec 0 x then Int_part x else (- Int_part (- x))%Z.

Lemma Int_part_bounds x : (IZR (Int_part x) <= x < IZR (Int_part x) + 1)%R.
Proof. destruct (base_Int_part x); split; lra. Qed.

Lemma Int_part_unique x n : (IZR n <= x < IZR n + 1)%R -> Int_part x = n.
Proof.
  intros [H1 H2]. destruct (Int_part_bounds x) as [H3 H4].
  assert (Int_part x < n + 1)%Z by (apply lt_IZR; rewrite plus_IZR; lra).
  assert (n < Int_part x + 1)%Z by (apply lt_IZR; rewrite plus_IZR; lra).
  lia.
Qed.

Lemma Rtrunc_nonneg x : (0 <= x)%R -> Rtrunc x = Int_part x.
Proof. intros H; unfold Rtrunc; destruct (Rle_dec 0 x); [reflexivity|lra]. Qed.

(** The bounds that hold for truncation of either sign. *)
Lemma Rtrunc_bounds x : (x - 1 < IZR (Rtrunc x) < x + 1)%R.
Proof.
  unfold Rtrunc; destruct (Rle_dec 0 x).
  - destruct (Int_part_bounds x); lra.
  - destruct (Int_part_bounds (-x)); rewrite opp_IZR; lra.
Qed.

Lemma Rtrunc_IZR n : Rtrunc (IZR n) = n.
Proof.
  unfold Rtrunc; destruct (Rle_dec 0 (IZR n)).
  - apply Int_part_unique; lra.
  - rewrite <- opp_IZR, (Int_part_unique (IZR (-n)) (-n)); [lia|lra].
Qed.

(** [std::pow(x,y)] for x >= 0, y >= 0 (the only arguments in cafes' geometry).
    Coq's [Rpower] is [exp(y ln x)], which is only right for x > 0. *)
Definition cpow (x y : R) : R :=
  if Req_EM_T x 0 then (if Req_EM_T y 0 then 1%R else 0%R) else Rpower x y.

Lemma nth_set_nth_eq {A} n (v d : A) l : n < length l -> nth n (set_nth n v l) d = v.
Proof. revert n; induction l as [|a l IH]; intros [|n] H; simpl in *; try lia; auto. apply IH; lia. Qed.
Lemma nth_set_nth_neq {A} n m (v d : A) l : n <> m -> nth m (set_nth n v l) d = nth m l d.
Proof. revert n m; induction l as [|a l IH]; intros [|n] [|m] H; simpl; try reflexivity; try lia. apply IH; lia. Qed.
Lemma length_set_nth {A} n (v : A) l : length (set_nth n v l) = length l.
Proof. revert n; induction l as [|a l IH]; intros [|n]; simpl; auto. Qed.
Lemma length_zip_with {A B C} (f : A -> B -> C) l m :
  length l = length m -> length (zip_with f l m) = length l.
Proof. revert m; induction l as [|a l IH]; intros [|b m] H; simpl in *; try lia. f_equal; apply IH; lia. Qed.
Lemma nth_zip_with {A B C} (f : A -> B -> C) l m i da db dc :
  length l = length m -> i < length l ->
  nth i (zip_with f l m) dc = f (nth i l da) (nth i m db).
Proof.
  revert m i; induction l as [|a l IH]; intros [|b m] [|i] H Hi; simpl in *; try lia; auto.
  apply IH; lia.
Qed.

Ltac pair_eq := repeat match goal with |- (_, _) = (_, _) => apply f_equal2 end.
