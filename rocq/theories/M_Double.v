(** Model of the places of the library where doubles are rounded and the rounding is visible: IEEE binary64 (Flocq), round to nearest, ties to even, one
    rounding per operation (SSE2 arithmetic, no contraction to fused operations). *)
From Coq Require Import ZArith List Bool.
From Flocq Require Import BinarySingleNaN.
From Verif Require Import Base M_Geometry M_Particle.
Import ListNotations.

Definition double := binary_float 53 1024.
Definition prec53 : FLX.Prec_gt_0 53 := eq_refl.
Definition emax1024 : Prec_lt_emax 53 1024 := eq_refl.
Definition dplus (x y : double) : double := @Bplus 53 1024 prec53 emax1024 mode_NE x y.
Definition dminus (x y : double) : double := @Bminus 53 1024 prec53 emax1024 mode_NE x y.
Definition dmult (x y : double) : double := @Bmult 53 1024 prec53 emax1024 mode_NE x y.
Definition ddiv (x y : double) : double := @Bdiv 53 1024 prec53 emax1024 mode_NE x y.
Definition dabs (x : double) : double := Babs x.
Definition dltb (x y : double) : bool := Bltb x y.
(** int -> double *)
Definition dint (z : Z) : double := @binary_normalize 53 1024 prec53 emax1024 mode_NE z 0 false.
(** [static_cast<int>(double)]: undefined when the truncated value is not an int *)
Definition d_to_int (x : double) : outcome Z :=
  if is_finite x && (- 2 ^ 31 <=? Btrunc x)%Z && (Btrunc x <? 2 ^ 31)%Z then Ok (Btrunc x) else UB.

(** particle.hpp l.118-119, 135-137: [for(x=lo*h, i=lo; i<hi; x+=h, ++i)]; the coordinate is accumulated *)
Fixpoint dfor_loop {A} (fuel : nat) (i hi : Z) (x h : double) (body : Z -> double -> list A) : list A :=
  match fuel with
  | O => []
  | S k => if (i <? hi)%Z then body i x ++ dfor_loop k (i + 1)%Z hi (dplus x h) h body else []
  end.
Definition dfor {A} (lo hi : Z) (h : double) (body : Z -> double -> list A) : list A :=
  let i := to_size_t lo in
  let e := to_size_t hi in
  dfor_loop (Z.to_nat (e - i)) i e (dmult (dint lo) h) h body.
Definition dzero : double := dint 0.
(** l.110-126 [find_fluid_points_insides], 2D *)
Definition dfind_fluid_points2 (contains : list double -> bool) (b : box Z) (h : list double) : list (list Z) :=
  let bl d := nth d (bottom_left b) 0%Z in
  let ur d := nth d (upper_right b) 0%Z in
  let hh d := nth d h dzero in
  dfor (bl 1) (ur 1) (hh 1) (fun iy y =>
  dfor (bl 0) (ur 0) (hh 0) (fun ix x =>
    if contains [x; y] then [[to_int ix; to_int iy]] else [])).
(** l.128-146, 3D *)
Definition dfind_fluid_points3 (contains : list double -> bool) (b : box Z) (h : list double) : list (list Z) :=
  let bl d := nth d (bottom_left b) 0%Z in
  let ur d := nth d (upper_right b) 0%Z in
  let hh d := nth d h dzero in
  dfor (bl 2) (ur 2) (hh 2) (fun iz z =>
  dfor (bl 1) (ur 1) (hh 1) (fun iy y =>
  dfor (bl 0) (ur 0) (hh 0) (fun ix x =>
    if contains [x; y; z] then [[to_int ix; to_int iy; to_int iz]] else []))).
Definition dfind_fluid_points (D : nat) := match D with 2 => dfind_fluid_points2 | _ => dfind_fluid_points3 end.

(** super_ellipsoid.hpp l.309-326 [contains], [implicit] of a 2D shape that is not rotated; [pow] is std::pow, [n_] the stored exponent *)
Definition dimplicit2 (pow : double -> double -> double) (c s : double * double) (n_ : double) (p : list double) : double :=
  let r := ddiv (dint 2) n_ in
  dplus (pow (dabs (ddiv (dminus (nth 0 p dzero) (fst c)) (fst s))) r) (pow (dabs (ddiv (dminus (nth 1 p dzero) (snd c)) (snd s))) r).
Definition dcontains2 (pow : double -> double -> double) (c s : double * double) (n_ : double) (p : list double) : bool := dltb (dimplicit2 pow c s n_ p) (dint 1).
(** circle.hpp l.49-52 with super_ellipsoid.hpp l.60-66: the exponent 2 is stored as 2./2 *)
Definition dcircle_contains (pow : double -> double -> double) (c : double * double) (radius : double) : list double -> bool :=
  dcontains2 pow c (radius, radius) (ddiv (dint 2) (dint 2)).
(** super_ellipsoid.hpp l.84-95, 123-127 [bounding_box(h)] of a 2D shape that is not rotated: (b.bottom_left/h - 1.), (b.upper_right/h + 1.), converted to int *)
Definition dbounding_box2 (c s h : double * double) : outcome (box Z) :=
  bind (d_to_int (dminus (ddiv (dminus (fst c) (fst s)) (fst h)) (dint 1))) (fun a0 =>
  bind (d_to_int (dminus (ddiv (dminus (snd c) (snd s)) (snd h)) (dint 1))) (fun a1 =>
  bind (d_to_int (dplus (ddiv (dplus (fst c) (fst s)) (fst h)) (dint 1))) (fun b0 =>
  bind (d_to_int (dplus (ddiv (dplus (snd c) (snd s)) (snd h)) (dint 1))) (fun b1 =>
  Ok (mkbox [a0; a1] [b0; b1]))))).

(** particle.hpp l.154-158: one surface point, one axis: the cell [static_cast<int>(x/h)] and the offset [x - i*h] in it *)
Definition dcell (x h : double) : outcome Z := d_to_int (ddiv x h).
Definition doffset (x h : double) (i : Z) : double := dminus x (dmult (dint i) h).
Definition dcells (p h : list double) : outcome (list Z) := fold_right (fun xh o => bind (dcell (fst xh) (snd xh)) (fun i => bind o (fun l => Ok (i :: l)))) (Ok []) (combine p h).
(** l.148-162 [find_surf_points_insides] *)
Fixpoint dfind_surf_points_insides (surf_p : list (list double)) (b : box Z) (h : list double) : outcome (list (list Z * list double)) :=
  match surf_p with
  | [] => Ok []
  | p :: t =>
      bind (dcells p h) (fun surf_pi =>
      bind (dfind_surf_points_insides t b h) (fun l =>
      if point_inside Z.ltb b surf_pi
      then Ok ((surf_pi, zip_with (fun xh i => doffset (fst xh) (snd xh) i) (combine p h) surf_pi) :: l)
      else Ok l))
  end.

(** quadrature.hpp l.39-49 [P1_integration], 2D *)
Definition dP1_integration2 (x h : double * double) : list double :=
  let c := ddiv (dint 1) (dmult (fst h) (snd h)) in
  [ dmult (dmult c (dminus (fst x) (fst h))) (dminus (snd x) (snd h));
    dmult (dmult c (fst x)) (dminus (snd h) (snd x));
    dmult (dmult c (dminus (fst h) (fst x))) (snd x);
    dmult (dmult c (fst x)) (snd x) ].

(** quadrature.hpp l.64-80 [P1_integration], 3D *)
Definition dP1_integration3 (x h : double * double * double) : list double :=
  let '(x0, x1, x2) := x in let '(h0, h1, h2) := h in
  let c := ddiv (dint 1) (dmult (dmult h0 h1) h2) in
  [ dmult (dmult (dmult c (dminus h0 x0)) (dminus h1 x1)) (dminus h2 x2);
    dmult (dmult (dmult c x0) (dminus h1 x1)) (dminus h2 x2);
    dmult (dmult (dmult c (dminus h0 x0)) x1) (dminus h2 x2);
    dmult (dmult (dmult c x0) x1) (dminus h2 x2);
    dmult (dmult (dmult c (dminus h0 x0)) (dminus h1 x1)) x2;
    dmult (dmult (dmult c x0) (dminus h1 x1)) x2;
    dmult (dmult (dmult c (dminus h0 x0)) x1) x2;
    dmult (dmult (dmult c x0) x1) x2 ].

(** linspace.hpp l.39-53: [i*step] converts the size_t [i]; [ns] may be zero *)
Definition dlinspace (beg end_ : double) (num : Z) (include_end : bool) : outcome (list double) :=
  if negb (Bleb beg end_) then Abort else if (num <? 0)%Z then Abort else
  let ns := if include_end then (num - 1)%Z else num in
  let step := ddiv (dminus end_ beg) (dint ns) in
  Ok (map (fun k => dplus beg (dmult (dint (Z.of_nat k)) step)) (seq 0 (Z.to_nat num))).
(** stokes.hpp l.219-224: hp = lx/(mx-1), hu = .5*hp *)
Definition dhalf : double := @binary_normalize 53 1024 prec53 emax1024 mode_NE 1 (-1) false.
Definition dpressure_step (lx : double) (mx : Z) : double := ddiv lx (dint (mx - 1)).
Definition dvelocity_step (lx : double) (mx : Z) : double := dmult dhalf (dpressure_step lx mx).
