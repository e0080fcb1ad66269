(** Model of cafes/particle/geometry/{position,vector,cross_product,box,linspace}.hpp,
    cafes/particle/physics/{velocity,force}.hpp and cafes/algorithm/iterate.hpp.
    [std::array<T,D>] is a list of length D. *)
From Verif Require Import Base.

(** ** Arithmetic on coordinate arrays (doubles as reals) *)
Definition vec := list R.

(** position.hpp l.91-101 [operator*=(position)], [operator*=(std::array)];
    vector.hpp l.94-98 [operator*=(vector)] *)
Definition pos_mul_assign (p q : vec) : vec := zip_with Rmult p q.
(** position.hpp l.103-107 [operator-=(position)] *)
Definition pos_sub_assign (p q : vec) : vec := zip_with Rminus p q.
(** position.hpp l.109-113 [operator+=(position)] *)
Definition pos_add_assign (p q : vec) : vec := zip_with Rplus p q.
(** position.hpp l.115-119 [operator+=(velocity)] *)
Definition pos_add_assign_velocity (p v : vec) : vec := zip_with Rplus p v.
(** position.hpp l.121-125 [operator+=(T)] *)
Definition pos_add_assign_scalar (p : vec) (c : R) : vec := map (fun x => (x + c)%R) p.
(** position.hpp l.127-131 [operator-=(T)] *)
Definition pos_sub_assign_scalar (p : vec) (c : R) : vec := map (fun x => (x - c)%R) p.
(** position.hpp l.133-138 [operator/=(std::array)] *)
Definition pos_div_assign (p h : vec) : vec := zip_with Rdiv p h.
(** position.hpp l.140-144 [operator/=(T)] *)
Definition pos_div_assign_scalar (p : vec) (c : R) : vec := map (fun x => (x / c)%R) p.
(** position.hpp l.148-182,193-246: the binary operators copy the left operand
    and apply the compound assignment. *)
Definition pos_plus_velocity (p v : vec) : vec := pos_add_assign_velocity p v.
Definition pos_plus_scalar (p : vec) (c : R) : vec := pos_add_assign_scalar p c.
Definition pos_plus (p q : vec) : vec := pos_add_assign p q.
Definition pos_minus_scalar (p : vec) (c : R) : vec := pos_sub_assign_scalar p c.
Definition pos_times (p q : vec) : vec := pos_mul_assign p q.
Definition pos_minus (p q : vec) : vec := pos_sub_assign p q.
Definition pos_div (p h : vec) : vec := pos_div_assign p h.
Definition pos_div_scalar (p : vec) (c : R) : vec := pos_div_assign_scalar p c.
(** position.hpp l.58-62: [position<int>(position<double>)], static_cast per component *)
Definition pos_to_int (p : vec) : list Z := map Rtrunc p.
(** position.hpp l.58-62: [position<double>(position<int>)] *)
Definition pos_of_int (p : list Z) : vec := map IZR p.
(** position.hpp l.248-254 [ceil]: std::ceil then conversion to int *)
Definition pos_ceil (p : vec) : list Z := map (fun x => Rtrunc (IZR (- Int_part (- x)))) p.
(** position.hpp l.256-262 [floor]: std::floor then conversion to int *)
Definition pos_floor (p : vec) : list Z := map (fun x => Rtrunc (IZR (Int_part x))) p.

(** vector.hpp l.100-104 [operator*=(T)] *)
Definition vec_scale_assign (v : vec) (c : R) : vec := map (fun x => (x * c)%R) v.
(** vector.hpp l.106-110 [operator+=(vector)] *)
Definition vec_add_assign (v w : vec) : vec := zip_with Rplus v w.
(** vector.hpp l.112-116 [operator-=(vector)]; a velocity argument is converted
    by the constructor l.62-66 *)
Definition vec_sub_assign (v w : vec) : vec := zip_with Rminus v w.
(** vector.hpp l.118-122 [operator+=(velocity)].  The body really is [-=]. *)
Definition vec_add_assign_velocity (v w : vec) : vec := zip_with Rminus v w.
(** vector.hpp l.124-128 [operator/=(T)] *)
Definition vec_div_assign (v : vec) (c : R) : vec := map (fun x => (x / c)%R) v.
(** vector.hpp l.138-149 [v*c], [c*v] *)
Definition vec_times_scalar (v : vec) (c : R) : vec := vec_scale_assign v c.
Definition scalar_times_vec (c : R) (v : vec) : vec := vec_times_scalar v c.
(** vector.hpp l.151-156 [v1+v2] *)
Definition vec_plus (v w : vec) : vec := vec_add_assign v w.
(** vector.hpp l.158-163 unary minus *)
Definition vec_opp (v : vec) : vec := vec_scale_assign v (-1).
(** vector.hpp l.165-172 [vector - velocity] *)
Definition vec_minus_velocity (p v : vec) : vec := vec_sub_assign p v.
(** vector.hpp l.174-181 [velocity - vector].  The body copies [p] (the right
    operand) and subtracts [v] (the left one). *)
Definition velocity_minus_vec (v p : vec) : vec := vec_sub_assign p v.
(** vector.hpp l.183-195 [v/c] for a double or an int c *)
Definition vec_div_scalar (v : vec) (c : R) : vec := vec_div_assign v c.

(** velocity.hpp l.58-62,71-77 [+=], [+] *)
Definition velocity_add_assign (v w : vec) : vec := zip_with Rplus v w.
Definition velocity_plus (v w : vec) : vec := velocity_add_assign v w.
(** force.hpp l.70-92 compound assignments, l.100-141 binary operators *)
Definition force_scale_assign (f : vec) (c : R) : vec := map (fun x => (x * c)%R) f.
Definition force_add_assign_scalar (f : vec) (c : R) : vec := map (fun x => (x + c)%R) f.
Definition force_add_assign (f g : vec) : vec := zip_with Rplus f g.
Definition force_sub_assign (f g : vec) : vec := zip_with Rminus f g.
Definition force_times_scalar (f : vec) (c : R) : vec := force_scale_assign f c.
Definition force_plus (f g : vec) : vec := force_add_assign f g.
Definition force_minus (f g : vec) : vec := force_sub_assign f g.

(** ** Cross products (cross_product.hpp l.39-86), on coordinates *)
Open Scope R_scope.
(** l.39-49 *)
Definition cross22 (x y : R * R) : R := fst x * snd y - snd x * fst y.
(** l.51-64 spin (scalar or 1-vector) times vector *)
Definition cross12 (rz : R) (x : R * R) : R * R := (- rz * snd x, rz * fst x).
(** l.66-78 vector times spin *)
Definition cross21 (x : R * R) (rz : R) : R * R := (rz * snd x, - rz * fst x).
(** l.80-86 *)
Definition cross33 (x y : R * R * R) : R * R * R :=
  let '(x0, x1, x2) := x in
  let '(y0, y1, y2) := y in
  (x1 * y2 - x2 * y1, x2 * y0 - x0 * y2, x0 * y1 - x1 * y0).
Close Scope R_scope.

(** ** Boxes (box.hpp) *)
Record box (T : Type) := mkbox { bottom_left : list T; upper_right : list T }.
Arguments mkbox {T}.
Arguments bottom_left {T}.
Arguments upper_right {T}.

Section Box.
  (** The code is a template over T; the only operations used on T are the
      comparisons.  [ltb] is [operator<]; [a > b] is [ltb b a], [a >= b] is
      [negb (ltb a b)], [a <= b] is [negb (ltb b a)] (no NaN). *)
  Context {T : Type} (ltb : T -> T -> bool).

  (** std::max / std::min of the C++ standard library *)
  Definition std_max (a b : T) : T := if ltb a b then b else a.
  Definition std_min (a b : T) : T := if ltb b a then b else a.

  (** box.hpp l.166-174: loop over the axes with early [return false] *)
  Fixpoint intersect_loop (bl1 ur1 bl2 ur2 : list T) : bool :=
    match bl1, ur1, bl2, ur2 with
    | a1 :: bl1', c1 :: ur1', a2 :: bl2', c2 :: ur2' =>
        if ltb c2 a1 then false
        else if ltb c1 a2 then false
        else intersect_loop bl1' ur1' bl2' ur2'
    | _, _, _, _ => true
    end.
  Definition intersect (b1 b2 : box T) : bool :=
    intersect_loop (bottom_left b1) (upper_right b1) (bottom_left b2) (upper_right b2).

  (** box.hpp l.179-188 *)
  Definition overlap_box (b1 b2 : box T) : box T :=
    mkbox (zip_with std_max (bottom_left b1) (bottom_left b2))
          (zip_with std_min (upper_right b1) (upper_right b2)).
  (** box.hpp l.193-202 *)
  Definition union_box (b1 b2 : box T) : box T :=
    mkbox (zip_with std_min (bottom_left b1) (bottom_left b2))
          (zip_with std_max (upper_right b1) (upper_right b2)).
  (** box.hpp l.204-215: [bout{b1}] then conditional overwrites *)
  Definition box_inside (b1 b2 : box T) : box T :=
    mkbox (zip_with (fun x1 x2 => if ltb x1 x2 then x2 else x1) (bottom_left b1) (bottom_left b2))
          (zip_with (fun x1 x2 => if ltb x2 x1 then x2 else x1) (upper_right b1) (upper_right b2)).

  (** box.hpp l.220-226 *)
  Fixpoint point_inside_loop (bl ur p : list T) : bool :=
    match bl, ur, p with
    | a :: bl', c :: ur', x :: p' =>
        if ltb x a || negb (ltb x c) then false else point_inside_loop bl' ur' p'
    | _, _, _ => true
    end.
  Definition point_inside (b : box T) (p : list T) : bool :=
    point_inside_loop (bottom_left b) (upper_right b) p.

  (** box.hpp l.231-243: [count] over all axes, both corners *)
  Fixpoint check_box_inside_count (bl1 ur1 bl2 ur2 : list T) : nat :=
    match bl1, ur1, bl2, ur2 with
    | a1 :: bl1', c1 :: ur1', a2 :: bl2', c2 :: ur2' =>
        (if negb (ltb a2 a1) && negb (ltb c1 a2) then 1 else 0)
        + (if negb (ltb c2 a1) && negb (ltb c1 c2) then 1 else 0)
        + check_box_inside_count bl1' ur1' bl2' ur2'
    | _, _, _, _ => 0
    end.
  Definition check_box_inside (b1 b2 : box T) : bool :=
    Nat.ltb 0 (check_box_inside_count (bottom_left b1) (upper_right b1)
                                      (bottom_left b2) (upper_right b2)).
End Box.

(** box.hpp l.63 [length(i)] and l.68-74 [length()], for real corners *)
Definition box_length_dir (a c : R) : R := Rabs (c - a).
Definition box_length (b : box R) : R :=
  fold_left (fun result p => (result * box_length_dir (fst p) (snd p))%R)
            (combine (bottom_left b) (upper_right b)) 1%R.

(** box.hpp l.94-104 (2D) and l.106-119 (3D): nested loops, last axis outermost.
    [x]/[y]/[z] are the two-element arrays {bl[d], ur[d]}. *)
Definition get_box_points2 {T} (x0 y0 x1 y1 : T) : list (T * T) :=
  flat_map (fun y => map (fun x => (x, y)) [x0; x1]) [y0; y1].
Definition get_box_points3 {T} (x0 y0 z0 x1 y1 z1 : T) : list (T * T * T) :=
  flat_map (fun z => flat_map (fun y => map (fun x => (x, y, z)) [x0; x1]) [y0; y1]) [z0; z1].

(** ** linspace (linspace.hpp l.39-53) *)
(** IEEE division: [None] stands for a result that is not a finite number. *)
Definition fdiv (x y : R) : option R := if Req_EM_T y 0 then None else Some (x / y)%R.
(** Values are [option R]; [None] is a non-finite double. *)
Definition linspace (beg en : R) (num : Z) (include_end : bool) : outcome (list (option R)) :=
  if Rltb en beg then Abort                       (* assert, l.41 *)
  else if (num <? 0)%Z then Abort                 (* l.45: reserve(size_t(num)) throws length_error *)
  else
    let ns := if include_end then (num - 1)%Z else num in          (* l.46 *)
    let step := fdiv (en - beg) (IZR ns) in                        (* l.47 *)
    Ok (map (fun i => match step with
                      | Some s => Some (beg + INR i * s)%R         (* l.50 *)
                      | None => None
                      end) (seq 0 (Z.to_nat num))).

(** ** iterate (iterate.hpp l.40-70) *)
Section Iterate.
  (** [f] is the callback: it receives the current position (which it does not
      modify; every callback in cafes takes it by const reference or value) and
      acts on a captured state of type [St]. *)
  Context {St : Type}.
  Variable b : box Z.
  Variable f : list Z -> St -> St.

  (** [for (; p[n] < ur; ++p[n]) body], with fuel *)
  Fixpoint iterate_loop (fuel : nat) (n : nat) (ur : Z)
      (body : list Z -> St -> outcome (list Z * St)) (p : list Z) (s : St) : outcome (list Z * St) :=
    if (nth n p 0 <? ur)%Z then
      match fuel with
      | O => OutOfFuel
      | S k => bind (body p s) (fun ps =>
                 let '(p', s') := ps in
                 iterate_loop k n ur body (set_nth n (nth n p' 0 + 1)%Z p') s')
      end
    else Ok (p, s).

  (** l.40-60: [n = 0] calls [f]; [S n] loops on axis [n] *)
  Fixpoint iterate_impl (m : nat) (p : list Z) (s : St) : outcome (list Z * St) :=
    match m with
    | O => Ok (p, f p s)
    | S n =>
        let lo := nth n (bottom_left b) 0%Z in
        let hi := nth n (upper_right b) 0%Z in
        iterate_loop (Z.to_nat (hi - lo)) n hi (iterate_impl n) (set_nth n lo p) s
    end.

  (** l.62-69; [p0] is the (uninitialised) content of [pos] *)
  Definition iterate (p0 : list Z) (s : St) : outcome St :=
    bind (iterate_impl (length (bottom_left b)) p0 s) (fun ps => Ok (snd ps)).
End Iterate.
