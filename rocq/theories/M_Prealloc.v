(** Model of cafes/fem/assembling.hpp l.54-458 [PreallocateMat], 2D (in 2D PETSc's zs = gzs = 0, zm = gzm = mz = 1, bz = NONE and
    npz = 1, so the loops over k and r run once, for 0).  int is unbounded; PETSc calls other than the preallocation ones are dropped.
    The counters dnz and onz are kept as the list of what was counted. *)
From Verif Require Import Base M_Geometry M_Particle M_Quadrature M_MatElem M_Mesh M_Operator M_Bc M_Assembly.
Local Open Scope Z_scope.

(** row, and column named in the call ([None]: a negative index) *)
Definition decl := (gdof * option gdof)%type.
(** does the process own that row or column: its rows and its columns are those of its own nodes (MatSetSizes with localsize twice) *)
Definition owned (dm : dmda * dmda) (g : gdof) : bool := point_inside Z.ltb (g_own (if fst (fst g) then snd dm else fst dm)) (snd (fst g)).
(** ISLocalToGlobalMappingApply: negative indices are kept, an index outside the local vectors is an error *)
Definition mapping_apply (dm : dmda * dmda) : list Z -> outcome (list (option gdof)) :=
  on_all (fun k => if k <? 0 then Ok None else bind (ltog dm k) (fun g => Ok (Some g))).
(** petscmat.h [MatPreallocateSetLocal], [MatPreallocateSet]: rows and columns are mapped; a row that is not owned is an error; each column of the list counts
    once more, in dnz when it is owned and in onz otherwise, negative indices included *)
Definition MatPreallocateSetLocal (dm : dmda * dmda) (rows cols : list Z) (L : list decl) : outcome (list decl) :=
  bind (mapping_apply dm rows) (fun rs => bind (mapping_apply dm cols) (fun cs =>
  fold_left (fun o r => bind o (fun L => match r with
    | Some g => if owned dm g then Ok (L ++ map (fun c => (g, c)) cs) else Abort
    | None => Abort end)) rs (Ok L))).
Definition dnz (dm : dmda * dmda) (L : list decl) (r : gdof) : nat :=
  length (filter (fun d : decl => same_dof (fst d) r && match snd d with Some c => owned dm c | None => false end) L).
Definition onz (dm : dmda * dmda) (L : list decl) (r : gdof) : nat :=
  length (filter (fun d : decl => same_dof (fst d) r && negb match snd d with Some c => owned dm c | None => false end) L).

(** [for (p = a; p < b; p++)], and the list of its values *)
Definition zrange (a b : Z) : list Z := map (fun k => a + Z.of_nat k) (seq 0 (Z.to_nat (b - a))).
Definition loop {S} (a b : Z) (body : Z -> S -> outcome S) (s : S) : outcome S := for_ (Z.to_nat (b - a)) (fun k => body (a + Z.of_nat k)) s.
(** l.139-145 etc.: pstart and pend for a half-width s at the position i of an axis of m points *)
Definition st_low (per : bool) (s i : Z) : Z := if per then - s else Z.max (- s) (- i).
Definition st_up (per : bool) (s m i : Z) : Z := if per then s else Z.min s (m - i - 1).
(** l.41 the macro SetInRange *)
Definition SetInRange (i m : Z) : Z := if i <? 0 then m + i else if m <=? i then i - m else i.
(** a buffer of [cap] entries filled from 0 *)
Definition in_buffer {S} (cap : Z) (l : list Z) (k : outcome S) : outcome S := if Z.of_nat (length l) <=? cap then k else UB.
Definition axis_per (dm : dmda) (d : nat) : bool := nth d (g_per dm) false.
(** l.120-129: colu = 5 * 5, colp = 3 * 3 *)
Definition colu : Z := 25.
Definition colp : Z := 9.
(** the positions (i + p, j + l), p innermost *)
Definition neighbours (s : Z) (dm : dmda) (i j : Z) : list (Z * Z) :=
  let info := info_of dm in
  flat_map (fun l => map (fun p => (i + p, j + l)) (zrange (st_low (axis_per dm 0) s i) (st_up (axis_per dm 0) s (i_mx info) i + 1)))
    (zrange (st_low (axis_per dm 1) s j) (st_up (axis_per dm 1) s (i_my info) j + 1)).

(** l.137-241: block (1, 1) *)
Definition prealloc_A (strain : bool) (dm : dmda * dmda) (L : list decl) : outcome (list decl) :=
  let info := info_of (fst dm) in
  loop (i_xs info) (i_xs info + i_xm info) (fun i L =>
  loop (i_ys info) (i_ys info + i_ym info) (fun j L =>
    let cols kd := map (fun q => Z.of_nat kd + DMDALocalIndex2D info (fst q) (snd q)) (neighbours 1 (fst dm) i j) in
    let dofs := seq 0 (Z.to_nat (i_dof info)) in
    if strain then
      let colsu := flat_map cols dofs in
      let rowsu := map (fun kd => Z.of_nat kd + DMDALocalIndex2D info i j) dofs in
      in_buffer (i_dof info * colu) colsu (in_buffer (i_dof info) rowsu (MatPreallocateSetLocal dm rowsu colsu L))
    else for_ (length dofs) (fun kd L => in_buffer (i_dof info * colu) (cols kd) (MatPreallocateSetLocal dm [Z.of_nat kd + DMDALocalIndex2D info i j] (cols kd) L)) L) L) L.
(** l.251-301: block (2, 2) *)
Definition prealloc_P (dm : dmda * dmda) (L : list decl) : outcome (list decl) :=
  let info := info_of (snd dm) in let dec := local_size (fst dm) in
  loop (i_xs info) (i_xs info + i_xm info) (fun i L =>
  loop (i_ys info) (i_ys info + i_ym info) (fun j L =>
    let colsp := map (fun q => dec + DMDALocalIndex2D info (fst q) (snd q)) (neighbours 1 (snd dm) i j) in
    in_buffer colp colsp (MatPreallocateSetLocal dm [dec + DMDALocalIndex2D info i j] colsp L)) L) L.
(** l.304-395: block (2, 1); [np]: numbers of processes along the axes (DMDAGetInfo) *)
Definition prealloc_B (np : Z * Z) (dm : dmda * dmda) (L : list decl) : outcome (list decl) :=
  let v := info_of (fst dm) in let q := info_of (snd dm) in let dec := local_size (fst dm) in
  let px := if fst np =? 1 then 0 else i_gxs v in let py := if snd np =? 1 then 0 else i_gys v in
  let bx := axis_per (snd dm) 0 in let by_ := axis_per (snd dm) 1 in
  loop (i_ys q) (i_ys q + i_ym q) (fun j L =>
  loop (i_xs q) (i_xs q + i_xm q) (fun i L =>
    let colsu := flat_map (fun l => let jj := if by_ then SetInRange (2 * j + l - i_gys v) (i_my v) else 2 * j + l - i_gys v in
      flat_map (fun p => let ii := if bx then SetInRange (2 * i + p - i_gxs v) (i_mx v) else 2 * i + p - i_gxs v in
        map (fun kd => if (ii + px <? i_xs v) || (i_xs v + i_xm v <? ii + px) || (jj + py <? i_ys v) || (i_ys v + i_ym v <? jj + py)
                       then -1 else i_dof v * (jj * i_gxm v + ii) + Z.of_nat kd) (seq 0 (Z.to_nat (i_dof v))))
      (zrange (if bx then - 2 else Z.max (- 2) (- 2 * i)) ((if bx then 2 else Z.min 2 (i_mx v - 2 * i - 1)) + 1)))
      (zrange (if by_ then - 2 else Z.max (- 2) (- 2 * j)) ((if by_ then 2 else Z.min 2 (i_my v - 2 * j - 1)) + 1)) in
    in_buffer (i_dof v * colu) colsu (MatPreallocateSetLocal dm [dec + DMDALocalIndex2D q i j] colsu L)) L) L.
(** l.401-447: block (1, 2); [/] of C truncates *)
Definition prealloc_BT (dm : dmda * dmda) (L : list decl) : outcome (list decl) :=
  let v := info_of (fst dm) in let q := info_of (snd dm) in let dec := local_size (fst dm) in
  let low (per : bool) (i : Z) := if per then - (1 - Z.land i 1) else Z.max (- (1 - Z.land i 1)) (Z.quot (- i) 2) in
  let up (per : bool) (m i : Z) := if per then 1 else Z.min 1 (m - Z.quot i 2 - 1) in
  loop (i_xs v) (i_xs v + i_xm v) (fun i L =>
  loop (i_ys v) (i_ys v + i_ym v) (fun j L =>
    let slotu := (j - i_gys v) * i_gxm v + (i - i_gxs v) in
    let slotp := (Z.quot j 2 - i_gys q) * i_gxm q + (Z.quot i 2 - i_gxs q) in
    let colsp := flat_map (fun l => map (fun p => dec + slotp + i_gxm q * l + p) (zrange (low (axis_per (snd dm) 0) i) (up (axis_per (snd dm) 0) (i_mx q) i + 1)))
      (zrange (low (axis_per (snd dm) 1) j) (up (axis_per (snd dm) 1) (i_my q) j + 1)) in
    let rowsu := map (fun kd => Z.of_nat kd + i_dof v * slotu) (seq 0 (Z.to_nat (i_dof v))) in
    in_buffer colp colsp (in_buffer (i_dof v * colu) rowsu (MatPreallocateSetLocal dm rowsu colsp L))) L) L.
(** l.54-458: what one process declares *)
Definition PreallocateMat (strain precond : bool) (np : Z * Z) (dm : dmda * dmda) : outcome (list decl) :=
  bind (prealloc_A strain dm []) (fun L => bind (prealloc_P dm L) (fun L =>
  if precond then Ok L else bind (prealloc_B np dm L) (prealloc_BT dm))).
