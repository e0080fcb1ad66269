# Formal model of gouarin/cafes in Rocq (Coq 8.16.1)

## 1. Layout

* `rocq/theories/Base.v`   : outcomes (`Ok`, `UB`, `Abort`, `OutOfFuel`), truncation of reals, list helpers.
* `rocq/theories/M_*.v`    : the model, function by function; every definition cites the file and lines of `/repo` it models and says
  where it simplifies. `M_SingNormal.v` and `M_SingTang.v` (closed forms of several hundred C++ locals) are generated from the source
  text by `tools/gen_sing.py`; the element tables of `M_MatElem.v` are transcribed by a script as well.
* `rocq/theories/S_*.v`    : small independent specifications: sets of points, shape functions and integrals, bilinear forms on
  nodal vectors, decompositions, boundary tables. They do not use the model's algorithms.
* `rocq/theories/P_*.v`    : proofs.
* `rocq/theories/Prop_*.v` : the theorems `Cnn_*` named in `MANIFEST.json`, and beside them `Example`s showing that a concrete,
  non-trivial case meets the hypotheses.
* `properties.jsonl`       : the properties; `MANIFEST.json` : status and theorems of each; `ASSUMPTIONS.md` : `Print Assumptions`.
* `tools/`                 : generators (claims, wording, model of the closed forms, assumptions). Not needed for the build.
* `seeded/LOG.jsonl`       : wrong programs tried against the theorems.

Build: `cd rocq && coq_makefile -f _CoqProject -o Makefile && make -j4` (about five minutes on four cores).

## 2. Modelling conventions

* `double` is modelled by `R` (no rounding, no NaN, no infinity), except in `M_Double` and `M_DoubleMat`, where the search of fluid points, the cells of
  surface points, the counts of `set_materials`, `P1_integration`, `linspace` and the mesh steps are modelled in IEEE binary64 (Flocq's `BinarySingleNaN`, round to
  nearest even, one rounding per operation, no fused operations, `std::pow` a parameter). Consequently, outside these two: a sum does not depend on its order; the literals
  `1./3` are exact rationals; `std::sqrt` of an integer square is exact; `asin` outside [-1,1] (NaN in C++) is outside the model.
* `int`/`PetscInt` are unbounded `Z`; overflow of sizes is not modelled. Conversions to `std::size_t` are modelled (mod 2^64) where the
  code mixes them with signed values (loop counters of the fluid search, `particles.size()-1`).
* `static_cast<int>(double)` is truncation towards zero.
* Undefined behaviour (access outside an array, division by the integer zero) is the outcome `UB`; a failed assertion or an MPI abort is
  `Abort`; a `while` takes explicit fuel and running out of it is `OutOfFuel`, so non-termination is the theorem "for every fuel".
* MPI: every process runs the same code on its own view of the grid (its owned box, its ghosted box). A collective `ADD_VALUES` transfer
  is the sum of what the processes hold for a node, `INSERT_VALUES` the owner's value, `MPI_Allreduce` a sum or a maximum.
  The interleaving of messages is not modelled: between two collective calls processes share nothing.
* Theorems on decompositions quantify over every list of process boxes that tiles the grid (`distributes`) and every ghost region PETSc
  may give with the stencil width the code asks for (`view_ok`); `C28_createMesh_layout` shows that the grids made by `createMesh`
  satisfy these hypotheses.
* A vector on a grid is a function from (node, component) to `R`; `M_Vec` models the arrays underneath and C50 relates the two.
* `std::function` values, particles' shapes (`contains`, `surface`) and the Stokes solver are parameters of the functions that
  receive them.

## 3. Trusted base

* Coq's kernel (8.16.1), with no flag weakening it. No `Axiom`, `Parameter`, `Admitted`, functor or module type of our own.
* What `Print Assumptions` lists for each theorem: see `ASSUMPTIONS.md` (generated, one line per theorem). In total the only axioms
  are those of the standard library: `ClassicalDedekindReals.sig_forall_dec`, `ClassicalDedekindReals.sig_not_dec`,
  `FunctionalExtensionality.functional_extensionality_dep` (the three on which `Coq.Reals` rests) and `Classical_Prop.classic`.
  `coqchk` additionally lists the constants sealed by module types of the standard library (`Rdefinitions.RbaseSymbolsImpl.*`,
  `RinvImpl.*`, `ssrunder.Under_rel.*`): these are definitions, not axioms. Coquelicot is used for integrals and
  derivatives; it adds no axiom.
* The reading of the C++ text by the model (this is what the citations are for), and of PETSc/VTK/HDF5 by their documentation:
  `DMDACreate` (ownership ranges given or chosen, ghost boxes of the stencil), `DMGlobalToLocal`/`DMLocalToGlobal`,
  `DMDAVecGetArrayDOF` (row tables), `MatSetValuesLocal`, `MatPreallocateSetLocal`, `MatZeroRows`, `DMCoarsen`, `DMRefine`, `VecView` to
  HDF5 (order of the axes), XDMF reading order, VTK structured extents.

## 4. What is modelled, what is not

| source | model | not modelled |
|---|---|---|
| `algorithm/iterate.hpp` | `M_Geometry` | - |
| `particle/geometry/{position,vector,cross_product,box,linspace}.hpp`, `physics/{velocity,force}.hpp` | `M_Geometry` | stream output |
| `particle/geometry/{quaternion,super_ellipsoid,circle,sphere,uniform_sampling}.hpp` | `M_Shapes`, `M_Shapes3` | stream output |
| `particle/particle.hpp` | `M_Particle`, in doubles `M_Double`, `M_DoubleMat` | uninitialised members of the constructors |
| `fem/quadrature.hpp` | `M_Quadrature`, in doubles `M_Double` | - |
| `fem/matElem.hpp` | `M_MatElem` (reals), `M_DoubleOp` (doubles) | - |
| `fem/mesh.hpp` | `M_Mesh` | PETSc's own choice of the first ownership ranges (any choice is allowed) |
| `petsc/vec.hpp` | `M_Vec`, `M_Operator` | destructor / restore calls |
| `fem/operator.hpp`, `fem/matrixFree.hpp` | `M_Operator`, `M_Bc` (reals), `M_DoubleOp`, `M_DoubleBc` (doubles) | logging; `matMult.hpp` (debug print) |
| `fem/bc.hpp`, `fem/rhs.hpp` | `M_Bc`, `M_Assembly`, in doubles `M_DoubleBc` | - |
| `fem/assembling.hpp` | `M_Assembly`, `M_Prealloc` | 3D branch of `PreallocateMat` (the assembling kernels it prepares exist in 2D only) |
| `problem/stokes.hpp` | `M_Solver` (levels, steps), `M_Bc` (`setup_RHS`), `M_NullSpace` (`CreatePressureNullSpace`), `M_Precond` (matrix-free preconditioner), `M_Pmm` (field split of `setPMMSolver`, exact velocity solve) | the Krylov iterations and the multigrid cycle, other KSP/PC options, monitors |
| `problem/options.hpp` | `M_Solver` | PETSc's parsing of the command line |
| `problem/particle_operator.hpp`, `particle/forces_torques.hpp` | `M_ParticleOp`; in doubles (interpolation, spreading) `M_DoublePart` | - |
| `problem/sem.hpp`, `problem/dton.hpp` | `M_Problem` | the Krylov iteration (the operator it calls and the vectors it is given are modelled) |
| `problem/ntod.hpp` | - | does not compile |
| `problem/problem.hpp` | - | empty virtual functions |
| `posttraitement/interpolation.hpp` | `M_Interp` | - |
| `particle/singularity/{truncation,UandPNormal,UandPTang,singularity}.hpp` | `M_Truncation`, `M_SingNormal`, `M_SingTang`, `M_SingWrap`, `M_Singularity`, `M_AddSing` (`get_box`) | - |
| `particle/singularity/add_singularity.hpp` | `M_AddSing` | `computesingularBC`, `add_singularity_to_surf` (their calls are commented out), `save_singularity*` (commented out) |
| `io/hdf5.hpp`, `io/vtk.hpp` | `M_Solver` (XDMF), `M_Vtk` | XML text and paths; VTK objects are what is inserted in them |
| `particle/geometry/triangulation.hpp` | `M_Triang` | Qhull (a parameter) |
| `tests/`, `demos/` | - | no library code |

Note: at the pinned commit `stokes<3>` cannot be instantiated: its constructor calls `getMatElemLaplacianA`, `getMatElemMassA`,
`getMatElemPressureA` in a plain (not `constexpr`) `if (opt.assembling)` and these exist for two dimensions only. The theorems for three
dimensions concern the kernels and the generic code themselves, instantiated directly.

## 5. Per property

Where the property one would expect fails, the statement in `properties.jsonl` says what holds instead, and a theorem whose name ends
in `_refuted` proves the failure (a witness, or for all inputs).

| id | file | modelled as / proof |
|----|------|-------|
| C01 | Prop_Geometry | `iterate_impl` with mutable position and callback state; induction on the dimension, equality with a fold over the column-major list of points |
| C02-C04 | Prop_Geometry | boxes as lists of corners over any total order; component-wise, induction on the dimension |
| C05, C06 | Prop_Geometry | each overload as a function on coordinates; pointwise, `ring`; refutation of the two sign-swapped overloads |
| C07 | Prop_Geometry | loop, `reserve`, division; induction; degenerate counts as separate outcomes |
| C08 | Prop_Shapes | quaternion constructor, `conj`, `rotate`; trigonometric algebra (Rodrigues formula) |
| C09, C10 | Prop_Shapes | `bounding_box`, `contains`; inequalities on `Rpower`; truncation |
| C11-C13 | Prop_Shapes | sampling walk with fuel; invariant of the walk, termination from a lower bound on the step, parametrisation identities |
| C14-C16, C53 | Prop_Particle | loops with `size_t` counters, filters; counting over tilings |
| C17-C19 | Prop_Quadrature | `field`, index arithmetic |
| C20-C22 | Prop_MatElem | tables against Coquelicot integrals (`is_RInt` iterated) of products of shape functions |
| C23 | Prop_Energy | quadratic forms as sums of squares, kernels exactly the rigid motions / constants |
| C24, C25, C27, C47 | Prop_Operator, Prop_Operator2 | the distributed operator represents a bilinear form defined on the whole grid; symmetry, linearity, independence of the decomposition follow from that form |
| C26, C31, C32, C56 | Prop_Assembly, Prop_Assembly2 | lists of inserted entries summed by `MatMult`, compared with the matrix-free form |
| C28, C29 | Prop_Operator, Prop_Operator2 | ownership ranges; induction on the list of ranges |
| C30, C45, C49 | Prop_Operator, Prop_Operator2 | loops over sides; pointwise characterisation of the vector |
| C33 | Prop_Prealloc | counted columns against inserted columns |
| C34 | Prop_Interp | last-writer reasoning on buffers |
| C35 | Prop_Truncation | `is_derive`, intermediate values; refutation of the chained comparison |
| C36 | Prop_Singularity, 2, 3 | frame algebra, derivatives along lines |
| C37, C57 | Prop_SingNormal, Prop_SingAxis, P_Still | `auto_derive`/`field` on the generated closed forms |
| C38, C57 | Prop_SingTang | idem |
| C39-C42 | Prop_ParticleOp | sums over surface and fluid points of all processes |
| C43, C44, C58, C59 | Prop_Problem, Prop_Problem2 | state machine of the two drivers; the Stokes solver is a parameter assumed linear; histories are arbitrary lists of applications |
| C46, C48, C52 | Prop_Solver | loops with fuel; arithmetic |
| C50 | Prop_Vec | addresses in row tables |
| C51 | Prop_AddSing | nested loops over particles, cells, sub-points, shape functions as one sum; pairing with a test field |
| C54 | Prop_Shapes | closed formulas of the measures; the implicit function with exponent 2 is the squared distance over r^2 |
| C55 | Prop_Operator, Prop_WellPosed, Prop_StokesUnique | kernel of the form by connectedness of the grid; existence by finite-dimensional linear algebra |
| C60 | Prop_SingSol | loops as sums, refutation witness |
| C61 | Prop_SingForces | loops over samples; parity of the fields |
| C62 | Prop_SingBox | corner enumeration, truncation |
| C63, C64 | Prop_Vtk | lists of inserted points and tuples |
| C65 | Prop_Sizes | products of extents |
| C66 | Prop_StokesUnique | discrete inf-sup kernel (P2-iso-P1 refined grid): the only pressures with no gradient are constants; existence by rank-nullity |
| C67 | P_Flux, Prop_Flux | telescoping sums over the cells of the refined grid (discrete divergence theorem), then the compatibility condition of C66; the lid cavity by evaluating the flux |
| C68 | M_NullSpace, Prop_NullSpace | norm over the owned nodes = norm over the grid (tiling), kernel from C66 through C32; periodic case by zero row sums of the element matrices |
| C69 | S_Exact, P_Gather, P_Exact, P_Stencil(3), P_Flow, Prop_Exact | the row of an interior node gathers the cells around it (uniqueness of the cell per corner, with wrap-around); stencils on quadratics by `field` on the element tables, each continuity element row vanishes; right-hand side from C45/C30, uniqueness from C66 |
| C70 | Prop_Dissipation | the operators as symmetric bilinear forms (C24, C25); a solution characterised weakly against fields vanishing on the walls; energy gap of two admissible fields = energy of their difference; converse by existence (C66) |
| C71 | Prop_Precond (M_Precond) | block forms as aform / mass form; definiteness from C55/C66 machinery; element tables as Simpson quadratures (P_QuadTab), Cauchy-Schwarz per element for the divergence bound (P_Div); Schur complement = energy of the driven velocity |
| C72 | Prop_Turn (S_Turn) | element tables under digit permutations/flips (kernel computation on rationals, P_TurnTab), nodes and cells under the similarity (P_TurnGrid), forms (P_TurnForm), then row by row; uniqueness from C66; refutation on the lid-driven cavity |
| C73 | Prop_Projection (S_Projection) | kernel and Allreduce loops as sums over the list of sub-points (P_Projection), tiling of the grid gives each sub-point one process, then the algebra of means for translations and rigid motions; refutation on a five-sample disc |
| C74 | M_Double, S_Double, P_Double(2,3), Prop_Double | the loops as a filter of the box by the accumulated coordinate; error (1+u)^(k+1)-1 by induction on the number of additions, linearised; exactness for steps m 2^e with i m <= 2^53; refutation by evaluating the doubles of step 0.1 |
| C75 | P_Double3, P_Double6, Prop_Double | monotonicity of rounding against integers bounds the truncated quotient; relative error of the product and of the difference for the offset; refutation x = 1.7, h = 0.1 |
| C76 | P_Double4, P_Double8, Prop_Double | one (1+e)+t factor per operation, chained; sum over the four corners; composed with C75 |
| C77 | P_Double5, P_Double7, Prop_Double | same chaining for linspace; halving is exact on normal numbers; refutation for 50 samples of [0,1] |
| C78 | M_DoubleMat, P_DoubleMat, Prop_DoubleMat | the state after a call as filters of the surface and of the particle's own box; a tiling keeps each index once (permutation of the concatenated filters); error of three roundings; refutation computed on the disc of C74 |
| C79 | M_Shapes3, P_Sampling3, P_Surface3, Prop_Sampling3 | a ring of width phi is a flat sample (C11) of radii a phi, b phi and step k/phi; induction over the rings of the walk in latitude; mirror and shift; powers of the exchanged exponents compared on the equator |
| C80 | M_Pmm, Prop_Pmm | one application of the field split as a relation (exact velocity solve); it is the inverse of [A -B^T; 0 diag M]; off the eigenvalue 1 the velocity is in equilibrium with the pressure, so the Schur complement of C71 against the diagonal of C71; symmetry excludes imaginary parts |
| C81 | M_DoubleOp, P_DoubleOp, P_DoubleOp2-5, P_DoubleElem, Prop_DoubleOp | the loops of the kernels over Flocq doubles, sums between processes as a relation (any order, any grouping); four runs of the same program side by side (doubles, reals, absolute values, number of products) related by an invariant closed under rounded +, - and x; the counts from the assembly theorem of C25; the element matrices by relative error propagation, the tables checked entry by entry |
| C82 | M_DoubleBc, S_DoubleBc, P_DoubleBc, Prop_DoubleBc | the loops of M_Bc on vectors of doubles; simulation by the run over the reals with a table whose conditions are the numbers of the sides, which marks the entries by the side that wrote them last; then C30 says which side that is; the free rows from C81 |
| C83 | M_Triang, Prop_Triang | Qhull's facets as a parameter; loop invariants on the array of coordinates and on the prefix of triangles already written |
| C84 | M_DoublePart, S_DoublePart, P_DoublePart*, Prop_DoublePart | accumulated relative errors as in C81: list of contributions (double, exact value, size) run in parallel over doubles, reals, sizes and counts; weights from C76; partition of unity for the totals |
| C85 | S_Accuracy, P_Accuracy, Prop_Accuracy | along one axis: Rolle twice on the difference with the chord minus a quadratic; in a cell: interpolate axis after axis, each step a convex combination; offsets of the surface points from C15, interpolated values from C41, C34, rounding from C84 |
| C86 | S_Consistency, P_Stencil4/5, P_Consistency, P_Consistency2–4, Prop_Consistency | the row of an interior node, gathered from its cells, is a tensor product of one-dimensional averages and differences of nodal values (computed for the actual element matrices, 2D and 3D, all parities for the pressure terms); each differs from the derivative by a mean-value argument (Rolle on an auxiliary function, no continuity of the highest derivative); then the assembled operators of C25/C31 and the right-hand side of C45 |
| C87 | S_Convergence, P_Conv, Prop_Convergence | discrete Poincaré inequality: the element energy bounds the squared differences along an edge (sum of squares for the actual matrices), squared values by sums along lines of cells, each cell occurring once per cell of its line; then the energy of the error is its product with the residual, which is 0 at constrained nodes and the consistency error of C86 elsewhere; the same inequalities bound the energy itself |
| C88 | S_Consistency2, P_Stencil6, P_Consistency5, P_Consistency6, Prop_Consistency2 | the rows of the strain tensor split into the Laplacian, one more second difference along the axis of the component, and crossed differences averaged along the third axis; a crossed difference over the steps is the mean of the mixed derivative at four symmetric points (mean-value theorem along each axis), which second differences compare with its value at the node |
| C89 | S_Convergence2, P_Conv2, P_Conv3, Prop_Convergence2 | the element energy is a sum of squares in which each component appears with its derivative along its own axis, so the Poincaré inequality of C87, along that axis, bounds each component (no Korn inequality is needed in a box); then as C87, summed over the components, with the consistency errors of C88; with a periodic axis, in 2D, the crossed terms of the cells telescope, so that the energy is that of the Laplacian plus that of the divergence, and the inequality of C87 applies |

## 6. Wrong programs

`seeded/LOG.jsonl` has one line per edit of the model made in a scratch copy: the definition, the edit, the claim it breaks, the theorems
that no longer prove, and the theorems tightened in `/verif` because the edit had first gone unnoticed.
