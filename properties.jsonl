{"id": "C01", "title": "iterate visits every grid point of a box exactly once", "statement": "algorithm::iterate(box, f) calls f exactly once on every integer point p with bottom_left <= p < upper_right (component-wise), on no other point, in lexicographic order with the first axis varying fastest; the call is a no-op when some side is empty or reversed.", "quantifier": "every dimension, every integer box (including empty, reversed and negative ones), every callback and callback state", "why_tests_cant": "infinitely many boxes and dimensions; a missed or doubled point only shows for particular bounds", "anchors": ["cafes/algorithm/iterate.hpp: iterate, iterate_impl"]}
{"id": "C02", "title": "box overlap, intersection test and union are the set operations", "statement": "overlap_box(b1,b2) contains exactly the points that lie in both boxes; intersect(b1,b2) is true exactly when two non-empty closed boxes share a point; union_box(b1,b2) contains both boxes and is contained in any box that does; box_inside coincides with overlap_box.", "quantifier": "every dimension, every pair of boxes with integer or real corners", "why_tests_cant": "the claim ranges over all pairs of boxes and all points", "anchors": ["cafes/particle/geometry/box.hpp: intersect, overlap_box, union_box, box_inside"]}
{"id": "C03", "title": "what check_box_inside really answers", "statement": "check_box_inside(b1,b2) returns true exactly when, on at least one axis, the lower or the upper corner coordinate of b2 lies between the corner coordinates of b1 (inclusive). Its documented contract, 'some part of b2 lies in b1', holds in neither direction: it accepts some disjoint boxes and rejects a box that strictly contains b1; it does accept every box contained in b1, and a negative answer means neither corner of b2 is in b1.", "quantifier": "every pair of well-formed boxes", "why_tests_cant": "the answer is right on the nested boxes a test would use and wrong on other configurations", "anchors": ["cafes/particle/geometry/box.hpp: check_box_inside"]}
{"id": "C04", "title": "half-open membership makes tilings count every point once", "statement": "point_inside(b,p) holds exactly when bottom_left <= p < upper_right, so when a box is cut along an axis every point belongs to exactly one piece; box::length is the product of the side lengths and get_box_points lists the 2^D corners with the first axis fastest.", "quantifier": "every box, every cut coordinate and axis, every point", "why_tests_cant": "double counting at a cut shows only for points exactly on the cut plane", "anchors": ["cafes/particle/geometry/box.hpp: point_inside, length, get_box_points"]}
{"id": "C05", "title": "vector, position, velocity and force arithmetic is component-wise, with two named exceptions", "statement": "x += y adds, x -= y subtracts, x*c and x/c scale every component, and a - b is a minus b, for the position, vector, velocity and force operators of the library, with exactly two exceptions in the code: vector += velocity assigns the velocity instead of adding it, and velocity - vector returns the sum.", "quantifier": "every dimension and all operand values", "why_tests_cant": "a sign error in one mixed-type overload is invisible unless that overload is exercised with a non-zero operand; the law quantifies over all operands", "anchors": ["cafes/particle/geometry/vector.hpp: operators", "cafes/particle/geometry/position.hpp: operators", "cafes/particle/physics/velocity.hpp", "cafes/particle/physics/force.hpp"]}
{"id": "C06", "title": "cross products obey the vector-calculus laws", "statement": "The 3D cross_product is orthogonal to both factors, antisymmetric, satisfies |x cross y|^2 = |x|^2|y|^2-(x.y)^2 and the Jacobi identity; the 2D forms (vector x vector, spin x vector, vector x spin) are the restrictions of the 3D one to the plane.", "quantifier": "all real vectors and spins", "why_tests_cant": "identities over all reals", "anchors": ["cafes/particle/geometry/cross_product.hpp: cross_product"]}
{"id": "C07", "title": "linspace gives num equally spaced values from beg to end", "statement": "linspace(beg,end,num,include_end) returns num values starting at beg, with constant spacing (end-beg)/(num-1), ending at end when include_end, and with spacing (end-beg)/num excluding end otherwise; all values are in [beg,end].", "quantifier": "all beg <= end, all num, both flags", "why_tests_cant": "quantifies over all reals and counts, including the degenerate counts 0 and 1", "anchors": ["cafes/particle/geometry/linspace.hpp: linspace"]}
{"id": "C08", "title": "quaternions built from an angle and an axis rotate rigidly", "statement": "A quaternion built from an angle (2D) or an angle and a unit axis (3D) rotates vectors by that angle about that axis: lengths and scalar products are preserved, rotating by conj() undoes it, and a default-constructed quaternion reports that no rotation is needed.", "quantifier": "all angles, axes and vectors", "why_tests_cant": "identities over all reals; non-unit axes are accepted silently", "anchors": ["cafes/particle/geometry/quaternion.hpp: quaternion, normalize, conj, rotate, is_rotate"]}
{"id": "C09", "title": "a particle lies inside its bounding box (2D, unrotated 3D, spheres)", "statement": "Every point for which contains() is true lies in bounding_box(): for 2D super-ellipses at any centre, radii, exponent and in-plane angle, for unrotated 3D super-ellipsoids and for spheres in any orientation. It fails for rotated 3D super-ellipsoids (whose box ignores the rotation) and for 2D shapes given an out-of-plane quaternion.", "quantifier": "all super-ellipsoids (2D and 3D), all orientations, all points", "why_tests_cant": "continuum of shapes, orientations and points", "anchors": ["cafes/particle/geometry/super_ellipsoid.hpp: contains, implicit, bounding_box"]}
{"id": "C10", "title": "the grid bounding box misses no grid point of the particle", "statement": "Every grid index (i,j[,k]) whose grid point (i*h0, j*h1[,k*h2]) is inside the particle lies in the half-open index box bounding_box(h), including for particles that cross the domain's lower boundary (negative indices).", "quantifier": "all particles, all mesh steps h > 0, all integer indices", "why_tests_cant": "rounding toward zero behaves differently for negative coordinates; only particular alignments expose a lost row", "anchors": ["cafes/particle/geometry/super_ellipsoid.hpp: bounding_box(h)", "cafes/particle/geometry/position.hpp: conversion"]}
{"id": "C11", "title": "the surface sample lies on the surface, is symmetric and has no duplicates", "statement": "uniform_sampling returns points that all lie on the super-ellipse of the given radii and exponent, without duplicates, invariant under both axis reflections, hence with barycentre 0; for circles consecutive parameters differ by exactly the requested step, and the number of points is four times the quarter count minus four.", "quantifier": "all radii > 0, exponents > 0 and steps > 0 for which the walk ends", "why_tests_cant": "continuum of radii, exponents and steps", "anchors": ["cafes/particle/geometry/uniform_sampling.hpp: uniform_sampling, theta"]}
{"id": "C12", "title": "the surface sampling walk terminates", "statement": "uniform_sampling terminates for every positive step, after at most a computable number of steps for circles; it never terminates for a zero step.", "quantifier": "all radii, exponents and steps", "why_tests_cant": "termination for all inputs cannot be observed by running", "anchors": ["cafes/particle/geometry/uniform_sampling.hpp: uniform_sampling, theta"]}
{"id": "C13", "title": "surface points of a particle lie on its boundary", "statement": "surface(k) of a 2D super-ellipse terminates and every point it returns satisfies the implicit equation with value 1, for any centre, radii, exponent and in-plane angle; so do the points at(u) of unrotated 2D shapes and at(u,v) in 3D, each of which lies on the side of its parameters: its offsets from the centre are the radii times the signed powers of the cosines and sines; surf_radial_to returns the surface points minus the centre. It fails for at(u) of rotated 2D shapes, and 3D surface(k) never has a defined result (it grows the vector it iterates over).", "quantifier": "all 2D super-ellipses, steps and orientations; 3D as far as the code is defined", "why_tests_cant": "continuum of shapes", "anchors": ["cafes/particle/geometry/super_ellipsoid.hpp: surface, at, radial, implicit"]}
{"id": "C14", "title": "fluid points inside a particle are found exactly once", "statement": "find_fluid_points_insides(p,b,h) returns exactly the grid indices of b whose grid point is inside p, each once, in row-major order; points outside b or outside p are never returned.", "quantifier": "all particles, all boxes (including those reaching negative indices), all h > 0", "why_tests_cant": "the loop counters are unsigned while the bounds are signed; only negative bounds expose it", "anchors": ["cafes/particle/particle.hpp: find_fluid_points_insides"]}
{"id": "C15", "title": "surface points are attached to the cell that contains them", "statement": "find_surf_points_insides keeps exactly the surface points whose cell is in the box and returns for each the cell index c and the offset e with point = c*h + e and 0 <= e < h; find_radial_surf_points_insides returns, in the same order and number, the radial vectors of the same points.", "quantifier": "all finite point lists, boxes and h > 0", "why_tests_cant": "truncation toward zero only misbehaves for coordinates in (-h,0)", "anchors": ["cafes/particle/particle.hpp: find_surf_points_insides, find_radial_surf_points_insides"]}
{"id": "C16", "title": "summing per-process point counts counts each point once", "statement": "When the processes' index boxes tile the domain box, the per-particle numbers of surface points (and fluid points) summed over all processes equal the numbers for the whole domain.", "quantifier": "every number of processes, every tiling, all particles", "why_tests_cant": "depends on how the domain is split among processes", "anchors": ["cafes/particle/particle.hpp: set_materials, kernel_num_count, find_surf_points_insides"]}
{"id": "C17", "title": "Q1 shape function values interpolate affine fields exactly", "statement": "P1_integration(x,h) returns weights that sum to 1, are all in [0,1] for x in the cell, are 1/0 at the cell's own vertices in the order of get_element, and reproduce every multilinear function from its vertex values.", "quantifier": "all cells h > 0 and points, 2D and 3D", "why_tests_cant": "identities over all reals", "anchors": ["cafes/fem/quadrature.hpp: P1_integration, get_element"]}
{"id": "C18", "title": "P1_integration_grad is the gradient of the shape functions", "statement": "P1_integration_grad(x,h) is the gradient of the functions P1_integration(.,h) up to the constant factor the code uses (the cell volume), and the gradients sum to zero.", "quantifier": "all cells and points, 2D and 3D", "why_tests_cant": "identities over all reals", "anchors": ["cafes/fem/quadrature.hpp: P1_integration_grad"]}
{"id": "C19", "title": "element node lists and local index maps are consistent", "statement": "get_element/get_element_4Q1 enumerate each vertex of a (doubled) cell once, first axis fastest; the local index of a node/dof pair is injective and in range on the ghosted block; get_indices, get_indices_tensor and get_indices_4Q1 are these local indices in enumeration order.", "quantifier": "all grid blocks, positions and numbers of dofs", "why_tests_cant": "all block shapes and offsets", "anchors": ["cafes/fem/quadrature.hpp: get_element, get_element_4Q1, DMDALocalIndex2D, get_indices, get_indices_tensor, get_indices_4Q1"]}
{"id": "C20", "title": "2D element matrices are exact integrals", "statement": "The 2D reference matrices (stiffness, mixed derivative, mass) are the exact integrals over the unit cell of the products of the Q1 shape functions or their derivatives, and the scaled element Laplacian and mass matrices are those integrals on a cell of size h.", "quantifier": "all shape function pairs and all h > 0", "why_tests_cant": "numerical tests compare floating approximations on particular solutions", "anchors": ["cafes/fem/matElem.hpp: getMatElemLaplacian, getMatElemMass, getMatElemStrainTensor"]}
{"id": "C21", "title": "3D element matrices are exact integrals", "statement": "The 3D reference matrices (three stiffness, three mixed derivative, mass) are the exact integrals over the unit cube of products of trilinear shape functions or derivatives.", "quantifier": "all shape function pairs and all h > 0", "why_tests_cant": "512-entry tables, one wrong entry only perturbs convergence", "anchors": ["cafes/fem/matElem.hpp: getMatElemLaplacian, getMatElemMass, getMatElemStrainTensor"]}
{"id": "C22", "title": "pressure/velocity element matrices are exact integrals of the divergence form", "statement": "The pressure element matrices are the exact integrals of (pressure shape function on the doubled cell) times (derivative of the velocity shape function on its sub-cells), in 2D and 3D.", "quantifier": "all shape function pairs and all h > 0", "why_tests_cant": "tables of 72 and 648 entries", "anchors": ["cafes/fem/matElem.hpp: getMatElemPressure"]}
{"id": "C23", "title": "element Laplacian and strain matrices are symmetric, positive and vanish on rigid motions", "statement": "The element Laplacian matrix is symmetric positive semi-definite with kernel exactly the constants; the element strain-tensor matrix is symmetric positive semi-definite and annihilates translations and rotations.", "quantifier": "all h > 0 and all nodal vectors", "why_tests_cant": "quadratic forms over all vectors", "anchors": ["cafes/fem/matElem.hpp: getMatElemLaplacian, getMatElemStrainTensor"]}
{"id": "C24", "title": "matrix-free operators are linear and symmetric", "statement": "The matrix-free Laplacian, strain-tensor and mass operators are linear maps of the nodal vector, symmetric for the Euclidean product, and positive.", "quantifier": "all mesh sizes, all vectors", "why_tests_cant": "all mesh sizes and all vectors", "anchors": ["cafes/fem/operator.hpp: diag_block, tensor_block", "cafes/fem/matrixFree.hpp"]}
{"id": "C25", "title": "the operator does not depend on the number of processes", "statement": "Applying an operator element by element gives the same global vector however the elements are distributed over processes and in whatever order each process visits them.", "quantifier": "all partitions and orders of the elements, all vectors", "why_tests_cant": "schedules and process counts", "anchors": ["cafes/fem/operator.hpp", "cafes/fem/matrixFree.hpp: diag_block_matrix, stokes_matrix", "cafes/fem/mesh.hpp: get_DM_bounds"]}
{"id": "C26", "title": "assembled matrices act like the matrix-free operators", "statement": "In 2D, for every decomposition, multiplying by the assembled Laplacian, mass, Stokes (Laplacian) and preconditioner matrices gives the same vector as the matrix-free operators. For the strain-tensor Stokes matrix this holds on every pressure row and every velocity row of a node that is not on a wall; on wall rows the assembled coupling of the two components is transposed and the results differ (by an explicit amount on a concrete mesh). The diagonal assembly adds nothing whatever its argument.", "quantifier": "all meshes, periodicities, decompositions, steps and vectors", "why_tests_cant": "all vectors and meshes", "anchors": ["cafes/fem/assembling.hpp", "cafes/fem/matElem.hpp: *A functions", "cafes/fem/operator.hpp"]}
{"id": "C27", "title": "the Stokes operator is skew in its coupling", "statement": "For the Stokes operator K(u,p) the scalar product of K(u,p) with (u,p) equals the viscous energy of u: the pressure-gradient block is minus the transpose of the divergence block.", "quantifier": "all meshes, all (u,p)", "why_tests_cant": "all vectors", "anchors": ["cafes/fem/operator.hpp: off_diag_block", "cafes/fem/matrixFree.hpp: stokes_matrix", "cafes/fem/matElem.hpp: getMatElemPressureA, getMatElemPressureAT"]}
{"id": "C28", "title": "velocity grid refines the pressure grid on every process", "statement": "The velocity grid built by createMesh has 2n-1 points (2n-2 when periodic) per axis, its ownership ranges sum to that size, each process's velocity block starts at twice its pressure block's start, and all the velocity nodes of the process's pressure elements are in its ghosted velocity block. The grid built by createLaplacianMesh has n points per axis (n-1 when periodic), each with one unknown and on exactly one process.", "quantifier": "every process count and ownership split, periodic or not", "why_tests_cant": "every decomposition", "anchors": ["cafes/fem/mesh.hpp: createMesh, set_lxu"]}
{"id": "C29", "title": "each mesh element belongs to exactly one process", "statement": "The element boxes returned by get_DM_bounds on all processes are disjoint and cover every element of the mesh exactly once, periodic or not, in both dimensions.", "quantifier": "every decomposition and grid size", "why_tests_cant": "every decomposition", "anchors": ["cafes/fem/mesh.hpp: get_DM_bounds, get_DM_sizes"]}
{"id": "C30", "title": "Dirichlet conditions touch exactly the boundary nodes they are set on", "statement": "SetDirichletOnVec, SetDirichletOnRHS and SetNullDirichletOnRHS modify exactly the components with a non-null condition on boundary nodes of the corresponding side, write the prescribed value there, and leave all other entries unchanged; on a corner the last side processed wins.", "quantifier": "all meshes, decompositions, condition tables and vectors", "why_tests_cant": "all decompositions and condition tables", "anchors": ["cafes/fem/bc.hpp: set_dirichlet_impl, SetDirichletOnVec, SetDirichletOnRHS, SetNullDirichletOnRHS"]}
{"id": "C31", "title": "the constrained operator is the identity on Dirichlet nodes", "statement": "With Dirichlet conditions the matrix-free Laplacian and Stokes operators return x itself at Dirichlet components, and equal the unconstrained operator elsewhere. The diagonal vector handed to the preconditioner is the exact diagonal of the unconstrained Laplacian (mass) operator; it is not that of the constrained operator, whose diagonal is 1 on Dirichlet components.", "quantifier": "all meshes, condition tables and vectors", "why_tests_cant": "all vectors and meshes", "anchors": ["cafes/fem/matrixFree.hpp: diag_block_matrix, diag_diag_block_matrix"]}
{"id": "C32", "title": "Dirichlet rows of the assembled matrix are the wall rows", "statement": "In 2D SetDirichletOnMat turns into identity rows exactly the rows of both velocity components of the wall nodes and leaves the others unchanged, for every decomposition (on a single process: unless x is periodic and y is not, where it replaces the wrong rows). So when the table prescribes both components on every wall, the constrained assembled Stokes matrix, with Laplacian or strain tensor, equals the constrained matrix-free operator; when the table leaves a side or component free it does not, because the table is ignored.", "quantifier": "all meshes, decompositions, periodicities, condition tables", "why_tests_cant": "depends on decomposition and periodicity", "anchors": ["cafes/fem/bc.hpp: set_dirichlet_on_mat_impl"]}
{"id": "C33", "title": "matrix preallocation covers every assembled entry", "statement": "In 2D, for every mesh createMesh builds and every process of it, PreallocateMat raises no PETSc error and never overruns its column buffers (25 per velocity component, 9 for pressure), and on every row the process owns, the number of entries it reserves in the diagonal (owned columns) and in the off-diagonal part (other columns) is at least the number of distinct columns that are the diagonal or receive an entry, both for the assembled Stokes matrix and for the assembled preconditioner, with the Laplacian and with the strain tensor. (MatPreallocateSet counts a column given as -1 as an off-process one.)", "quantifier": "all 2D meshes (numbers of points, periodicity), all ownership ranges PETSc may choose, all processes, rows and steps; Laplacian or strain tensor; saddle-point matrix or preconditioner", "why_tests_cant": "all decompositions; an under-allocation only fails at scale", "anchors": ["cafes/fem/assembling.hpp: PreallocateMat and the assembling routines"]}
{"id": "C34", "title": "2D interpolation to a refined grid is bilinear for the velocity with equal factors; pressure and unequal factors are wrong", "statement": "For the velocity and the same refinement factor along both axes the post-processing interpolation writes at every refined node the bilinear interpolation of the coarse values (so the coarse value at a coarse node), whatever the refined vector held, without leaving its arrays. The pressure pass does not: it handles two components of a vector that has one and always reads past the end of the coarse array. Different factors are not supported: finer along the first axis it addresses rows outside the refined grid, finer along the second the last refined node is never written.", "quantifier": "all grid sizes, process views, equal refinement factors and fields; all unequal factors and all pressure vectors for the refutations", "why_tests_cant": "all refinements, including unequal ones", "anchors": ["cafes/posttraitement/interpolation.hpp: linear_interpolation"]}
{"id": "C35", "title": "the cut-off function is 1 at contact, 0 beyond its support and smooth", "statement": "With l = eps = param > 0, as every caller passes, chiTrunc(X) is 1 at X = 0 and 0 where X^2 >= 2 param, is non-increasing in |X|, and dchi, d2chi, d3chi are its successive derivatives with respect to X^2 at every point; alphaTrunc is an odd non-decreasing step with value 1 at 1 and dalpha..d3alpha are its derivatives. Named exceptions: d4alphaTrunc is not the next derivative (a factor is missing); for l <> eps the chained comparison breaks the function (the value is 0 on the inner plateau when l - eps <= 1 and 1 everywhere, support included, when l - eps > 1).", "quantifier": "all X, all param > 0; exceptions by explicit witnesses", "why_tests_cant": "chained comparison is only wrong for parameter ranges the callers do not use today", "anchors": ["cafes/particle/singularity/truncation.hpp"]}
{"id": "C36", "title": "the contact frame: orthonormal and inverse changes of frame in 2D, named defects in 3D", "statement": "In 2D the frame of a pair of distinct particles is orthonormal with the line of centres as first axis, the relative velocity is decomposed on it, the two changes of coordinates are mutually inverse isometries, the origin is the point of the first particle nearest the second, the cut-off length is alpha times sqrt(gap / mean curvature) limited above by both radii and below by sqrt(2) h, a pair counts as a contact exactly when its gap is below 1, the singular velocity and pressure vanish beyond it, the singular velocity separates the contact points with the relative normal velocity the returned gradient is trace free and its component along the gap is the derivative of that component of the returned velocity in every direction. In 3D the last vector is the line of centres and the middle one is orthogonal to both others, the returned gradient is the derivative of the returned velocity in every direction off the line of centres; the frame is orthonormal for centres along a coordinate axis and a transverse relative velocity, but not in general (head-on along z, oblique motion), and the singular velocity has the opposite sign of the relative motion.", "quantifier": "all pairs of distinct particles, velocities and points, 2D and 3D", "why_tests_cant": "continuum of configurations; branches on parallel velocities", "anchors": ["cafes/particle/singularity/singularity.hpp"]}
{"id": "C37", "title": "the normal singular field: no-slip, derivatives, incompressibility, with named exceptions", "statement": "In 2D the normal lubrication field has zero transverse velocity on both (parabolic) surfaces and carries minus half the closing velocity times the cut-off on the first; the gap velocity's gradient functions are its derivatives and the divergence is zero; both gradient functions of the velocity along the line of centres are its derivatives on that line and beyond the cut-off. In between they are right in the terms with the value of the cut-off (with the cut-off held constant they are the derivatives at every point), but not in the terms with its derivatives (both refuted). In 3D all nine gradient functions are the derivatives of the velocity off the line of centres, the divergence vanishes there, and no-slip holds on both surfaces; on the line of centres the gradient is wrong (refuted).", "quantifier": "all positive curvatures, gaps and cut-offs, all velocities and points", "why_tests_cant": "symbolic identities over all reals", "anchors": ["cafes/particle/singularity/UandPNormal.hpp"]}
{"id": "C38", "title": "the tangential singular field: derivatives, incompressibility, no-slip, with named exceptions", "statement": "In 2D the tangential lubrication field's four gradient functions are the derivatives of the velocity functions, its divergence is zero, the tangential velocity on the two surfaces is minus and plus half the sliding velocity times the cut-off and the normal velocity vanishes on the first surface; it does not vanish on the second (refuted). In 3D the nine gradient functions are the derivatives off the line of centres, the divergence vanishes there, and no-slip holds on the surfaces obtained by exchanging the two curvatures; with the documented surfaces it fails, and on the line of centres the gradient is wrong (both refuted).", "quantifier": "all positive curvatures, gaps and cut-offs, all velocities and points", "why_tests_cant": "symbolic identities over all reals", "anchors": ["cafes/particle/singularity/UandPTang.hpp"]}
{"id": "C39", "title": "forces and torques are volume-weighted sums of the control; the weight counts sub-grid points", "statement": "forces_torques_with_control reads one vector per grid node of the particle, in increasing order and exactly as many as create_Mat_and_Vec allots, and returns for every particle, whatever the distribution, volume/num times the sum of the vectors and of their moments about the centre; num, the number of sub-grid points inside, is at least the number of nodes. So a constant control g gives force g * volume when the sub-grid has one point per cell; with scale points per axis the force is scaled by nodes/num, that is 1/scale^D for a particle made of whole cells (1/16 in 2D with the default 4). The singular forces are added at index ipart*Dimensions: correct for one particle, out of the array from two on.", "quantifier": "all grids, decompositions, particles, scales, controls; the singular part for all particle numbers", "why_tests_cant": "all particle numbers and sub-grid scales", "anchors": ["cafes/particle/forces_torques.hpp"]}
{"id": "C40", "title": "the simple layer exerts no net force and no net torque", "statement": "After simple_layer the surface densities of every particle whose samples balance around its centre (every circle inside the domain, as sampled and distributed by the code, and in 3D every sampling with zero mean and isotropic second moments) sum to zero and have zero total moment; a rigid density v + w x r is reported as mean v and spin w and removed entirely, so get_new_velocities gives a particle the velocity of a fluid that moves rigidly around it. Without the balance the net force is not zero.", "quantifier": "all densities, decompositions, circles and balanced 3D samplings", "why_tests_cant": "all density fields", "anchors": ["cafes/problem/particle_operator.hpp: simple_layer"]}
{"id": "C41", "title": "spreading to the grid conserves force and is the adjoint of interpolation", "statement": "interp_fluid_to_surf returns at every surface point the Q1 interpolation of the grid velocity; SL_to_Rhs is, before the boundary conditions, its transpose weighted by (surface area / number of samples), so the forces put on the grid sum to the weighted sum of the densities; SL_to_Rhs then zeroes exactly the components constrained by the boundary conditions.", "quantifier": "all 2D and 3D grids, periodic or not, decompositions, particles, densities and grid fields", "why_tests_cant": "all fields", "anchors": ["cafes/problem/particle_operator.hpp: SL_to_Rhs, interp_fluid_to_surf"]}
{"id": "C42", "title": "rigid motion is subtracted with the wrong sign of the velocity", "statement": "interp_rigid_motion is meant to subtract the rigid velocity v + omega x r; because velocity - vector is written with its operands exchanged it yields g + v - omega x r, so it is right exactly when the particle's velocity v is zero.", "quantifier": "all particles, velocities, spins, surface points and densities", "why_tests_cant": "all motions; the error vanishes for zero velocity or for zero spin", "anchors": ["cafes/problem/particle_operator.hpp: interp_rigid_motion_", "cafes/particle/geometry/vector.hpp: operator-"]}
{"id": "C43", "title": "the SEM and DtoN operators are linear in the control (affine with the singularity), independent of history", "statement": "With an exact (linear) Stokes solver, the operator the SEM and DtoN drivers give to the Krylov solver is a linear function of the control, in 2D and 3D, on any number of processes; its value depends neither on what was solved before nor on the previous content of the output vector. With the singularity switched on the DtoN operator is x -> A x + S: affine, with S the value at the zero control, because the singular field is added to the right-hand side at every application.", "quantifier": "all problems, solvers, controls, flags, decompositions, histories of applications", "why_tests_cant": "histories of solver calls", "anchors": ["cafes/problem/sem.hpp: sem_matrix", "cafes/problem/dton.hpp: DtoN_matrix", "cafes/problem/ntod.hpp"]}
{"id": "C44", "title": "the final DtoN solve uses exactly the converged controls; the SEM one adds what the last application left", "statement": "After the Krylov iteration DtoN's last Stokes solve has exactly the load, the singular field and the returned controls as right-hand side, boundary values at the constrained nodes, whatever was applied before. SEM's last solve does not clear the right-hand side: what the last application left there is added, so whenever the last operator application was not zero the right-hand side (and, for an injective solver, the solution) differs from the one the data and the controls give.", "quantifier": "all problems, controls and histories of operator applications", "why_tests_cant": "histories", "anchors": ["cafes/problem/sem.hpp: solve", "cafes/problem/dton.hpp: solve_last_problem"]}
{"id": "C45", "title": "what repeated calls of setup_RHS do to the right-hand side", "statement": "The first setup_RHS sets the right-hand side to the given vector plus (mass matrix) x (load) away from Dirichlet components and to the prescribed values on them. Without a load a second call changes nothing; with a load every further call adds the load once more, so setup_RHS is idempotent exactly when the load vanishes (defect of the code, proved as such).", "quantifier": "all forces and boundary data, any number of calls", "why_tests_cant": "histories of calls", "anchors": ["cafes/fem/rhs.hpp: set_rhs", "cafes/problem/stokes.hpp: setup_RHS"]}
{"id": "C46", "title": "the multigrid level search gives the right spacing on square 2D grids and hangs on 3D cubes and long rectangles", "statement": "When the level matrices of a multigrid hierarchy are built on a square 2D grid with the same periodicity on both axes, a level that is an exact coarsening of the finest one by 2^l gets the step h*2^l, so that cells times step does not change, and the level search terminates. setPMMSolver asks for 1+L levels, L being the least number of halvings bringing the smallest axis to 8 or less; on q*2^k+1 points (q at most 8) every one of them is exact. Elsewhere this fails: 19x19 points get three levels although 18 cells cannot be halved twice; on every 9x(2q+1) grid (q at least 156) and on every 3D non-periodic cube the level search never returns.", "quantifier": "all grid sizes, levels and steps", "why_tests_cant": "termination and all sizes", "anchors": ["cafes/problem/stokes.hpp: createLevelMatrices, setPMMSolver"]}
{"id": "C47", "title": "the mass operator is the velocity mass matrix and 2^-D times the pressure mass matrix", "statement": "apply_mass_matrix gives M_u u on the velocity grid of step h and M_p(h) p on the pressure grid, where M_p(h) is the mass matrix computed with the velocity step h although that grid has step 2h: the pressure block is the true pressure mass matrix divided by 2^Dimensions.", "quantifier": "all meshes and vectors", "why_tests_cant": "all vectors", "anchors": ["cafes/fem/matrixFree.hpp: apply_mass_matrix"]}
{"id": "C48", "title": "the XDMF velocity description is right exactly on square grids; the pressure description is inconsistent", "statement": "For the velocity, the sizes announced in the XDMF file for topology and data item agree, and are those of the HDF5 array exactly when the grid is square: then each point shows the value of its own node, at its own coordinates; otherwise every node outside the first row is shown elsewhere. For the pressure the topology and the data item never agree: without periodicity the topology is that of the pressure grid and the data item misses one point per axis (so rows are read shifted), with periodicity the data item is right and the topology has one point too many. The announced pressure spacing is the pressure step.", "quantifier": "all mesh sizes, periodicities and steps", "why_tests_cant": "all sizes, equal only for none or particular ones", "anchors": ["cafes/io/hdf5.hpp: create_xdmf, save_hdf5"]}
{"id": "C49", "title": "Dirichlet condition tables hold what they were given", "statement": "dirichlet_conditions built from an initializer list with one row per side holds exactly the rows it was given; a shorter list leaves the remaining sides without a valid row, and a longer list writes out of bounds (undefined behaviour, reported as a distinct outcome).", "quantifier": "every list length", "why_tests_cant": "short and long lists are undefined behaviour, which tests may not notice", "anchors": ["cafes/fem/bc.hpp: dirichlet_conditions"]}
{"id": "C50", "title": "vector accessors address the owned and ghosted node they are asked for", "statement": "petsc_vec::at/at_g(position) return a pointer to the dofs of that global (owned, ghosted) node: distinct nodes map to disjoint storage inside the array, and a component index equal to dof designates the next node of the row. A local-to-global add accumulates every stored value, ghosts included, exactly once into the node it stands for, and inserting back a scattered vector changes nothing.", "quantifier": "all 2D and 3D boxes, numbers of components, decompositions and nodes", "why_tests_cant": "all decompositions", "anchors": ["cafes/petsc/vec.hpp"]}
{"id": "C51", "title": "the singular right-hand side is a quadrature of the weak form of the singular stress", "statement": "For every couple of particles whose gap is below h[0], add_singularity_in_fluid subtracts from the right-hand side, tested with any Q1 velocity v, the sum over the cells of the contact box and over 10^D sub-points of each cell of (cell volume / 10^D) (grad u_sing - p_sing I) : grad v; a sub-point counts when it is in neither particle and, in 2D, within the cut-off of the line of centres. The weights of a cell sum to its volume, the result does not depend on the decomposition, no net force is added and one particle adds nothing. Without particles the call is undefined (unsigned underflow).", "quantifier": "all grids in 2D and 3D, periodicities, decompositions, lists of particles, right-hand sides and test fields", "why_tests_cant": "all fields and scales", "anchors": ["cafes/particle/singularity/add_singularity.hpp"]}
{"id": "C52", "title": "options set exactly their field; both grids cover the length asked for on non-periodic axes only", "statement": "Without options the Stokes problem has 17 pressure points per axis, length 1, no periodicity, and steps 1/16 and 1/32. Each option given replaces exactly the value of its axis. The velocity step is half the pressure step, both grids cover the same length, and this is the length asked for on every non-periodic axis of at least two points. On a periodic axis the box is longer than asked by one pressure step.", "quantifier": "all option values, dimensions and axes", "why_tests_cant": "all option values, periodic or not", "anchors": ["cafes/problem/options.hpp", "cafes/problem/stokes.hpp: stokes constructor"]}
{"id": "C53", "title": "pair distances and relative motions are symmetric", "statement": "distance(p1,p2) is the Euclidean distance of the particles' centres: symmetric, non-negative, zero exactly for coincident centres, and satisfying the triangle inequality; position_diff and velocity_diff are antisymmetric.", "quantifier": "all pairs of particles", "why_tests_cant": "all pairs", "anchors": ["cafes/particle/particle.hpp: distance, position_diff, velocity_diff"]}
{"id": "C54", "title": "circle and sphere constants are the geometric measures", "statement": "surface_area and volume of circles and spheres are the classical measures, positive and monotone in the radius, the resistance constants scale as 1/r^2, and contains() answers true exactly on the open disc (ball) of the centre and radius, whatever the orientation; the particle built from a circle carries these constants.", "quantifier": "all radii > 0", "why_tests_cant": "all radii", "anchors": ["cafes/particle/geometry/circle.hpp", "cafes/particle/geometry/sphere.hpp"]}
{"id": "C55", "title": "the constrained viscous problems have exactly one solution", "statement": "When each component is prescribed by a Dirichlet condition at some node, the constrained matrix-free Laplacian system has exactly one solution for every right-hand side; when one side of the domain prescribes all components, so does the constrained matrix-free strain-tensor system (a discrete Korn inequality): the linear systems handed to the solver are non-singular.", "quantifier": "all mesh sizes, 2D and 3D, periodicities, steps, decompositions, condition tables and right-hand sides", "why_tests_cant": "non-singularity for every grid size and every condition table is an infinite family of linear-algebra statements", "anchors": ["cafes/fem/operator.hpp: laplacian_mult, strain_tensor_mult", "cafes/fem/matrixFree.hpp: diag_block_matrix", "cafes/fem/bc.hpp: SetDirichletOnVec"]}
{"id": "C56", "title": "constant pressures are in the kernel of the Stokes operator", "statement": "When the conditions prescribe the normal velocity on every non-periodic side, the constrained matrix-free Stokes operator (Laplacian or strain tensor) maps a zero velocity and a constant pressure to zero, so the null space declared to the solver is right; dually the pressure component of the operator applied to a velocity without flux through the walls sums to zero over the pressure nodes.", "quantifier": "all mesh sizes, 2D and 3D, periodicities, decompositions, steps, condition tables, constants and velocities", "why_tests_cant": "it is a telescoping identity over all cells of meshes of any size and any decomposition", "anchors": ["cafes/problem/stokes.hpp: CreatePressureNullSpace", "cafes/fem/matrixFree.hpp: B_and_BT_mult"]}
{"id": "C57", "title": "the singular pressure balances the viscous stress across the gap", "statement": "For the 3D normal field and the 2D and 3D tangential fields the derivative of the singular pressure along the gap equals the second derivative of the velocity across the gap (the lubrication equation), cut-off included. For the 2D normal field it does not (refuted).", "quantifier": "all positive curvatures, gaps and cut-offs, all velocities and points (off the line of centres in 3D)", "why_tests_cant": "symbolic identities over all reals", "anchors": ["cafes/particle/singularity/UandPNormal.hpp", "cafes/particle/singularity/UandPTang.hpp"]}
{"id": "C58", "title": "the linear system handed to the Krylov solver is the zero of the full operator", "statement": "Write F for the operator with the data switched on and A for the operator applied in the iteration. setup_RHS from the control x0 followed by a Krylov solve returning x with A x = rhs gives F(x + x0) = 0 for SEM and for DtoN without singularity. solve() returns x, so F(x) = 0 exactly from the zero control: in general F(x) = - A x0. With the singularity DtoN counts S in both the right-hand side and the operator, so F(x) = - S.", "quantifier": "all problems, starting controls, solvers and decompositions", "why_tests_cant": "quantifies over all solver outputs and starting controls", "anchors": ["cafes/problem/sem.hpp: setup_RHS, solve", "cafes/problem/dton.hpp: setup_RHS, solve, use_sing"]}
{"id": "C59", "title": "every control vector is the list of the values at the nodes of the particles", "statement": "A control vector holds on each process, particle after particle, node after node in increasing order and component by component, one value per owned grid node of the particle, and exactly as many as create_Mat_and_Vec allots. set_rhs_problem adds to the right-hand side the mass matrix applied to the field that has these values (plus rho times the force when requested) at these nodes and 0 elsewhere, the later particle counting where two share a node; compute_y writes the solution at the same nodes in the same order.", "quantifier": "all controls, particles (overlapping or not), decompositions in 2D and 3D", "why_tests_cant": "quantifies over all meshes, particles and decompositions", "anchors": ["cafes/problem/particle_operator.hpp: set_rhs_problem, compute_y, create_Mat_and_Vec"]}
{"id": "C60", "title": "add_singularity_to_last_sol adds a local average of the singular velocity", "statement": "At a node n of a process the solution gains the sum, over the couples with a singularity and over the sub-points kept of the cells of the contact box that belong to that same process, of the singular velocity times hat_n/100; over the four cells around a node these weights sum to 1. Because the ghost values are inserted and not added, the cells of another process are left out: a node on the border of a process can get nothing where the same run on one process adds a positive amount (refutation of independence of the number of processes).", "quantifier": "all 2D grids, decompositions, particles and solutions; the refutation for all solutions", "why_tests_cant": "quantifies over all decompositions and particle positions", "anchors": ["cafes/particle/singularity/add_singularity.hpp: addsingularity, add_singularity_to_last_sol"]}
{"id": "C61", "title": "singular forces: one term per couple and particle, but zero in 2D and over-counted in 3D", "statement": "compute_singular_forces gives each particle minus the sum over the couples it belongs to of the singular force on it. In 2D the loop counter is unsigned and starts at -N, so the loop never runs and every force is zero (N up to 2^63). In 3D the sample points lie on the sphere with its outward normals, the stress is grad u + grad u^T - p I with the singular pressure p, but the force of the contact frame is accumulated and added to the result at every sample, so the k-th of N^2 samples counts N^2 - k times; with tractions of one sign the excess is at least (N^2 - 1) times the first sample.", "quantifier": "all particle lists, sample numbers, radii, velocities", "why_tests_cant": "quantifies over all numbers of samples and particles", "anchors": ["cafes/particle/singularity/add_singularity.hpp: compute_singular_forces, compute_singular_forces_on_part1, compute_singular_forces_on_part2"]}
{"id": "C62", "title": "the box of a contact covers the gap", "statement": "get_box of a couple contains every cell that has an interior point in the gap, that is outside both particles, between their centres and within the cut-off length of the line of centres, provided the cut-off length is at most the radii (sqrt(2) h at most the smaller radius). In 3D it holds for the points given by their coordinates in the contact frame (the frame itself is C36).", "quantifier": "all centres, radii, steps and cells", "why_tests_cant": "an inclusion of regions for all real parameters", "anchors": ["cafes/particle/singularity/singularity.hpp: get_box"]}
{"id": "C63", "title": "VTK output shows the solution", "statement": "For every layout of the mesh over processes, save_VTK writes for each rank a pressure and a velocity file whose points are numbered as VTK numbers them (first axis fastest), each with the coordinates of its node (steps 2h for pressure, h for velocity) and the value of the solution there (periodic ghosts show the value of the node they stand for), and the extent of a rank contains all nodes it owns. The .pvts files give the whole grid as WholeExtent and for rank r the extent of the file of rank r, and every node of the grid is in a piece. The pieces lie in the WholeExtent exactly when no axis is periodic: on a periodic axis the ghost layers are written outside it.", "quantifier": "all 2D and 3D grids, periodicities, decompositions, steps and solutions", "why_tests_cant": "quantifies over all decompositions and grid sizes", "anchors": ["cafes/io/vtk.hpp: save_VTK"]}
{"id": "C64", "title": "saveParticles writes one row per particle", "statement": "With forces and torques, in 2D and 3D, saveParticles writes one row per particle in the order given: center, first shape factor as radius, force, torque; forces or torques shorter than the particles are read out of bounds. The overload without forces does the same in 2D, but in 3D it writes every centre with z = 0, so different configurations give the same file.", "quantifier": "all lists of particles, forces and torques", "why_tests_cant": "quantifies over all lists of particles", "anchors": ["cafes/io/vtk.hpp: saveParticles"]}
{"id": "C65", "title": "sizes of the matrix-free operators", "statement": "For every layout of the Stokes mesh over processes, the number of local rows declared for the composite (velocity, pressure) operator is the number of unknowns at the nodes the process owns, the declared total is the number of unknowns of both grids and the same on every process, and the local numbers sum to it.", "quantifier": "all 2D and 3D grids, periodicities, decompositions", "why_tests_cant": "quantifies over all decompositions", "anchors": ["cafes/fem/mesh.hpp: get_DM_sizes", "cafes/fem/matrixFree.hpp: make_matrix"]}
{"id": "C66", "title": "the constrained Stokes problem is well posed up to a constant pressure", "statement": "When the conditions hold the viscous operator (each component prescribed somewhere for the Laplacian, one side prescribing all components for the strain tensor) and at most one axis is a single pressure cell between two walls, two solutions of the constrained matrix-free Stokes system with the same right-hand side have the same velocity and pressures that differ by a constant. If moreover the normal velocity is prescribed on every wall, the operator vanishes exactly on zero velocity and constant pressure, and the system has a solution exactly when the sum of the pressure right-hand side is the total divergence of the velocity right-hand side (always, for data vanishing on the walls and no mass source). With a single pressure cell between walls on both axes of a 2D domain it fails: an alternating pressure is also in the kernel.", "quantifier": "all mesh sizes, 2D and 3D, periodicities, steps, decompositions, condition tables and right-hand sides, both viscous operators", "why_tests_cant": "the kernel of an operator family indexed by every mesh size and condition table, and existence of solutions for every right-hand side", "anchors": ["cafes/problem/stokes.hpp: stokes", "cafes/fem/operator.hpp: B_and_BT_mult, strain_tensor_mult, laplacian_mult", "cafes/fem/matrixFree.hpp: stokes_matrix", "cafes/fem/bc.hpp: SetDirichletOnVec"]}
{"id": "C67", "title": "which boundary data the Stokes driver can satisfy", "statement": "For any velocity, the sum over the pressure nodes of the divergence rows of the operator is the outgoing flux of that velocity through the non-periodic sides (trapezoidal rule on the velocity grid). When the viscous operator is held, the normal velocity is prescribed on every wall and at most one axis is a single pressure cell between walls, the system the driver sets up (whatever the body force) has a solution exactly when the net flux of the prescribed values is zero; in particular when no wall node gets a component through its wall. At a corner the condition of the last side wins, so it does not suffice that each side's own condition has no normal component: in a 2D box with three fixed walls and a lid of tangential velocity g, the system has a solution exactly when g takes the same value at the two ends of the lid, and the lid g(x) = x has none.", "quantifier": "all mesh sizes, periodicities, steps, decompositions, condition tables, body forces and both viscous operators; 2D and 3D (lid: all 2D grids and all g)", "why_tests_cant": "solvability of a linear system for every mesh and every boundary data", "anchors": ["cafes/problem/stokes.hpp: setup_RHS", "cafes/fem/bc.hpp: SetDirichletOnRHS", "cafes/fem/matrixFree.hpp: B_and_BT_mult"]}
{"id": "C68", "title": "the declared null space is the kernel of the assembled matrix", "statement": "CreatePressureNullSpace builds a vector of Euclidean norm 1 and, when every wall prescribes all velocity components, the viscous operator is held and at most one axis is a single pressure cell between walls, the assembled and constrained Stokes matrix vanishes exactly on its multiples. On every fully periodic grid the declared space is too small: uniform flows are in the kernel as well and are not multiples of the vector.", "quantifier": "all 2D mesh sizes, periodicities, steps, decompositions and condition tables, both viscous operators", "why_tests_cant": "the kernel of a family of matrices indexed by every mesh size and decomposition", "anchors": ["cafes/problem/stokes.hpp: CreatePressureNullSpace, stokes"]}
{"id": "C69", "title": "polynomial Stokes flows are reproduced exactly", "statement": "Take a Stokes flow (- Laplacian u + grad p = f, div u = 0) with constant force f, affine pressure, quadratic velocity whose component c is affine along axis c, not depending on the coordinates of periodic axes, and give the driver its velocity as Dirichlet values on every wall and f as body force. The nodal values of the flow solve the system that setup_RHS and the constrained matrix-free operator define, for both viscous operators; and when there is a wall and at most one axis is a single pressure cell between walls, whatever solves that system has the exact velocity at every node and the exact pressure up to a constant. In particular: still walls and a uniform force give a fluid at rest and the hydrostatic pressure; walls moving with an affine divergence-free velocity carry the whole fluid with it; a channel driven by a uniform force has the parabolic profile. It fails for a velocity component quadratic along its own axis: for u = (x^2, -2xy), p = 2x the nodal velocities violate the discrete continuity equation at the corner of the domain.", "quantifier": "all such flows, all mesh sizes, 2D and 3D, periodicities, steps, decompositions, condition tables and loads with those values, both viscous operators", "why_tests_cant": "a whole family of flows on every mesh and decomposition; a test checks one flow on a few meshes up to rounding", "anchors": ["cafes/problem/stokes.hpp: setup_RHS, stokes", "cafes/fem/operator.hpp: laplacian_mult, strain_tensor_mult, B_and_BT_mult, mass_mult", "cafes/fem/rhs.hpp: set_rhs", "cafes/fem/bc.hpp: SetDirichletOnRHS"]}
{"id": "C70", "title": "work, reciprocity and least dissipation", "statement": "For the discrete Stokes problem, with the Laplacian or the strain-tensor operator: the nodal forces of two states are reciprocal (forces of the first in the velocity of the second plus mass source of the second times pressure of the first is symmetric); when the conditions on the walls are zero, the work of the load in the computed flow equals the dissipated power, is nonnegative, and vanishes only if nothing moves; and among all velocities without discrete divergence that take the prescribed values, the computed velocity is the only one minimising half the dissipation minus the work of the load (conversely every minimiser is the computed velocity).", "quantifier": "all meshes, steps, periodicities, process grids, conditions holding the fluid, loads and states, 2D and 3D", "why_tests_cant": "every load, every competing velocity field and every mesh must be covered", "anchors": ["cafes/problem/stokes.hpp:stokes", "cafes/fem/matrixFree.hpp:stokes_matrix", "cafes/fem/operator.hpp", "cafes/fem/matElem.hpp"]}
{"id": "C71", "title": "the preconditioner is symmetric positive definite and equivalent to the Stokes operator's Schur complement", "statement": "The matrix-free preconditioner of the stokes solver (constrained viscous operator on velocities, pressure mass matrix on pressures), restricted to fields that vanish where a condition is prescribed, is symmetric and positive definite, and it is invertible for every right-hand side. The diagonal it offers to Jacobi is positive; the pressure mass matrix lies between (1/2)^D and (3/2)^D times that diagonal whatever the grid; the viscous operator (also on a multigrid level) is at most 2^D times it for the Laplacian and 2 D 2^D times it for the strain tensor, whose true diagonal is not the offered one: it is more than once and less than twice it. For every pressure, the divergence of the velocity that its gradient drives defines the Schur complement, which lies between 0 and D times (D/2 for the strain tensor) the pressure mass matrix and vanishes only on constant pressures.", "quantifier": "all grids (with the conditions of C66), periodicities, steps, process grids, condition tables, pressures and velocities, 2D and 3D, both viscous operators", "why_tests_cant": "bounds that must hold on every grid, field and number of processes", "anchors": ["cafes/problem/stokes.hpp: stokes, setPMMSolver", "cafes/fem/matrixFree.hpp: diag_block_matrix, diag_diag_block_matrix", "cafes/fem/operator.hpp: laplacian_mult, strain_tensor_mult, mass_mult, diag_laplacian_mult, diag_mass_mult", "cafes/fem/matElem.hpp"]}
{"id": "C72", "title": "mirror images, exchanged axes, shifts and units of length", "statement": "Take a problem (grid, steps, periodicities, walls, body force) and its image by a similarity of the box: axes exchanged, axes seen in a mirror, periodic axes shifted by whole pressure steps, lengths multiplied by a factor, vectors turned accordingly and the body force divided by the square of the factor. Whatever the numbers of processes of the two runs, the image of a computed flow is a computed flow of the image problem, with the pressure divided by the factor, and under the conditions of C66 every computed flow of the image problem is this one up to a constant of the pressure; a problem that is its own image has a symmetric flow. The rows of the operator turn in the same way. Giving the image conditions side by side is enough when no axes are exchanged or when the conditions of sides that meet agree; it is not enough in general, because at a corner the side that comes last wins: the cavity whose lid is on the right is not the image of the cavity whose lid is on top.", "quantifier": "all 2D and 3D grids, periodicities, steps, similarities, condition tables, loads, process grids, both viscous operators", "why_tests_cant": "an identity between two runs that must hold for every grid, field, decomposition and similarity", "anchors": ["cafes/problem/stokes.hpp: setup_RHS, stokes", "cafes/fem/operator.hpp: laplacian_mult, strain_tensor_mult, B_and_BT_mult, mass_mult", "cafes/fem/matElem.hpp", "cafes/fem/rhs.hpp: set_rhs", "cafes/fem/bc.hpp: SetDirichletOnVec, SetDirichletOnRHS"]}
{"id": "C73", "title": "projection of the fluid velocity on the rigid motions of a particle", "statement": "projection() returns, for each particle, the mean of the fluid velocity and the mean of its moment about the particle's centre over the points of the scale^D-times refined grid that are inside the particle, each counted once and whatever the distribution of the grid over the processes. compute_y then stores, at every grid point inside the particle, the fluid velocity minus that of the rigid body with this mean velocity and with spin Ci_R times the mean moment. A fluid that moves as one block is taken off exactly; in general, for a rigid motion v + w x r and samples centred on the particle, v is taken off exactly but the fraction 1 - Ci_R M of the spin is left, M being the mean squared distance of the samples to the axis (2J in 3D with isotropic samples). So a particle that already rotates as a rigid body does not give a zero residue on a finite grid: for a disc of radius 3/20 on a grid of step 1/8 with scale 1 the fraction is -1/9.", "quantifier": "all grids, periodicities, steps, particle lists, scales, velocity fields and process grids, 2D and 3D", "why_tests_cant": "ranges over all velocity fields, particles and distributions of the grid", "anchors": ["cafes/problem/particle_operator.hpp: kernel_projection, projection_impl, projection, compute_y"]}
{"id": "C74", "title": "grid nodes inside a particle, in double precision", "statement": "In double-precision arithmetic the search for the nodes inside a particle lists, in order and without repetition, exactly the nodes of the box whose tested point is inside the particle; the tested coordinate of line i, obtained by adding the step one at a time from the first line of the box, is within (i - first + 1) 2^-52 (relative) of i times the step. So a node is listed (left out) whenever all the points within that distance of it are inside (outside), and when i times the significand of the step fits in 53 bits, as for steps 1/2^k, the coordinates are exact and the answer does not depend on the box searched. The box searched (2D, not rotated) contains every node between the ends of the particle along both axes, up to 2^-53 (relative) at the upper end. In general the answer depends on the box: for the disc of centre (1/2,1/2) and radius 1/2 on the grid of step 0.1 the node (10,5) of the circle is listed by a run on one process but not by the process whose nodes begin at x = 1.", "quantifier": "all boxes with nonnegative corners, steps (normal doubles), particles and nodes, 2D and 3D", "why_tests_cant": "every box, step and particle in rounded arithmetic; a test sees one partition", "anchors": ["cafes/particle/particle.hpp: find_fluid_points_insides", "cafes/particle/geometry/super_ellipsoid.hpp: contains, bounding_box"]}
{"id": "C75", "title": "cells of surface points, in double precision", "statement": "In double-precision arithmetic a surface point is attached, on every process and whatever the partition, to the same cell, and is kept by exactly one process when the boxes tile the grid. Along each axis that cell is the one that contains the point, or the next one if the point is below it by at most 2^-53 (relative). The stored offset in the cell is exact within 2(i+1) 2^-53 steps, so it lies between 0 and the step up to 3(i+1) 2^-53 steps. It can be negative: the point 1.7 on the grid of step 0.1 is attached to cell 17 with offset -2^-52.", "quantifier": "all surface points with coordinates between 0 and 2^30 steps, steps (normal doubles up to 2^900), boxes and partitions, any dimension", "why_tests_cant": "every point, step and partition in rounded arithmetic", "anchors": ["cafes/particle/particle.hpp: find_surf_points_insides", "cafes/particle/geometry/box.hpp: point_inside"]}
{"id": "C76", "title": "interpolation weights, in double precision", "statement": "In double-precision arithmetic each of the four (3D: eight) corner weights of a point in a cell is within 8 (11) times 2^-53 (relative, plus 2^-800) of its exact value and their sum is within 9 (12) times 2^-53 of 1; this includes the points whose cell or offset was rounded to slightly outside the cell, so every surface point spreads its force completely up to that error.", "quantifier": "all steps between 2^-100 and 2^100 and all points of the cell or (for the single weights) up to twice the step away; all surface points in the range of C75; 2D and 3D", "why_tests_cant": "every point and step in rounded arithmetic", "anchors": ["cafes/fem/quadrature.hpp: P1_integration", "cafes/particle/particle.hpp: find_surf_points_insides"]}
{"id": "C77", "title": "samples of an interval and mesh steps, in double precision", "statement": "In double-precision arithmetic linspace(beg,end,num) returns num finite values, the k-th within 8 times 2^-53 (|beg|+|end|) (plus 2^-1000) of beg + k (end-beg)/ns. The end is not hit exactly: the last of 50 samples of [0,1] is less than 1. The pressure step of a mesh is within 2^-53 (relative) of the length over the number of intervals and the velocity step is exactly half of it, so velocity node 2k has bitwise the coordinate of pressure node k.", "quantifier": "all finite bounds up to 2^900, all numbers of samples with a nonzero divisor, with and without the end; all lengths between 2^-900 and 2^900, numbers of points and nodes", "why_tests_cant": "every bound and count in rounded arithmetic", "anchors": ["cafes/particle/geometry/linspace.hpp: linspace", "cafes/problem/stokes.hpp: stokes"]}
{"id": "C78", "title": "counts of surface points and sub-grid points, in double precision", "statement": "In double-precision arithmetic, for particles whose box is defined and whose surface points have coordinates in range, a call of set_materials on any set of processes whose boxes tile the grid ends, and the reduced numbers of surface points and of sub-grid points of every particle are those of one process; the surface points and radial vectors stored by the processes are together exactly those stored by one process, with bitwise the same cells and offsets. The number of sub-grid points is the number of pairs (cell of the box, sub-cell) whose tested point is inside the particle, and each coordinate of a tested point is within 4 times 2^-53 (relative) of (cell + sub-cell/scale) times the step. The total number of grid nodes inside the particles, in contrast, can change with the partition: for the disc of centre (1/2,1/2) and radius 1/2 on the grid of step 0.1 one process finds 75 and two processes that share the domain at x = 1 find 74.", "quantifier": "all particles (any membership test), boxes that tile the grid, steps and numbers of sub-cells, 2D and 3D", "why_tests_cant": "every partition and particle in rounded arithmetic", "anchors": ["cafes/particle/particle.hpp: set_materials, kernel_num_count, find_radial_surf_points_insides"]}
{"id": "C79", "title": "sample of the surface of a 3D particle", "statement": "When the vector of points has room for the mirrored half, surface(k) of a 3D super-ellipsoid terminates for all positive steps and tolerances. Its points satisfy the implicit equation of the super-ellipsoid of the same centre and radii but with the two exponents exchanged (so of the particle itself when they are equal), whatever the orientation of the particle; the set is symmetric about the three planes through the centre and its centroid is the centre. Each horizontal ring satisfies the flat implicit equation scaled by its width, has no point twice, is symmetric about both axes, centred, and has 8m-4 points; a ring of width zero is one point four times. For a sphere of radius r the rings lie at the latitudes i k1 and pi/2 - i k1 below and above pi/4 and are cut at equal arcs of length r k0. It is not true that the points lie on the particle's own surface when the exponents n and e differ (the equator ring leaves it, inward for n < e and outward for e < n), nor that they are distinct: both poles are returned four times each.", "quantifier": "all centres, positive radii, exponents, steps and tolerances, all orientations; all amounts of fuel that suffice", "why_tests_cant": "the number of rings and of points per ring is unbounded and the claims are about every real parameter", "anchors": ["cafes/particle/geometry/super_ellipsoid.hpp: surface", "cafes/particle/geometry/uniform_sampling.hpp: uniform_sampling"]}
{"id": "C80", "title": "spectrum of the block preconditioner of the option pmm", "statement": "With the option pmm the outer iteration of the stokes solver is preconditioned by the upper Schur factorisation: pressure residual divided by the diagonal of the pressure mass matrix, then a velocity solve with the gradient of that pressure taken off. With exact velocity solves one application is defined for every residual, unique, and makes the velocity rows of the operator equal to the velocity residual. The preconditioned operator has only real eigenvalues (there is no complex eigenvector with another eigenvalue): each is 1 or lies between 0 and D (3/2)^D (D/2 (3/2)^D for the strain tensor), a bound that does not depend on the grid, the steps or the number of processes. The eigenvalue 1 occurs for every velocity (with one pressure), 0 occurs for the constant pressures at rest and for nothing else.", "quantifier": "all grids (with the conditions of C66), periodicities, steps, process grids, condition tables, residuals and complex eigenvectors, 2D and 3D, both viscous operators", "why_tests_cant": "a statement about every eigenvector on every grid", "anchors": ["cafes/problem/stokes.hpp: setPMMSolver, setup_KSP", "cafes/fem/matrixFree.hpp: stokes_matrix, diag_block_matrix, diag_diag_block_matrix"]}
{"id": "C81", "title": "the matrix-free operators in double arithmetic", "statement": "Computed in IEEE doubles, with element matrices rounded from the steps, the products of the kernels accumulated in the order of the loops and the contributions of the processes added in any order and grouping, the Laplacian, mass, strain tensor and Stokes operators of a 2D or 3D grid give, at every node, the value of the operator over the reals up to (N + c) 2^-53 times the same operator applied to the absolute values of the argument with the terms of its entries taken in absolute value, plus (N + 1) 2^-1075: N is the number of products per entry (4^D for a scalar operator, D 4^D for the strain tensor, 6^D more for the pressure terms), c at most 8, whatever the grid and the number of processes. The result is finite when the argument is and no overflow threatens. The diagonals are accurate to (2^D + 7) 2^-53 relative to themselves. So two distributions over processes give results that differ at most by twice that bound; they need not give the same doubles: with steps 1 on 3 x 2 points the mass operator gives 1 on one process and 1 - 2^-53 on two.", "quantifier": "all grids, periodicities, distributions over processes, finite steps between 2^-100 and 2^100, vectors of doubles and orders of the additions between processes, 2D and 3D", "why_tests_cant": "rounding depends on every input and on the order in which messages arrive", "anchors": ["cafes/fem/operator.hpp: kernel_diag_block, kernel_tensor_block, kernel_diag_diag_block, kernel_off_diag_block", "cafes/fem/matElem.hpp: getMatElemLaplacian, getMatElemMass, getMatElemStrainTensor, getMatElemPressure", "cafes/fem/matrixFree.hpp: diag_block_matrix, diag_diag_block_matrix, stokes_matrix"]}
{"id": "C82", "title": "boundary conditions and right-hand side in double arithmetic", "statement": "Computed in IEEE doubles, on any distribution of the grid over processes: imposing the boundary conditions never fails and changes exactly the constrained entries. The constrained rows of the Laplacian, strain tensor and Stokes operators return the entry of the argument bit for bit, and all other rows are those of the operator without conditions with the error bound of C81. The right-hand side has, at a constrained entry, bit for bit the value of the function of the last side the node lies on (in the order of the sides) at the computed coordinates, each within 2^-53 (relative, plus 2^-1075) of index times step; elsewhere it is the mass operator applied to the nodal values of the load with the error bound of C81, and exactly 0 without a load.", "quantifier": "all 2D and 3D grids, periodicities, decompositions, orders of the additions, complete tables of conditions (any functions of double coordinates, null entries allowed), loads, steps between 2^-100 and 2^100, vectors of doubles", "why_tests_cant": "A test fixes a grid, a number of processes, a table and a vector; that no constrained row carries a rounding error and no free row is touched, for every table and every order of the additions, is a statement about all of them.", "anchors": ["cafes/fem/bc.hpp: SetDirichletOnVec", "cafes/fem/bc.hpp: SetDirichletOnRHS", "cafes/fem/bc.hpp: SetNullDirichletOnRHS", "cafes/fem/matrixFree.hpp: diag_block_matrix", "cafes/fem/matrixFree.hpp: stokes_matrix", "cafes/fem/rhs.hpp: set_rhs", "cafes/problem/stokes.hpp: setup_RHS"]}
{"id": "C83", "title": "triangulation of a set of points", "statement": "triangulation() hands the coordinates to Qhull point after point. In 3D, when all facets Qhull returns are triangles, it returns exactly those facets, in Qhull's order, as triples of point numbers. In 2D it returns the facets flagged tri-coplanar only (those that come from splitting a larger facet), in Qhull's order, followed by one degenerate triangle (0,0,0) for every other facet, so as soon as one facet is not flagged (points in general position) the result contains a triangle that is no facet, and when none is flagged it contains nothing else. A stored facet with more than three vertices is written past the end of its triangle (undefined behaviour).", "quantifier": "all lists of 2D and 3D points and all lists of facets Qhull may return", "why_tests_cant": "A test runs Qhull on a few point sets; the claim is for every list of facets, whatever the number and the position of the flagged ones.", "anchors": ["cafes/particle/geometry/triangulation.hpp: triangulation_", "cafes/particle/geometry/triangulation.hpp: triangulation"]}
{"id": "C84", "title": "transfers between the grid and the surface points in double arithmetic", "statement": "Computed in IEEE doubles: interpolating the fluid velocity at a surface point never fails and gives, in each component, the value of the Q1 field over the reals up to (2^D + 12) 2^-53 times the same sum with the terms in absolute value (plus underflows); a process that looks after the cell gets the same bits whatever the distribution of the grid over processes; and in a cell (up to a fraction eps of its sides) the result is finite and between the smallest and the largest of the corner values, up to rounding and the fraction ((1+2 eps)^D - 1)/2 of their difference. Spreading the forces of the surface points over the grid never fails, and whatever the distribution and the order in which contributions of processes are added, the entry of a node that receives at most K terms is within (K + 13) 2^-53 (of the sum of the terms in absolute value, plus (K + 1) 2^-1075) of the sum over the reals. So against any nodal field the spread forces have the power of the forces at the surface points in the interpolated field, and in particular the same total, up to the sum of these errors. With boundary conditions the constrained entries are exactly 0 and the others keep that bound. The weight of a surface point is the area over the number of points within 2^-53.", "quantifier": "all 2D and 3D grids, periodicities, distributions over processes, orders of the additions, steps between 2^-100 and 2^100, surface points at most two steps from the corner of their cell, forces, weights, vectors of doubles, numbers of terms up to 2^20", "why_tests_cant": "rounding depends on every input and on the order in which messages arrive; a test fixes one particle and one number of processes", "anchors": ["cafes/problem/particle_operator.hpp: interp_fluid_to_surf", "cafes/problem/particle_operator.hpp: SL_to_Rhs", "cafes/fem/quadrature.hpp: P1_integration"]}
{"id": "C85", "title": "second-order accuracy of the interpolation", "statement": "When the nodal velocities are those of a function with a second derivative along every axis, bounded by M_j along the axis j, the value interpolated at a surface point of a particle (the ones whose cell the process looks after, in the particle's order) is within the sum over the axes of M_j h_j^2/8 of the function at that very point. The refined grid of the post-treatment carries the function up to the same bound at all its nodes. Computed in doubles, the interpolated value keeps that bound up to the rounding error of C84. Halving the steps divides the bound by 4, and for quadratic functions it is reached in the middle of every cell. The power of the forces spread over the grid against such a field is that of the forces on the function at the surface points, up to the bound weighted by the absolute forces.", "quantifier": "all 2D and 3D grids, periodicities, distributions over processes, steps, particles, smooth fields, forces and refinement factors", "why_tests_cant": "The order of accuracy is a statement about all smooth functions and all steps; a convergence test samples a few functions and step sizes.", "anchors": ["cafes/problem/particle_operator.hpp: interp_fluid_to_surf", "cafes/problem/particle_operator.hpp: SL_to_Rhs", "cafes/fem/quadrature.hpp: P1_integration", "cafes/posttraitement/interpolation.hpp: linear_interpolation"]}
{"id": "C86", "title": "second-order consistency of the discrete equations", "statement": "Take the nodal values of smooth functions. At every interior node (off the walls; any node when all axes are periodic) the Laplacian operator gives, over the volume of a cell, minus the Laplacian of the function there up to sum_j (h_j^2/12 M_jj + sum over i other than j of h_i^2/6 M_ji), M_ji bounding the second derivative along i of the second derivative along j near the node; the mass operator gives the function up to sum_i h_i^2/6 M_i. The velocity rows of the Stokes operator give minus the Laplacian plus the gradient of the pressure, with the additional error 2/3 h_c^2 N_cc + sum of h_i^2/2 N_ci (third derivatives of the pressure); the pressure rows give, over the volume of a pressure cell, the divergence of the velocity up to 5/12 sum h_i^2 N. So the nodal values of a solution of the Stokes equations with the given load satisfy every equation of the system the driver sets up, boundary conditions and load included, at every interior node, up to the volume of the cell times these bounds. Halving the steps divides the bounds by four; for the fourth power of a coordinate (Laplacian) and its square (mass) they are equalities.", "quantifier": "all 2D and 3D grids, periodicities, distributions over processes, steps, smooth functions (no continuity of the highest derivatives is needed), interior nodes, tables of conditions and loads", "why_tests_cant": "The order of a scheme is a statement about all smooth solutions and all steps; a convergence study samples a few of each.", "anchors": ["cafes/fem/operator.hpp: laplacian_mult, mass_mult, B_and_BT_mult", "cafes/fem/matElem.hpp: getMatElemLaplacian, getMatElemMass, getMatElemPressure", "cafes/fem/matrixFree.hpp: stokes_matrix", "cafes/problem/stokes.hpp: setup_RHS"]}
{"id": "C87", "title": "convergence of the discrete solution", "statement": "Take a smooth u with minus Laplacian u = f, f being the load and u the prescribed values on the walls, every wall carrying a condition for every component (periodic axes allowed, at least one axis d having walls). The system made of the Laplacian operator with its boundary conditions and the right-hand side of setup_RHS has a solution, and the mean over the nodes of the squares of the differences between a solution and u is at most (S L^2 (E_lap + E_mass))^2: L is the length of the domain along d, S is 12 (2D) or 72 (3D), E_lap and E_mass are the consistency errors of C86. So there is one constant C, depending only on the dimension, L and the bounds of the derivatives, such that on every grid with steps at most s the root mean square error is at most C s^2. The energy of the error of a component, the sum over the nodes of the operator applied to the error times the error, is at most the volume of a cell times the number of nodes times S L^2 (E_lap + E_mass)^2.", "quantifier": "all 2D and 3D grids with at least one cell per axis, periodicities, distributions over processes, steps, complete tables, loads, smooth solutions, solutions of the discrete system", "why_tests_cant": "Convergence is a statement about the limit of infinitely many grids and all smooth solutions; a convergence study computes a few errors.", "anchors": ["cafes/fem/operator.hpp: laplacian_mult, mass_mult", "cafes/fem/matElem.hpp: getMatElemLaplacian, getMatElemMass", "cafes/fem/matrixFree.hpp: diag_block_matrix", "cafes/fem/bc.hpp: SetDirichletOnVec, SetDirichletOnRHS", "cafes/fem/rhs.hpp: set_rhs", "cafes/problem/stokes.hpp: setup_RHS"]}
{"id": "C88", "title": "second-order consistency of the strain-tensor operator", "statement": "Take the nodal values of smooth velocities. At every interior node the strain-tensor operator gives, over the volume of a cell, the component c of minus the divergence of twice the rate of strain, - sum_j d_j (d_j u_c + d_c u_j), up to the error of the Laplacian (C86), that of the second difference of u_c along c once more (h_c^2/12, h_i^2/6) and, for each other component j, h_j^2/2 N_jj + h_c^2/2 N_jc + the sum over the remaining axes of h_i^2/6 N_ji, N_ji bounding the second derivative along i of d_c d_j u_j. For a divergence-free flow the limit is minus the Laplacian, the same as with the other viscous operator. So the nodal values of a solution of the Stokes equations written with the stress satisfy every equation of the system set up with the strain tensor, boundary conditions and load included, at every interior node, up to the volume of the cell times terms that are divided by four when the steps are halved.", "quantifier": "all 2D and 3D grids, periodicities, distributions over processes, steps, smooth flows (no continuity of the highest derivatives is needed), interior nodes, tables of conditions and loads", "why_tests_cant": "A run on one grid compares numbers; the order of the error is a statement about all steps and all smooth flows.", "anchors": ["cafes/fem/matElem.hpp: getMatElemStrainTensor", "cafes/fem/operator.hpp: strain_tensor_mult", "cafes/fem/matrixFree.hpp: diag_block_matrix, stokes_matrix", "cafes/fem/rhs.hpp: set_rhs", "cafes/problem/stokes.hpp: setup_RHS"]}
{"id": "C89", "title": "convergence of the discrete solution, strain-tensor form", "statement": "Take a smooth field u with minus the divergence of twice its rate of strain equal to f, in a box (no periodic axis), f being the load and u the prescribed values on the walls, every wall carrying a condition for every component. The system made of the strain-tensor operator with its boundary conditions and the right-hand side of setup_RHS has a solution, and the mean over the nodes of the squared length of the difference between a solution and u is at most the sum over the components of the squares of S L^2 E_c: L bounds the lengths of the box, S is 6 (2D) or 36 (3D), E_c is the consistency error of C88 and of the load in the equation of the component c. So there is one constant C, depending only on the dimension, L and the bounds of the derivatives, such that on every grid with steps at most s the root mean square error is at most C s^2. The energy of the error, the work of the operator on it, is at most the volume of a cell times the number of nodes times S L^2 times the sum of the squares of the E_c. In two dimensions the same holds with one periodic axis, L being the length along the axis that has walls and S being 12.", "quantifier": "all 2D and 3D grids without periodic axes, and those in 2D with one, with at least one cell per axis, distributions over processes, steps, complete tables, loads, smooth solutions, solutions of the discrete system", "why_tests_cant": "Convergence is a statement about the limit of infinitely many grids and all smooth solutions; a convergence study computes a few errors.", "anchors": ["cafes/fem/operator.hpp: strain_tensor_mult, mass_mult", "cafes/fem/matElem.hpp: getMatElemStrainTensor, getMatElemMass", "cafes/fem/matrixFree.hpp: diag_block_matrix", "cafes/fem/bc.hpp: SetDirichletOnVec, SetDirichletOnRHS", "cafes/fem/rhs.hpp: set_rhs", "cafes/problem/stokes.hpp: setup_RHS"]}
