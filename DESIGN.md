# Formal model of lanl/ELEMENTS in Rocq (Coq 8.16)

## Conventions

* `rocq/theories/Model_*.v` hold only definitions, each citing the file and lines of /repo it models. `Spec_*.v` hold the small independent specifications, `Prop_*.v` the property theorems (named `Cxx_...`), their `Print Assumptions` and an example next to each group that a concrete, non-trivial case meets the hypotheses. All other files (`Proof_*.v`, `Base.v`, `RSum.v`, `Poly.v`, `Det.v`, ...) are libraries and proofs.
* C++ undefined behaviour and run-time failures are values of the result type `res` (`Ok v | Err e`, `Base.v`): out-of-bounds access (`OOB`), division by zero (`DivZero`), undefined shift (`BadShift`), reading memory that was never written (`Uninit`), a failed assert / exit (`Exited`), a loop that does not end (`Fuel`), an int that does not fit 32 bits (`Overflow`, only in C75). A theorem concluding `Ok` also proves that none of these happens.
* `double` is modelled by exact real numbers (Coq's `R`); rounding is modelled only where a property says so (C72 on: every operation rounded by an arbitrary function with relative error u, in particular 53-bit round to nearest even); overflow to infinity, underflow and NaN are not modelled. A division whose divisor is zero is an error, never a made-up number. `size_t` arithmetic is modelled modulo 2^64 where a property is about it (C01-C04); mesh indices are unbounded naturals except in C75, which says when 32-bit ints suffice.
* MATAR's CArray/ViewCArray/RaggedRightArray (not in /repo) are modelled as row-major arrays with bounds checks. In /repo these checks exist only in debug builds: where the model says `OOB`, the release code reads or writes outside the array.
* Where the code does something else than its documentation or a reasonable user expects, the theorem states what the code does, and a theorem with the suffix `_refuted` gives a concrete input on which the expected property fails.

## Plan and result per property

For each property: what is modelled, how it is proved, and what the theorems leave out. The theorem names are in MANIFEST.json.

* **C01 Mixed-radix digits round-trip to the number** (Prop_Common.v) — 64-bit wrap as mod 2^64, division by zero as error. Induction on the radix list.
* **C02 Mixed-radix numbers round-trip to the digits** (Prop_Common.v) — Same model; induction on the radix list against a positional-value specification (Spec_Common.v).
* **C03 Partial-derivative encoding: exact round-trip domain** (Prop_Common.v) — The shift is on a 32-bit int: amounts >= 32 are undefined, bit 31 is sign-extended. Bitwise reasoning inside the good box, explicit witnesses outside.
* **C04 Coincident-vertex search** (Prop_Lagrange.v) — `almost_equal` with Rlt_dec on exact reals; index arithmetic mod 2^64. Induction on the vertex list; full characterisation of the returned index.
* **C05 Lagrange basis evaluation is the Lagrange polynomial** (Prop_Lagrange.v) — Checked division, product lemmas over index ranges; the specification is the product formula (Spec_Lagrange.v).
* **C06 Interpolant evaluation reproduces polynomials** (Prop_Lagrange.v) — As C05 plus uniqueness of interpolation (a polynomial of degree < N with N roots is zero).
* **C07 First derivative of the interpolant** (Prop_Lagrange.v) — Derivative in the sense of `derivable_pt_lim` of the specification polynomial.
* **C08 Higher and zero derivative orders of the interpolant** (Prop_Lagrange.v) — Order 2 by the divided-difference recursion; the exact error at order 3, the value 0 at order 0.
* **C09 Lagrange element basis is nodal** (Prop_Lagrange.v) — Tensor-product specification over the mixed-radix digits; uses C02 and C05.
* **C10 Lagrange element field evaluation** (Prop_Lagrange.v) — Loop model with explicit work array; the result equals the triple sum for any initial work array.
* **C11 Lagrange element gradients** (Prop_Lagrange.v) — As C10 with derivatives.
* **C12 Lagrange element Jacobian algebra** (Prop_Lagrange.v) — Ring/field reasoning on 3x3 matrices plus C11.
* **C13 Legendre polynomial values** (Prop_Poly.v) — Induction on n for the recurrence; orthogonality and norm by Riemann integration (Coquelicot).
* **C14 Legendre derivatives** (Prop_Poly.v) — Induction with the contiguous relations of the Jacobi recurrence.
* **C15 Jacobi values and derivative normalisation** (Prop_Poly.v) — Values by induction, orthogonality for natural exponents by integration by parts; exact wrong factor of the derivative for alpha <> beta.
* **C16 Legendre series evaluation** (Prop_Poly.v) — Fold model of the series; induction; tensor version for the element class.
* **C17 Point distributions** (Prop_Points.v) — Real algebra; sine/cosine monotonicity for Chebyshev points.
* **C18 LU factorisation** (Prop_LU.v) — Row-operation invariant of the Crout loop over R for every size; P A = L U.
* **C19 LU solve** (Prop_LU.v) — Invariants for forward and backward substitution, including the skipping of leading zeros.
* **C20 LU inverse and determinant** (Prop_LU.v) — From C18, C19; determinant specified by Leibniz expansion over permutations (Det.v), product rule proved.
* **C21 3x3 and 4x4 Jacobian inverses** (Prop_Jac.v) — `field`/`ring` on explicit matrices.
* **C22 jacobian_3d determinant and inverse are wrong** (Prop_Jac.v) — Exact characterisation of what the 3D functions compute and witnesses that it is wrong.
* **C23 Cells around a node** (Prop_Conn.v) — Array-loop model with bounds checks; CSR invariants by the loop rule.
* **C24 Corner numbering** (Prop_Conn.v) — Same loop library; corner ids are a bijection with (cell, local node).
* **C25 Cell neighbours** (Prop_Conn.v) — Same; exact neighbour sets; the case without shared nodes is proved to be an out-of-bounds write.
* **C26 Patch connectivity** (Prop_Patch.v) — Same, from arbitrary integer face keys on (the keys themselves: C33, C54).
* **C27 Boundary patches** (Prop_Patch.v) — Same.
* **C28 Boundary sets** (Prop_Patch.v) — State machine over histories of tag calls.
* **C29 Element connectivity** (Prop_Conn.v) — Same loop library.
* **C30 Node merging during refinement** (Prop_Refine.v) — Loop model of the merge on arbitrary keys; exact characterisation by induction over the key list.
* **C31 Refined index maps** (Prop_Refine.v) — Loop model; closed forms by induction, for every order and number of elements.
* **C32 Refinement geometry** (Prop_Geom.v) — `ring`/`nra` on the trilinear map.
* **C33 Spatial-hash keys** (Prop_Geom.v) — Index arithmetic of the keys over R; sufficient conditions for injectivity and collision witnesses.
* **C34 Zones partition the cells of the reference element** (Prop_Ref.v) — Index arithmetic for all orders.
* **C35 Reference corners** (Prop_Ref.v) — Same.
* **C36 Corner weights partition node weights** (Prop_Ref.v) — Sums over grids, any 1D weight table.
* **C37 Reference patch numbering** (Prop_Ref.v) — Invariant of the numbering loop: first-come numbering of the faces of the cell grid.
* **C38 Surface and interior reference nodes** (Prop_Ref.v) — Loop model; the two lists are complementary and sorted.
* **C39 BLAS/LAPACK wrappers** (Prop_Blas.v) — Packing model over memory with unset cells; reference BLAS loops; LAPACK by contract.
* **C40 VTK vertex maps and grid round trip** (Prop_Vtk.v) — `PointIndexFromIJK` as argument (a permutation, proved for VTK's documented numbering); round trip and overwrite rules of both conversions.
* **C41 Hexahedron volume formula** (Prop_Geom.v) — Volume specified as an iterated Riemann integral of the Jacobian determinant (Coquelicot); the closed form by computation.
* **C42 Tensor quadrature enumeration** (Prop_Quad.v) — Loop model of the tensor rules on the literal 1D tables.
* **C43 Quadrature tables** (Prop_Quad.v) — Interval arithmetic on the literal tables (exact rationals): moments up to the exact degree, within stated bounds; symmetry; order.
* **C44 Serendipity/linear shape functions** (Prop_Shape.v) — `ring`/`field` per shape function.
* **C45 Shape function derivatives** (Prop_Shape.v) — `derivable_pt_lim` per shape function; exact list of the wrong entries.
* **C46 Vertex-to-node and surface tables** (Prop_HexN.v, Prop_Shape.v) — Table comparison against coordinates; HexN for every order by induction.
* **C47 HexN basis and derivatives** (Prop_HexN.v) — As C05 for the HexN/QuadN classes, any table with distinct vertices.
* **C48 Structured box mesh** (Prop_Box.v) — Loop model for all sizes and lengths.
* **C49 Partitioned 1D weights** (Prop_Quad.v) — Every symmetric rule, then the tables of the code.
* **C50 Mesh and reference element agree on sizes** (Prop_Ref.v) — nat arithmetic.
* **C51 Geometry Jacobians from basis gradients** (Prop_Jac.v) — Sums and the matrix algebra of C21; one model for the three identical loop nests.
* **C52 Cell and patch centres, boundary test** (Prop_Geom.v) — Sums; case analysis on the tag.
* **C53 Mesh file dispatch** (Prop_Vtk.v) — String model with VTK readers/writers as arguments.
* **C54 Hash spacing uses the last cell only** (Prop_Geom.v) — Characterisation of the 28-pair scan and of the overwriting loop.
* **C55 Volumes from corner Jacobians** (Prop_Jac.v) — Loop invariant; exactness for affine cells.
* **C56 Reference corner surfaces** (Prop_Ref.v) — Loop model of the normals and surface weights of corners.
* **C57 Basis tables of the reference element** (Prop_HexN.v) — C47 at the quadrature positions, loop invariants for the tables.
* **C58 Gauss-Jacobi quadrature** (Prop_Poly.v) — Golub–Welsch: the symmetric tridiagonal matrix's eigenpairs (dstev's contract) give the nodes/weights exact for degree 2n-1; orthogonal polynomials with natural exponents.
* **C59 High-order mesh refinement** (Prop_High.v) — End-to-end model from the high-order input mesh to the refined mesh: placement (tensor Lagrange, exact), hashing, merging, index maps. Error bounds, exactness for boxes, common faces; refutation for thin elements.
* **C60 Jacobian determinants at the Lobatto points** (Prop_HighJac.v) — Loop model around C12/C59; which entry gets which determinant; exactness for polynomial maps.
* **C61 Refining a linear mesh, end to end** (Prop_Full.v, Prop_Full2.v) — refine_mesh composed from the parts of C28-C33, C54 (Model_Full.v): points, keys, merging, cells, then build_connectivity on the result; grids of boxes by separating sums of integer shifts and Lobatto points; failures and a refutation above order 5.
* **C62 The averaging example: what a run computes** (Prop_Average.v, Prop_Average2.v) — Model_Average.v on top of Model_Full: the loops are assignments of means (counting cells with multiplicity); cycles are iterates of a monotone affine map; convergence by monotone limits from constant bounds, uniqueness by spreading of the maximum; grids of boxes through C61_boxes.
* **C63 Reading a mesh file, in particular one of the box mesh creator** (Prop_File.v) — Token model of the fscanf loops (Model_File.v, Model_Average.v): loops over (cell, vertex) flattened, scanned prefixes; composition with C48 (what the box mesh creator writes) and C61_boxes; the lattice of nodes by a canonical element for every crossing of lines and counting.
* **C64 What a graphics dump contains** (Prop_Dump.v) — Model of ensight (average.cpp:1001-1289) as lists of printed numbers: loops that append are map/flat_map; table of cell variables by loop invariants; composition with the reader of C63.
* **C65 Initial cell field from regions** (Prop_Init.v) — Model of initialize_state with the fall-through of the switch; induction over the regions; unset members are parameters.
* **C66 A run of examples/average** (Prop_Run.v, Prop_Run2.v) — Model of main's cycle loop: induction over cycles with the dumps so far as an invariant; convergence on box files through C62, C63 and the smoothing of a field that depends on one direction only.
* **C67 Geometry checks of examples/average** (Prop_Gcl.v) — The Jacobian cofactors are bilinear in the positions; the area sum telescopes over cells to the six element faces, and per pair of basis functions becomes 1D integrals of derivatives of products (fundamental theorem of calculus plus the error of the rule). Volume: the determinant is trilinear, so the tensor rule and the iterated integral factor into 1D ones; polynomial degree 3p against 4p-1.
* **C68 Half-annulus example: mesh, Jacobian determinants and VTK grid** (Prop_Annulus.v) — Loop invariants giving the whole contents of the coordinate and connectivity arrays after each vertex; numbering lemmas by division. Determinants: C12 per vertex; at a vertex the partial derivatives are 1D slopes, which give radius times the slope of an interpolant of the sine; its error by a Rolle argument (interpolation error of a derivative at a vertex, proved in Rolle.v). Output through C40.
* **C69 element_selector hands out the element that was asked for** (Prop_Select.v) — Pointer as optional class; the pointer after a history by induction on the list; then C44 and C45 for the class reached.
* **C70 Accuracy of interpolated values, slopes and gradients for smooth functions** (Prop_Accuracy.v) — Rolle argument on an interval (Interp_Err.v): sort the vertices, n zeros of the error leave n-k zeros of its k-th derivative, so the k-th derivative of the interpolant interpolates the k-th derivative at n-k points. Tensor products by adding the errors of the directions one after the other.
* **C71 Accuracy of the quadrature rules for smooth integrands** (Prop_QuadErr.v) — Taylor polynomial at 0 of the degree of the rule (Quad_Err.v): the rule is exact on it up to the table tolerance (C42, C43, C58), the remainder is at most M/(deg+1)!, and the weights sum to at most 2+tol in absolute value. Tensor rules by one direction after the other.
* **C72 Rounding errors of the LU routines** (Prop_FloatLU.v) — Model_FloatLU.v repeats Model_LU.v with every operation rounded by a function with relative error u (identical to Model_LU.v when it does not round). Invariant of the column loop: every entry of the permuted matrix is the sum of its factor products, each times a product of at most n roundings (Float_Base.v); same for the two substitutions; the perturbations are then collected. The unstable example is evaluated with the 53-bit rounding of Flocq.
* **C73 Rounding errors of Lagrange interpolation** (Prop_FloatLagrange.v) — Model_FloatLagrange.v repeats Model_Lagrange.v with every operation rounded (identical when it does not round). Loop invariants: every weight, nodal polynomial and summand is the exact one times a product of a bounded number of roundings; the barycentric identities of Lagrange_Math.v then turn the computed value into an exact interpolant of perturbed coefficients. The derivative uses sum_j l_j/(X - Z_j) = sum_k 1/(X - Z_k). The concrete doubles are evaluated operation by operation with integer arithmetic that is proved to agree with the 53-bit rounding of Flocq (Float_Eval.v).
* **C74 Complex instantiation and the complex-step method** (Prop_Complex.v) — Model_Complex.v keeps the type parameter of the templates (a record of operations); the Real instance is convertible to the models of the other properties. A relational-parametricity proof (Proof_CParam.v) gives equality on real data. Over C: barycentric algebra redone with complex vertices (CLagrange_Math.v), complex derivatives as limits of difference quotients; Legendre and Jacobi values are polynomials with the same real coefficients on R and C. Complex step: the Taylor expansion of such a polynomial in ih (CStep.v).
* **C75 Mesh refinement with 32-bit ints** (Prop_Int.v) — Model_Int.v repeats the refinement code with a check that every hash key, bin count, size and final counter value fits an int. A simulation proof gives equality or Overflow. Upper and lower bounds on the keys in terms of the extents of the mesh give the fit and overflow theorems; for grids of boxes the number of cells and elements at a node is bounded by an injection into the corner positions; the unit cube is a computation with bounds on the Lobatto end gaps.
* **C76 Rounding errors of Legendre and Jacobi evaluation** (Prop_FloatPoly.v) — Model_FloatPoly.v rounds every operation. Divided by its value at 1, each family satisfies q(n+1) = (1+t) X q(n) - t q(n-1) with 0 <= t <= 1 (Three_Term.v); the quadratic form a^2 - 2Xab + b^2 of consecutive values does not grow, which bounds the values and adds up the local errors. A calculus of relative errors (near M K f x) carries the bounds through products, sums and the three passes of the elements.
* **C77 Mesh refinement in floating-point arithmetic** (Prop_FloatRefine.v) — Model_FloatRefine.v rounds every operation of refine_mesh up to the keys; the integer part is that of Model_Full.v. On faces and edges the vanishing terms of the trilinear sum drop out exactly (rounding commutes with doubling), which leaves four or two terms in the order of the corners; positions and keys are compared with the exact ones by relative-error products. The counterexample is evaluated in binary64 (Float_Eval.v).
* **C78 Patches and connectivity in floating-point arithmetic** (Prop_FloatPatch.v) — Model_FloatPatch.v rounds every operation of the patch keys; the rest of build_connectivity works on integers and is shared with C61 (conn_from). Side centres are compared term by term; keys by a chain of absolute-error bounds (key_err). The counterexample is evaluated in binary64 (Float_Eval.v).
* **C79 Rounding errors of Jacobians, inverses and volumes** (Prop_FloatGeom.v) — Model_FloatGeom.v rounds every operation of Model_Jac.v and Model_Vol.v. A calculus (ap) carries for every subexpression the bound on its absolute value and the number of roundings; a second one (exg) shows that on a grid no operation rounds. The counterexamples are evaluated in binary64 by reflection (Ex_FloatGeom.v).
* **C80 The averaging example in floating-point arithmetic** (Prop_FloatAverage.v, Prop_FloatAverage2.v) — Model_FloatAverage.v rounds every operation of Model_Average.v. Error of one cycle by gamma calculus, of k cycles by composing positive relative errors; uniform bound by a barrier function; [0,10] by evaluating the computed means of 10 over 1 to 8 cells in binary64; standstill because binary64 numbers between 0 and 10 with bounded exponent from below at a rising sequence are finitely many.
* **C81 A run of the averaging example in floating-point arithmetic** (Prop_FloatRun.v) — The cycle loop of Model_FloatAverage.v (cyclesf, simulatef). Same invariant as C66 with the accumulated clock; the clock by induction between powers of 1-u; single cases by evaluating 500 and 1008 rounded additions in binary64 by reflection.
* **C82 The averaging example on a box in binary64: from the mesh file to the field at rest** (Prop_FloatRun2.v) — The bounds of C80 with the weight 2q(n-q)+1, which a cycle lowers by 1 inside; the node numbering and smoothing formula of the box from C66; the dumps from C81.
* **C83 The whole averaging example in floating-point arithmetic: reading, refining, boundary sets, start fields, run** (Prop_FloatSetup.v) — The loops with rounding in place, as in C62 and C65; error of the centres as a weighted sum (C78), of the radii by the triangle inequality for the norm; connectivity of the read mesh and of the refined mesh from C78, the runs from C80 and C81. The last cell of an example mesh by C77.
* **C84 Point distributions in floating-point arithmetic** (Prop_FloatPoints.v) — Model_FloatPoints.v rounds every operation of Model_Points.v; loops as in C17. Roundings collected by the gamma calculus; symmetry because rounding commutes with the sign; order because rounding is monotone; sine Lipschitz for the angles. The overshoot is evaluated in binary64.

## Trusted base

1. Coq 8.16.1's kernel (and, when `coqchk` is run, its re-implementation). No plugin, no `native_compute`, no axiom of our own, no `Admitted`, no functor or module type.
2. The standard library's axioms for classical real numbers, as listed by `Print Assumptions` for each theorem (short names: `ClassicalDedekindReals.sig_forall_dec`, `ClassicalDedekindReals.sig_not_dec`, `FunctionalExtensionality.functional_extensionality_dep`, `Classical_Prop.classic`). The libraries used besides the standard library are Coquelicot (C13, C15, C41, C43, C58: Riemann integrals), Flocq (C72 on: rounding to 53 bits) and mathcomp (ssreflect only, through Coquelicot); they add no axiom.
3. That the model describes the code: each definition of `Model_*.v` cites the lines it models; simplifications are stated in the header of each model file and at the definition. The mutation tests in `seeded/LOG.jsonl` test the theorems, not this correspondence.
4. What the code calls and /repo does not contain: `std::tgamma` (any function with G(1)=1, G(x+1)=xG(x)), `std::pow`/`std::sqrt`/`std::cos` (exact), VTK (arguments with stated contracts, C40 and C53), LAPACK `dgetrf`/`dgetrs`/`dstev` (arguments with stated contracts), BLAS `dgemv`/`dgemm` (the loops of the reference BLAS), MATAR arrays (see above).

`Print Assumptions` of the theorems, grouped:

* Closed under the global context (no axiom) — 67 theorems: C01_number_round_trip, C01_zero_radix_divides_by_zero, C02_digits_round_trip, C02_distinct_digits_distinct_numbers, C02_every_number_reached, C02_overflow_collides_refuted, C03_round_trip_exact_domain, C03_zero_order_undefined, C23_cells_around_node, C23_bad_id_out_of_bounds, C24_corners, C25_cell_neighbours, C25_symmetric, C25_no_neighbours_out_of_bounds, C26_patches, C26_side_corners, C27_boundary_patches, C28_sets_in_order, C28_out_of_order_unset, C28_index_n_exits, C28_retag_corrupts_refuted, C29_elements_around_node, C29_element_neighbours, C30_merge, C30_count, C30_numbering, C30_first_point_duplicated, C31_maps, C31_cells_partition, C31_cell_nodes, C34_zones_partition, C34_zone_is_block, C34_order_zero, C35_corners_enumerated, C35_positions, C37_side_nodes, C37_shared_side_nodes, C38_surface_inside, C39_transpose, C39_transpose_twice, C39_transpose_rejects, C39_matmul_shapes, C39_eig_failure, C39_eig_rejects, C40_vtk_numbering, C40_maps, C40_short_map, C40_write, C40_write_solution, C40_read, C40_round_trip, C40_round_trip_grid, C40_bad_cell, C40_short_cell, C42_every_combination_once, C47_hexn_unknown_order, C48_numbering, C48_boundary_points, C50_sizes_agree, C50_global_ids, C51_numbering_injective, C53_dispatch, C53_files, C61_side_corners, C69_num_nodes, C80_lists, C80_counts
* `sig_forall_dec` — 16 theorems: C36_tensor_points, C37_patch_numbering, C37_side_normals, C39_matvec_wide, C39_matvec_tall, C39_matvec_rejects, C39_matmul_wide, C39_matmul_tall, C39_matmul_rejects, C39_invert_singular, C39_invert_rejects, C39_invert_messages, C46_hexn_vertex_map, C62_apply_boundary, C64_lists, C64_reread
* `sig_forall_dec`, `functional_extensionality_dep` — 177 theorems: C04_unique_hit, C04_no_hit, C04_two_hits, C04_wrong_vertex_refuted, C05_weights, C05_repeated_vertex_divides_by_zero, C05_eval_is_lagrange, C05_lagrange_polynomial, C06_interpolant, C06_vertex_value, C06_reproduces_polynomials, C07_first_derivative, C07_basis_derivative, C08_second_derivative, C08_order_zero_returns_zero, C08_third_order_exact, C08_third_derivative_refuted, C09_element_basis, C09_constructor, C09_nodal_and_unity, C10_field_value, C10_nodal_values, C11_basis_gradient, C11_field_gradient, C12_jacobian, C14_legendre_derivatives, C15_jacobi_values, C15_jacobi_der_symmetric, C15_jacobi_der_asymmetric, C15_jacobi_der_witness, C16_series, C16_element, C17_equispaced, C17_equispaced_single, C18_failure_iff_zero_row, C18_factorisation, C18_factorisation_any, C18_parity_is_sign, C19_solve, C19_unique, C20_inverse, C20_determinant, C20_det_invertible, C20_singular_accepted, C21_mat_inverse, C21_inverse_2d, C21_inverse_4d, C21_jacobian_2d, C21_jacobian_4d, C22_jacobian_3d_det, C22_jacobian_3d_refuted, C22_inverse_3d_divzero, C22_inverse_3d_refuted, C22_inverse_3d_symmetric, C32_corners, C32_affine, C32_convex, C32_face_local, C32_adjacent_agree, C33_refine_keys, C33_patch_keys_same, C33_patch_keys_separate, C36_corner_weights, C39_matvec, C39_matmul, C39_matmul_small_output, C39_invert, C39_lapack_promise_satisfiable, C39_eig, C41_stored_centre_wrong, C44_basis, C44_position, C44_affine, C44_hex32_position_oob, C45_partials, C45_xi_partials_of_hex20_and_hex32, C46_vertex_maps, C46_surfaces, C46_surface_errors, C47_hexn_basis_and_partials, C47_hexn_nodal_and_unity, C47_quadn, C47_quadn_corners, C47_quadn_position_accumulates, C48_builds, C48_points, C48_cell_points, C48_cell_centre, C48_faces, C48_face_cells, C48_cell_faces, C48_boundary_neighbours, C48_face_orientation, C48_ensight, C49_sub_weights, C49_length_weights, C51_point_jacobians, C52_cell_centre, C52_patch_centre, C55_vol_jacobi, C55_affine_volume, C56_corner_surfaces, C57_tables, C57_nodal_tables, C62_smooth_cells, C62_smooth_element, C62_smoothing_properties, C62_cycle, C62_max_principle, C62_ordered_runs, C62_rising, C63_meshbox_file, C64_dump, C64_full, C64_series, C64_inverted, C66_length, C66_run, C66_too_many_dumps, C66_interval_0, C66_shipped, C68_determinants, C69_choose_3D, C69_choose_2D, C69_order_N, C72_exact_case, C72_factorisation, C72_solve, C72_inverse, C72_determinant, C73_exact_case, C73_weights, C73_basis, C73_basis3, C73_interpolation, C73_field, C73_derivative_at_vertex, C73_derivative, C73_determinant, C74_real_data_element, C74_complex_find, C74_complex_polynomials, C74_step_lagrange, C74_step_element, C74_step_coefficients, C74_step_legendre, C74_step_lost_at_vertices, C74_step_lost_witness, C76_exact_case, C76_bounded, C76_legendre_bounded, C76_jacobi_eval, C76_derivatives, C76_series, C76_element, C76_basis, C79_exact, C79_determinant, C79_inverse, C79_two_dimensions, C79_four_dimensions, C79_points, C79_vol_jacobi, C80_exact, C80_smooth, C80_cycle, C80_error, C80_uniform, C80_ordered, C80_range, C81_length, C81_clock, C81_run, C81_too_many_dumps, C81_interval_0, C84_equispaced, C84_equispaced_single
* `sig_forall_dec`, `sig_not_dec`, `functional_extensionality_dep` — 114 theorems: C13_legendre_values, C15_jacobi_orthogonal, C17_chebyshev, C33_refine_keys_collide_refuted, C33_patch_keys_collide_refuted, C42_gauss_2d, C42_gauss_3d, C42_lobatto_2d, C42_lobatto_3d, C42_lobatto_4d, C42_gauss_4d_overrun, C42_gauss_4d_stale_weight, C42_more_than_eight, C43_lobatto, C43_legendre, C43_unsupported_sizes, C43_short_arrays, C43_swage_copy, C49_setup, C49_orders_4_to_9, C49_short_tables, C52_boundary_test, C52_plane_patches_found, C54_spacing_from_last_cell, C54_no_cells, C54_not_global_minimum_refuted, C59_refined_mesh, C59_accuracy, C59_common_faces, C59_trilinear_range, C59_boxes, C59_order_0, C59_order_large, C59_zero_row, C59_thin_elements_refuted, C60_determinants, C60_polynomial_maps, C60_after_refinement, C60_boxes, C60_order_large, C60_per_gauss_point_refuted, C61_refined_mesh, C61_accuracy, C61_common_faces, C61_connectivity, C61_boxes, C61_order_large, C61_no_elements, C61_collapsed_element, C61_isolated_cells, C61_single_element, C61_high_orders_refuted, C62_generate_bcs, C62_converges, C62_boxes, C62_two_planes, C63_reads, C63_isolated, C63_no_elements, C63_few_node_numbers, C63_bad_node_number, C63_few_coordinates, C63_meshbox, C65_initial_field, C65_shipped, C65_box_unset_radii, C65_box, C66_box, C66_profile, C66_shipped_box, C67_area, C67_area_exact, C67_volume, C67_shipped_tables, C68_mesh, C68_positions, C68_order_0, C68_order_2, C74_real_instance, C74_real_data_1d, C74_complex_lagrange, C74_complex_element, C74_complex_legendre, C75_same_or_overflow, C75_nodes_fit, C75_nodes_overflow, C75_high_fit, C75_high_overflow, C75_connectivity_fit, C75_connectivity_overflow, C75_sizes, C75_boxes_fit, C75_unit_cube, C75_high_unit_cube, C76_legendre_eval, C77_refined_mesh, C77_accuracy, C77_lobatto, C77_corners, C77_edges, C77_edges_reversed, C77_faces, C77_same_numbering, C78_exact, C78_connectivity, C78_same_connectivity, C78_refined, C78_refined_spaced, C80_linked, C83_exact, C83_boundary, C83_fill, C83_setup, C84_exact
* `sig_forall_dec`, `sig_not_dec`, `functional_extensionality_dep`, `classic` — 48 theorems: C41_exact_volume, C41_parallelepiped, C58_gauss_jacobi_exact, C58_one_point, C67_volume_order0_refuted, C68_annulus, C68_output, C70_value, C70_derivatives, C70_near_vertex, C70_field, C70_gradient, C71_legendre, C71_lobatto, C71_gauss_2d, C71_gauss_3d, C71_lobatto_2d, C71_lobatto_3d, C71_gauss_jacobi, C72_doubles, C72_row_scale_unstable, C73_doubles, C73_derivative_wrong_near_vertex, C73_gradient_wrong_near_vertex, C76_doubles, C76_doubles_value, C76_doubles_field, C77_doubles, C77_swapped_face, C78_swapped_side, C79_wrong_sign, C79_vol_hex, C79_negative_volume, C79_grid, C80_range64, C80_rising, C80_settles, C80_boxes, C80_leaves_range, C81_cycles, C81_milliseconds, C81_late, C81_shipped, C82_box, C82_shipped_box, C83_run, C84_equispaced_end_refuted, C84_chebyshev

## What is modelled and what is not

| file in /repo | modelled | not modelled |
|---|---|---|
| common/common.h, common.cpp | all functions (Model_Common.v, `almost_equal` in Model_Lagrange.v) | rounding |
| common/matar_blas_lapack_interface.cpp | matvec, matmul, transpose, invert, eig_sym_tri (Model_Blas.v, Model_Gauss.v) | the leak of `delete[] a, b, c` |
| common/error.h, utilities.h, c_blas_lapack_interface.h | only declarations: nothing to model | — |
| elements/lagrange_polynomials.cpp, lagrange_element.cpp | all functions (Model_Lagrange.v; with rounding in Model_FloatLagrange.v; Complex instance in Model_Complex.v) | overflow, underflow, fused multiply-add |
| elements/legendre_polynomials.cpp, legendre_element.cpp, jacobi_polynomials.* | all functions (Model_Poly.v; Complex instance in Model_Complex.v; rounded in Model_FloatPoly.v) | overflow, underflow, rounding in the Complex instance |
| elements/point_distributions.cpp, gauss_jacobi_quadrature.cpp | all functions (Model_Points.v, Model_Gauss.v; the point distributions rounded in Model_FloatPoints.v) | — |
| elements/elements.cpp 126-1250 (1D tables, tensor rules, sub-cell weights) | all (Model_Quad.v) | — |
| elements/elements.cpp 1250-2300 (Jacobians, inverses, set_unit_normals) | all (Model_Jac.v, Model_Ref.v) | — |
| elements/elements.cpp 2300-3260 (ref_element) | `init` for 3D, all accessors (Model_Ref.v, Model_HexN.v) | the 2D branch of `init` (which fills nothing in the code); printing |
| elements/elements.cpp 3260-6075 (Quad4/8/12/N, Hex8/20/32/N, Tess16) | shape functions, derivatives, physical_position, vert_to_node, surface tables, HexN/QuadN (Model_Shape.v, Model_HexN.v) | — |
| elements/elements.cpp 6076-6193 (element_selector) | all (Model_Select.v) | writing through the reference that ref_locs returns |
| slam/slam.cpp | all four functions (Model_LU.v; with rounding in Model_FloatLU.v) | overflow, underflow, fused multiply-add |
| geometry/geometry.cpp | all five functions (Model_Jac.v, Model_Vol.v; rounded: Model_FloatGeom.v) | — |
| swage/swage.cpp | `lobatto_nodes_1D_tmp`, sizes, index-space accessors, all `build_*`, boundary sets, centres, `refine_mesh` and `build_connectivity` as a whole (Model_Quad.v, Model_Conn.v, Model_Patch.v, Model_Geom.v, Model_Refine.v, Model_Ref.v, Model_Full.v; with 32-bit ints in Model_Int.v; `refine_mesh` and `build_connectivity` in rounded arithmetic in Model_FloatRefine.v and Model_FloatPatch.v) | accessors that only return a member; printing |
| swage/refine_high_order_mesh.cpp, evaluate_jacobian_determinants.cpp | all (Model_High.v; refinement with 32-bit ints in Model_Int.v) | printing |
| io/vtk_io.cpp | `make_vtk_vert_map`, both directions of the grid conversion, `read_grid`, `write_grid` (Model_Vtk.v) | VTK itself |
| mesh_tools/box_mesh_creator/meshbox.cpp | `main`, `get_id`, contents of the Ensight geometry file (Model_Box.v) | number formatting, the constant .case and .var files, console output |
| examples/average (test/average.cpp, src/input.cpp, include/) | `read_mesh` as token stream, `initialize_state`, boundary conditions, `smooth_cells`, `smooth_element`, `ensight` file contents, `cycle`/main loop, area and volume checks (Model_Average.v, Model_Gcl.v; reals for `double`; smoothing and cycle loop rounded in Model_FloatAverage.v, set-up (reading, boundary sets, start fields) in Model_FloatSetup.v) | number formatting, console output, timing, file system |
| examples/vtk/plotting_jacobian_determinants.cpp | all (Model_Annulus.v; reals for `double`, M_PI a parameter) | the file written by VTK |
| other examples/, tests/ | nothing, unless a property above says so | example drivers, unit tests |

## Disagreements between code and expectation found on the way

Each is stated by a theorem (the property in brackets).

* The 12-point Lobatto table has wrong digits (error 4.8e-15), the 8-point table is off by 2e-24; the 3-point `line_lobatto` order decreases (C43, C42). `gauss_4d` takes the weight of one direction from the wrong column (C42). `length_weights`/`sub_weights` read three entries for every order (C49).
* Hex20/Hex32 have `partial_xi` entries swapped (C45); `Hex32::physical_position` runs one vertex too far (C44); `vert_to_node` is wrong for Quad4 (2,3), Quad8 (6), Hex8 (7), Hex32 (10,31); `surface_to_dof_lid` of Hex20 surface 2 is not filled, Hex32 surface 2 entry 11 is wrong (C46); `QuadN::physical_position` accumulates onto the caller's array (C44/C47).
* `jacobian_3d` and `jacobian_inverse_3d` are wrong for non-symmetric matrices (C22). `get_vol_hex` leaves wrong cell centres (C41).
* Jacobi derivative normalisation uses alpha twice (C15); `eval_der(0,0)` of Legendre is 0 (C14); a one-point Gauss–Jacobi rule ignores its exponents (C58); `chebyshev_points` are not of the kind the comment says (C17).
* Interpolant derivative orders 0 and 3 are wrong (C08); two vertices within the tolerance make the coincidence search return the index of a different vertex (C04).
* The complex-step method returns 0 at coordinates recognised as a vertex: the search compares real parts and the vertex branch drops the imaginary part (C74).
* In doubles, derivatives and gradients lose all digits within about 1e-15 of a vertex (but outside the coincidence tolerance): the gradient of a constant 1 comes out as -0.4 (C73).
* LU: `vv` stores the row maximum instead of its inverse, so in doubles a 2x2 system is solved correctly or with 100% error depending on the units of its first equation (C72); zero pivots become TINY, so singular matrices without zero row are accepted with a non-zero determinant (C18, C20).
* `build_cell_cell_connectivity` writes out of bounds when no two cells share a node (C25). Face keys and point keys of different places can collide; the spacing used for hashing comes from the last cell only (C33, C54). `refine_mesh` and `refine_high_order_mesh` create a second node for the first Gauss point when it is met again (C30, C59).
* At order 0 the mesh says 8 cells per zone but the reference element has one (C34, C50). `ref_cell_basis_` is allocated with three dimensions and accessed with two (C57). HexN orders unknown to the Lobatto table read unset memory (C47). "Unit" corner normals have length sqrt 3 (C56).
* `element_selector`: HexN and QuadN leave the pointer unset; `num_nodes()` is the number of vertices but `vert_node_map` numbers a finer grid (C69).
* meshbox: boundary neighbours come from `get_id` with negative indices; `cell_coords` omits the origin shift (C48).
* BLAS wrappers: the packing stride is wrong for non-square matrices (overrun or unset memory); `matmul` does not check the output size; `invert` and `eig_sym_tri` go on after a LAPACK failure (C39, C58).
* VTK: rows of `nodes_in_elem` are (2p+1)^3 wide but only (p+1)^3 filled; points are single precision; the solution of shared points is that of the last element; triquadratic cells are accepted for every order; the mesh is already changed when `VtkGridError` is thrown (C40).
* `refine_high_order_mesh`: the distance ignores z, only the first row of vertices gives the spacing, so thin elements collapse; orders 0 and >= 10 fail (C59). `evaluate_jacobian_determinants` indexes its array by node, so Gauss points stay unset (C60).
* `refine_mesh`: at orders 6 to 9 the hash bins are wider than the end gap of the Lobatto points, so corners of a cell merge even on a unit cube; a single element at order 0 makes `build_connectivity` read out of bounds; a collapsed last element divides by zero (C61). In doubles two elements that list a common face in different orders can get different nodes on it (C77). Likewise two cells that list a common side in different orders can get different patches for it (C78).
* The hash keys overflow an int on moderate meshes: a unit cube with 117 elements per direction at orders 0 and 1, 59 at order 2, 37, 22 and 15 at orders 3 to 5 (face keys), and p^2 n > 116 for `refine_high_order_mesh` (C75).
* `read_mesh` of the averaging example: a file with a single element reads out of bounds at every order; the shipped quadrilateral meshes (four numbers per element) make it use unset memory as node numbers (C63).
* The dumps of the averaging example list every hexahedron mirrored (left-handed), never contain the nodal field, and dump 251 writes outside `graphics_times[250]` (C64). The missing `break`s make a box region also take cells between the unset radii; `field2` is stored where `field1` was meant, so the shipped initial field is 0 (C65). `graphics_dt_ival` has no effect, `graphics_cyc_ival = 0` divides by zero; at orders >= 2 the converged field is linear in the line number, not in the coordinate (C66).
* The volume check of the averaging example is not the volume at order 0 (one point for a determinant of degree 2; C67).
* `get_vol_hex` uses absolute coordinates: in doubles a cube of side 1/128 with a corner at (2000000.1, 2000000.1, 2000000.1) gets a negative volume; a 3x3 determinant of -2^-61 is computed as 2^-61, and `mat_inverse` divides by zero on an invertible matrix (C79).
* In doubles the averaging example can leave the range of its boundary values: where 13 cell corners meet at a node the constant field 10 rises above 10 in one cycle, where 9 meet it falls below 10 (C80).
* In doubles the last of the equispaced points need not be the right end of the interval and can lie beyond it: with the ends -1 and 3*2^-54 it is 2^-52 (C84).
* The averaging example adds up its time step in doubles: with the final time 1.008 it does 1009 cycles instead of 1008 (C81).
