{"id": "C01", "title": "Mixed-radix digits round-trip to the number", "statement": "For any list of non-zero radices whose product fits in 2^64 and any x below the product, converting x to mixed-radix digits and back returns x; every digit produced is below its radix; for larger x the trip returns x modulo the product. A zero radix is a division by zero.", "quantifier": "every number of radices, every list of radices, every 64-bit x", "why_tests_cant": "the radix lists and numbers are unbounded in length and value, and the arithmetic wraps modulo 2^64", "anchors": ["common/common.cpp: base_10_to_mixed_radix", "common/common.cpp: mixed_radix_to_base_10"]}
{"id": "C02", "title": "Mixed-radix numbers round-trip to the digits", "statement": "For any in-range digit list over radices whose product fits in 2^64, mixed_radix_to_base_10 returns the positional value below the product, distinct digit lists give distinct numbers, and converting back gives the same digits.", "quantifier": "every radix list and every in-range digit list", "why_tests_cant": "collisions would appear only for particular digit/radix combinations; overflow only for huge products", "anchors": ["common/common.cpp: base_10_to_mixed_radix", "common/common.cpp: mixed_radix_to_base_10"]}
{"id": "C03", "title": "Partial-derivative encoding: exact round-trip domain", "statement": "decode_partial_derivative(encode_partial_derivative(nx,ny,nz)) returns (nx,ny,nz) for all 1<=nx<=11, 1<=ny,nz<=10, and for no other triple: any order 0 (or too large an order) either is an undefined shift or decodes to a different triple.", "quantifier": "all triples of 64-bit orders", "why_tests_cant": "only exhaustive reasoning over 2^192 triples shows where the encoding is defined; an undefined shift may look right on one machine", "anchors": ["common/common.cpp: encode_partial_derivative", "common/common.cpp: decode_partial_derivative"]}
{"id": "C04", "title": "Coincident-vertex search", "statement": "find_coincident_vertex returns the index of the vertex within 2*eps of x when exactly one such vertex exists and 2^64-1 when none exists; when several vertices are that close the result is the wrapped sum of their (index+1) minus one, which need not be any of them.", "quantifier": "every vertex list and every x", "why_tests_cant": "all vertex lists, including clustered ones, are an infinite domain", "anchors": ["elements/lagrange_polynomials.cpp: find_coincident_vertex", "common/common.h: almost_equal"]}
{"id": "C05", "title": "Lagrange basis evaluation is the Lagrange polynomial", "statement": "With the weights from compute_barycentric_weights on pairwise distinct vertices, eval returns the i-th Lagrange basis polynomial prod_{j<>i}(X-Z_j)/(Z_i-Z_j) at X, both at a vertex and away from all vertices; hence it is 1 at its own vertex, 0 at the others, and the N values sum to 1 at every X.", "quantifier": "every N>=1, every list of distinct vertices, every point X not closer than 2 eps (but different) to a vertex", "why_tests_cant": "N, Z and X range over unbounded and continuous domains", "anchors": ["elements/lagrange_polynomials.cpp: compute_barycentric_weights", "elements/lagrange_polynomials.cpp: eval"]}
{"id": "C06", "title": "Interpolant evaluation reproduces polynomials", "statement": "eval_interp returns sum_j c_j l_j(X); it returns c_i at vertex i, and if the coefficients are samples of a polynomial of degree below N it returns that polynomial's value at X.", "quantifier": "every N, distinct vertices, coefficients, X; every polynomial of degree < N", "why_tests_cant": "quantifies over all polynomials and all vertex sets", "anchors": ["elements/lagrange_polynomials.cpp: eval_interp"]}
{"id": "C07", "title": "First derivative of the interpolant", "statement": "eval_der_interp of order 1 returns the derivative at X of the interpolating polynomial, at vertices and away from them; no division by zero reaches the result although one is computed at a coincident vertex; eval_der of order 1 is the derivative of the basis polynomial.", "quantifier": "every N, distinct vertices, coefficients and X", "why_tests_cant": "derivative is a limit; vertex sets and coefficients are continuous domains", "anchors": ["elements/lagrange_polynomials.cpp: eval_der_interp", "elements/lagrange_polynomials.cpp: eval_der"]}
{"id": "C08", "title": "Higher and zero derivative orders of the interpolant", "statement": "eval_der_interp of order 2 returns the second derivative of the interpolating polynomial; order 0 returns 0 instead of the interpolant and order 3 is not the third derivative (the recursion omits the factorial).", "quantifier": "every N, vertices, coefficients and X; orders 0,2,3", "why_tests_cant": "same continuous domain; a test of low orders never sees the order-3 defect", "anchors": ["elements/lagrange_polynomials.cpp: eval_der_interp"]}
{"id": "C09", "title": "Lagrange element basis is nodal", "statement": "LagrangeElement::eval_basis of the I-th function is the product of three 1D Lagrange polynomials selected by the mixed-radix digits of I; it is 1 at node I, 0 at every other node, and all functions sum to 1 at every point.", "quantifier": "every order, every distinct 1D vertex set, every I and every point", "why_tests_cant": "all orders and all points", "anchors": ["elements/lagrange_element.cpp: eval_basis"]}
{"id": "C10", "title": "Lagrange element field evaluation", "statement": "LagrangeElement::eval_approx returns sum_I c_I phi_I(X) whatever the previous contents of the work array, so evaluations are independent of call history, and reproduces nodal values at nodes.", "quantifier": "every order, vertices, coefficients, points and work-array contents", "why_tests_cant": "history independence quantifies over all previous calls", "anchors": ["elements/lagrange_element.cpp: eval_approx"]}
{"id": "C11", "title": "Lagrange element gradients", "statement": "LagrangeElement::eval_grad_basis returns the three partial derivatives of the basis function, and eval_grad_approx returns sum_I c_I grad phi_I(X), independent of the work array's previous contents.", "quantifier": "every order, vertices, coefficients, points and work-array contents", "why_tests_cant": "partial derivatives at every point of a continuum", "anchors": ["elements/lagrange_element.cpp: eval_grad_basis", "elements/lagrange_element.cpp: eval_grad_approx"]}
{"id": "C12", "title": "Lagrange element Jacobian algebra", "statement": "eval_jac fills row d with the gradient of the d-th coordinate field, eval_det_jac returns the determinant of that matrix, and whenever it is non-zero eval_inv_jac returns the two-sided inverse.", "quantifier": "every order, nodal coordinates and point with non-zero determinant", "why_tests_cant": "all real 3x3 matrices", "anchors": ["elements/lagrange_element.cpp: eval_jac", "elements/lagrange_element.cpp: eval_det_jac", "elements/lagrange_element.cpp: eval_inv_jac"]}
{"id": "C13", "title": "Legendre polynomial values", "statement": "legendre::eval(n,.) satisfies P_n(1)=1, P_n(-1)=(-1)^n, P_n(-x)=(-1)^n P_n(x), is a polynomial of degree n, and distinct orders are orthogonal on [-1,1] with squared norm 2/(2n+1).", "quantifier": "every order n, every real x", "why_tests_cant": "unbounded orders, all reals", "anchors": ["elements/legendre_polynomials.cpp: eval"]}
{"id": "C14", "title": "Legendre derivatives", "statement": "legendre::eval_der(n,k,X) equals the k-th derivative of legendre::eval(n,.) at X for every n,k except n=k=0, where it returns 0 while eval returns 1.", "quantifier": "every n,k and real X", "why_tests_cant": "unbounded orders and derivative counts", "anchors": ["elements/legendre_polynomials.cpp: eval_der", "elements/jacobi_polynomials.cpp: eval_der"]}
{"id": "C15", "title": "Jacobi values and derivative normalisation", "statement": "jacobi::eval(n,alpha,beta,.) is a polynomial of degree n with value prod (alpha+1+i)/(i+1) at 1, and for natural alpha, beta distinct orders are orthogonal for the weight (1-x)^alpha (1+x)^beta. jacobi::eval_der(n,k,alpha,beta,X) is its k-th derivative when alpha=beta (n>=1); for alpha<>beta and 1<=k<=n it differs from the derivative wherever the derivative is not 0 (alpha is added twice); e.g. 1 instead of 3/2 for n=k=1, alpha=0, beta=1.", "quantifier": "every n,k, all alpha,beta>-1, every X", "why_tests_cant": "continuous parameters; the only in-tree callers use alpha=beta=0", "anchors": ["elements/jacobi_polynomials.cpp: eval_der", "elements/jacobi_polynomials.h: a,b,c"]}
{"id": "C16", "title": "Legendre series evaluation", "statement": "legendre::eval_approx returns sum_i c_i P_i(X), legendre::eval_der_approx the sum of c_i times the k-th derivative, and LegendreElement::eval_approx / eval_grad_approx return the triple-product sums whatever the work array held.", "quantifier": "every order, coefficient array, point and work-array contents", "why_tests_cant": "unbounded orders and history independence", "anchors": ["elements/legendre_polynomials.cpp: eval_approx", "elements/legendre_polynomials.cpp: eval_der_approx", "elements/legendre_element.cpp: eval_approx", "elements/legendre_element.cpp: eval_grad_approx"]}
{"id": "C17", "title": "Point distributions", "statement": "equispaced_points returns N points with the requested end points, constant spacing, strictly increasing for zl<zr, symmetric about the midpoint, nothing else written; N=1 divides zero by zero. chebyshev_points are strictly increasing, symmetric and strictly inside the interval; they are the points of the first kind, mid - half*cos((2i+1)pi/(2N)), although the comment says second kind.", "quantifier": "every N>=2, all zl<zr", "why_tests_cant": "all N and all intervals", "anchors": ["elements/point_distributions.cpp: equispaced_points", "elements/point_distributions.cpp: chebyshev_points"]}
{"id": "C18", "title": "LU factorisation", "statement": "LU_decompos reports failure exactly when some row is entirely zero. Otherwise the unit-lower and upper triangles it leaves in the matrix multiply to the input matrix with its rows interchanged as recorded in indx, plus TINY on the diagonal entries whose pivot was zero; there is such an entry exactly when the matrix is singular; all pivots it leaves are non-zero; parity is the sign of the recorded permutation.", "quantifier": "every n and every n-by-n matrix", "why_tests_cant": "all matrices of all sizes", "anchors": ["slam/slam.cpp: LU_decompos"]}
{"id": "C19", "title": "LU solve", "statement": "After a successful LU_decompos of an invertible matrix A, LU_backsub replaces b by the unique x with A x = b, for every b (leading zeros in b included).", "quantifier": "every n, every invertible matrix and right-hand side", "why_tests_cant": "all matrices and right-hand sides", "anchors": ["slam/slam.cpp: LU_backsub"]}
{"id": "C20", "title": "LU inverse and determinant", "statement": "After LU_decompos of an invertible A, LU_invert returns the two-sided inverse and LU_determ returns det A. For a singular A that LU_decompos accepts, LU_determ is never zero, hence never det A.", "quantifier": "every n and every matrix", "why_tests_cant": "all matrices of all sizes", "anchors": ["slam/slam.cpp: LU_invert", "slam/slam.cpp: LU_determ"]}
{"id": "C21", "title": "3x3 and 4x4 Jacobian inverses", "statement": "mat_inverse, jacobian_inverse_2d and jacobian_inverse_4d return the two-sided inverse whenever the determinant they are given/compute is the (non-zero) determinant; jacobian_2d and jacobian_4d return the true determinant of the matrix they assemble.", "quantifier": "every real matrix with non-zero determinant", "why_tests_cant": "all real matrices", "anchors": ["elements/elements.cpp: mat_inverse, jacobian_2d, jacobian_4d, jacobian_inverse_2d, jacobian_inverse_4d"]}
{"id": "C22", "title": "jacobian_3d determinant and inverse are wrong", "statement": "jacobian_3d's det_J differs from the determinant of the assembled matrix (exact set of matrices where it agrees is characterised), and jacobian_inverse_3d is not the inverse, e.g. for a diagonal-plus-one-entry matrix.", "quantifier": "all 3x3 matrices; explicit witnesses", "why_tests_cant": "agreement on symmetric or diagonal test matrices hides it", "anchors": ["elements/elements.cpp: jacobian_3d", "elements/elements.cpp: jacobian_inverse_3d"]}
{"id": "C23", "title": "Cells around a node", "statement": "After build_connectivity, for every node the list of cells in the node contains exactly the cells having that node, one entry per (cell, local corner) incidence, in increasing cell order, and num_cells_in_node is its length; building never indexes out of bounds if all node ids are in range.", "quantifier": "every hexahedral mesh (any number of cells/nodes, any connectivity)", "why_tests_cant": "all mesh topologies", "anchors": ["swage/swage.cpp: build_node_cell_connectivity", "swage/swage.cpp: cells_in_node, num_cells_in_node"]}
{"id": "C24", "title": "Corner numbering", "statement": "corners_in_cell numbers the corners of cell c as 8c..8c+7 bijectively, and the corners listed for a node are exactly those corners whose cell-local node is that node; node_in_corner style lookups are consistent and cover every corner once.", "quantifier": "every mesh", "why_tests_cant": "all mesh topologies", "anchors": ["swage/swage.cpp: build_corner_connectivity", "swage/swage.cpp: corners_in_node, num_corners_in_node"]}
{"id": "C25", "title": "Cell neighbours", "statement": "The neighbour list of a cell contains exactly the other cells sharing at least one node with it, without repetition and without the cell itself, so neighbourhood is symmetric; a mesh in which no two cells share a node makes the builder write outside an empty array.", "quantifier": "every mesh", "why_tests_cant": "all mesh topologies; the failing case is a corner configuration", "anchors": ["swage/swage.cpp: build_cell_cell_connectivity", "swage/swage.cpp: cells_in_cell, num_cells_in_cell"]}
{"id": "C26", "title": "Patch connectivity", "statement": "Given the face keys, build_patch_connectivity gives two cell sides the same patch exactly when their keys are equal, numbers patches 0..P-1 in first-seen order, records in cells_in_patch the first and last cell that owns the patch (second entry -1 when only one does), and numbers sides 6c+s.", "quantifier": "every mesh and every assignment of face keys", "why_tests_cant": "all topologies and key coincidences", "anchors": ["swage/swage.cpp: build_patch_connectivity"]}
{"id": "C27", "title": "Boundary patches", "statement": "build_bdy_patches lists exactly the patches whose second cell is missing, each once, in increasing order, and num_bdy_patches is their number.", "quantifier": "every patch table", "why_tests_cant": "all meshes", "anchors": ["swage/swage.cpp: build_bdy_patches"]}
{"id": "C28", "title": "Boundary sets", "statement": "Tagging sets 0..S-1 in order gives disjoint consecutive slices; after each tag the slice of a set contains exactly the boundary patches satisfying its predicate; retagging or tagging out of order reads stale offsets, and a set index equal to the number of sets ends the program.", "quantifier": "every history of tag calls, every patch table", "why_tests_cant": "quantifies over call histories", "anchors": ["swage/swage.cpp: tag_bdys, set_bdy_patches, check_bdy", "swage/swage.cpp: init_bdy_sets"]}
{"id": "C29", "title": "Element connectivity", "statement": "The elements listed for a node are exactly the elements having a Gauss point at that node (once per incidence), and the element-neighbour lists contain exactly the other elements sharing a node, without repetition.", "quantifier": "every high-order mesh", "why_tests_cant": "all topologies", "anchors": ["swage/swage.cpp: build_element_connectivity"]}
{"id": "C30", "title": "Node merging during refinement", "statement": "The node-merging loop of refine_mesh gives two Gauss points the same node iff their position keys are equal, except for the key of the very first Gauss point: node 0 is indistinguishable from an unused bucket, so the second Gauss point with that key gets a fresh node (one duplicate), after which that fresh id is shared. Exact resulting numbering and node count are characterised.", "quantifier": "every sequence of keys", "why_tests_cant": "all key sequences; the duplicate appears only when the first Gauss point is shared", "anchors": ["swage/swage.cpp: refine_mesh 2340-2388", "swage/refine_high_order_mesh.cpp 207-253"]}
{"id": "C31", "title": "Refined index maps", "statement": "After refinement, cells of element e are the consecutive block e*(n-1)^3..., every refined cell belongs to exactly one element, gauss_in_cell and nodes_in_cell of a cell are the eight tensor-grid neighbours in i-fastest order.", "quantifier": "every element order and every number of elements", "why_tests_cant": "all orders and sizes", "anchors": ["swage/swage.cpp: refine_mesh 2419-2499"]}
{"id": "C32", "title": "Refinement geometry", "statement": "The trilinear map used to place refined nodes sends reference corners to the cell's vertices, is affine on parallelepipeds, reproduces the map of the face from the four face vertices only (so adjacent cells agree on shared faces), and stays in the convex hull for reference points in [-1,1].", "quantifier": "every 8-vertex cell, every reference point", "why_tests_cant": "continuum of cells and points", "anchors": ["swage/swage.cpp: refine_mesh 2163-2189"]}
{"id": "C33", "title": "Spatial-hash keys", "statement": "Spatial-hash keys: coincident points always get equal keys. In refine_mesh, when the bin width is at most 1, two points of the mesh's box get equal keys iff they lie in the same bin in every direction, so points a bin width apart are never merged; when it exceeds 1 different bins can collide. In build_patch_connectivity sides whose centres differ by at least half the spacing per direction get different keys, but opposite faces of a thin cell can get the same key.", "quantifier": "every bin triple and every table size", "why_tests_cant": "collisions depend on coordinates", "anchors": ["swage/swage.cpp: refine_mesh 2307-2333", "swage/swage.cpp: build_patch_connectivity 1450-1560"]}
{"id": "C34", "title": "Zones partition the cells of the reference element", "statement": "For every order >=1 the 8-cell zones of ref_element are pairwise disjoint and together contain each reference cell exactly once, zone (i,j,k) being the 2x2x2 block of cells at (2i,2j,2k); at order 0 the zone has one entry although mesh_t reports 8 cells in a zone.", "quantifier": "every polynomial order", "why_tests_cant": "all orders", "anchors": ["elements/elements.cpp: ref_element::init 2483-2501, cell_lid_in_zone"]}
{"id": "C35", "title": "Reference corners", "statement": "ref_corners_in_cell enumerates every reference corner exactly once over all cells and local corners, ref_nodes_in_cell gives the node at the matching grid position and agrees with cell_nodes_in_elem.", "quantifier": "every polynomial order", "why_tests_cant": "all orders", "anchors": ["elements/elements.cpp: ref_element::init 2506-2631"]}
{"id": "C36", "title": "Corner weights partition node weights", "statement": "For each reference node the corner quadrature weights of the corners at that node sum to the node's Gauss-Lobatto weight; hence all corner weights sum to the cube of the 1D weight sum.", "quantifier": "every order and every 1D weight table", "why_tests_cant": "all orders", "anchors": ["elements/elements.cpp: ref_element::init 2420-2437, 2526-2543"]}
{"id": "C37", "title": "Reference patch numbering", "statement": "ref_patches_in_cell assigns every side of every reference cell exactly one patch id; two sides get the same id iff they are the two sides of one internal face; ids are 0..3 n^2 (n+1)-1 with none missing, matching num_patches_in_elem; ref_patch_positions and ref_patch_g_weights are the Lobatto/Legendre tensor point and weight of that face seen from either cell; the two cells list the same four nodes of a shared side in the same order; side normals point outwards.", "quantifier": "every number of cells per direction", "why_tests_cant": "all orders", "anchors": ["elements/elements.cpp: ref_element::init 2716-2899"]}
{"id": "C38", "title": "Surface and interior reference nodes", "statement": "The surface and interior node lists are disjoint, sorted, together contain all (n)^3 nodes, have exactly the allocated lengths, and interior nodes are those strictly inside the grid.", "quantifier": "every order", "why_tests_cant": "all orders", "anchors": ["elements/elements.cpp: ref_element::init 2693-2724"]}
{"id": "C39", "title": "BLAS/LAPACK wrappers", "statement": "transpose moves every entry to its mirror place, transposing twice gives the original array, other shapes are rejected; matvec and matmul return the mathematical product exactly when every operand is square or a single column: an operand with fewer rows than columns overruns the packed copy, one with more rows (and two columns or more) multiplies unset memory, and too small an output is written past its end; invert returns a two-sided inverse of every non-singular matrix, and for a singular one only prints a message and returns; the rows of eig_sym_tri's eigvecs are orthonormal eigenvectors, a LAPACK failure only prints a message.", "quantifier": "every matrix size and content", "why_tests_cant": "all sizes", "anchors": ["common/matar_blas_lapack_interface.cpp: matvec, matmul, transpose, invert"]}
{"id": "C40", "title": "VTK vertex maps and grid round trip", "statement": "make_vtk_vert_map produces total, mutually inverse maps for every order (any one-to-one VTK numbering); writing a mesh to a VTK grid and reading it back reproduces the element connectivity and the coordinates of every node used by an element, in the precision of the VTK point array (unused points stay unset); reading a grid and writing it reproduces the cells; a single-valued solution is written as it is, otherwise the last element wins; a cell of a foreign type is reported by its number after the nodes were replaced; a cell with too few points is read past its end.", "quantifier": "every order, mesh and connectivity", "why_tests_cant": "all meshes and orders", "anchors": ["io/vtk_io.cpp: make_vtk_vert_map, init_swage_mesh, init_vtk_grid"]}
{"id": "C41", "title": "Hexahedron volume formula", "statement": "get_vol_hex stores for every cell the exact volume of the trilinear hexahedron with the cell's eight vertices (the integral over the reference cube of the Jacobian determinant of the trilinear map), whatever the scratch arrays held; for a parallelepiped this is the determinant of the edges. The centre accumulated in the same loop omits two vertices and adds stale or unset scratch entries.", "quantifier": "every 8-vertex cell", "why_tests_cant": "continuum of geometries", "anchors": ["geometry/geometry.cpp: get_vol_hex"]}
{"id": "C42", "title": "Tensor quadrature enumeration", "statement": "With 1..8 points per direction gauss_2d/3d and lobatto_2d/3d/4d fill the arrays with the full tensor grid of one 1D rule (first direction fastest, every combination once), products included where stored, and integrate polynomials of the exactness degree in each variable up to the table accuracy (exact for few points); gauss_4d resets the wrong weight, so it overruns an array of exact size and otherwise multiplies into stale data; with more than 8 points all of them use unset variables.", "quantifier": "every number of 1D points", "why_tests_cant": "all sizes", "anchors": ["elements/elements.cpp: gauss_2d, gauss_3d, gauss_4d, lobatto_2d, lobatto_3d, lobatto_4d"]}
{"id": "C43", "title": "Quadrature tables", "statement": "For every supported size the Lobatto (1..20) and Legendre (1..19) routines write points that are strictly increasing, symmetric, inside [-1,1], with positive symmetric weights, integrating every polynomial of degree 2n-3 (2n-1) with relative error 0 (Lobatto, up to 6 points), 3e-30 otherwise, but 2e-24 for the 8-point and 5e-15 for the 12-point Lobatto table (wrong digits); unsupported sizes leave the array unchanged; a short array is overrun; the copy in swage is the same function.", "quantifier": "every supported size, every polynomial up to the exactness degree; every unsupported size", "why_tests_cant": "exactness quantifies over all polynomials", "anchors": ["elements/elements.cpp: lobatto_nodes_1D, lobatto_weights_1D, legendre_nodes_1D, legendre_weights_1D", "swage/swage.cpp: lobatto_nodes_1D_tmp"]}
{"id": "C44", "title": "Serendipity/linear shape functions", "statement": "Quad4, Quad8, Quad12, Hex8, Hex20, Hex32 and Tess16: basis writes, whatever the output held, functions that sum to 1 at every point, reproduce the coordinates, and are 1 at their own reference vertex and 0 at the others; physical_position returns the corresponding combination of the vertices and reproduces every affine map; Hex32::physical_position always reads one entry past its basis array.", "quantifier": "every reference point, every element geometry", "why_tests_cant": "continuum of points", "anchors": ["elements/elements.cpp: Quad4, Quad8, Quad12, Hex8, Hex20, Hex32, Tess16: basis, physical_position"]}
{"id": "C45", "title": "Shape function derivatives", "statement": "The partial_* routines of Quad4, Quad8, Quad12, Hex8, Tess16 and the eta/mu partials of Hex20 and Hex32 are the partial derivatives of the basis functions at every point; for the xi partials of Hex20 and Hex32 exactly the entries 9,11,13,15,16-19 and 8-15,24-31 are not (two edge groups are swapped).", "quantifier": "every reference point", "why_tests_cant": "continuum of points", "anchors": ["elements/elements.cpp: partial_xi_basis, partial_eta_basis, partial_mu_basis, partial_tau_basis"]}
{"id": "C46", "title": "Vertex-to-node and surface tables", "statement": "vert_node_map sends each vertex to the grid node at its reference position for Quad12, Hex20 (and HexN for every order); exactly the entries 2,3 of Quad4, 6 of Quad8, 7 of Hex8 and 10,31 of Hex32 are wrong; surface_to_dof_lid lists exactly the dofs on each face, each once, except that Hex20 never writes surface 2 and Hex32 lists vertex 25 twice and omits vertex 5 on surface 2.", "quantifier": "every vertex of every element, every HexN order", "why_tests_cant": "HexN ranges over all orders", "anchors": ["elements/elements.cpp: vert_to_node, surface_to_dof_lid, HexN::setup_HexN"]}
{"id": "C47", "title": "HexN basis and derivatives", "statement": "For every order and any 1D node table with pairwise distinct vertices, HexN::basis returns the tensor Lagrange polynomials (nodal at the nodes vert_node_map gives, summing to 1 everywhere) and partial_xi/eta/mu_basis their partial derivatives, whatever the output arrays held; an order unknown to the Lobatto table reads unset memory. QuadN::basis_partials gives the 2D tensor basis, its partials and the node positions, corners picks the four corner nodes, and physical_position adds the interpolated position to the previous contents of its output.", "quantifier": "every order, vertices and point", "why_tests_cant": "all orders and points", "anchors": ["elements/elements.cpp: HexN::basis, partial_*_basis, lagrange_basis_1D, lagrange_derivative_1D", "elements/elements.cpp: QuadN::lagrange_1D, basis_partials"]}
{"id": "C48", "title": "Structured box mesh", "statement": "The box mesh creator numbers points and cells bijectively, places the points on the uniform grid, gives every cell the eight corner points of its box in finite-element order, lists every face of the grid exactly once (as many as allocated) counter-clockwise, gives every face the cells on its two sides where they exist and every cell its six faces, counts the boundary points correctly, and writes all this to the Ensight geometry file; the cell centres omit the shift, and at the boundary the recorded missing neighbour is in most cases the id of an unrelated valid cell. With zero cells in a direction nothing is built (division by zero).", "quantifier": "every number of cells per direction", "why_tests_cant": "all sizes", "anchors": ["mesh_tools/box_mesh_creator/meshbox.cpp: main, get_id"]}
{"id": "C49", "title": "Partitioned 1D weights", "statement": "For orders 1..3 and every symmetric rule, sub_weights splits the weight of each point among its corners conserving the total, and sub_weights and length_weights reproduce the edge lengths when the weights add up to the interval length; set_nodes_wgts does so with the Lobatto tables, with positive corner weights; orders 4..9 leave lengths and corner weights unset; tables with fewer than three points (order 0) are read out of range.", "quantifier": "every symmetric weight and node table, every order", "why_tests_cant": "all tables", "anchors": ["elements/elements.cpp: length_weights, sub_weights"]}
{"id": "C50", "title": "Mesh and reference element agree on sizes", "statement": "mesh_t::init_element and ref_element::init compute the same number of Gauss points, nodes, cells, zones and patches per element for every order (the number of cells in a zone only for order >= 1), and global Gauss/patch-point indices are unique, in range and cover the range.", "quantifier": "every order, every number of elements", "why_tests_cant": "all orders and sizes", "anchors": ["swage/swage.cpp: init_element, init_gauss_pts, gauss_in_elem, gauss_patch_pt_in_elem", "elements/elements.cpp: ref_element::init"]}
{"id": "C51", "title": "Geometry Jacobians from basis gradients", "statement": "get_gauss_pt_jacobian, get_gauss_patch_pt_jacobian and get_gauss_cell_pt_jacobian store J_ij = sum_v x_i(v) dphi_v/dxi_j, its determinant, and (if non-zero) its inverse, for every point, and leave other points' entries unchanged.", "quantifier": "every mesh, geometry and gradient table", "why_tests_cant": "all geometries", "anchors": ["geometry/geometry.cpp: get_gauss_pt_jacobian, get_gauss_patch_pt_jacobian, get_gauss_cell_pt_jacobian"]}
{"id": "C52", "title": "Cell and patch centres, boundary test", "statement": "cell_coords returns the mean of the eight node coordinates whatever was stored before, and patch_coords the mean of the four patch nodes; both are translation covariant and lie in the coordinate range of their nodes; check_bdy accepts exactly the patches whose centre is within 1e-8 of the plane, cylinder or sphere selected by tags 0-4 and nothing for other tags.", "quantifier": "every mesh and geometry", "why_tests_cant": "all geometries", "anchors": ["swage/swage.cpp: cell_coords, patch_coords, node_in_patch_in_cell"]}
{"id": "C53", "title": "Mesh file dispatch", "statement": "read_grid/write_grid choose the reader/writer from the last four characters of the name, case-insensitively; writing changes only the named file; for other names nothing is written and a null grid is returned.", "quantifier": "every file name", "why_tests_cant": "all strings", "anchors": ["io/vtk_io.cpp: read_grid, write_grid"]}
{"id": "C54", "title": "Hash spacing uses the last cell only", "statement": "The bin width used to merge faces and refined points is computed from the smallest distance between two nodes of the last cell of the mesh (all 28 node pairs considered) and ignores every other cell; with no cells it is read before being set. It is therefore not the smallest node distance of the mesh.", "quantifier": "every mesh, number of cells and order", "why_tests_cant": "the claim is over all meshes and coordinates; test meshes are uniform, where the last cell is representative", "anchors": ["swage/swage.cpp: mesh_t::build_patch_connectivity", "swage/swage.cpp: refine_mesh"]}
{"id": "C55", "title": "Volumes from corner Jacobians", "statement": "get_vol_jacobi stores for every cell the weighted sum of the eight corner Jacobian determinants and the mean of its eight nodes, and for every element the sum of its cell volumes; for a constant Jacobian and weights adding up to 8 that is 8 times the determinant.", "quantifier": "every mesh, geometry and weight table", "why_tests_cant": "all meshes and geometries", "anchors": ["geometry/geometry.cpp: get_vol_jacobi"]}
{"id": "C56", "title": "Reference corner surfaces", "statement": "Each corner of a reference cell carries three surface normals, surface s along direction s pointing out of the cell; the surface weights are products of the partitioned 1D weights of the two other directions; summed over the corners at a node, weight times normal is zero for nodes interior in direction s and is the outward area weight of the node on the two boundary planes.", "quantifier": "every order, every 1D weight table, every corner and surface", "why_tests_cant": "all orders and tables", "anchors": ["elements/elements.cpp: ref_element::init 2545-2631, set_unit_normals"]}
{"id": "C57", "title": "Basis tables of the reference element", "statement": "The tables ref_nodal/patch/cell_basis and ref_nodal/patch/cell_gradient hold the values and partial derivatives of every basis function at every node, patch centre and cell centre; at every point the values sum to 1, the gradients to 0, and weighting them by vertex coordinates reproduces the point and the identity matrix.", "quantifier": "every order, 1D node table with distinct vertices, table of points", "why_tests_cant": "all orders and point tables; scratch arrays shared across iterations", "anchors": ["elements/elements.cpp: ref_element::init 2634-2690, 2903-3022", "elements/elements.cpp: HexN"]}
{"id": "C58", "title": "Gauss-Jacobi quadrature", "statement": "For natural exponents a,b and n>=2 points, if LAPACK dstev meets its contract then compute_gauss_jacobi_quadrature_rule returns a rule that integrates every polynomial of degree < 2n exactly against (1-x)^a (1+x)^b; weights are positive, points are distinct, inside (-1,1) and roots of the Jacobi polynomial. The one-point rule ignores the exponents: exact for a=b=0, wrong for (1,0) and (1,1).", "quantifier": "every n>=2, all natural a,b, every polynomial of degree < 2n, any previous output contents", "why_tests_cant": "all orders, exponents and polynomials", "anchors": ["elements/gauss_jacobi_quadrature.cpp: compute_gauss_jacobi_quadrature_rule", "common/matar_blas_lapack_interface.cpp: eig_sym_tri"]}
{"id": "C59", "title": "High-order mesh refinement", "statement": "For orders 1 to 9, refine_high_order_mesh gives every element the (2p+1)^3 images of the Lobatto points under its order-p geometry map: each node of the result lies exactly at the image of one of its points, points at equal positions share a node (except that the first point of the first element keeps node 0), neighbouring elements get the same nodes on their common face, and the cells are the 2x2x2 blocks. With hashing distance h <= 1 and points within the vertex range, nodes are less than h per direction from their points and points h apart stay separate; grids of equal boxes not longer in x than in y,z are refined exactly. Thin elements are merged wrongly; order 0, order above 9 and elements whose first vertex row has coinciding x-y positions fail.", "quantifier": "every mesh of order 1..9, any number of elements, any node coordinates, any previous contents of scratch arrays", "why_tests_cant": "all meshes, orders and coordinates; the merging depends on real-valued comparisons", "anchors": ["swage/refine_high_order_mesh.cpp: refine_high_order_mesh", "elements/lagrange_element.h: LagrangeElement::eval_approx", "swage: lobatto_nodes_1D_tmp"]}
{"id": "C60", "title": "Jacobian determinants at the Lobatto points", "statement": "For orders 0 to 9 evaluate_jacobian_determinants stores, for every node of the mesh, the determinant of the Jacobian of the order-p map through every other Lobatto node of an element (the last element and point that have the node), and changes no other entry; if the nodes sample a map of degree at most p per direction this is the determinant of that map; after refine_high_order_mesh of a grid of boxes every node gets the box volume over 8. The array is filled per node, not per Gauss point, so with shared nodes the entries of the last Gauss points stay unset. Above order 9 unset Lobatto points are read.", "quantifier": "every mesh of order 0..9, any node coordinates and connectivity, any previous array contents", "why_tests_cant": "all orders, meshes and coordinates", "anchors": ["swage/evaluate_jacobian_determinants.cpp: evaluate_jacobian_determinants", "elements/lagrange_element.h: LagrangeElement::eval_det_jac"]}
{"id": "C61", "title": "Refining a linear mesh, end to end", "statement": "refine_mesh of a mesh of 8-node elements at order p (0 to 9) puts the (2p+1)^3 (order 0: 2^3) Lobatto points of every element at their image under the trilinear map of its corners, gives equal positions one node (except that the first point keeps node 0 for itself), places every node at one of its points, and gives cell (i,j,k) of an element the nodes of the eight points around it; elements with a common face get the same nodes there. With bin width h = (least corner distance of the last element)/(7 max(1,p)) <= 1 a node is less than h per direction from its points and points h apart stay apart. The connectivity built on the refined mesh is right: cells, corners and elements around each node, neighbours of cells and elements, patches, sides and boundary patches. For a grid of equal boxes at orders 0 to 5 nodes are exactly the distinct positions, and two cell sides lie on the same patch exactly if they are the same face. At orders 6 to 9 distinct corners of a cell are merged even on a unit cube; an order above 9, no elements, a collapsed last element, or cells that share no node make it fail.", "quantifier": "every linear hexahedral mesh (any number of elements, coordinates and connectivity), every order", "why_tests_cant": "all meshes, coordinates and orders; merging depends on real-valued comparisons", "anchors": ["swage/swage.cpp: refine_mesh, build_connectivity, build_face_connectivity", "swage/swage.cpp: lobatto_nodes_1D_tmp"]}
{"id": "C62", "title": "The averaging example: what a run computes", "statement": "In examples/average one cycle replaces every cell value by the mean of the old values of its eight corners and every node value by the mean of the cell values around the node, whether the program walks over cells or over elements; then the nodes of boundary set 0 get 10 and those of set 3, unless in set 0, get 0. Set s holds the boundary patches with their centre within 1e-8 of the given surface; on the outer planes of a grid of boxes these are exactly the nodes on the plane. Smoothing keeps constants, bounds, the order of fields and the corner-weighted sum. For any number of cycles values stay between the bounds of the start field and [0,10], ordered start fields stay ordered, and from the program's own start field no value ever falls. If every node is linked through cells to a boundary node there is exactly one field a cycle leaves unchanged and the run converges to it from every start.", "quantifier": "every mesh with right connectivity (in particular every connected grid of boxes, orders 0-5), every start field, every number of cycles", "why_tests_cant": "all meshes, fields and numbers of cycles; a limit", "anchors": ["examples/average/test/average.cpp: smooth_cells, smooth_element, apply_boundary, generate_bcs, main"]}
{"id": "C63", "title": "Reading a mesh file, in particular one of the box mesh creator", "statement": "read_mesh of examples/average, given an Ensight geometry file that lists nodes and hexahedra (node numbers from 1, finite element vertex order), passes to refine_mesh the mesh with exactly these coordinates and with corner i+2j+4k of every cell at the vertex that sits at (i,j,k), whatever follows in the file. The geometry file the box mesh creator writes lists the points and cells of the box, and reading it gives, at orders 0 to 5 and for at least two elements, the structured mesh: one node at every crossing of the Lobatto lines of the elements, none twice, cells between neighbouring lines, with the counts (A+1)(B+1)(C+1) and ABC. Files with no elements, with fewer than eight node numbers per element (the quadrilateral meshes), with fewer than three coordinates per node, with node numbers below 1, or whose elements share no node (a single element) give no mesh.", "quantifier": "every file of that form; every box size, position, count of cells; orders 0-5", "why_tests_cant": "all files and box dimensions", "anchors": ["examples/average/test/average.cpp: read_mesh", "mesh_tools/box_mesh_creator/meshbox.cpp: main, Ensight", "swage/swage.cpp: refine_mesh"]}
{"id": "C64", "title": "What a graphics dump contains", "statement": "A dump of examples/average (ensight) lists every node once with its coordinates (all x, all y, all z), every cell with the numbers of its eight corners counted from 1, and per cell the cell field, the alternating and the plain element number; node positions again; and in the case file the times of all dumps so far in order, dumps being numbered from 0. The corners of a cell are listed mirrored in the first direction: a right-handed cell is listed left-handed, and reading the geometry file back with read_mesh gives the same nodes and the mirrored cells. The nodal field is not dumped. Dump 251 writes outside the array of times.", "quantifier": "every mesh, cell field, number of dumps", "why_tests_cant": "all meshes and histories of dumps", "anchors": ["examples/average/test/average.cpp: ensight"]}
{"id": "C65", "title": "Initial cell field from regions", "statement": "After initialize_state every cell holds the second field value of the last listed region that covers its centre (mean of its corners), and its previous value if no region covers it. Global regions cover everything, spheres the cells between the radii; a box also covers the cells that would be inside the cylinder or sphere with the same (for a box unset) radii, because the cases of the switch fall through, so whether a cell outside the box is filled depends on unset memory. With the shipped input the initial cell field is 0 everywhere, whatever the unset members hold.", "quantifier": "every mesh, list of regions, previous field, contents of unset memory", "why_tests_cant": "all regions, meshes and memory contents", "anchors": ["examples/average/test/average.cpp: initialize_state", "examples/average/src/input.cpp: input"]}
{"id": "C66", "title": "A run of examples/average", "statement": "A run does K cycles, K being the cycle limit or the first cycle with K/1000 at or past the final time; it writes one dump at the start, one after every v-th cycle that ends before the final time (v the cycle interval), and one at the end; dump i shows the cell field after the cycles done by then, and its times. The time interval for dumps has no influence. More than 250 dumps write outside the array of times; the interval 0 divides by zero. The shipped input gives 500 cycles and 51 dumps. On a box written by the box mesh creator, with conditions 0 and 3 at the two ends of one direction, the nodal field starts as 10 at one end and 0 elsewhere and converges, as the number of cycles grows, to the profile that falls in equal steps from 10 to 0 from mesh line to mesh line, and the cell field to the means of it; at orders 0 and 1 this is the straight line in the coordinate, at orders 2 to 5 it is not.", "quantifier": "every sound mesh with boundary sets, initial fields, final time up to 1e8, cycle limit, interval; every box size, position, count of cells at orders 0-5", "why_tests_cant": "all runs, limits", "anchors": ["examples/average/test/average.cpp: main", "examples/average/src/input.cpp: input"]}
{"id": "C67", "title": "Geometry checks of examples/average", "statement": "On every element whose map is not degenerate at a patch point the area check (outward normals of all cell sides, weighted with det J times the inverse Jacobian) gives zero up to the accuracy of the 1D rule, exactly zero for an exact rule, in particular at order 0; on a degenerate element it divides by zero. The volume check gives the tensor rule applied to the determinant of the element map, which for orders 1 and higher is the volume of the element up to the accuracy of the 1D rule; at order 0 it is not (a frustum of volume 26/3 is reported as 8). The Lobatto and Legendre tables of the code of orders 0 to 9 qualify, with accuracy 3e-30.", "quantifier": "every order, every 1D table of the stated kind, every mesh, node positions and element", "why_tests_cant": "all element shapes", "anchors": ["examples/average/test/average.cpp: main (191-289)", "geometry/geometry.cpp: get_gauss_patch_pt_jacobian, get_gauss_cell_pt_jacobian", "elements/elements.cpp: ref_element::init"]}
{"id": "C68", "title": "Half-annulus example: mesh, Jacobian determinants and VTK grid", "statement": "The example builds, for every order p >= 1, two elements whose vertices sit at equispaced angle, radius and height; exactly the vertices of the common face are shared, nodes and positions correspond one to one (angle up to pi), and every node is used; order 0 divides by zero. compute_jacobian_determinants returns, for every mesh of order p >= 1, the determinant of the order-p element map at every vertex. On the half annulus this is the radius times a slope that depends on the angle index only, agrees on the common face, equals the determinant of the true half annulus up to relative error (angle/2p)^p/(p+1), and is positive. The grid written has one Lagrange cell per element with the right nodes, their coordinates, and the determinant at each node.", "quantifier": "every order, angle, mesh, element and vertex, every vertex numbering of VTK cells", "why_tests_cant": "all orders and meshes", "anchors": ["examples/vtk/plotting_jacobian_determinants.cpp: create_annular_mesh, compute_jacobian_determinants, main", "elements/lagrange_element.cpp: eval_det_jac", "swage/vtk_io.cpp: init_vtk_grid"]}
{"id": "C69", "title": "element_selector hands out the element that was asked for", "statement": "After any sequence of choose_3Delem_type (choose_2Delem_type) calls on a pointer, calls through the pointer are those of the last chosen type other than HexN (QuadN), whatever the pointer held before: its number of vertices and basis functions, a nodal basis at the reference vertices that sums to one and reproduces coordinates, its derivatives and its positions (with the exceptions of C44, C45). Types of the other dimension give Hex8 (Quad4). HexN and QuadN leave the pointer unchanged, so a fresh pointer stays unset and every call through it is undefined. num_nodes() equals the number of vertices, while vert_node_map returns numbers beyond it.", "quantifier": "every history of selections, every previous pointer value, every type, point and output array", "why_tests_cant": "all histories and points", "anchors": ["elements/elements.cpp: element_selector::choose_3Delem_type, element_selector::choose_2Delem_type", "elements/elements.h: elem_types::elem_type, Element2D, Element3D"]}
{"id": "C70", "title": "Accuracy of interpolated values, slopes and gradients for smooth functions", "statement": "For a function with n bounded derivatives on an interval that holds the n vertices (in any order) and the point, eval_interp of its vertex values differs from it by at most M |product of (X - Z_i)| / n! and M h^n / n!; eval_der_interp of order 1 and 2 differs from its derivatives by at most M h^(n-k) / (n-k)!. A point within the coincidence tolerance of one vertex costs at most the tolerance times the next derivative more. For lagrange_element the values of eval_approx and the three components of eval_grad_approx have the corresponding tensor-product bounds with the Lebesgue functions of the vertices.", "quantifier": "every vertex set, order, interval, smooth function, point and element", "why_tests_cant": "all smooth functions, points and orders", "anchors": ["elements/lagrange_polynomials.cpp: eval_interp, eval_der_interp", "elements/lagrange_element.cpp: eval_approx, eval_grad_approx"]}
{"id": "C71", "title": "Accuracy of the quadrature rules for smooth integrands", "statement": "For a function with bounded derivatives on [-1,1] (along every axis line of the square or cube) the sum over the points and weights filled by legendre_nodes/weights_1D (1 to 19 points), lobatto_nodes/weights_1D (1 to 20 points), gauss_2d, gauss_3d, lobatto_2d and lobatto_3d (1 to 8 points per direction) differs from its integral by at most (4+tol) M/(deg+1)! + tol A, where deg is the degree of the rule, M bounds the derivative of order deg+1, A the Taylor coefficients at 0 and tol is the error of the printed tables; the factor is 4+tol larger in 2D and 12+6tol+tol^2 in 3D. The sums of the Gauss-Jacobi rules differ from the weighted integral by at most 2 mu M/(2n)!.", "quantifier": "every smooth integrand, number of points and buffer contents", "why_tests_cant": "all smooth integrands at every order", "anchors": ["elements/elements.cpp: legendre_nodes_1D, legendre_weights_1D, lobatto_nodes_1D, lobatto_weights_1D", "elements/elements.cpp: line_gauss_info, line_lobatto_info, gauss_2d, gauss_3d, lobatto_2d, lobatto_3d", "elements/gauss_jacobi_quadrature.cpp: compute_gauss_jacobi_quadrature_rule"]}
{"id": "C72", "title": "Rounding errors of the LU routines", "statement": "In floating-point arithmetic with unit roundoff u (doubles without overflow and underflow: 2^-53) LU_decompos returns factors L, U of a matrix that differs from the row-interchanged input (plus TINY on replaced pivots) by at most gamma_n |L||U| entry by entry, gamma_n = n u/(1 - n u); LU_backsub returns the exact solution of a system whose matrix differs from it by at most (3 gamma_n + gamma_n^2) |L||U|; every column of LU_invert solves such a system with a unit right-hand side; LU_determ is the determinant of a matrix that close times 1 + theta, |theta| <= gamma_n. Because the stored row scale is the row maximum (not its inverse), |L||U| depends on the units of the equations: a 2 x 2 system whose first equation is multiplied by 2^31 is solved in doubles with the first unknown 0 instead of 1, while without that factor both unknowns are right.", "quantifier": "every size, matrix, right-hand side, rounding function with relative error u and n u < 1", "why_tests_cant": "all matrices and all rounding patterns", "anchors": ["slam/slam.cpp: LU_decompos, LU_backsub, LU_invert, LU_determ"]}
{"id": "C73", "title": "Rounding errors of Lagrange interpolation", "statement": "In floating-point arithmetic with unit roundoff u (doubles without overflow and underflow: 2^-53), for vertices at least 2^-51 apart and coordinates that are a vertex or at least 2^-51 away from all of them: the same coordinates are coincident as in exact arithmetic; weights, basis polynomials and 3D basis functions have relative errors at most gamma_{3(N-1)}, gamma_{5N}, gamma_{15N+2}; eval_interp and eval_approx return the exact value for coefficients that each differ by at most gamma_{6N+1} respectively gamma_{3(6N+1)} relatively (the coefficient itself at a vertex); eval_der_interp of order 1 has an error at most gamma_{7N+2} sum |l_j'(Z_i)(c_j - c_i)| at a vertex, and elsewhere at most gamma_{6N+7} sum |l_j (p - c_j)/(X - Z_j)| plus the interpolation error times |sum_k 1/(X - Z_k)| (and a second-order term); eval_det_jac has an error at most gamma_5 times the permanent of |J|. The factor 1/(X - Z_k) is real: in doubles, on the linear element, the derivative of a constant 1 at 1 - 5/2^53 is computed as about -0.4, and so is a component of eval_grad_approx.", "quantifier": "every number of vertices N, every separated vertex set, coefficients, coordinates, rounding function with relative error u that does not round below the tolerance, N u small", "why_tests_cant": "all coefficients, coordinates and rounding patterns", "anchors": ["elements/lagrange_polynomials.cpp: find_coincident_vertex, compute_barycentric_weights, eval, eval_interp, eval_der_interp", "elements/lagrange_element.cpp: eval_basis, eval_approx, eval_grad_approx, eval_det_jac", "common/common.h: almost_equal"]}
{"id": "C74", "title": "Complex instantiation and the complex-step method", "statement": "The templates instantiated for Complex return, on data with zero imaginary parts, exactly what the Real instances return, errors included. On complex data they compute the same polynomials over C: barycentric weights, Lagrange basis, interpolants and their first complex derivatives, tensor-product fields and gradients, Jacobians, determinants and inverses, Legendre and Jacobi polynomials, their derivatives, series and elements. Evaluating with a coordinate x + ih gives, as imaginary part over h, the component that the gradient functions return, with an error at most K h^2 (no error for any h when the order is at most 2): for eval and eval_interp at every real x when no vertex index is passed, for LegendreElement at every point, for LagrangeElement at coordinates 2^-51 or more from the vertices of that direction; likewise for coefficients c + ihd. At coordinates recognised as a vertex the imaginary part is ignored and the complex step returns 0 whatever the gradient is.", "quantifier": "every order, vertex set, coefficients, real or complex coordinate, step size h", "why_tests_cant": "all coordinates, orders and step sizes; unit tests use random points away from vertices", "anchors": ["common/common.h: abs, almost_equal", "elements/lagrange_polynomials.cpp: template instantiations", "elements/lagrange_element.cpp: LagrangeElement<Complex>", "elements/legendre_polynomials.cpp, jacobi_polynomials.cpp, legendre_element.cpp: Complex instances", "elements/point_distributions.cpp: equispaced_points, chebyshev_points"]}
{"id": "C75", "title": "Mesh refinement with 32-bit ints", "statement": "With 32-bit ints (hash keys, bin counts, sizes, counters) refine_mesh, build_connectivity and refine_high_order_mesh do exactly what they would do with unbounded integers or overflow an int (undefined behaviour); there is no other outcome, so all the refinement properties hold of every call that does not overflow. No overflow happens when the extents of the mesh in bins keep the largest node key and face key, the number of points and the pair counters at or below 2^31-1; when extents measured in node bins (or face bins) multiply to 2^31 - 10 or more it does happen, and also when the number of points, corners, face nodes or neighbour pairs (counted with repetition) exceeds 2^31-1. In particular the unit cube cut into n^3 elements is refined by refine_mesh exactly up to n = 116, 116, 58, 36, 21, 14 at orders 0..5 and overflows for every larger n, and refine_high_order_mesh succeeds on it exactly when p^2 n <= 116.", "quantifier": "every mesh, order, box, number of elements n", "why_tests_cant": "the failing meshes have more than a million elements; the claim ranges over all mesh sizes and coordinates", "anchors": ["swage/swage.cpp: mesh_t::refine_mesh (hash_keys, num_bins, h_table), build_patch_connectivity (node_keys), build_corner_connectivity, build_cell_cell_connectivity", "swage/refine_high_order_mesh.cpp: refine_high_order_mesh"]}
{"id": "C76", "title": "Rounding errors of Legendre and Jacobi evaluation", "statement": "On [-1,1] the Legendre polynomials are at most 1 in absolute value and every derivative of a Legendre (or Jacobi, equal natural parameters) polynomial is at most its value at 1. In floating-point arithmetic with unit roundoff u (doubles without overflow and underflow: 2^-53) legendre::eval has an error at most 3 gamma_5 n(n+1), and at most 6 gamma_5 n / sqrt(1-X^2) inside; jacobi::eval (equal natural parameters) has an error at most 3 gamma_7 n(n+1) times the value at 1; eval_der of any order k has an error relative to the k-th derivative at 1 of at most (1 + 3 gamma_7 m(m+1))(1 + gamma_{2g+3}) - 1 with m = n - k, for a tgamma that is good to g roundings; eval_approx, eval_der_approx (order 1), and eval_basis, eval_grad_basis, eval_approx, eval_grad_approx of a Legendre element have corresponding errors relative to the sum of the |coefficients|. In doubles: at most 1.7e-15 n(n+1) for eval up to order ten million, and at most 1e-14 n^2 sum |c| for the field of an element with n <= 1000 polynomials per direction, at every point of the reference cube.", "quantifier": "every order, derivative order, coordinate in [-1,1], coefficient array, work array, and rounding function with relative error u that leaves integers below 2^53 alone", "why_tests_cant": "all coordinates, orders and rounding patterns; tests only see some", "anchors": ["elements/legendre_polynomials.cpp: eval, eval_der, eval_approx, eval_der_approx", "elements/jacobi_polynomials.cpp: eval, eval_der", "elements/jacobi_polynomials.h: a, b, c", "elements/legendre_element.cpp: eval_basis, eval_grad_basis, eval_approx, eval_grad_approx"]}
{"id": "C77", "title": "Mesh refinement in floating-point arithmetic", "statement": "refine_mesh carried out in floating-point arithmetic (doubles without overflow and underflow) ends without an error for orders 0 to 9 whenever the last element has no two corners at the same place; points with the same computed position get the same node, every node sits at one of its computed points and the cells have the nodes of the points around them. Corner points are the given corners exactly. Two elements sharing an edge get the same nodes on it, in whichever position or direction they have it; two elements listing the corners of a common face in the same order get the same nodes on it. Every computed coordinate is within gamma_15 M + 3/2 gamma_3 L of the exact one (M: largest coordinate of the element, L: its extent). If no scaled coordinate is as close to an integer as the rounding errors allow, the numbering is that of exact arithmetic. Two elements listing a common face in different orders can get different nodes on it: the mesh then has a slit.", "quantifier": "every order up to 9, mesh, rounding function that is odd, monotone, idempotent, commutes with doubling and has relative error u <= 1/16", "why_tests_cant": "all coordinates, meshes and rounding patterns; the slit needs particular digits", "anchors": ["swage/swage.cpp: refine_mesh, lobatto_nodes_1D_tmp"]}
{"id": "C78", "title": "Patches and connectivity in floating-point arithmetic", "statement": "build_connectivity carried out in floating-point arithmetic ends without an error, with right incidence lists, for every mesh whose last cell has no two corners at the same place and in which some two cells share a node. Two cell sides whose corners, in the order around the side, are at the same places lie on the same patch; in particular the side between a cell and its neighbour in the same direction. If no exact key of a side is as close to an integer as the rounding errors allow, the result is exactly that of exact arithmetic. refine_mesh as a whole, at orders 1 to 9, ends without an error if the last refined cell has no two corners at the same computed place (guaranteed if they are more than twice the rounding error apart in exact arithmetic and the numbering is clear of the bin boundaries), and its cells share patches inside an element and across faces whose corners both elements list in the same order. Two cells listing a common side in different orders can get two different patches for it.", "quantifier": "every mesh, order 1 to 9, rounding function that is odd, monotone, idempotent, commutes with doubling and has relative error u <= 1/16", "why_tests_cant": "all coordinates, meshes and rounding patterns; the split patch needs particular digits", "anchors": ["swage/swage.cpp: build_connectivity, build_patch_connectivity, refine_mesh"]}
{"id": "C79", "title": "Rounding errors of Jacobians, inverses and volumes", "statement": "Carried out in floating-point arithmetic, the 3x3 determinant differs from the exact one by at most gamma_5 times the sum of the absolute products, and has the right sign if the computed or the exact value is larger than that; otherwise the sign can be wrong, and mat_inverse can divide by zero on an invertible matrix. If that bound is less than the exact determinant, mat_inverse does not divide by zero and every entry of its result is within a stated relative error of the exact inverse. In two dimensions the determinant never has the wrong sign. The Jacobians, determinants and inverses stored for the points of all elements, the cell and element volumes and centres of get_vol_jacobi, and the volumes of get_vol_hex are within stated bounds of the exact ones; get_vol_hex is within 12 gamma_19 M^3 for coordinates up to M, so it depends on where the cell is: a cube of side 1/128 two million units away from the origin gets a negative volume. On coordinates that are multiples (up to 32768) of a power of two it has only two rounding errors and the right sign.", "quantifier": "every matrix, mesh, basis, weight table and rounding function with relative error u; binary64 for the grid statement and the counterexamples", "why_tests_cant": "all matrices, coordinates and rounding patterns; the sign errors need particular digits", "anchors": ["geometry/geometry.cpp: get_gauss_pt_jacobian, get_gauss_patch_pt_jacobian, get_gauss_cell_pt_jacobian, get_vol_jacobi, get_vol_hex", "elements/elements.cpp: mat_inverse, jacobian_2d, jacobian_4d, jacobian_inverse_2d"]}
{"id": "C80", "title": "The averaging example in floating-point arithmetic", "statement": "Carried out in floating-point arithmetic, smoothing never fails, gives the computed means in the order of the lists of cells around a node, and the walk over elements gives exactly the same numbers as the walk over cells. A cycle sets the boundary values exactly. After k cycles the fields differ from the exact ones by at most gamma_(k(M+10)) times the exact smoothing of the absolute start values (M: largest number of cell corners at a node); if every element is linked to a boundary there is a bound that does not depend on k. Order of fields is kept. Where at most eight cell corners meet, as on every grid of boxes, binary64 keeps all values in [0, 10], no value ever falls from one cycle to the next, and after finitely many cycles the run stands still, at a field within the error bound of the exact limit. Where 9 or 13 cell corners meet, the constant field 10 leaves its range in one cycle.", "quantifier": "every sound mesh, field, number of cycles and (monotone) rounding with relative error u; binary64 for the last statements", "why_tests_cant": "all meshes, fields and numbers of cycles; long-run behaviour of accumulated rounding errors", "anchors": ["examples/average/test/average.cpp: smooth_cells, smooth_element, boundary_conditions, cycle loop"]}
{"id": "C81", "title": "A run of the averaging example in floating-point arithmetic", "statement": "Carried out in floating-point arithmetic, the time after k cycles is within gamma_(k+1) k/1000 of k/1000. The run stops at the cycle limit or with the first cycle whose accumulated time reaches the final time; the fields are those of that many rounded cycles; dumps are written at the start, after every v-th cycle before the final time, and at the end, each with its cell field and the accumulated times so far; the time interval for dumps has no influence. More than 250 dumps write outside the array of times; the interval 0 divides by zero. In binary64 the number of cycles differs from the exact one by at most one for up to 90 million cycles; a final time of n milliseconds takes n or n+1 cycles: 0.5 takes 500, 1.008 takes 1009. The shipped input gives 500 cycles and 51 dumps as in exact arithmetic, with listed times off by at most 3e-14.", "quantifier": "every sound mesh, input and monotone rounding with relative error u < 1 that keeps 10^8; binary64 for the numbers of cycles", "why_tests_cant": "all final times, cycle limits, intervals and numbers of cycles; the extra cycle needs particular final times", "anchors": ["examples/average/test/average.cpp: main (cycle loop, TIME, graphics dumps)"]}
{"id": "C82", "title": "The averaging example on a box in binary64: from the mesh file to the field at rest", "statement": "On the mesh read from a file of the box mesh creator, with the hot and cold boundary conditions at the two ends of one direction and at most ten million mesh lines n between them, the run in binary64 stays within 5e-14 (2q(n-q)+1) of the exact run at the nodes of mesh line q, after every number of cycles; the temperatures never fall and stay in [0,10]. After finitely many cycles the field stands still, within the same distance of the profile that falls in equal steps from line to line; the cell temperatures are within 5e-14 (n^2/2+2) of the exact ones and of the means of the profile. For the shipped input on a box from x=0 to x=2 the run writes 51 dumps, whose cell temperatures and whose final node temperatures are that close to exact arithmetic.", "quantifier": "every box of at least two elements with positive widths of at least 1e-6, order 0 to 5, direction of the conditions, number of cycles", "why_tests_cant": "all meshes and numbers of cycles; a test cannot run the exact arithmetic nor wait for the field to stand still", "anchors": ["examples/average/test/average.cpp: main, read_mesh, smooth_element, boundary_conditions", "examples/average/src/input.cpp: input", "mesh_tools/box_mesh_creator/meshbox.cpp: main", "swage/swage.cpp: refine_mesh"]}
{"id": "C83", "title": "The whole averaging example in floating-point arithmetic: reading, refining, boundary sets, start fields, run", "statement": "With every operation and every number read rounded, the averaging example ends without an error on every mesh file whose last element (and last refined cell) has no two corners at the same place and two of whose elements share a corner: the mesh it solves on is sound, so that the accuracy and range results for the solver hold. A boundary set contains all corners of the boundary sides whose centre is closer than 1e-8 to the surface by more than the rounding error, and no corner of a side farther away by more than that. A cell gets the value of the last region that covers a point and radii within rounding error of its centre. In binary64 the number of cycles is that of the rounded clock, dump i shows the cell field of its cycle and the times so far, and if at most eight cells meet in a node no temperature ever falls or leaves [0,10]. Without rounding the program is the exact one.", "quantifier": "every mesh file, input of order 1 to 9 with at least four boundary values, rounding in which doubling, sign and 1 are exact and which is monotone (binary64), number of cycles", "why_tests_cant": "all meshes, inputs and roundings; a test compares a few runs on one machine", "anchors": ["examples/average/test/average.cpp: main, read_mesh, generate_bcs, initialize_state, boundary_conditions", "swage/swage.cpp: patch_coords, tag_bdys, check_bdy, refine_mesh, build_connectivity"]}
{"id": "C84", "title": "Point distributions in floating-point arithmetic", "statement": "In doubles, equispaced points start exactly at the left end, never decrease, and each is within four roundings of its place; they end exactly at the right end and stay in the interval if its length is a double. (Otherwise they need not: with the ends -1 and 3*2^-54 the last point is a third beyond the right end, for every number of points.) Chebyshev points are exactly symmetric on an interval symmetric about 0 (the purpose stated in the code), are within a few roundings plus half the error of the sine routine of their place, and on an interval containing 0 never decrease and never leave it.", "quantifier": "every number of points, every pair of end points, every rounding with relative error u in which doubling, sign and 1 are exact and which is monotone (binary64), every sine routine that is odd, increasing and of error v", "why_tests_cant": "all end points and counts; the last point leaves the interval only for special ends", "anchors": ["elements/point_distributions.cpp: equispaced_points, chebyshev_points"]}
