{
 "claims": [
  {
   "property": "C01",
   "status": "proved",
   "theorems": [
    "C01_number_round_trip",
    "C01_zero_radix_divides_by_zero"
   ],
   "note": "all radix lists, all 64-bit numbers"
  },
  {
   "property": "C02",
   "status": "proved",
   "theorems": [
    "C02_digits_round_trip",
    "C02_distinct_digits_distinct_numbers",
    "C02_every_number_reached",
    "C02_overflow_collides_refuted"
   ],
   "note": ""
  },
  {
   "property": "C03",
   "status": "proved",
   "theorems": [
    "C03_round_trip_exact_domain",
    "C03_zero_order_undefined"
   ],
   "note": ""
  },
  {
   "property": "C04",
   "status": "proved",
   "theorems": [
    "C04_unique_hit",
    "C04_no_hit",
    "C04_two_hits",
    "C04_wrong_vertex_refuted"
   ],
   "note": "Two vertices within tolerance give index i+j+1, which can name a far vertex (refuted witness). Exact-real model of double; axioms: Coq's classical reals."
  },
  {
   "property": "C05",
   "status": "proved",
   "theorems": [
    "C05_weights",
    "C05_repeated_vertex_divides_by_zero",
    "C05_eval_is_lagrange",
    "C05_lagrange_polynomial"
   ],
   "note": "Points must be a vertex or at least 2*eps away from every vertex. Exact-real model of double; axioms: Coq's classical reals."
  },
  {
   "property": "C06",
   "status": "proved",
   "theorems": [
    "C06_interpolant",
    "C06_vertex_value",
    "C06_reproduces_polynomials"
   ],
   "note": " Exact-real model of double; axioms: Coq's classical reals."
  },
  {
   "property": "C07",
   "status": "proved",
   "theorems": [
    "C07_first_derivative",
    "C07_basis_derivative"
   ],
   "note": " Exact-real model of double; axioms: Coq's classical reals."
  },
  {
   "property": "C08",
   "status": "proved",
   "theorems": [
    "C08_second_derivative",
    "C08_order_zero_returns_zero",
    "C08_third_order_exact",
    "C08_third_derivative_refuted"
   ],
   "note": "Order 2 correct; order 0 returns 0; order 3 is off by 3 p'' sum 1/(X-Z_k). Exact-real model of double; axioms: Coq's classical reals."
  },
  {
   "property": "C09",
   "status": "proved",
   "theorems": [
    "C09_element_basis",
    "C09_constructor",
    "C09_nodal_and_unity"
   ],
   "note": " Exact-real model of double; axioms: Coq's classical reals."
  },
  {
   "property": "C10",
   "status": "proved",
   "theorems": [
    "C10_field_value",
    "C10_nodal_values"
   ],
   "note": " Exact-real model of double; axioms: Coq's classical reals."
  },
  {
   "property": "C11",
   "status": "proved",
   "theorems": [
    "C11_basis_gradient",
    "C11_field_gradient"
   ],
   "note": " Exact-real model of double; axioms: Coq's classical reals."
  },
  {
   "property": "C12",
   "status": "proved",
   "theorems": [
    "C12_jacobian"
   ],
   "note": " Exact-real model of double; axioms: Coq's classical reals."
  },
  {
   "property": "C13",
   "status": "proved",
   "theorems": [
    "C13_legendre_values"
   ],
   "note": "exact reals"
  },
  {
   "property": "C14",
   "status": "proved",
   "theorems": [
    "C14_legendre_derivatives"
   ],
   "note": "exact reals; tgamma replaced by any function with G(1)=1 and G(x+1)=xG(x)"
  },
  {
   "property": "C15",
   "status": "proved",
   "theorems": [
    "C15_jacobi_values",
    "C15_jacobi_orthogonal",
    "C15_jacobi_der_symmetric",
    "C15_jacobi_der_asymmetric",
    "C15_jacobi_der_witness"
   ],
   "note": "orthogonality for natural exponents"
  },
  {
   "property": "C16",
   "status": "proved",
   "theorems": [
    "C16_series",
    "C16_element"
   ],
   "note": "exact reals"
  },
  {
   "property": "C17",
   "status": "proved",
   "theorems": [
    "C17_equispaced",
    "C17_equispaced_single",
    "C17_chebyshev"
   ],
   "note": "exact reals"
  },
  {
   "property": "C18",
   "status": "proved",
   "theorems": [
    "C18_failure_iff_zero_row",
    "C18_factorisation",
    "C18_factorisation_any",
    "C18_parity_is_sign"
   ],
   "note": "exact reals; a zero pivot is replaced by TINY, which happens exactly for singular matrices"
  },
  {
   "property": "C19",
   "status": "proved",
   "theorems": [
    "C19_solve",
    "C19_unique"
   ],
   "note": "exact reals"
  },
  {
   "property": "C20",
   "status": "proved",
   "theorems": [
    "C20_inverse",
    "C20_determinant",
    "C20_det_invertible",
    "C20_singular_accepted"
   ],
   "note": "exact reals; singular matrices without a zero row are accepted and given a non-zero determinant"
  },
  {
   "property": "C21",
   "status": "proved",
   "theorems": [
    "C21_mat_inverse",
    "C21_inverse_2d",
    "C21_inverse_4d",
    "C21_jacobian_2d",
    "C21_jacobian_4d"
   ],
   "note": "exact reals"
  },
  {
   "property": "C22",
   "status": "proved",
   "theorems": [
    "C22_jacobian_3d_det",
    "C22_jacobian_3d_refuted",
    "C22_inverse_3d_divzero",
    "C22_inverse_3d_refuted",
    "C22_inverse_3d_symmetric"
   ],
   "note": "the code is wrong; exact characterisations and witnesses"
  },
  {
   "property": "C23",
   "status": "proved",
   "theorems": [
    "C23_cells_around_node",
    "C23_bad_id_out_of_bounds"
   ],
   "note": "all cell counts, nodes per cell, meshes; ids are unbounded naturals instead of int"
  },
  {
   "property": "C24",
   "status": "proved",
   "theorems": [
    "C24_corners"
   ],
   "note": "all meshes"
  },
  {
   "property": "C25",
   "status": "proved",
   "theorems": [
    "C25_cell_neighbours",
    "C25_symmetric",
    "C25_no_neighbours_out_of_bounds"
   ],
   "note": "all meshes with in-range ids; the isolated-cells case is an out-of-bounds write"
  },
  {
   "property": "C26",
   "status": "proved",
   "theorems": [
    "C26_patches",
    "C26_side_corners"
   ],
   "note": "From the integer face keys on; how keys are computed from coordinates is C33/C54"
  },
  {
   "property": "C27",
   "status": "proved",
   "theorems": [
    "C27_boundary_patches"
   ],
   "note": ""
  },
  {
   "property": "C28",
   "status": "proved",
   "theorems": [
    "C28_sets_in_order",
    "C28_out_of_order_unset",
    "C28_index_n_exits",
    "C28_retag_corrupts_refuted"
   ],
   "note": "predicates are arbitrary boolean functions of the patch (check_bdy itself: C52)"
  },
  {
   "property": "C29",
   "status": "proved",
   "theorems": [
    "C29_elements_around_node",
    "C29_element_neighbours"
   ],
   "note": "all meshes with in-range ids and num_elem <= num_cells"
  },
  {
   "property": "C30",
   "status": "proved",
   "theorems": [
    "C30_merge",
    "C30_count",
    "C30_numbering",
    "C30_first_point_duplicated"
   ],
   "note": "Merging loop on arbitrary keys; the duplicate of the first Gauss point is a proved consequence, not an assumption."
  },
  {
   "property": "C31",
   "status": "proved",
   "theorems": [
    "C31_maps",
    "C31_cells_partition",
    "C31_cell_nodes"
   ],
   "note": "For every number of elements and every order."
  },
  {
   "property": "C32",
   "status": "proved",
   "theorems": [
    "C32_corners",
    "C32_affine",
    "C32_convex",
    "C32_face_local",
    "C32_adjacent_agree"
   ],
   "note": ""
  },
  {
   "property": "C33",
   "status": "proved",
   "theorems": [
    "C33_refine_keys",
    "C33_patch_keys_same",
    "C33_patch_keys_separate",
    "C33_refine_keys_collide_refuted",
    "C33_patch_keys_collide_refuted"
   ],
   "note": "Exact real arithmetic; the two _refuted theorems exhibit meshes where the keys collide."
  },
  {
   "property": "C34",
   "status": "proved",
   "theorems": [
    "C34_zones_partition",
    "C34_zone_is_block",
    "C34_order_zero"
   ],
   "note": "order 0 zones hold one cell while the mesh reports 8"
  },
  {
   "property": "C35",
   "status": "proved",
   "theorems": [
    "C35_corners_enumerated",
    "C35_positions"
   ],
   "note": "3D"
  },
  {
   "property": "C36",
   "status": "proved",
   "theorems": [
    "C36_corner_weights",
    "C36_tensor_points"
   ],
   "note": "exact reals; any 1D weight table of the allocated length"
  },
  {
   "property": "C37",
   "status": "proved",
   "theorems": [
    "C37_patch_numbering",
    "C37_side_nodes",
    "C37_shared_side_nodes",
    "C37_side_normals"
   ],
   "note": "any 1D tables of the allocated lengths"
  },
  {
   "property": "C38",
   "status": "proved",
   "theorems": [
    "C38_surface_inside"
   ],
   "note": ""
  },
  {
   "property": "C39",
   "status": "proved",
   "theorems": [
    "C39_transpose",
    "C39_transpose_twice",
    "C39_transpose_rejects",
    "C39_matvec",
    "C39_matvec_wide",
    "C39_matvec_tall",
    "C39_matvec_rejects",
    "C39_matmul",
    "C39_matmul_wide",
    "C39_matmul_tall",
    "C39_matmul_shapes",
    "C39_matmul_small_output",
    "C39_matmul_rejects",
    "C39_invert",
    "C39_invert_singular",
    "C39_invert_rejects",
    "C39_lapack_promise_satisfiable",
    "C39_eig",
    "C39_eig_failure",
    "C39_eig_rejects",
    "C39_invert_messages"
   ],
   "note": "dgemv/dgemm are the reference BLAS loops; dgetrf/dgetrs/dstev are arguments with contracts"
  },
  {
   "property": "C40",
   "status": "proved",
   "theorems": [
    "C40_vtk_numbering",
    "C40_maps",
    "C40_short_map",
    "C40_write",
    "C40_write_solution",
    "C40_read",
    "C40_round_trip",
    "C40_round_trip_grid",
    "C40_bad_cell",
    "C40_short_cell"
   ],
   "note": "VTK (numbering, point precision, containers) enters as arguments; the numbering VTK documents is shown to satisfy the hypothesis"
  },
  {
   "property": "C41",
   "status": "proved",
   "theorems": [
    "C41_exact_volume",
    "C41_parallelepiped",
    "C41_stored_centre_wrong"
   ],
   "note": "Volume specified as an iterated Riemann integral (Coquelicot RInt)."
  },
  {
   "property": "C42",
   "status": "proved",
   "theorems": [
    "C42_gauss_2d",
    "C42_gauss_3d",
    "C42_lobatto_2d",
    "C42_lobatto_3d",
    "C42_lobatto_4d",
    "C42_every_combination_once",
    "C42_gauss_4d_overrun",
    "C42_gauss_4d_stale_weight",
    "C42_more_than_eight"
   ],
   "note": "exact reals; 1..8 points per direction, the sizes the 1D tables know"
  },
  {
   "property": "C43",
   "status": "proved",
   "theorems": [
    "C43_lobatto",
    "C43_legendre",
    "C43_unsupported_sizes",
    "C43_short_arrays",
    "C43_swage_copy"
   ],
   "note": "exact reals on the decimal constants of the source"
  },
  {
   "property": "C44",
   "status": "proved",
   "theorems": [
    "C44_basis",
    "C44_position",
    "C44_affine",
    "C44_hex32_position_oob"
   ],
   "note": "exact reals; all seven fixed-order element classes"
  },
  {
   "property": "C45",
   "status": "proved",
   "theorems": [
    "C45_partials",
    "C45_xi_partials_of_hex20_and_hex32"
   ],
   "note": "exact reals"
  },
  {
   "property": "C46",
   "status": "proved",
   "theorems": [
    "C46_hexn_vertex_map",
    "C46_vertex_maps",
    "C46_surfaces",
    "C46_surface_errors"
   ],
   "note": "HexN for every order; fixed-order tables"
  },
  {
   "property": "C47",
   "status": "proved",
   "theorems": [
    "C47_hexn_basis_and_partials",
    "C47_hexn_nodal_and_unity",
    "C47_hexn_unknown_order",
    "C47_quadn",
    "C47_quadn_corners",
    "C47_quadn_position_accumulates"
   ],
   "note": "exact reals; any 1D node table with distinct vertices"
  },
  {
   "property": "C48",
   "status": "proved",
   "theorems": [
    "C48_builds",
    "C48_numbering",
    "C48_points",
    "C48_cell_points",
    "C48_cell_centre",
    "C48_faces",
    "C48_face_cells",
    "C48_cell_faces",
    "C48_boundary_neighbours",
    "C48_face_orientation",
    "C48_boundary_points",
    "C48_ensight"
   ],
   "note": "exact reals, unbounded int; the sizes and lengths that main fixes are parameters"
  },
  {
   "property": "C49",
   "status": "proved",
   "theorems": [
    "C49_sub_weights",
    "C49_length_weights",
    "C49_setup",
    "C49_orders_4_to_9",
    "C49_short_tables"
   ],
   "note": "exact reals; every symmetric rule, and the code tables"
  },
  {
   "property": "C50",
   "status": "proved",
   "theorems": [
    "C50_sizes_agree",
    "C50_global_ids"
   ],
   "note": "pow of integers taken as exact; at order 0 the sizes of a zone disagree"
  },
  {
   "property": "C51",
   "status": "proved",
   "theorems": [
    "C51_point_jacobians",
    "C51_numbering_injective"
   ],
   "note": "one model for the three identical loop nests"
  },
  {
   "property": "C52",
   "status": "proved",
   "theorems": [
    "C52_cell_centre",
    "C52_patch_centre",
    "C52_boundary_test",
    "C52_plane_patches_found"
   ],
   "note": ""
  },
  {
   "property": "C53",
   "status": "proved",
   "theorems": [
    "C53_dispatch",
    "C53_files"
   ],
   "note": "readers and writers of VTK are arguments; C locale"
  },
  {
   "property": "C54",
   "status": "proved",
   "theorems": [
    "C54_spacing_from_last_cell",
    "C54_no_cells",
    "C54_not_global_minimum_refuted"
   ],
   "note": ""
  },
  {
   "property": "C55",
   "status": "proved",
   "theorems": [
    "C55_vol_jacobi",
    "C55_affine_volume"
   ],
   "note": "corner weights are a parameter; their sum is C38/C49"
  },
  {
   "property": "C56",
   "status": "proved",
   "theorems": [
    "C56_corner_surfaces"
   ],
   "note": "exact reals; pow with exponent 0 or 1"
  },
  {
   "property": "C57",
   "status": "proved",
   "theorems": [
    "C57_tables",
    "C57_nodal_tables"
   ],
   "note": "exact reals; ref_cell_basis_ modelled with the two indices it is accessed with"
  },
  {
   "property": "C58",
   "status": "proved",
   "theorems": [
    "C58_gauss_jacobi_exact",
    "C58_one_point"
   ],
   "note": "natural exponents; LAPACK dstev by its contract for the one call made"
  },
  {
   "property": "C59",
   "status": "proved",
   "theorems": [
    "C59_refined_mesh",
    "C59_accuracy",
    "C59_common_faces",
    "C59_trilinear_range",
    "C59_boxes",
    "C59_order_0",
    "C59_order_large",
    "C59_zero_row",
    "C59_thin_elements_refuted"
   ],
   "note": "exact reals; orders 1-9 (others fail, as proved); the merging is exact for boxes not longer in x than in y and z; C59_thin_elements_refuted shows that it is not exact in general"
  },
  {
   "property": "C60",
   "status": "proved",
   "theorems": [
    "C60_determinants",
    "C60_polynomial_maps",
    "C60_after_refinement",
    "C60_boxes",
    "C60_order_large",
    "C60_per_gauss_point_refuted"
   ],
   "note": "exact reals; orders 0-9 (above: failure proved); the array is indexed by node, so C60_per_gauss_point_refuted shows Gauss points left unset"
  },
  {
   "property": "C61",
   "status": "proved",
   "theorems": [
    "C61_refined_mesh",
    "C61_accuracy",
    "C61_common_faces",
    "C61_connectivity",
    "C61_boxes",
    "C61_order_large",
    "C61_no_elements",
    "C61_collapsed_element",
    "C61_isolated_cells",
    "C61_single_element",
    "C61_high_orders_refuted",
    "C61_side_corners"
   ],
   "note": "exact reals and unbounded ids; orders 0-9 (above: failure proved); exact node identity and patches for grids of equal boxes at orders 0-5; C61_high_orders_refuted shows orders 6-9 merge cell corners even on a unit cube"
  },
  {
   "property": "C62",
   "status": "proved",
   "theorems": [
    "C62_smooth_cells",
    "C62_smooth_element",
    "C62_smoothing_properties",
    "C62_apply_boundary",
    "C62_generate_bcs",
    "C62_cycle",
    "C62_max_principle",
    "C62_ordered_runs",
    "C62_rising",
    "C62_converges",
    "C62_boxes",
    "C62_two_planes"
   ],
   "note": "exact reals, unbounded ids; the solver needs right incidence lists (supplied by C61 for grids of boxes at orders 0-5, C62_boxes)"
  },
  {
   "property": "C63",
   "status": "proved",
   "theorems": [
    "C63_reads",
    "C63_isolated",
    "C63_no_elements",
    "C63_few_node_numbers",
    "C63_bad_node_number",
    "C63_few_coordinates",
    "C63_meshbox_file",
    "C63_meshbox"
   ],
   "note": "file as tokens after its eight header lines; exact reals; printing and reading back a number is a parameter fmt (C63_meshbox: exact on the coordinates used)"
  },
  {
   "property": "C64",
   "status": "proved",
   "theorems": [
    "C64_dump",
    "C64_full",
    "C64_series",
    "C64_lists",
    "C64_reread",
    "C64_inverted"
   ],
   "note": "dump contents as lists of printed numbers (printing is a parameter fmt); directories and file names not modelled"
  },
  {
   "property": "C65",
   "status": "proved",
   "theorems": [
    "C65_initial_field",
    "C65_shipped",
    "C65_box_unset_radii",
    "C65_box"
   ],
   "note": "members that input() leaves unset are parameters"
  },
  {
   "property": "C66",
   "status": "proved",
   "theorems": [
    "C66_length",
    "C66_run",
    "C66_too_many_dumps",
    "C66_interval_0",
    "C66_shipped",
    "C66_box",
    "C66_profile",
    "C66_shipped_box"
   ],
   "note": "exact reals: TIME is k/1000 exactly"
  },
  {
   "property": "C67",
   "status": "proved",
   "theorems": [
    "C67_area",
    "C67_area_exact",
    "C67_volume",
    "C67_shipped_tables",
    "C67_volume_order0_refuted"
   ],
   "note": "exact reals; the rounding of the printed sums is not modelled"
  },
  {
   "property": "C68",
   "status": "proved",
   "theorems": [
    "C68_mesh",
    "C68_positions",
    "C68_order_0",
    "C68_determinants",
    "C68_annulus",
    "C68_order_2",
    "C68_output"
   ],
   "note": "exact reals (sin, cos exact, M_PI a parameter); writing the grid to a file is left to VTK"
  },
  {
   "property": "C69",
   "status": "proved",
   "theorems": [
    "C69_choose_3D",
    "C69_choose_2D",
    "C69_order_N",
    "C69_num_nodes"
   ],
   "note": "reals for double; the selector objects are stateless in the model (the writable reference of ref_locs is not written through)"
  },
  {
   "property": "C70",
   "status": "proved",
   "theorems": [
    "C70_value",
    "C70_derivatives",
    "C70_near_vertex",
    "C70_field",
    "C70_gradient"
   ],
   "note": "exact reals; bounds in terms of a bound of the highest derivative on the interval and, in 3D, the Lebesgue functions of the vertices"
  },
  {
   "property": "C71",
   "status": "proved",
   "theorems": [
    "C71_legendre",
    "C71_lobatto",
    "C71_gauss_2d",
    "C71_gauss_3d",
    "C71_lobatto_2d",
    "C71_lobatto_3d",
    "C71_gauss_jacobi"
   ],
   "note": "exact reals; table values as printed in the source, so the bound carries the table tolerance; the Gauss-Jacobi theorem assumes the eigen-solver contract of C58"
  },
  {
   "property": "C72",
   "status": "proved",
   "theorems": [
    "C72_exact_case",
    "C72_doubles",
    "C72_factorisation",
    "C72_solve",
    "C72_inverse",
    "C72_determinant",
    "C72_row_scale_unstable"
   ],
   "note": "rounded arithmetic: every + - * / rounded with relative error u (doubles: 2^-53, no overflow or underflow, no fused multiply-add)"
  },
  {
   "property": "C73",
   "status": "proved",
   "theorems": [
    "C73_exact_case",
    "C73_doubles",
    "C73_weights",
    "C73_basis",
    "C73_basis3",
    "C73_interpolation",
    "C73_field",
    "C73_derivative_at_vertex",
    "C73_derivative",
    "C73_derivative_wrong_near_vertex",
    "C73_gradient_wrong_near_vertex",
    "C73_determinant"
   ],
   "note": "rounded arithmetic as in C72"
  },
  {
   "property": "C74",
   "status": "proved",
   "theorems": [
    "C74_real_instance",
    "C74_real_data_1d",
    "C74_real_data_element",
    "C74_complex_lagrange",
    "C74_complex_find",
    "C74_complex_element",
    "C74_complex_polynomials",
    "C74_complex_legendre",
    "C74_step_lagrange",
    "C74_step_element",
    "C74_step_coefficients",
    "C74_step_legendre",
    "C74_step_lost_at_vertices",
    "C74_step_lost_witness"
   ],
   "note": "exact arithmetic in both instances; first derivatives over C"
  },
  {
   "property": "C75",
   "status": "proved",
   "theorems": [
    "C75_same_or_overflow",
    "C75_nodes_fit",
    "C75_nodes_overflow",
    "C75_high_fit",
    "C75_high_overflow",
    "C75_connectivity_fit",
    "C75_connectivity_overflow",
    "C75_sizes",
    "C75_boxes_fit",
    "C75_unit_cube",
    "C75_high_unit_cube"
   ],
   "note": "refine_mesh, build_connectivity and refine_high_order_mesh; ids smaller than checked sizes are not checked separately; coordinates remain exact reals"
  },
  {
   "property": "C76",
   "status": "proved",
   "theorems": [
    "C76_exact_case",
    "C76_doubles",
    "C76_bounded",
    "C76_legendre_bounded",
    "C76_legendre_eval",
    "C76_jacobi_eval",
    "C76_derivatives",
    "C76_series",
    "C76_element",
    "C76_basis",
    "C76_doubles_value",
    "C76_doubles_field"
   ],
   "note": "no overflow, underflow or fused operations; Jacobi and derivatives for equal natural parameters (the Legendre case is 0), tgamma accurate to g roundings; first derivatives for series and elements"
  },
  {
   "property": "C77",
   "status": "proved",
   "theorems": [
    "C77_doubles",
    "C77_refined_mesh",
    "C77_accuracy",
    "C77_lobatto",
    "C77_corners",
    "C77_edges",
    "C77_edges_reversed",
    "C77_faces",
    "C77_same_numbering",
    "C77_swapped_face"
   ],
   "note": "no overflow, underflow or fused operations; pow(x,2) and sqrt correctly rounded; orders 0 to 9; faces listed in different orders are covered by the counterexample C77_swapped_face and by C77_same_numbering"
  },
  {
   "property": "C78",
   "status": "proved",
   "theorems": [
    "C78_exact",
    "C78_connectivity",
    "C78_same_connectivity",
    "C78_refined",
    "C78_refined_spaced",
    "C78_swapped_side"
   ],
   "note": "no overflow, underflow or fused operations; pow(x,2) and sqrt correctly rounded; sides listed in different orders are covered by the counterexample C78_swapped_side and by C78_same_connectivity"
  },
  {
   "property": "C79",
   "status": "proved",
   "theorems": [
    "C79_exact",
    "C79_determinant",
    "C79_wrong_sign",
    "C79_inverse",
    "C79_two_dimensions",
    "C79_four_dimensions",
    "C79_points",
    "C79_vol_jacobi",
    "C79_vol_hex",
    "C79_negative_volume",
    "C79_grid"
   ],
   "note": "no overflow, underflow or fused operations; jacobian_3d, jacobian_inverse_3d (wrong already in exact arithmetic, C22) and jacobian_inverse_4d are not rounded"
  },
  {
   "property": "C80",
   "status": "proved",
   "theorems": [
    "C80_exact",
    "C80_lists",
    "C80_smooth",
    "C80_cycle",
    "C80_error",
    "C80_uniform",
    "C80_linked",
    "C80_ordered",
    "C80_range",
    "C80_range64",
    "C80_rising",
    "C80_settles",
    "C80_counts",
    "C80_boxes",
    "C80_leaves_range"
   ],
   "note": "no overflow, underflow or fused operations; input values are taken as stored"
  },
  {
   "property": "C81",
   "status": "proved",
   "theorems": [
    "C81_length",
    "C81_clock",
    "C81_run",
    "C81_too_many_dumps",
    "C81_interval_0",
    "C81_cycles",
    "C81_milliseconds",
    "C81_late",
    "C81_shipped"
   ],
   "note": "the mesh and boundary sets are given; no overflow, underflow or fused operations; the final time is taken as it is stored"
  },
  {
   "property": "C82",
   "status": "proved",
   "theorems": [
    "C82_box",
    "C82_shipped_box"
   ],
   "note": "mesh and boundary sets are set up in exact arithmetic (C77 and C78 cover their rounding), the solver runs in binary64; no overflow, underflow or fused operations"
  },
  {
   "property": "C83",
   "status": "proved",
   "theorems": [
    "C83_exact",
    "C83_boundary",
    "C83_fill",
    "C83_setup",
    "C83_run"
   ],
   "note": "no overflow, underflow or fused operations; C83_setup and C83_run assume that the last refined cell has no two corners at the same computed place, as in C78; the distance from the exact run is C80"
  },
  {
   "property": "C84",
   "status": "proved",
   "theorems": [
    "C84_exact",
    "C84_equispaced",
    "C84_equispaced_end_refuted",
    "C84_equispaced_single",
    "C84_chebyshev"
   ],
   "note": "the sine of the C library is an argument with a stated contract (odd, increasing on the angles used, in [-1,1], error at most v); no overflow, underflow or fused operations"
  }
 ]
}