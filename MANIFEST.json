{
 "claims": [
  {
   "property": "C01",
   "status": "proved",
   "theorems": [
    "C01_assemble_in_place",
    "C01_assemble_first_error",
    "C01_assemble_ragged",
    "C01_assemble_empty",
    "C01_assemble_accepts_only_rectangular"
   ],
   "note": ""
  },
  {
   "property": "C02",
   "status": "proved",
   "theorems": [
    "C02_reshape_row_major",
    "C02_row_major_meaning"
   ],
   "note": ""
  },
  {
   "property": "C03",
   "status": "proved",
   "theorems": [
    "C03_collapse_value",
    "C03_collapse_exact",
    "C03_collapse_acts",
    "C03_no_tolerance_refuted"
   ],
   "note": "C03_no_tolerance_refuted shows why the tolerance has to be part of the statement"
  },
  {
   "property": "C04",
   "status": "partial",
   "theorems": [
    "C04_collapse_terminates_refuted",
    "C04_transpose_diverges_refuted",
    "C04_minus_number_refuted",
    "C04_plus_number_refuted",
    "C04_collapse_terminates_partial",
    "C04_collapse_returns_only"
   ],
   "note": "false of the code: transposes of composites and numbers in differences recurse for ever; proved: it returns exactly on the class collapsible"
  },
  {
   "property": "C05",
   "status": "proved",
   "theorems": [
    "C05_convert_offsets",
    "C05_convert_returns"
   ],
   "note": "each block row and column has a block that knows its size (otherwise cbc.block raises); C05_convert_returns: with columns of positive size, since scipy refuses a numeric block without columns"
  },
  {
   "property": "C06",
   "status": "partial",
   "theorems": [
    "C06_numeric_blocks_refuted",
    "C06_numeric_blocks_partial"
   ],
   "note": "false of the code: a non-zero number off the square diagonal becomes zero; proved when non-zero numbers sit on the diagonal of square block rows"
  },
  {
   "property": "C07",
   "status": "proved",
   "theorems": [
    "C07_convert_commutes",
    "C07_convert_vec"
   ],
   "note": ""
  },
  {
   "property": "C08",
   "status": "partial",
   "theorems": [
    "C08_get_dims_refuted",
    "C08_get_dims_partial"
   ],
   "note": "false of the code when a number stands in a chain of three or more factors; proved for flat products with numbers only in two-factor products"
  },
  {
   "property": "C09",
   "status": "partial",
   "theorems": [
    "C09_nest_refuted",
    "C09_nest_partial",
    "C09_nest_dropped"
   ],
   "note": "false of the code for non-zero numbers on the diagonal; proved: agreement up to dropped off-diagonal blocks below the tolerance"
  },
  {
   "property": "C10",
   "status": "proved",
   "theorems": [
    "C10_solutions",
    "C10_no_rhs",
    "C10_nothing_to_do",
    "C10_returns",
    "C10_empty_condition_raises",
    "C10_refused"
   ],
   "note": "a condition that marks no dof at all raises (C10_empty_condition_raises)"
  },
  {
   "property": "C100",
   "status": "proved",
   "theorems": [
    "C100_interior",
    "C100_all",
    "C100_intervals"
   ],
   "note": "Composes C38; DomainBoundary marks the facets with exactly one cell."
  },
  {
   "property": "C101",
   "status": "partial",
   "theorems": [
    "C101_distance_partial",
    "C101_distance_refuted",
    "C101_dimension_refuted",
    "C101_field_partial",
    "C101_lengths"
   ],
   "note": "Proved for segments whose ends differ, in the plane and in space. False: if the ends agree the result is nan; in other dimensions np.cross raises when the foot of the perpendicular is in the segment. Real arithmetic."
  },
  {
   "property": "C102",
   "status": "partial",
   "theorems": [
    "C102_scalar",
    "C102_grad_partial",
    "C102_grad_refuted",
    "C102_div_partial",
    "C102_div_refuted",
    "C102_tensor_partial",
    "C102_symbols_refuted",
    "C102_script_refuted",
    "C102_expression_partial",
    "C102_expression_refuted"
   ],
   "note": "Proved where no entry is known to be zero. False otherwise: values() drops zeros, so Grad has fewer rows, Div((0, y)) is 0 and asExpr raises; Div of a tensor ignores X; the script's first check fails for symbols that are not the default ones."
  },
  {
   "property": "C103",
   "status": "proved",
   "theorems": [
    "C103_cells",
    "C103_cover",
    "C103_disjoint",
    "C103_refused"
   ],
   "note": "Disjointness for cells with affinely independent vertices. Real arithmetic; dolfin's parent and child pointers are not modelled."
  },
  {
   "property": "C104",
   "status": "partial",
   "theorems": [
    "C104_circle_partial",
    "C104_nan_refuted",
    "C104_onto_partial",
    "C104_onto_refuted",
    "C104_disk_partial",
    "C104_centre_refuted",
    "C104_square"
   ],
   "note": "Squares and their sides as stated. Points not along n go to the circle or disk, at the scaled distance, and onto it if the plane is not perpendicular to z = 0. False: points along n and the centre of the disk give nan; if n_z = 0 the circle collapses to two points. Exact arithmetic."
  },
  {
   "property": "C105",
   "status": "partial",
   "theorems": [
    "C105_curve_partial",
    "C105_start",
    "C105_surface",
    "C105_errors",
    "C105_union",
    "C105_start_refuted",
    "C105_none_refuted"
   ],
   "note": "Proved if the start is on the surface, which it is if (-1, -1, -1) is a vertex. False otherwise: the curve may have two pieces, or no vertex on the surface and then None is returned. Shortest paths and random choices are arguments."
  },
  {
   "property": "C106",
   "status": "proved",
   "theorems": [
    "C106_outer",
    "C106_inner",
    "C106_interface",
    "C106_names",
    "C106_sharp",
    "C106_rotate"
   ],
   "note": "For i up to 49, in exact arithmetic; C106_sharp shows that for every i from 50 on a triangle with a vertex outside is put in the inner domain, so the bound is the best possible. dolfin's mesh of the unit square, mark and near are modelled; EmbeddedMesh is the selection of its cells."
  },
  {
   "property": "C107",
   "status": "partial",
   "theorems": [
    "C107_poisson",
    "C107_poisson_bc",
    "C107_multiplier_bc_refuted",
    "C107_grad_div",
    "C107_curl_curl",
    "C107_sym_grad",
    "C107_mixed"
   ],
   "note": "True but for the value 0 that poisson_babuska_bc.py prescribes for the multiplier at the ends of its curve, where the exact one is not zero (C107_multiplier_bc_refuted). Forms are integrands at a point, exact solutions are symbolic expressions with their derivatives; integrals are Riemann integrals; discretization is not modelled."
  },
  {
   "property": "C108",
   "status": "proved",
   "theorems": [
    "C108_dq",
    "C108_layton",
    "C108_mortar",
    "C108_elasticity"
   ],
   "note": "Forms are integrands at a point, exact solutions are symbolic expressions with their derivatives; integrals are Riemann integrals over rectangles (the outer domain is the square without the inner one); discretization is not modelled."
  },
  {
   "property": "C109",
   "status": "partial",
   "theorems": [
    "C109_emi",
    "C109_curve",
    "C109_curve_bc_refuted",
    "C109_bertoluzza",
    "C109_arc",
    "C109_free_slip",
    "C109_free_slip_arc",
    "C109_free_slip_bc_refuted",
    "C109_isoP2",
    "C109_dirac",
    "C109_sandbox",
    "C109_daq_energy",
    "C109_daq_refuted"
   ],
   "note": "True but for the value 0 prescribed for the multiplier at the ends of the curve by twoDoneDoneD and free_slip_stokes_iter (refuted; that of bertoluzza_stokes is right) and for daq_3d1d, which computes a11 and puts 0 in its place (refuted). The theorem of Gauss is proved for the square and for the domain with half a circle as its left side."
  },
  {
   "property": "C11",
   "status": "proved",
   "theorems": [
    "C11_symmetric",
    "C11_free_entries"
   ],
   "note": ""
  },
  {
   "property": "C110",
   "status": "partial",
   "theorems": [
    "C110_sparse",
    "C110_dense",
    "C110_zero",
    "C110_row",
    "C110_diagonal",
    "C110_bmat",
    "C110_numpy",
    "C110_number_refuted",
    "C110_petsc_refuted",
    "C110_petsc_partial",
    "C110_lg_map",
    "C110_as_block",
    "C110_roundtrip"
   ],
   "note": "block_mat_to_petsc always raises: the name get_sizes is not defined in its module, and with it the sizes, numpy integers, would not count as numbers (refuted); with both mended it is right (partial). A number that is a block is taken for zero whatever it is (refuted)."
  },
  {
   "property": "C111",
   "status": "partial",
   "theorems": [
    "C111_collides",
    "C111_direction",
    "C111_ends",
    "C111_bbox",
    "C111_bbox_test",
    "C111_box_collides_refuted"
   ],
   "note": "cut_surface_mesh.py is not a Python module (the function is written in Julia): its text is modelled as written. box_collides of line_collision.py raises NameError whatever it is given (refuted)."
  },
  {
   "property": "C112",
   "status": "partial",
   "theorems": [
    "C112_euler",
    "C112_returns",
    "C112_final_time",
    "C112_stable",
    "C112_float_refuted"
   ],
   "note": "In exact arithmetic the last time is 1 if dt divides 1; in double precision the loop with dt = 0.1 makes eleven steps, to 1.1 (refuted)."
  },
  {
   "property": "C113",
   "status": "partial",
   "theorems": [
    "C113_runs",
    "C113_returns",
    "C113_linear",
    "C113_residual",
    "C113_start",
    "C113_converges",
    "C113_converged_refuted"
   ],
   "note": "What is returned after maxiter passes need not be near a solution, and nothing says so (refuted, with the cycle 0, 1, 0, ... of x^3 - 2 x + 2)."
  },
  {
   "property": "C114",
   "status": "partial",
   "theorems": [
    "C114_run",
    "C114_sound_partial",
    "C114_sound_refuted",
    "C114_complete_refuted",
    "C114_named",
    "C114_verdict",
    "C114_iterations",
    "C114_order",
    "C114_one_mesh",
    "C114_missing_refuted",
    "C114_missing_dead",
    "C114_selected"
   ],
   "note": "A demo that ends with an exception that has no Error in its traceback, such as StopIteration, passes, as the code of a demo that passed is that of a crash (refuted); a demo that passed after writing Error fails (refuted). Without gmshnics the demos with an arc raise IndexError instead of passing (refuted)."
  },
  {
   "property": "C115",
   "status": "partial",
   "theorems": [
    "C115_formula",
    "C115_partition",
    "C115_zero",
    "C115_missing",
    "C115_tag_refuted",
    "C115_crossing_refuted",
    "C115_halves",
    "C115_sides",
    "C115_interface"
   ],
   "note": "With the tag 0 the whole mesh is taken whatever the subdomain is (refuted); cells that are inside no subdomain are dropped without a word: the error on UnitSquareMesh(1, 1) split in halves is 0 (refuted). For the meshes of the demos no cell is dropped."
  },
  {
   "property": "C116",
   "status": "proved",
   "theorems": [
    "C116_nonlinear",
    "C116_multiplier",
    "C116_taylor_hood",
    "C116_mini",
    "C116_block",
    "C116_grad_div",
    "C116_mixed"
   ],
   "note": ""
  },
  {
   "property": "C117",
   "status": "partial",
   "theorems": [
    "C117_optimal",
    "C117_multiplier",
    "C117_unique",
    "C117_header_partial",
    "C117_header_refuted",
    "C117_nielsen",
    "C117_zulehner",
    "C117_fractional",
    "C117_fractional_preconditioner"
   ],
   "note": "The objective in the header, |u - f|^2 + alpha/2 |p|^2, is not the one the system with eps = alpha minimises (refuted); it is with alpha = 2 eps. setup_mms of that file is not modelled (it imports as_expression from common, which is not there)."
  },
  {
   "property": "C118",
   "status": "partial",
   "theorems": [
    "C118_symmetric",
    "C118_energy",
    "C118_positive",
    "C118_unique",
    "C118_minimal",
    "C118_flux",
    "C118_difference",
    "C118_eliminate_partial",
    "C118_eliminate_refuted",
    "C118_multiplier_unique",
    "C118_indefinite",
    "C118_preconditioners",
    "C118_spectral"
   ],
   "note": "Elimination is proved if the average of u3 is a function of the space of multipliers. False otherwise: averages are discontinuous and multipliers continuous, so the multiplier sees the projection of the average only, and the solutions differ (refuted with an average that jumps, for every radius); C118_difference gives the residual."
  },
  {
   "property": "C119",
   "status": "partial",
   "theorems": [
    "C119_layer",
    "C119_layer_unique",
    "C119_layer_header_refuted",
    "C119_d123",
    "C119_d123_unique_partial",
    "C119_d123_unique_refuted",
    "C119_d123_kernel",
    "C119_d123_balance"
   ],
   "note": "layer_2d.py minimises with weight 5 on the gradient of u1, which is not the norm of the header (refuted). In solving.py the minimiser is not unique: with constants added a solution is another one, so the matrix is singular (refuted); solutions differ only by functions without gradients."
  },
  {
   "property": "C12",
   "status": "proved",
   "theorems": [
    "C12_rows",
    "C12_constrained_row",
    "C12_last_value"
   ],
   "note": ""
  },
  {
   "property": "C120",
   "status": "partial",
   "theorems": [
    "C120_energy",
    "C120_symmetric_partial",
    "C120_positive_partial",
    "C120_unique_partial",
    "C120_unique_refuted",
    "C120_symmetric_refuted"
   ],
   "note": "Symmetric if average and trace agree; positive and uniquely solvable if 10/4 |average - trace|^2 is less than the energy of the tissue. False in general: the matrix can be singular with the constants of the script, and is not symmetric (refuted with averages and traces that are values at different nodes)."
  },
  {
   "property": "C121",
   "status": "proved",
   "theorems": [
    "C121_optimal",
    "C121_unique",
    "C121_volume"
   ],
   "note": "The comment that the integrand has to be scaled by the volume (23-24) matters for the multiplier only. The preconditioner of the script (44-52) has three blocks for a system of two and is not modelled."
  },
  {
   "property": "C122",
   "status": "proved",
   "theorems": [
    "C122_balanced",
    "C122_sides",
    "C122_general",
    "C122_conditions",
    "C122_multiplier"
   ],
   "note": "By the theorem of Gauss on the cube (gauss3 of Gauss3Proofs.v), for all smooth test functions, so also for those that vanish where there are conditions."
  },
  {
   "property": "C123",
   "status": "partial",
   "theorems": [
    "C123_ends",
    "C123_mixed_partial",
    "C123_mixed_refuted",
    "C123_choices_partial",
    "C123_choices_refuted",
    "C123_same_blocks",
    "C123_same_conditions",
    "C123_riesz",
    "C123_flux"
   ],
   "note": "mixed_poisson_babuska_iter.py marks all points with x = 1 of the multiplier's curve, which is the whole right side instead of an end (refuted). twoDoneDoneD_iter.py and layton_darcy_stokes_iter.py accept --hs mg and raise UnboundLocalError with it (refuted). Norms of hsmg are not modelled."
  },
  {
   "property": "C124",
   "status": "partial",
   "theorems": [
    "C124_action_partial",
    "C124_fill_partial",
    "C124_script_partial",
    "C124_assign_partial",
    "C124_assign_refuted"
   ],
   "note": "Under the conditions of C26 and C27 (see there for what fails without them), for a trial function without flux average (these accept arguments only) and other coefficients that do not share the vector. After v.assign the form keeps the old values (assign_partial says which, refuted gives a case), as the comment in trace_form.py warns."
  },
  {
   "property": "C125",
   "status": "proved",
   "theorems": [
    "C125_interface",
    "C125_glued",
    "C125_tagged",
    "C125_square",
    "C125_domains",
    "C125_odd"
   ],
   "note": "For an odd number of squares some cells are in none of the domains and the interface is the diagonal only (C125_odd); the scripts use 32."
  },
  {
   "property": "C126",
   "status": "partial",
   "theorems": [
    "C126_session_partial",
    "C126_clean_partial",
    "C126_frame",
    "C126_name",
    "C126_printed",
    "C126_sizes",
    "C126_reuse",
    "C126_again",
    "C126_stale_refuted",
    "C126_half_refuted",
    "C126_edit_refuted",
    "C126_digits_refuted"
   ],
   "note": "False as stated when a program stops early: the exit status of dolfin-convert is not looked at, so domain.xml of an earlier failed call is taken for the mesh (C126_stale_refuted); a child process that stops after opening the file leaves an empty mesh file that is then reused for ever (C126_half_refuted); a changed domain.geo is not noticed (C126_edit_refuted); sizes that differ after the sixth digit share a file (C126_digits_refuted). It holds for all sessions in which dolfin-convert and the child come to their ends (gmsh may fail), and from a clean directory whatever the programs do for the mesh in the file (the regions may be missing)."
  },
  {
   "property": "C127",
   "status": "partial",
   "theorems": [
    "C127_marks",
    "C127_exact_partial",
    "C127_exact_refuted",
    "C127_curve",
    "C127_geo",
    "C127_union",
    "C127_union_refuted"
   ],
   "note": "False without fitting: an edge that crosses a diagonal in its midpoint is marked (C127_exact_refuted, the mesh of a face with the other diagonal). On meshes that are fitted to the diagonals, as gmsh makes them of domain.geo, and with a tolerance below the size of the mesh the marked edges are exactly those on the curve (C127_exact_partial). An empty string in a list given to union is an error of the compiler (C127_union_refuted)."
  },
  {
   "property": "C128",
   "status": "partial",
   "theorems": [
    "C128_circle",
    "C128_rim",
    "C128_square",
    "C128_disk_partial",
    "C128_circle_tests",
    "C128_square_tests",
    "C128_disk_tests_refuted",
    "C128_old_square_refuted"
   ],
   "note": "True for circles, squares and rims (C128_circle_tests, C128_square_tests), and for every normal and background mesh that contains the shape (C128_circle, C128_rim, C128_square). False for the disk of degree 10 that the tests use: its table has four points at more than ten radii from the centre, these are outside of the cube and skipped while their weights count in the measure, so the average of 1 is below 1 - 7/10^4 and the tests fail (C128_disk_tests_refuted). With the degrees 2-9 and 12-15 the average over a disk is right to 1e-14 (C128_disk_partial). The value in test/avg_test_square.py is that of the rim, twice that of the square (C128_old_square_refuted)."
  },
  {
   "property": "C129",
   "status": "proved",
   "theorems": [
    "C129_extends",
    "C129_mass",
    "C129_projected_mass",
    "C129_reciprocal",
    "C129_positive",
    "C129_constant_lost"
   ],
   "note": "For any solver of regular systems; elimination is shown to be one (C129_solver). Quadrature is taken as it is: the statements are about the integrals that are computed with it."
  },
  {
   "property": "C13",
   "status": "partial",
   "theorems": [
    "C13_updater_refuted",
    "C13_updater_dict_refuted",
    "C13_updater_nonsymmetric_refuted",
    "C13_updater_partial"
   ],
   "note": "false of the code for diag_val other than 1, for dictionary conditions and for symmetric=False; proved for symmetric elimination with unit diagonal and DirichletBC conditions"
  },
  {
   "property": "C130",
   "status": "partial",
   "theorems": [
    "C130_symmetric",
    "C130_balance",
    "C130_slip",
    "C130_friction_partial",
    "C130_friction_refuted",
    "C130_unique_partial",
    "C130_unique_refuted"
   ],
   "note": "Friction dissipates for steps dt of at least 1 only: the block of the displacements and the coupling have the factor 1/dt and that of the velocities dt/dt. Storage of the pressure has the sign of the energies, where it would have to have the other; with s0 = 1 as in the script there are discretizations with more than one solution, so uniqueness is proved for s0 = 0 and dt >= 1."
  },
  {
   "property": "C131",
   "status": "partial",
   "theorems": [
    "C131_enter",
    "C131_inserted",
    "C131_last",
    "C131_added",
    "C131_one_mode",
    "C131_rows",
    "C131_range",
    "C131_raises",
    "C131_processes_lost",
    "C131_processes_kept",
    "C131_traces_partial",
    "C131_traces_refuted"
   ],
   "note": "Traces with avg or jump mix inserted and added values, which PETSc refuses in debugging builds: there the matrix cannot be made as soon as a facet has two cells (C131_traces_refuted); in other builds it is the matrix of the earlier model (C131_traces_partial). All else is proved."
  },
  {
   "property": "C132",
   "status": "partial",
   "theorems": [
    "C132_circles_partial",
    "C132_mirrored",
    "C132_points_refuted",
    "C132_squares",
    "C132_rims",
    "C132_components",
    "C132_tube",
    "C132_fixed_corner_refuted",
    "C132_traces_raise"
   ],
   "note": "The pictures take v1 - v0 as the normal and the averages v0 - v1. For circles the points are on the right circle, but mirrored in a horizontal line (opposite for vertical cells), and a picture need not show any point of the average (refuted). For squares and rims the points are the same. The rings of tubes lie over each other, with the directions of the points the same on both; with a square whose corner is a fixed point no tube can be drawn (refuted). Functions with several components give each curve once per component, traces (shape None) an AttributeError."
  },
  {
   "property": "C133",
   "status": "partial",
   "theorems": [
    "C133_equation",
    "C133_euler",
    "C133_turns",
    "C133_returns",
    "C133_calls",
    "C133_multiplier",
    "C133_stale_refuted",
    "C133_float_refuted",
    "C133_float_stops"
   ],
   "note": "The data of test_dep.py belong to the solution of line 92 (source, rows, conditions, all times, step sizes and test functions); step i uses the data of (i+1) dt and the error is taken at the time reached; a call does not see what others left in the shared expressions. p_exact.t is never updated: ph is compared with zero, which is right on the interface only because du/dx vanishes there (stale elsewhere: refuted). In double precision the smallest of the four step sizes makes 401 steps, so the runs do not end at one time (refuted)."
  },
  {
   "property": "C134",
   "status": "partial",
   "theorems": [
    "C134_blocks",
    "C134_eigenvalues",
    "C134_condition",
    "C134_conditions",
    "C134_smallest_refuted"
   ],
   "note": "All discretizations with nested pressures, positive weights and regular mass and stiffness: the blocks multiplied by J are those of the coarse pressure, the matrices are symmetric; eigenvalues of the pair (A, B) are 1/number of cells for dofs with conditions, 1, or solve beta^2 <= lambda (lambda - 1) <= 2, so that apart from the dofs with conditions the printed numbers are bounded by the stability constant. False for the smallest printed modulus (refuted): apply_bc puts 1 and assemble_system the number of cells on the diagonal. That assemble_system does so is trusted."
  },
  {
   "property": "C135",
   "status": "partial",
   "theorems": [
    "C135_script",
    "C135_solved_partial",
    "C135_linear",
    "C135_repaired",
    "C135_solved_refuted"
   ],
   "note": "False: the second call of F raises AttributeError since b is rebound to the PETSc vector only if it is empty, so the solver returns only if zero passes the absolute tolerance; otherwise the functions are left after one step (the solution, if the problem is linear) and the counters stay 0. Proved for methods that overwrite: the steps of Newton until the test is passed. Residual, linear solver and the subtraction from a nested vector are arguments."
  },
  {
   "property": "C136",
   "status": "partial",
   "theorems": [
    "C136_mirror_partial",
    "C136_returns",
    "C136_mirror_refuted",
    "C136_pairs",
    "C136_shape",
    "C136_rank_refuted"
   ],
   "note": "Nested as the spaces exactly for lists that are not empty and hold only spaces or only such lists; mixed lists lose entries and what follows an empty list is dropped (StopIteration ends list(map(...))). A pair of lists of spaces gives a vector of all pairs, not a matrix, and lists of different lengths raise."
  },
  {
   "property": "C137",
   "status": "partial",
   "theorems": [
    "C137_cells",
    "C137_extend",
    "C137_marks",
    "C137_even",
    "C137_built_refuted"
   ],
   "note": "Proved for the mesh that is intended. The script itself does not reach it: (nx+1)/2 is a float in Python 3 and UnitSquareMesh raises TypeError for all nx. Conditions are evaluated exactly."
  },
  {
   "property": "C138",
   "status": "proved",
   "theorems": [
    "C138_loaded",
    "C138_returns"
   ],
   "note": "The file is a list of named data sets; how dolfin finds the value of an entity (by its vertices, 0 if it is not in the file) is trusted."
  },
  {
   "property": "C139",
   "status": "partial",
   "theorems": [
    "C139_cells",
    "C139_gamma",
    "C139_outer",
    "C139_interface_refuted"
   ],
   "note": "Proved for n divisible by four, as in the demo; the marks of the outside for all n. False otherwise: no facet lies on the boundary of the inner square if n is not divisible by four, and the assertion of the function does not notice. Coordinates and conditions are exact."
  },
  {
   "property": "C14",
   "status": "proved",
   "theorems": [
    "C14_reassembles",
    "C14_as_block"
   ],
   "note": ""
  },
  {
   "property": "C140",
   "status": "proved",
   "theorems": [
    "C140_cells",
    "C140_facets"
   ],
   "note": "Coordinates and conditions are exact, the tolerance of near and DOLFIN_EPS is one argument."
  },
  {
   "property": "C141",
   "status": "partial",
   "theorems": [
    "C141_edges",
    "C141_covered",
    "C141_grid_refuted"
   ],
   "note": "The edges and the vertex are proved for all even N, the covering of the lines for N divisible by four. The last part is false: an even N that is not divisible by four passes the assertion, and then only three of the nineteen lines have edges. Coordinates are exact, the tolerance of near is an argument."
  },
  {
   "property": "C142",
   "status": "proved",
   "theorems": [
    "C142_tags",
    "C142_translated",
    "C142_other_n"
   ],
   "note": "Conditions are exact with one tolerance for near and DOLFIN_EPS. translate_markers is used by what it returns for embedded meshes, the function itself is modelled in EmbedModel.v."
  },
  {
   "property": "C143",
   "status": "partial",
   "theorems": [
    "C143_options",
    "C143_condition",
    "C143_positive_refuted"
   ],
   "note": "The options and the ratio are proved. The last part is false: `assert (e > 0 for e in eigs)` is an assertion on a generator, which is always true, so eigenvalues of any sign pass and give the same number. The solver itself is not modelled, the eigenvalues are an argument."
  },
  {
   "property": "C15",
   "status": "partial",
   "theorems": [
    "C15_accepts",
    "C15_rejects",
    "C15_groups",
    "C15_inverse_partial",
    "C15_single_space_refuted",
    "C15_negative_refuted"
   ],
   "note": "false of the code for a single space (transpose raises) and for negative offsets, which are accepted (blocks repeated); proved for positive offsets and two or more spaces"
  },
  {
   "property": "C16",
   "status": "proved",
   "theorems": [
    "C16_accepts",
    "C16_reduces",
    "C16_negative_refuted"
   ],
   "note": "valid offsets are positive; negative ones are accepted by the constructor and give wrong results (C16_negative_refuted)"
  },
  {
   "property": "C17",
   "status": "partial",
   "theorems": [
    "C17_adjoint",
    "C17_scatter",
    "C17_duplicate_refuted",
    "C17_kinds"
   ],
   "note": "adjointness is false of the code for repeated indices; proved for distinct ones"
  },
  {
   "property": "C18",
   "status": "proved",
   "theorems": [
    "C18_orthogonal",
    "C18_difference",
    "C18_idempotent"
   ],
   "note": ""
  },
  {
   "property": "C19",
   "status": "proved",
   "theorems": [
    "C19_orthonormal",
    "C19_dependent_rejected",
    "C19_first",
    "C19_constants_raise"
   ],
   "note": "exact arithmetic; constants or numbers as blocks always raise NameError (C19_constants_raise)"
  },
  {
   "property": "C20",
   "status": "proved",
   "theorems": [
    "C20_value",
    "C20_projector",
    "C20_collapse",
    "C20_orthonormalize",
    "C20_accepts",
    "C20_refuses"
   ],
   "note": "np.linalg.eig enters through its specification eig_spec"
  },
  {
   "property": "C21",
   "status": "partial",
   "theorems": [
    "C21_initial",
    "C21_add_bilinear",
    "C21_add_linear",
    "C21_any_order",
    "C21_rejects_partial",
    "C21_rejects_refuted",
    "C21_arity"
   ],
   "note": "routing, frame and order independence proved; rejection holds for forms with one integral only: in longer forms the integral over a foreign space and all later ones are silently dropped"
  },
  {
   "property": "C22",
   "status": "partial",
   "theorems": [
    "C22_permute_partial",
    "C22_permute_linear_partial",
    "C22_inverse",
    "C22_rejects",
    "C22_one_block_refuted",
    "C22_by_space_partial"
   ],
   "note": "proved for two or more blocks; a single block is never accepted (ValueError)"
  },
  {
   "property": "C23",
   "status": "partial",
   "theorems": [
    "C23_upper_partial",
    "C23_lower_partial",
    "C23_rejects",
    "C23_same_space_refuted",
    "C23_triangular"
   ],
   "note": "needs the integrands to be exchangeable (see C24)"
  },
  {
   "property": "C24",
   "status": "partial",
   "theorems": [
    "C24_adjoint_partial",
    "C24_form_partial",
    "C24_same_space_refuted",
    "C24_mixed_attributes_refuted",
    "C24_other_attributes_refuted"
   ],
   "note": "false when test and trial function share a space, when an argument occurs with different reduction attributes, and for attributes other than trace_, restriction_, average_"
  },
  {
   "property": "C25",
   "status": "partial",
   "theorems": [
    "C25_replace",
    "C25_absent",
    "C25_gone",
    "C25_compound_partial",
    "C25_prefix_refuted"
   ],
   "note": "fully proved for a terminal arg; for a compound arg proved when the class fixes the number of operands, false otherwise (list tensors match when one is a prefix)"
  },
  {
   "property": "C26",
   "status": "partial",
   "theorems": [
    "C26_reduced_bilinear_partial",
    "C26_any_assemblers",
    "C26_reduced_bilinear_refuted",
    "C26_equal_integrals_refuted"
   ],
   "note": "the operator returned is an unevaluated product or sum, proved to collapse to a matrix with these values; proved for every list of integrals with any of the eleven modules' reductions on test, trial and coefficients, given that df.assemble is right on forms without reductions; excluded: a function reduced in two ways inside one integrand, an average meeting another codimension-2 reduction, a restriction meeting an injection (the first such mix is shown to raise), integrals that differ in reductions only (shown to raise: UFL compares integrals without the attributes); matrices may raise: it is assumed that those of the form are made and have the sizes of the spaces"
  },
  {
   "property": "C27",
   "status": "partial",
   "theorems": [
    "C27_reduced_linear_partial",
    "C27_reduced_functional_partial",
    "C27_reduced_linear_refuted"
   ],
   "note": "same scope as C26 for linear forms and functionals with reduced coefficients. False beyond it: the flux average of a test function times the average of a coefficient raises AssertionError"
  },
  {
   "property": "C28",
   "status": "partial",
   "theorems": [
    "C28_key_criterion",
    "C28_key_criterion_sharp",
    "C28_trace_partial",
    "C28_average_partial",
    "C28_restriction_partial",
    "C28_mean_partial",
    "C28_transpose_partial",
    "C28_point_trace_partial",
    "C28_spaces_refuted",
    "C28_operator"
   ],
   "note": "proved for histories where element and mesh id determine the space; false otherwise (constrained dofs or a moved mesh are not in the key)"
  },
  {
   "property": "C29",
   "status": "partial",
   "theorems": [
    "C29_direction_refuted",
    "C29_one_direction_partial"
   ],
   "note": "false: the direction is not in the key; proved when each point and cell has one direction"
  },
  {
   "property": "C30",
   "status": "partial",
   "theorems": [
    "C30_method_refuted",
    "C30_fallback_refuted",
    "C30_one_method_partial"
   ],
   "note": "false: not_nested_method is not in the key; proved for histories with a single method"
  },
  {
   "property": "C31",
   "status": "proved",
   "theorems": [
    "C31_trace_rows",
    "C31_restriction_rows",
    "C31_trace_dg_rows",
    "C31_visited_cells",
    "C31_order_independent",
    "C31_implementations_agree",
    "C31_apply"
   ],
   "note": ""
  },
  {
   "property": "C32",
   "status": "partial",
   "theorems": [
    "C32_constants_partial",
    "C32_vector_constants_partial",
    "C32_outside_refuted",
    "C32_half_refuted"
   ],
   "note": "proved when all quadrature points lie in the mesh and the weights do not cancel; false otherwise, with the exact factor"
  },
  {
   "property": "C33",
   "status": "proved",
   "theorems": [
    "C33_scalar_average",
    "C33_vector_average",
    "C33_outside_points",
    "C33_linear",
    "C33_local"
   ],
   "note": ""
  },
  {
   "property": "C34",
   "status": "partial",
   "theorems": [
    "C34_circle_partial",
    "C34_circle_tilted_partial",
    "C34_plane_refuted",
    "C34_circle_normals",
    "C34_disk_partial",
    "C34_square",
    "C34_square_rim",
    "C34_zero_normal",
    "C34_rotation",
    "C34_corners"
   ],
   "note": "the distance, weights, squares and rims are proved; a circle or disk leaves the plane when the normal is within 1e-13 of, but not on, the z axis (witness and bound given)"
  },
  {
   "property": "C35",
   "status": "partial",
   "theorems": [
    "C35_supported_partial",
    "C35_beyond_refuted",
    "C35_even",
    "C35_inside_partial",
    "C35_outside_refuted"
   ],
   "note": "rules exist exactly for degrees 0..19; all points are in the disk exactly for the tables 1, 3, 7, 13 and 15"
  },
  {
   "property": "C36",
   "status": "partial",
   "theorems": [
    "C36_exact_partial",
    "C36_inexact_partial",
    "C36_degree_11_refuted",
    "C36_odd",
    "C36_moments",
    "C36_area_partial"
   ],
   "note": "tables 1-9, 13, 15 to 1e-14, 17 and 19 to 1e-6, 11 is wrong"
  },
  {
   "property": "C37",
   "status": "partial",
   "theorems": [
    "C37_plain",
    "C37_plain_exists",
    "C37_constants",
    "C37_coloring_partial",
    "C37_agree_partial",
    "C37_shared_dof_refuted",
    "C37_repeated_color_refuted",
    "C37_uncolored_refuted",
    "C37_dirac"
   ],
   "note": "agreement proved when patches of a group share no dofs, no colour other than 0 is repeated and the coloured patches are those other than 0; false without"
  },
  {
   "property": "C38",
   "status": "partial",
   "theorems": [
    "C38_entities",
    "C38_cells_partial",
    "C38_no_markers",
    "C38_vertices_rejected",
    "C38_vertex_order_refuted",
    "C38_repeated_marker"
   ],
   "note": "all of the claim for marked entities of lower dimension; for cells all but the order of vertices, which is that of SubMesh (contract submesh_ok, met by a first-seen numbering): order refuted with a witness; a repeated marker doubles cells"
  },
  {
   "property": "C39",
   "status": "partial",
   "theorems": [
    "C39_with_values",
    "C39_interface_partial",
    "C39_returns_iff",
    "C39_refuted"
   ],
   "note": "false for every mesh with an interface: sub_mesh_map enumerates the keys of a dict; interface, colours and colour map right; exact conditions for KeyError and for a map entry; true with .values()"
  },
  {
   "property": "C40",
   "status": "proved",
   "theorems": [
    "C40_unique",
    "C40_transfer",
    "C40_translate",
    "C40_agree"
   ],
   "note": "both functions on any simplicial connectivities of an embedded mesh as in C38"
  },
  {
   "property": "C41",
   "status": "partial",
   "theorems": [
    "C41_colors",
    "C41_partial",
    "C41_refuted",
    "C41_shapes"
   ],
   "note": "For every graph of cells (no cell with equal ends) and every choice of set.pop the colouring ends, cells of one branch share a colour, colours are 1,2,... each used and reported once, reported branches are paths between two terminals and loops are cycles through one. False as stated: a cycle apart from a component with terminals keeps the value 0 (C41_refuted); proved when every branch reaches a terminal or there are none."
  },
  {
   "property": "C42",
   "status": "proved",
   "theorems": [
    "C42_loop",
    "C42_branch",
    "C42_head_to_tail",
    "C42_vertices",
    "C42_mesh_rejected",
    "C42_after_coloring",
    "C42_two_cycles_refuted"
   ],
   "note": "Every path and cycle, any numbering and orientation, any order in which sets are unpacked. C42_two_cycles_refuted shows that colour 1 of color_branches on several disjoint cycles (not a cycle, outside the statement) is walked only in part."
  },
  {
   "property": "C43",
   "status": "partial",
   "theorems": [
    "C43_partial",
    "C43_centroid",
    "C43_centroid_returns",
    "C43_strict",
    "C43_circumcenter_partial",
    "C43_circumcenter_refuted",
    "C43_zero_refuted",
    "C43_dual",
    "C43_dual_returns"
   ],
   "note": "For every mesh, every number >= 1 of refinements and any new points: cell map, number of descendants and vertex map are right; cells lie in their ancestors if the new points do, which holds for centroids (then everything holds, and the refinement returns while cells are not too small). With strict=0 circumcenters of obtuse triangles lie outside, with small strict>0 they are rejected. nrefs=0 refines once. Same for dual meshes with 6^nrefs."
  },
  {
   "property": "C44",
   "status": "partial",
   "theorems": [
    "C44_partial",
    "C44_skipped",
    "C44_segment_refuted",
    "C44_raises",
    "C44_junctions",
    "C44_loop_refuted",
    "C44_straight_partial",
    "C44_straight_refuted"
   ],
   "note": "Every branch with at least three points is in the mesh segment by segment (inner points exactly, ends within tol), with no other cells; the number of cells follows. Branches with two points give no cell, so StraightLineMesh(A, B, 1) has none (refuted); for n >= 2 it has n cells that divide AB evenly. Ends of branches are one vertex exactly if they are one point, but a first branch that is closed stays open (refuted)."
  },
  {
   "property": "C45",
   "status": "partial",
   "theorems": [
    "C45_partial",
    "C45_glued",
    "C45_returns",
    "C45_one_by_one",
    "C45_many_refuted",
    "C45_dimensions",
    "C45_closed_refuted",
    "C45_hole_refuted",
    "C45_alias_refuted"
   ],
   "note": "For two meshes: all cells are kept, the second mesh sits one-to-one in the result within tol, all vertices come from the meshes and leafs report the maps (composed for parts). Exactly the near boundary vertices are identified if the vertices are two tol apart; it returns if a boundary vertex of the second mesh is left over. Any number can be glued one by one by the caller. Refuted: three or more at once is a TypeError, a closed mesh a ValueError, a mesh filling a gap a ValueError (argmin of nothing), and the leafs list of the first mesh is aliased."
  },
  {
   "property": "C46",
   "status": "partial",
   "theorems": [
    "C46_partial",
    "C46_returns",
    "C46_tets_refuted",
    "C46_tets_assertion",
    "C46_numbering_refuted"
   ],
   "note": "Every mesh returned has the elements of the largest dimension with their coordinates (z dropped only below the tolerance); it returns for lines and triangles on nodes 0..n-1, with cell and edge tags. Refuted: tetrahedra are never built (assertion, since their dimension is taken as 2) and any other node numbering is a KeyError (the node map is inverted)."
  },
  {
   "property": "C47",
   "status": "partial",
   "theorems": [
    "C47_partial",
    "C47_returns",
    "C47_one_cell_refuted",
    "C47_extracted",
    "C47_rejects"
   ],
   "note": "Every map found by the search sends the selected cells, and only those, to entities with all images of their vertices, and vertices to vertices within the tolerance, for segments and triangles in any parent whose vertices are in two entities of each cell and any locator (so that starting again from an empty candidate set is harmless). It returns for every mesh made of entities of the parent, with the right entities. Refuted: without tags a mesh of one cell is never mapped. The arrays that an embedded mesh carries are handed on unchecked."
  },
  {
   "property": "C48",
   "status": "proved",
   "theorems": [
    "C48_circumcenter",
    "C48_interval",
    "C48_interval_elsewhere_refuted",
    "C48_interval_elsewhere"
   ],
   "note": "Non-degenerate triangles of 2d and 3d and tetrahedra, for every linear solver that solves regular systems: the point is in the affine hull and equally far from all vertices. Intervals: midpoint in 2d; in 1d and 3d the code has no working kernel."
  },
  {
   "property": "C49",
   "status": "partial",
   "theorems": [
    "C49_partial",
    "C49_many",
    "C49_measure",
    "C49_refuted",
    "C49_flat_refuted"
   ],
   "note": "Exact but for the tolerance: a point of the cell passes with every positive tolerance, any other point fails for all small ones (intervals, triangles of 2d and 3d that are not flat, tetrahedra). For a fixed tolerance the equivalence is false (points just outside pass; with tolerance 0 none does), and on flat triangles every point of their line passes. simplex_area is the measure."
  },
  {
   "property": "C50",
   "status": "partial",
   "theorems": [
    "C50_partial",
    "C50_dependent",
    "C50_parallel_refuted",
    "C50_tolerance_refuted",
    "C50_segments_3d_refuted",
    "C50_default_tolerance"
   ],
   "note": "If the directions of cell and segment are independent: met cells are found with every positive tolerance, others are not with small ones. Dependent directions never give an intersection, so overlapping segments are missed; with any positive tolerance some segments apart from the cell are reported."
  },
  {
   "property": "C51",
   "status": "proved",
   "theorems": [
    "C51_values",
    "C51_inverse",
    "C51_monolithic"
   ],
   "note": ""
  },
  {
   "property": "C52",
   "status": "proved",
   "theorems": [
    "C52_reshape"
   ],
   "note": ""
  },
  {
   "property": "C53",
   "status": "proved",
   "theorems": [
    "C53_l20_inner"
   ],
   "note": ""
  },
  {
   "property": "C54",
   "status": "partial",
   "theorems": [
    "C54_one_vector_refuted",
    "C54_riesz_refuted",
    "C54_riesz_partial",
    "C54_correction"
   ],
   "note": "false of the code: division by zero for one vector, otherwise the argument is returned; C54_riesz_partial states what is returned instead"
  },
  {
   "property": "C55",
   "status": "proved",
   "theorems": [
    "C55_sum_bilinear",
    "C55_sum_linear",
    "C55_rejects"
   ],
   "note": ""
  },
  {
   "property": "C56",
   "status": "partial",
   "theorems": [
    "C56_partial",
    "C56_returns",
    "C56_blocks",
    "C56_shared_refuted",
    "C56_zero_refuted",
    "C56_numbers_refuted",
    "C56_endless_refuted",
    "C56_names_refuted"
   ],
   "note": "For every order of the trees, if no operator object occurs twice, an address holds one matrix and str tells matrices at different addresses apart: whatever is returned is the value of the expression, and expressions of matrices (numbers only as factors, not both of the last two) of fitting sizes are collapsed. Refuted otherwise: X + X with one object X, A + 0 twice, A*2*3 raise; an operator of another kind loops for ever; if str tells only sizes apart a wrong matrix is returned."
  },
  {
   "property": "C57",
   "status": "partial",
   "theorems": [
    "C57_partial",
    "C57_zero",
    "C57_block_partial",
    "C57_accepted",
    "C57_refuses",
    "C57_expression_refuted",
    "C57_point_refuted"
   ],
   "note": "Proved as a limit of difference quotients for functionals whose coefficients are Functions and Constants and whose copies of x carry only the marks trace_, average_ or restriction_ (one each). With a coefficient without vector (Expression) AttributeError is raised; copies with other marks (PointTrace, Injection, ...) are differentiated as if unmarked, which gives a wrong derivative."
  },
  {
   "property": "C58",
   "status": "partial",
   "theorems": [
    "C58_flux",
    "C58_flux_constant",
    "C58_point_partial",
    "C58_point_accepted",
    "C58_lagrange_refuted",
    "C58_lagrange_type_error",
    "C58_gradient",
    "C58_gradient_accepted",
    "C58_constants_refuted",
    "C58_nonconforming",
    "C58_nonconforming_none",
    "C58_nonconforming_value"
   ],
   "note": "(a), (c), (d) hold for all inputs; (b) holds for discontinuous spaces and is false for continuous ones, where the code always raises (wrong number of arguments). Arguments are accepted exactly when stated; the gradient of functions with vanishing derivatives is refused."
  },
  {
   "property": "C59",
   "status": "partial",
   "theorems": [
    "C59_partial",
    "C59_accepted",
    "C59_single",
    "C59_vectorized",
    "C59_sizes_refuted",
    "C59_factor_refuted"
   ],
   "note": "Proved for all expressions whose norms are made of the same A and M. The comparison of matrices in the code looks at sizes only (counterexample), and nested factors are refused."
  },
  {
   "property": "C60",
   "status": "partial",
   "theorems": [
    "C60_partial",
    "C60_side_refuted",
    "C60_interior",
    "C60_boundary",
    "C60_two_sides",
    "C60_two_refuted",
    "C60_facet_dofs",
    "C60_nonconforming_refuted",
    "C60_no_fallback",
    "C60_assembled",
    "C60_returns"
   ],
   "note": "Every restricted matrix evaluates the functionals in a cell of the facet found for the first trace cell with the dof, on one side for + and on the other for -, also through the stored maps; both sides are found for simplices on both sides of a facet. Refuted: + is the side that the documentation calls -; avg and jump are never assembled (TypeError, and the function itself always raises), though its loop is right; without restriction a trace mesh that does not conform raises and the fallback is dead code. On boundary facets one restriction raises. Facet functions: the dof is copied. It returns if the search covers the tags and every facet has a cell on the side asked for."
  },
  {
   "property": "C61",
   "status": "partial",
   "theorems": [
    "C61_invariant",
    "C61_others",
    "C61_partial",
    "C61_fresh",
    "C61_failed",
    "C61_refuted",
    "C61_three_tags_refuted",
    "C61_search"
   ],
   "note": "All entries stay right and none is lost in any sequence of requests, maps of other meshes are untouched. Requests are complete if the mesh had no map or if all cells with the remaining tags were mapped. Refuted: if a cell with a remaining tag is not mapped nothing is searched, so that with three tags the second request of two for another mesh returns and leaves its cells unmapped. The search of C47 meets the hypothesis on searches."
  },
  {
   "property": "C62",
   "status": "partial",
   "theorems": [
    "C62_partial",
    "C62_all",
    "C62_returns",
    "C62_checked",
    "C62_once",
    "C62_vertices_refuted",
    "C62_markers_refuted",
    "C62_cells_refuted"
   ],
   "note": "Cells: what is returned is right for every search and tolerance, complete for the tagged entities if the vertices are apart, it returns when the entities are cells, and refuses them otherwise; other maps are untouched. False: vertices are never mapped, so that translate_markers marks nothing, and cells without a tagged entity go unnoticed."
  },
  {
   "property": "C63",
   "status": "partial",
   "theorems": [
    "C63_partial",
    "C63_segments",
    "C63_triangles",
    "C63_returns",
    "C63_tags",
    "C63_dims",
    "C63_refuted"
   ],
   "note": "Vertices are right; cells are if some cell of mesh2 is found from all their vertices, for segments, and for triangles without vertices in a single cell; it returns the right maps for meshes that match. False: a triangle over its refinement is mapped to the small triangle at its last vertex, since the search starts again when no cell is left."
  },
  {
   "property": "C64",
   "status": "partial",
   "theorems": [
    "C64_partial",
    "C64_matrix",
    "C64_lengths",
    "C64_rectangular_refuted",
    "C64_solution",
    "C64_returns",
    "C64_residuals_refuted",
    "C64_cbc"
   ],
   "note": "For operators whose rows and columns have the same sizes. Refuted: an operator with other columns than rows acts on nothing, since the working vector has the sizes of the rows; the residuals of scipy_solve are the norms of the iterates (for methods whose callback gets the iterate)."
  },
  {
   "property": "C65",
   "status": "partial",
   "theorems": [
    "C65_partial",
    "C65_sequence",
    "C65_unique",
    "C65_accepted",
    "C65_list_refuted",
    "C65_diagonal"
   ],
   "note": "For spaces of several components, with any disjoint numbering. Refuted: with a list of spaces the constructor always raises (m is not assigned)."
  },
  {
   "property": "C66",
   "status": "partial",
   "theorems": [
    "C66_partial",
    "C66_values",
    "C66_refuted",
    "C66_cached",
    "C66_rows"
   ],
   "note": "The matrix is right if the vector of the loop is zero at first; otherwise column j gets the later columns times what the vector held (C66_values), so the statement is false for pooled vectors that were used."
  },
  {
   "property": "C67",
   "status": "partial",
   "theorems": [
    "C67_new",
    "C67_vectors",
    "C67_functions",
    "C67_spaces_refuted",
    "C67_rejects",
    "C67_items",
    "C67_partial",
    "C67_lengths",
    "C67_exchange_refuted",
    "C67_wired",
    "C67_still_wired",
    "C67_wired_refuted",
    "C67_randomize"
   ],
   "note": "Construction, interpolation from sources that are not components, and wiring are proved for all inputs. False in general: spaces of given functions are never compared since a non-empty list is asserted; interpolating from exchanged components copies one of them; with operator= of dolfin nested vectors from before an interpolation keep the old values."
  },
  {
   "property": "C68",
   "status": "partial",
   "theorems": [
    "C68_fields",
    "C68_action",
    "C68_blocks",
    "C68_single",
    "C68_operators",
    "C68_refused",
    "C68_sum_refuted",
    "C68_first_offset_refuted",
    "C68_index_sets"
   ],
   "note": "Proved for all sizes, positive offsets, diagonal preconditioners of the four classes and sums of two. False: sums of three are refused; with first offset 0, which the restriction accepts, the fields overlap."
  },
  {
   "property": "C69",
   "status": "partial",
   "theorems": [
    "C69_unit",
    "C69_returns",
    "C69_tree",
    "C69_curve",
    "C69_loop",
    "C69_loop_refuted",
    "C69_components_refuted",
    "C69_message_refuted",
    "C69_dofs",
    "C69_dofs_refuted"
   ],
   "note": "Unit length, direction on open curves and trees, refusals are proved for all meshes. False: closed curves and all but one of several curves have the local direction of the cells; the message comes if some cells were visited; values reach the cells only if dofs grow with cells."
  },
  {
   "property": "C70",
   "status": "partial",
   "theorems": [
    "C70_function",
    "C70_point",
    "C70_convex",
    "C70_inner",
    "C70_refused",
    "C70_facets",
    "C70_convex_refuted",
    "C70_flat_refuted",
    "C70_square"
   ],
   "note": "Unit normals with the required side are proved for all facet meshes; outer for convex meshes, as assumed in the code. Without convexity the normal may point inside, on flat meshes the side is arbitrary."
  },
  {
   "property": "C71",
   "status": "partial",
   "theorems": [
    "C71_trace",
    "C71_trace_cells",
    "C71_trace_matrices",
    "C71_trace_refuted",
    "C71_average",
    "C71_average_refuted",
    "C71_flux",
    "C71_point",
    "C71_numbers",
    "C71_same",
    "C71_transpose",
    "C71_transpose_refuted",
    "C71_extension",
    "C71_extension_refuted"
   ],
   "note": "Proved for all elements whose vectors have as many components as dimensions (traces: any vectors and mixed elements). False: tensors that are not square under trace, and vectors with another number of components under average, transposed trace and extension get a space of another shape; a line in 2d is extended to triangles whatever the mesh."
  },
  {
   "property": "C72",
   "status": "partial",
   "theorems": [
    "C72_trace",
    "C72_trace_accepts",
    "C72_average",
    "C72_average_accepts",
    "C72_restriction",
    "C72_restriction_accepts",
    "C72_others",
    "C72_terminals",
    "C72_flux",
    "C72_point_partial",
    "C72_point_refuted",
    "C72_two_points_refuted",
    "C72_nested_refuted",
    "C72_injection",
    "C72_injection_refuted",
    "C72_constants"
   ],
   "note": "Proved for all states and operators but the point traces and Injection, with exact conditions for acceptance of Trace, Average, Restriction. False: point traces of a Function mark the function itself, so two of them are one; copies drop earlier marks; Injection overwrites the maps of the mesh with those to any mesh."
  },
  {
   "property": "C73",
   "status": "partial",
   "theorems": [
    "C73_uniform",
    "C73_components",
    "C73_coincide",
    "C73_bounds",
    "C73_returns",
    "C73_disjoint_refuted",
    "C73_layout_refuted",
    "C73_count_refuted",
    "C73_dispatch",
    "C73_type_refuted",
    "C73_assemble_refuted"
   ],
   "note": "Nearest dof, also by components when dofs of a point are numbered one after another, bounds and coincidence are proved for all spaces. False: other numberings of components, spaces on the same points, unknown types (None), and the assembler does not import the module. The harmonic extension is C88."
  },
  {
   "property": "C74",
   "status": "partial",
   "theorems": [
    "C74_mean",
    "C74_mean_partial",
    "C74_unweighted",
    "C74_mean_refuted",
    "C74_surface",
    "C74_surface_constant"
   ],
   "note": "SurfaceMean is the mean of the trace, for all spaces and quadratures. Mean is the integral with the weight; it is the documented mean only if the weight is the inverse of the size, without a weight the mean of one is the size of the domain."
  },
  {
   "property": "C75",
   "status": "partial",
   "theorems": [
    "C75_constant",
    "C75_oriented",
    "C75_points",
    "C75_sides_partial",
    "C75_sides_refuted",
    "C75_vector",
    "C75_distance",
    "C75_distance2",
    "C75_returns",
    "C75_origin_refuted",
    "C75_centroid2",
    "C75_centroid2_refuted",
    "C75_line_refuted",
    "C75_circum"
   ],
   "note": "Markers, orientation, vectors and distances are proved for all meshes of triangles and tetrahedra. False: between equal markers the normal depends on the side; CentroidDistance2 is the length of the coordinates of both centroids and no distance; the two-point functions are refused if all centers are at the origin; on intervals there is one value for each cell instead of each facet."
  },
  {
   "property": "C76",
   "status": "partial",
   "theorems": [
    "C76_interior",
    "C76_exterior",
    "C76_plane",
    "C76_single_refuted",
    "C76_nan",
    "C76_refuted",
    "C76_nan_refuted",
    "C76_solid_refuted",
    "C76_both"
   ],
   "note": "What is computed is proved for all simplicial meshes: zero on interior facets always, zero on exterior facets if their centroids are equally far from their vertices (in 2d always). So the claim is false in all directions: a mesh that is not Delaunay gets zeros, a rectangle nan, a tetrahedron a positive number."
  },
  {
   "property": "C77",
   "status": "partial",
   "theorems": [
    "C77_curve",
    "C77_surface",
    "C77_others",
    "C77_edges_partial",
    "C77_edges_refuted",
    "C77_points_refuted"
   ],
   "note": "Curves: exactly. Triangles: the answer is about paths through common vertices, since the dimension is taken as tdim = (dim == 2); hence it is false for paths through edges (bow tie), true one way. Other dimensions raise."
  },
  {
   "property": "C78",
   "status": "partial",
   "theorems": [
    "C78_limit",
    "C78_inside",
    "C78_around",
    "C78_separated",
    "C78_value",
    "C78_each",
    "C78_refine",
    "C78_negative",
    "C78_repeated",
    "C78_coarse_refuted",
    "C78_thin_refuted",
    "C78_repeated_refuted",
    "C78_open_refuted"
   ],
   "note": "The limit is the integer number of turns and is_inside_contour is right with enough refinements, for every closed contour and point not on it. At a given level both errors happen (a point below a square is inside, a point in a thin strip outside); a repeated point makes everything outside; an open contour is refused without refinement but changed into a closed one with it."
  },
  {
   "property": "C79",
   "status": "partial",
   "theorems": [
    "C79_unit",
    "C79_refused",
    "C79_returns",
    "C79_outer_refuted"
   ],
   "note": "Unit and orthogonal on every loop. Which side is that of the local direction of each cell, as TangentCurve does not walk along loops (C69): on a triangle the vectors point out on one side and in on another whatever the winding number."
  },
  {
   "property": "C80",
   "status": "partial",
   "theorems": [
    "C80_elements",
    "C80_listed",
    "C80_coordinates",
    "C80_mesh_partial",
    "C80_raises",
    "C80_gaps_refuted",
    "C80_twice_refuted"
   ],
   "note": "True if node tags are 1..n in any order and each entity is in one group, end to end with mesh_from_gmsh (C46). With gaps in the tags the coordinates are those of other nodes or missing; an element of an entity in two groups appears twice."
  },
  {
   "property": "C81",
   "status": "partial",
   "theorems": [
    "C81_dofs",
    "C81_dof",
    "C81_basis",
    "C81_new",
    "C81_rejected",
    "C81_kept",
    "C81_dual",
    "C81_negative",
    "C81_range_refuted"
   ],
   "note": "True for all sequences of calls, but for the range of dofs: negative numbers are accepted and count from the end."
  },
  {
   "property": "C82",
   "status": "partial",
   "theorems": [
    "C82_raises_refuted",
    "C82_interpolates_partial",
    "C82_any_cell_partial",
    "C82_order_partial",
    "C82_order_refuted",
    "C82_sandbox",
    "C82_sandbox_parent"
   ],
   "note": "False for all spaces: the loop uses the variable mat before it has a value and raises UnboundLocalError at the first row. With that line left out the statement is proved for parent maps in the order of cells; for another order the reordering of line 46 is right exactly if the order is its own inverse."
  },
  {
   "property": "C83",
   "status": "partial",
   "theorems": [
    "C83_trace_partial",
    "C83_outside",
    "C83_embedded",
    "C83_unmapped",
    "C83_lines_refuted"
   ],
   "note": "Exact for lines made of edges of the mesh (any tetrahedron at the edge) and whenever the cell found contains the points; rows of cells not found are zero; a cell without a parent raises. Refuted for lines not made of edges: the cell is found by the midpoint, values at points outside of it are extrapolated and, as rows written by other cells keep their columns, constants are not kept (4/5 for 1)."
  },
  {
   "property": "C84",
   "status": "proved",
   "theorems": [
    "C84_values",
    "C84_circle",
    "C84_disk",
    "C84_square",
    "C84_rim",
    "C84_uncovered",
    "C84_degenerate"
   ],
   "note": "Circle 2 pi r, disk pi r^2 for rules of total pi, square 2 d^2 and rim 4 sqrt 2 d for a corner at distance d in the plane normal to each cell at the dof; in general the sum of the weights on the first cell with the dof. Uncovered dofs and cells of no length are refused."
  },
  {
   "property": "C85",
   "status": "partial",
   "theorems": [
    "C85_markers",
    "C85_markers_sides",
    "C85_mesh_partial",
    "C85_mesh_refuted",
    "C85_normal_partial",
    "C85_normal_refuted",
    "C85_unknown"
   ],
   "note": "With markers the statement holds, also the independence of the '+' side where the markers differ. By a mesh it holds on exterior facets, and on interior ones the result is the zero vector; by FacetNormal it is n('+') there, so that neighbours on a flat manifold may have opposite normals. Manifolds not embedded in the mesh are refused."
  },
  {
   "property": "C86",
   "status": "proved",
   "theorems": [
    "C86_tubes",
    "C86_uneven",
    "C86_loops",
    "C86_refused"
   ],
   "note": "All points, tube after tube; bands and loops are compared as lists of points. Rings of different sizes and surfaces that can not be ordered are refused."
  },
  {
   "property": "C87",
   "status": "partial",
   "theorems": [
    "C87_permutation",
    "C87_centered_partial",
    "C87_centre_refuted",
    "C87_refused",
    "C87_plane",
    "C87_accepts"
   ],
   "note": "A permutation always; a convex polygon for points whose projections to the plane are on a circle about the projection of the origin. False for other circles, as the angles are not about the centre (a witness with centre (20,0,0) and radius 5). At most three points, and points off the plane of the first three, are refused."
  },
  {
   "property": "C88",
   "status": "partial",
   "theorems": [
    "C88_acts",
    "C88_columns",
    "C88_kept",
    "C88_pool_refuted",
    "C88_refused",
    "C88_harmonic_partial",
    "C88_poisson_refuted",
    "C88_markers_refuted",
    "C88_harmonic_refused"
   ],
   "note": "With a zero vector from create_vec the matrix acts as the linear operator and is kept. False: a pooled vector that is not zero spoils the columns; the harmonic extension solves -Laplace u + u and ignores the Dirichlet markers."
  },
  {
   "property": "C89",
   "status": "partial",
   "theorems": [
    "C89_mesh",
    "C89_flat",
    "C89_columns_refuted"
   ],
   "note": "Vertices and cells as given when the columns fit; other columns are regrouped, leftovers dropped, and not refused."
  },
  {
   "property": "C90",
   "status": "partial",
   "theorems": [
    "C90_lines",
    "C90_corners",
    "C90_corners_once",
    "C90_labels",
    "C90_box_partial",
    "C90_forks_partial",
    "C90_last_mesh_refuted",
    "C90_letters_refuted",
    "C90_cells",
    "C90_nodes",
    "C90_marks",
    "C90_returns"
   ],
   "note": "Lines, corners and different names hold for all drawings. Box and bifurcations are those of the last mesh only; from the 677th point on names are not letters."
  },
  {
   "property": "C91",
   "status": "partial",
   "theorems": [
    "C91_rates_partial",
    "C91_order",
    "C91_same_mesh",
    "C91_rates_refuted",
    "C91_add",
    "C91_add_position",
    "C91_missing_refuted",
    "C91_surplus",
    "C91_report",
    "C91_columns_refuted",
    "C91_first",
    "C91_stops"
   ],
   "note": "Holds for positive errors on meshes of different sizes. False: an error of zero raises ValueError and leaves the lists of different lengths; a missing value raises after other values are recorded; columns have values before approximations. Surplus values are dropped."
  },
  {
   "property": "C92",
   "status": "partial",
   "theorems": [
    "C92_operator",
    "C92_in_place_refuted",
    "C92_nullspace_refuted",
    "C92_preconditioner_partial",
    "C92_preconditioner_refuted",
    "C92_back",
    "C92_nullspace_partial"
   ],
   "note": "Holds for x and y without common memory. False: in place the operator acts on zero; constants are always added to the null space; block preconditioners work only if block_vec of cbc.block derives from block_base. All callers in the repository omit the required argument nullspace (TypeError)."
  },
  {
   "property": "C93",
   "status": "partial",
   "theorems": [
    "C93_patch_partial",
    "C93_coloring_refuted",
    "C93_values_refuted",
    "C93_extension_partial",
    "C93_empty_refuted",
    "C93_interpolation_partial",
    "C93_moved_refuted"
   ],
   "note": "Holds for extensions with data that is None or not empty, for patch averages whose functions keep their values and colouring, and for interpolations whose meshes change only together with their number of cells. False: colouring and values are not in the key; an empty dictionary is taken for None; moved meshes are not noticed."
  },
  {
   "property": "C94",
   "status": "proved",
   "theorems": [
    "C94_linear_system",
    "C94_no_conditions",
    "C94_from_forms"
   ],
   "note": "composition of the models of block_form, ReducedModel, BcModel and ConvertModel; df.assemble is right on forms without reductions; the integrals with which the scope is bounded are those of C26, C27; in particular no two integrals differ in reductions only; the matrices of the reductions are made without exception and have the sizes of the spaces (from C95 if they are the filled ones)"
  },
  {
   "property": "C95",
   "status": "proved",
   "theorems": [
    "C95_bilinear",
    "C95_linear",
    "C95_functional",
    "C95_system",
    "C95_injections"
   ],
   "note": "composition of FillModel, RestrictModel, Trace31Model, PatchModel, MeanModel, EvalModel, InjectModel (loops of the matrices) with ReducedModel and SystemModel; all reductions but transposed traces (C97): traces without or with one restriction, restrictions, averages with and without a shape, flux averages, patch averages, means, point values and derivatives, surface means; injections are the transfer matrix of dolfin; dof maps and bases as dolfin gives them, values that agree where cells share a dof; under these the matrices are made without exception"
  },
  {
   "property": "C96",
   "status": "partial",
   "theorems": [
    "C96_fluxes_partial",
    "C96_block_form_refuted",
    "C96_column_refuted"
   ],
   "note": "Holds for blocks given as lists (matrix of the domain spaces, integrands get the means of normal components). False of block forms: the auxiliary scalar space is looked up, so the form alone raises StopIteration, with other integrals it and all later ones are dropped silently, and if the scalar space is among the spaces the form goes to that column with the wrong number of columns"
  },
  {
   "property": "C97",
   "status": "partial",
   "theorems": [
    "C97_matrix_refuted",
    "C97_form_refuted",
    "C97_sizes_refuted"
   ],
   "note": "False of every input: the cells of the trace mesh are searched among the facets of the same mesh, which asserts that its dimension is larger; so no form with a transposed trace (and without traces) is assembled, with AssertionError if it is in the first integral. Were the facets known, the matrix would be the trace transposed, whose sizes are exchanged."
  },
  {
   "property": "C98",
   "status": "partial",
   "theorems": [
    "C98_trace_partial",
    "C98_average_partial",
    "C98_flux_partial",
    "C98_restriction_partial",
    "C98_injection_partial",
    "C98_point_partial",
    "C98_gradient_partial",
    "C98_patch_partial",
    "C98_mean_partial",
    "C98_surface_partial",
    "C98_extension_partial",
    "C98_refuted",
    "C98_surface_refuted"
   ],
   "note": "For each operator the exact condition under which what it accepts passes the checks. False in general: restrictions without normal, averages of vectors with another number of components or of discontinuous functions without a shape, fluxes of scalars, restrictions to meshes on their own, projections, points of continuous functions, patches on another mesh, surface means of vectors and extensions of other families are accepted by the operator and refused later; a surface mean is taken over the mesh of the integral, whatever mesh it was given."
  },
  {
   "property": "C99",
   "status": "partial",
   "theorems": [
    "C99_monolithic_partial",
    "C99_identity",
    "C99_reshape_partial",
    "C99_reshape_refuted",
    "C99_number_refuted"
   ],
   "note": "Proved when every row and column of every block matrix inside has a block that is not a number, so that sizes are known; this always holds for the identity. False otherwise: after block_reshape a group of zeros has no sizes and scipy raises; a number other than 0 is taken as 0."
  }
 ]
}