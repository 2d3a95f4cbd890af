# Design of the formal model

Subject: the Python package `xii` in /repo (MiroK/fenics_ii at the pinned commit), read as text.
Tool: Coq 8.16.1. Everything lives in `rocq/theories` under the logical name `Verif`.

## Conventions

* One group of three files per area of the code:
  `<Area>Model.v` (executable Gallina, no proofs, every definition cites the file and lines it models),
  `<Area>Proofs.v` (specification vocabulary that does not mention the model, and lemmas), and
  `<Area>Props.v` (only property theorems, each closed by `exact lemma.` with `Print Assumptions` beneath it,
  and an `Example` showing that a concrete, non-trivial case meets its hypotheses).
* Python exceptions are values: `res A := Ok a | Err exn`. An unbounded Python recursion is modelled by explicit
  fuel; running out of fuel is the value `Err OutOfFuel`, and the theorems either exclude it or state that
  it happens for every amount of fuel (`RecursionError` in Python).
* Floating point numbers are modelled by exact numbers: `Qc` (canonical rationals, Leibniz equality) wherever
  no square root is needed, `R` otherwise. Rounding is outside the model everywhere.
* Objects of dolfin / PETSc / UFL / cbc.block / numpy are represented by the data the modelled function reads from
  them. Calls into these libraries are either given their documented meaning as a definition (listed below) or
  are parameters of the theorem (section variables that are discharged, never axioms).
* Theorem hypotheses only describe inputs; where the code's own checks accept more than the theorem covers,
  a `_refuted` theorem shows what happens there.
* A property that is false of the faithful model is kept in its full form in `properties.jsonl`; the theorem
  `..._refuted` exhibits the failing input, a theorem `..._partial` proves the part that holds, and the
  manifest says `partial`.

## Plan per property

| id | modelled code | how it is proved |
|----|---------------|------------------|
| C01, C02 | `list_utils.py` in full, list branch of `xii_assembly.assemble` | nested lists as rose trees, shapes as nat lists; induction on shape; row-major enumeration as independent spec |
| C03, C04 | `convert.collapse*` with fuel over an expression datatype | denotational semantics of expressions as dense matrices; soundness by induction on fuel; completeness for the fragment on which it terminates; divergence theorems for the rest (`_refuted`) |
| C05, C06, C07 | `convert.convert`, `bmat_sizes`, `block_mat_to_numpy`, `block_vec_to_numpy` | prefix-sum offsets, block decomposition of an index is unique |
| C08 | `get_dims` | induction over expressions, counterexample for scalar factors |
| C09 | `nest.nest` against `convert` | equality on blocks without numeric diagonal, counterexample otherwise |
| C10-C14 | `bc_apply.apply_bc`, `as_block`, PETSc `zeroRows`/`zeroRowsColumns` as definitions | solution set equivalence over all vectors, symmetry, offsets, updater |
| C15-C17 | `block_utils.Regroup/Reduction/SubSelectOperator` | list algebra, induction on offsets |
| C18, C19, C20 | `block_nullspace`, `sherman_morrison` | inner product algebra; invariants over sequences of insertions (reals for the norm) |
| C21-C24 | `block_form.py` | state machine of additions; permutation algebra; term substitution |
| C25 | `ufl_utils.replace` and friends | induction over expression trees |
| C26, C27 | `reduced_assembler.assemble`, dispatch in `xii_assembly.assemble` | bilinear form semantics, induction on the number of reducible arguments; integrals are told apart as UFL does (`alike`), and forms with integrals that differ in reductions only are excluded (`told_apart`; `C26_equal_integrals_refuted` shows what happens) |
| C28-C30 | memo decorators as a state machine `(cache, request) -> (cache, answer)` | invariant over request histories: every cached value is the fresh value of every request with that key; counterexample histories where the key drops an argument |
| C31 | row filling loops of `*_matrix.py` | fold over cells, first-visit invariant |
| C32, C33 | `scalar_average_matrix` | weighted sums |
| C34 | `average_shape.py` | rotation matrix algebra over R |
| C35, C36 | `disk_quadrature.py` tables as exact decimals | finite tables decided by computation in Q and lifted; symmetry for odd moments |
| C37 | `patch_average_matrix.py` | sums over cells, disjointness of patches |
| C38 | `EmbeddedMesh.__init__` | list algebra on entity-vertex tables |
| C39 | `mortar_meshes` | model of the two dictionaries; counterexample |
| C40 | `transfer_markers`, `translate_markers` | search loops over incidence tables |
| C41, C42 | `branching.py` | graph walks with fuel; termination and partition |
| C43 | `inner_point_refine`, `dual_mesh` index maps | induction on the number of refinements |
| C44 | `line_mesh` | invariant of the numbering loop; counterexample |
| C45 | `union_mesh` | index map algebra; counterexample for three meshes |
| C46 | `mesh_from_gmsh` | renumbering algebra; counterexample |
| C47 | `build_embedding_map` candidate intersection loop | set intersection; counterexamples |
| C51, C52 | `RearangeOperator`, `block_reshape` | list algebra; invariant of the unpacking loop |
| C53, C54 | `L20_inner_product`, `L20_riesz_map` | projector algebra over R; counterexample |
| C55 | `block_form.block_form.__add__` of two block forms | induction over the blocks |
| C48-C50 | geometry kernels | ring/field algebra over Qc |

## Trusted base

* Coq's kernel (8.16.1) and `vm_compute`.
* `Print Assumptions` output per theorem: see the table at the end of this file (kept current).
* The reading of the Python source (no execution takes place) and the meanings given to library calls.

### Library meanings given as definitions

* PETSc matrices are dense tables of exact numbers (`Mat.v`); `matMult`, `transpose`, `axpy`, `scale` are the
  textbook operations; a nest or monolithic vector of blocks is the concatenation of the blocks.
* Boundary conditions (`BcModel.v`): a DirichletBC is the ordered list of its (dof, value) items;
  `setValues` writes one value after the other, `zeroRows` clears the listed rows and sets the diagonal,
  `zeroRowsColumns` clears rows and columns, moves the known column contributions to the right hand side
  and puts diag * value at the listed rows.
* Block operators (`BlockUtilsModel.v`): Python list indexing and slicing with negative numbers; `dofmap().dofs()` of a
  space without parent is 0 .. dim-1.
* Nullspaces (`NullspaceModel.v`): block vectors are real entry functions; `block_vec.norm` is the l2 norm;
  dividing by a zero norm is Python's ZeroDivisionError; `np.linalg.eig` of a symmetric matrix returns real
  eigenpairs with unit eigenvectors (hypothesis `eig_spec`).
* UFL (`UflModel.v`, `BlockFormModel.v`): a terminal is its UFL identity plus reduction attributes, an operator node
  is its class and operands; node constructors do not simplify; a form is the list of its integrals and `+` appends;
  the iteration order of a Python set is arbitrary (`an_order`); `list(map(f, ...))` ends when f raises StopIteration.
* Reduced assembly (`ReducedModel.v`): df.assemble is a parameter that is right on forms without reductions
  (`assembles_plain`); integrands are those accepted by UFL (`valid`, closed under exchanging functions of the same role);
  creating a Function extends a store of coefficient vectors; every integral is a cell integral; `A*T`, `T'*A` and `+` of
  cbc.block build the unevaluated expressions of `ConvertModel.v`, which are proved to collapse; geometric quantities (normals, coordinates) are not terminals here.
* Caches (`CacheModel.v`): keys are tuples of identities; a space is its element, its mesh id and a rest the keys do not
  show; what is computed on a miss is an arbitrary function of the fields the code reads.
* Matrix filling and averages (`FillModel.v`): what FFC and dolfin compute on one cell (dofs applied to basis functions,
  basis functions at points, dof maps, point search, quadratures) are parameters; scalars are rational; a sum of weights that
  vanishes divides to 0 here and to nan in numpy; the theorems on constants exclude it.
* Shapes (`ShapeModel.v`): over the real numbers, no rounding; Gauss rules, radii and corner functions are parameters.
* Disk quadrature (`DiskModel.v`): the tables as decimals, not as doubles; the integrals over the disk are Riemann integrals
  in polar coordinates.
* Patch averages (`PatchModel.v`): cell integrals and volumes are parameters; colours are natural numbers; the order of
  `np.unique` is not modelled; compatibility assertions and the cache (see C28) left out.
* Embedded meshes (`EmbedModel.v`): entities as vertex lists, coordinates of any type; dolfin's `SubMesh` is a parameter with
  the contract `submesh_ok` (a first-seen numbering is shown to meet it); `MeshEditor` keeps what it is given (it may sort the
  vertices of a cell); connectivities computed by dolfin are those of a simplicial mesh (`simplicial`). `compute_embedding` not modelled.
* Mortar meshes (`MortarModel.v`): facets of submeshes are named by the facets of the mesh; midpoints within the tolerance mean
  the same facet; `is_continuous` is a parameter; submesh cells are numbered increasingly.
- **C41** (`BranchModel.v`, `BranchProofs.v`, `BranchProps.v`): `color_branches` on any list of cells with two different end vertices. Sets are lists without repetition, `set.pop` is an arbitrary choice per branch (`pops`), `max(..., key=sets)` is modelled with the proper-superset comparison; both loops carry fuel and are shown never to run out. Invariant of the walk: passed vertices have all their cells in the branch, so no cell is met twice. Invariant of the outer loops: the set of a terminal holds exactly its uncoloured cells. Refuted for a cycle next to a component with terminals.
- **C42** (`WalkProofs.v`, `BranchProps.v`): `walk_cells`, `walk_vertices`. A path or cycle is an explicit list of steps; the yielded pairs are shown to be the steps of a path (cycle) through exactly the cells of the colour. The order in which a set is unpacked is arbitrary (`lists_set`). The `assert` on the geometric dimension is taken to hold. `C42_after_coloring` applies it to what `color_branches` returns.
- **C48** (`GeomModel.v`, `GeomProofs.v`, `GeomProps.v`): the C++ kernels of `CellCircumcenter` per (tdim, gdim), on the coordinates of a cell. Affine hull, distance and affine independence are defined with weights, apart from the model. `fullPivLu().solve` is a parameter with the contract `solves_regular` (a regular system is solved), met by Cramer's rule (`cramer_regular`); that the Gram matrix is regular is proved. Real arithmetic is exact; interpolation into the DG0 space is taken to be one evaluation per cell.
- **C49** (same files): `simplex_area`, `simplices`, `point_is_inside`. The number compared with the tolerance is shown to be 0 exactly on the closed simplex (convex combinations of the vertices). `C49_measure` identifies the areas with Gram determinants.
- **C50** (same files): `intersects`. `np.linalg.solve` is a parameter with the contract `solves_exactly` (LinAlgError iff singular), met by Cramer's rule (`cramer_exact`). `meets` is a common point of two convex hulls. The bounding box tests of `line_collision.py` are not modelled.
- **C43** (`RefineModel.v`, `RefineProofs.v`, `RefineCentroidProofs.v`, `RefineReturnsProofs.v`, `RefineProps.v`): `inner_point_refine`, `centroid_refine`, `circumcenter_refine` (2d triangles), `dual_mesh`. Invariant of the loop: after j refinements cell i comes from cell i / n^j. Containment is transitivity of convex hulls. Parameters: what `MeshEditor.close` does to a cell (a permutation; for the theorem that refinement returns also: cells in order are left alone), `Mesh.hmin`, facet connectivity of the mesh (contract `triangle_facets`). `CellCentroid` is taken as the mean of the vertices, DG0 vectors as one point per cell in the order of the cells. Mesh ids are left out of the entity maps.
- **C44** (`LineModel.v`, `LineProofs.v`, `LineProps.v`): `line_mesh`, `line`, `StraightLineMesh`. Induction over the branches; invariants: the vertices so far stay a prefix, and the first free index is the number of vertices. `represents` says that the cells are exactly the segments of the branches along lists of vertices that follow them. False for branches of two points and for a closed first branch. Left out: the order in which `MeshEditor` keeps the two vertices of a cell.
- **C45** (`UnionModel.v`, `UnionProofs.v`, `UnionProps.v`; union_mesh.py). Two meshes glued at near boundary vertices, with the boundary found from facet counts. Soundness by following the list of left-over boundary vertices through the loop; the identification of exactly the near vertices uses the triangle inequality. Gluing any number one by one is an induction over the list. Refuted for three at once, closed meshes, a mesh that fills a gap, and aliased leafs.
- **C46** (`GmshModel.v`, `GmshProofs.v`, `GmshProps.v`; gmsh_interopt.py 9-31, 95-168). The dictionary of elements is a list in insertion order; dolfin's numbering of edges is a parameter about which only `edge_numbering` is assumed (in the theorem on what is returned). Soundness for any data, return for lines and triangles numbered 0..n-1; refuted for tetrahedra and other numberings. msh_gmsh_model is not modelled here.
- **C47** (`EmapModel.v`, `EmapProofs.v`, `EmapProps.v`; embedded_mesh.py 374-482). The parent is its connectivities, the bounding box tree an arbitrary function `locate`; only the theorem on returning assumes that it finds exactly the cells with the vertex. Sets are lists without repetitions. Soundness is an invariant of the loops (near vertices, which belong to the first cell found); the reseeding of an empty candidate set is shown harmless for up to three vertices. Returning is an invariant on the sets of candidates. Refuted for one cell without tags.
- **C56** (`IterModel.v`, `IterProofs.v`, `IterLoopProofs.v`, `IterSoundProofs.v`, `IterProps.v`; collapse_iter.py 17-265). Operators and matrices have identities, the graph is a list of edges, the names that str gives and the order of a Python set are arbitrary functions. The graph built from the stack is shown to be that of a tree of binary operators. Returning: the invariant says which operators are still in the graph and what the names of the others are; some tree can always be collapsed. Soundness is a weaker local invariant: every edge leads to something that stands for the child, at most one edge per child, every operator but the root has a parent. Value: `den` of C04. Vectors are left out.
- **C57** (`JacModel.v`, `JacProofs.v`, `JacSemProofs.v`, `JacProps.v`; jacobian.py 8-112, with `replace` of C25). ufl.derivative is modelled as what it does: it wraps the integrand into a derivative node. The meaning of a form is independent of the code: every terminal reads its degrees of freedom through a linear map that depends on space, marks, point and partial derivative, operators are arbitrary functions which are differentiable along curves where they are evaluated, an integral is a weighted sum over points, a derivative node is the limit of difference quotients when the one object moves. Proof: the loop returns one derivative node per copy and integral; the total derivative is additive in the direction, the directions of the copies add up to the motion of all copies. Not modelled: partial derivatives of compound expressions (UFL pushes them to terminals), derivative nodes in the given form, sorting of integrals, constructors that simplify.
- **C58** (`EvalModel.v`, `EvalProofs.v`, `EvalProps.v`; flux_average_matrix.py 56-156, point_trace_matrix.py 33-160, gradient_point_trace_matrix.py 12-101, nonconforming_trace_matrix.py 14-98). Collisions, dof maps, basis values, derivatives and dofs applied to basis functions are parameters, as for C31 and C33; the specification (component along a normal, local sum over basis functions, row times coefficients) does not use the model. Flux averages are proved to be scalar averages (C33) over points paired with normals of the basis contracted with the normal. Point and gradient evaluations have exact acceptance conditions (`C58_point_accepted`, `C58_gradient_accepted`). `C58_lagrange_refuted`: no continuous space is ever accepted, because `evaluate_basis_all` is called with four arguments (`C58_lagrange_type_error` for otherwise valid arguments). `C58_constants_refuted`: functions with vanishing derivatives are refused by the assertion on the norm. The nonconforming trace is proved equal to a restriction fill (C31) with one cell per dof; with point evaluations as dofs it is the value at the point (`C58_nonconforming_value`). Left out: the progress bar, warnings, and `cell` arguments that are no integers.
- **C59** (`HsModel.v`, `HsProofs.v`, `HsProps.v`; hsmg_utils.py 12-113). Matrices over `R`. Specification: an expression denotes a matrix (`denotes`, where a norm is M U diag(l^s) U' M for *some* solution of the eigenvalue problem); the matrix returned is its two-sided inverse whenever it has a left inverse. The proof shows that functions of the operator do not depend on the eigenvectors chosen (`calc_unique`), so stored and computed eigenpairs may be mixed with other ones. `power` is arbitrary, eigh is any solver satisfying `eigh_ok`. `C59_sizes_refuted`: only sizes are compared, for norms of different matrices of one size the result is not the inverse. `C59_factor_refuted`: multiples of sums, and products of two numbers with a norm, are linear combinations but are refused. Not modelled: `**-1` of hsmg, the conversion numpy_to_petsc (C05), division by zero in numpy.
- **C60** (`RestrictModel.v`, `RestrictProofs.v`, `RestrictProps.v`; trace_matrix.py 34-98, 201-510). Rational coordinates; the loops that fill the matrices are those of `FillModel.v`. Specification: `height` over the facet in direction of the normal, `first_with` (the first trace cell with the dof), `local_value` (functional applied to the function in a cell). `C60_partial`: rows for one side; `C60_side_refuted`: '+' is the side that the documentation calls '-' (for all inputs); `C60_interior`: for simplices, from their vertices; `C60_two_sides`: the loop for avg and jump is right, with the documented sides; `C60_two_refuted`: it is never reached, neither from trace_mat nor if its function is called directly; `C60_facet_dofs`: HDiv Trace; `C60_nonconforming_refuted`, `C60_no_fallback`: the fallback to the non-conforming trace works with a restriction and is dead code without; `C60_assembled`: from the stored maps (C61) to the rows, with zero rows for dofs without tagged cells; `C60_returns`: when the trace is assembled. Not modelled: the division by the length of the vector (no effect on signs but for coinciding midpoints, where numpy gives nan and the sign '-', as here), PETSc's debugging check against mixing insertion and addition, tag_data None (TypeError in the cache).
- **C61** (`EntityModel.v`, `EntityProofs.v`, `EntityProps.v`; trace_matrix.py 513-558). The trace mesh is its two attributes; the search is a parameter of which `searches` asks right images and all cells with the tags. Invariant `right`, by induction over sequences of requests including those that raise (`C61_invariant`). `C61_partial`: completeness when a search is made; `C61_refuted`: the exact situation in which none is made, for every search; `C61_three_tags_refuted`: it arises from two successful requests. `C61_search`: the search modelled for C47 meets `searches` for trace meshes made of entities of the meshes.
- **C62** (`ViewModel.v`, `ViewProofs.v`, `ViewProps.v`; embedded_mesh.py 127-190, with `translate_markers` of C40). Specification: `lies_on`, `covered` (vertices of cell and entity next to each other), `simplices` (vertices apart by twice the tolerance). The cell found for an entity does not depend on the map (`finds`), so that the loops are a sequence of assignments; pigeonhole (`lies_on_covered`) makes the assignment injective. `C62_partial`: sound for every search; `C62_all`: exactly the tagged entities; `C62_returns`, `C62_checked`, `C62_once`. Refuted: `C62_vertices_refuted` (the map of vertices is always empty), `C62_markers_refuted` (hence translate_markers changes nothing, for all inputs), `C62_cells_refuted` (cells without entity).
- **C63** (`OverlapModel.v`, `OverlapProofs.v`, `OverlapProps.v`; subdomain_mesh.py 16-93, with the embedded mesh of C38). The loops carry the cells of visited vertices; invariants `ongoing` (soundness) and `advancing` (returning). `C63_partial`: tag, mesh, vertices, and cells if any cell is found from all the vertices; `C63_segments`, `C63_triangles`: without that hypothesis; `C63_returns`: matching meshes give exactly the right maps; `C63_tags`, `C63_dims`: refusals; `C63_refuted`: the search that starts again accepts a mesh that does not match. Not modelled: mesh ids, the isinstance checks.
- **C64** (`KrylovModel.v`, `KrylovProofs.v`, `KrylovProps.v`; krylov_api.py). A block operator is sizes and an action; `strict` says that it refuses vectors of other sizes, which block matrices do (`bmat_strict`). Specification: `placed` (the monolithic matrix), `cut` (blocks of an array), `promises` (the contract of a solver, with any closeness). `C64_partial`, `C64_matrix`: the action on arrays; `C64_solution`, `C64_returns`; refuted: `C64_rectangular_refuted`, `C64_residuals_refuted`. Not modelled: printing, tolerances and iteration limits (they are arguments of the solver), residuals of pyamg (filled by the solver).
- **C65** (`VectorizedModel.v`, `VectorizedProofs.v`, `VectorizedProps.v`; block_utils.py 17-23, 184-245). Specification: `componentwise`; the product does not depend on the working array since the components cover all dofs by counting (`covered`). `C65_list_refuted`: the branch for lists never returns. Trusted: PETSc index sets can index numpy arrays.
- **C66** (`FeopModel.v`, `FeopProofs.v`, `FeopProps.v`; fe_space_op.py, row_matrix). Induction on the columns with the content of the vector of the loop; the sparse storage of row_matrix is modelled, `csr_entry` is its meaning.
- **C67** (`FunctionModel.v`, `FunctionProofs.v`, `FunctionProps.v`; function.py). Functions and vectors are objects in a store; what `assign` of dolfin does to the vector (new copy, as in dolfin's operator=, or in place) is a parameter, the theorems that do not name it hold for both. `C67_new`, `C67_vectors`, `C67_functions`, `C67_rejects`: the constructor; `C67_partial`: interpolate, by induction on the components with the invariant that the rest is untouched; `C67_wired`, `C67_still_wired`, `C67_randomize`. Refuted: `C67_spaces_refuted` (a list is asserted, so spaces are never compared), `C67_exchange_refuted` (sources that are components are read after they were assigned), `C67_wired_refuted` (with dolfin's operator= nested vectors from before keep the old values). Not modelled: rename, slices as index.
- **C68** (`NestPcModel.v`, `NestPcProofs.v`, `NestPcProps.v`; nest.py 13-121). The model gives what is set on the preconditioner and its fields and what operator is returned; what the solvers do is a parameter, the same on both sides (`agree`). `C68_fields`: by induction over the members of a group the union of consecutive index sets is a range, the ranges are all rows in order; `C68_action`, `C68_blocks`, `C68_single`: an additive field split does what the blocks do; `C68_operators`, `C68_refused`. Refuted: `C68_sum_refuted` (a sum of three), `C68_first_offset_refuted` (first offset 0: fields overlap). Trusted: getNestISs, union of index sets, additive field split of PETSc. Not modelled: pivots, options.
- **C69** (`TangentModel.v`, `TangentProofs.v`, `TangentProps.v`; TangentCurve in embedded_mesh.py). Coordinates are real. networkx's dfs_edges is modelled with its stack; `dfs_search` shows by induction that it is a search (edges lead from known to new vertices, the result is closed), `dfs_total` that it ends. `C69_unit`, `C69_returns`; `C69_tree`: the edge that found a vertex is the end of the only path; `C69_curve`: by induction the search goes along the curve; `C69_loop`; `C69_dofs`: values arrive if dofs grow with cells. Refuted: `C69_loop_refuted` (closed curves have no direction), `C69_components_refuted` (of several curves one has a direction), `C69_message_refuted` (the report of unvisited cells comes if some were visited), `C69_dofs_refuted` (other dof orders). Trusted: order of neighbours in nx.Graph (irrelevant for the theorems), dofs() is sorted. wind_number, encloses_points and NormalCurve use is_loop, which is not defined there, and are not modelled.
- **C70** (`NormalModel.v`, `NormalProofs.v`, `NormalProps.v`; OuterNormal with None, a point or a function, InnerNormal). The cell normal of dolfin is a parameter of which only orthogonality is used. `C70_function`, `C70_point`, `C70_convex` (the mean of points on one side of a plane is on that side), `C70_inner`, `C70_refused`; `C70_facets`: facets have one normal direction. Refuted: `C70_convex_refuted` (a quadrilateral that is not convex), `C70_flat_refuted`. Not modelled: orientation by markers, meshes or facet normals (forms).
- **C71** (`ElementModel.v`, `ElementProofs.v`, `ElementProps.v`; trace_element, average_space, flux_average_space, point_trace_space, gradient_point_trace_space, mean_space, surface_mean_element, restriction_space, transpose_trace_element, extension_element). UFL elements are trees of families; `parts` lists the scalar pieces. By induction on elements: `C71_trace` (shape and pieces), `C71_trace_cells`, `C71_trace_matrices` (exactly square tensors), `C71_average`, `C71_flux`, `C71_point`, `C71_numbers`, `C71_same`, `C71_transpose` (and its trace is back), `C71_extension`. Refuted: `C71_trace_refuted`, `C71_average_refuted`, `C71_transpose_refuted` (shapes), `C71_extension_refuted`. Not modelled: symmetries, quadrature degrees, variants.
- **C72** (`AnnotateModel.v`, `AnnotateProofs.v`, `AnnotateProps.v`; Trace, Average, Restriction, Injection, TransposeTrace, PointTrace, GradientPointTrace, CellPatchAverage, FluxAverage, Extension, Mean, SurfaceMean, reconstruct). A heap of objects with attributes; `copied` says that the state has one object more, the marked copy, and is otherwise the same. `C72_trace`, `C72_average`, `C72_restriction`, `C72_others`, `C72_flux`, `C72_injection` (results), `C72_trace_accepts`, `C72_average_accepts`, `C72_restriction_accepts`, `C72_terminals` (acceptance). Refuted: `C72_point_refuted`, `C72_two_points_refuted`, `C72_nested_refuted`, `C72_injection_refuted`. Attributes are compared as values; weights and shapes are numbers.
- **C73** (`ExtensionModel.v`, `ExtensionProofs.v`, `ExtensionProps.v`; uniform_extension_matrix, extension_mat). Rational coordinates, squared distances. `C73_uniform`, `C73_components` (numbering of components as in `interleaved`), `C73_coincide`, `C73_bounds`, `C73_returns`, `C73_dispatch`. Refuted: `C73_disjoint_refuted` (both spaces on one point), `C73_layout_refuted`, `C73_count_refuted`, `C73_type_refuted`, `C73_assemble_refuted` (the module is not imported by the assembler). The harmonic extension (boundary value problems) is a parameter.
- **C74** (`MeanModel.v`, `MeanProofs.v`, `MeanProps.v`; mean_mat, surface_mean_matrix). A domain is a list of cells with volumes and quadratures; `integral` is an inductive relation. `C74_mean` (integral with weight), `C74_mean_partial` (the mean with weight 1/size), `C74_unweighted`, `C74_surface`, `C74_surface_constant`. Refuted: `C74_mean_refuted`. The trace matrix is any matrix; df.assemble is the quadrature.
- **C75** (`FacetModel.v`, `FacetProofs.v`, `FacetProps.v`; dg_utils.py and the vectors and distances of cell_centers.py). A facet knows its cells on both sides, its area, vertices and normals; an assembled entry of a facet is the area times the integrand. Real numbers. `C75_constant`, `C75_oriented`, `C75_points`, `C75_sides_partial`, `C75_vector`, `C75_distance`, `C75_distance2` (with the triangle inequality), `C75_returns`, `C75_centroid2` (what CentroidDistance2 computes). Refuted: `C75_sides_refuted`, `C75_origin_refuted`, `C75_centroid2_refuted`, `C75_line_refuted`. Not modelled: CentroidVector2 on intervals.
- **C76** (same files; is_delaunay). nan is `None`. `C76_interior`: vectors between circumcenters of neighbours are always orthogonal to the facet, hence the answer is zero for every mesh; `C76_exterior` (exact condition), `C76_plane`, `C76_nan`. Refuted: `C76_refuted`, `C76_nan_refuted`, `C76_solid_refuted`, `C76_single_refuted`. The linear solver of the circumcenters is any that solves regular systems (C48).
- **C77** (ConnectModel/Proofs/Props; mortar_mesh.is_continuous). networkx's number of components is modelled by merging classes edge by edge and proved to be the number of classes of linked nodes. `C77_curve` and `C77_surface` are exact for paths through common vertices, `C77_others` has the errors; for paths through edges `C77_edges_partial` and `C77_edges_refuted` (bow tie). Assumed of a surface: what dolfin's mesh.init(0, 1) gives, all edges of the cells, each once.
- **C78** (WindModel/Proofs/Props; branching.refine_contour, wind_number, is_inside_contour). Over `R`, nan is `None`. The specification is a sum of angles in (-pi, pi) given by cosine and sine, no arctangent. `C78_limit`: for every closed contour and point off it this sum is a whole number k of turns, k is unique, and the computed number goes to k (the error is bounded by K/2^n: the rate of the angle is Lipschitz off the point). `C78_inside`, `C78_around`, `C78_separated`, `C78_value`, `C78_each`, `C78_refine`, `C78_negative`. Refuted for fixed levels: `C78_coarse_refuted`, `C78_thin_refuted`; for contours with a repeated point `C78_repeated(_refuted)`; for open ones `C78_open_refuted`.
- **C79** (same files; NormalCurve). The winding number of the outside point, an integral that dolfin approximates, is a parameter; `C79_outer_refuted` holds whatever it is. `C79_unit`, `C79_refused`, `C79_returns`.
- **C80** (GmshGenModel/Proofs/Props; gmsh_interopt.msh_gmsh_model). A gmsh model is its answers. `C80_elements` has the data exactly, `C80_listed` says which elements those are, `C80_coordinates` is for tags 1..n in any order, `C80_mesh_partial` composes with mesh_from_gmsh, `C80_raises` has the errors. `C80_gaps_refuted`, `C80_twice_refuted`.
- **C81** (FemEvalModel/Proofs/Props; fem_eval.py). Objects as states, induction over the sequence of calls: `C81_dofs`, `C81_dof`, `C81_basis` (value for the last accepted cell and dof), `C81_new`, `C81_rejected`, `C81_kept` (returned arrays are not aliased), `C81_dual` (dof of own basis functions). `C81_negative`, `C81_range_refuted`.
- **C82** (InjectModel/Proofs/Props; fallback of injection_matrix). The use of an unassigned local is a flag of the model: with it every call raises (`C82_raises_refuted`); without it `C82_interpolates_partial` and `C82_any_cell_partial`. Lines 44-46: `C82_order_partial` (an equivalence) and `C82_order_refuted`. `C82_sandbox`: the version in sandbox/injection_mat.py:12-60, with parents from the data of the mesh and INSERT_VALUES (each entry is set once, `set_once`).
- **C83** (Trace31Model/Proofs/Props; trace_3d1d_matrix). Matrix rows after any sequence of cells by induction; spaces are given by global basis functions which agree with the local ones on the cells that contain a point. `C83_trace_partial` (cell found contains the points), `C83_embedded` (parent map, any tetrahedron at the edge), `C83_outside`, `C83_unmapped`; `C83_lines_refuted` with two tetrahedra and a line across their common facet.
- **C84** (MeasureModel/Proofs/Props; MeasureFunction). Induction over cells and dofs: `C84_values` (the first cell with the dof decides); with the shapes of C34 `C84_circle`, `C84_disk`, `C84_square`, `C84_rim`; `C84_uncovered`, `C84_degenerate`.
- **C85** (OuterModel/Props; OuterNormal by markers, mesh, FacetNormal, on FacetModel). `C85_markers`, `C85_markers_sides` (exchange of the sides of any facets), `C85_mesh_partial`, `C85_mesh_refuted`, `C85_normal_partial`, `C85_normal_refuted`, `C85_unknown`.
- **C86, C87** (PlotModel/Proofs/Props; io/plot.py without VTK objects and files). Offsets by induction over tubes (`C86_tubes`, `C86_uneven`) and surfaces (`C86_loops`, `C86_refused`). The argument of a complex number is atan with the usual cases; `C87_permutation`, `C87_centered_partial` (product of three half-angle sines), `C87_plane`, `C87_refused`, `C87_centre_refuted`.
- **C88** (SpaceOpModel/Proofs/Props; FESpaceOperator.collapse with the content of the pooled vector as argument, harmonic extension with assembled matrices and a solver as arguments). `C88_acts`, `C88_columns`, `C88_kept`, `C88_pool_refuted`, `C88_refused`, `C88_harmonic_partial`, `C88_poisson_refuted`, `C88_markers_refuted`, `C88_harmonic_refused`.
- **C89** (MakeMeshModel/Props; the C++ function fill_mesh and make_mesh, MeshEditor as a record). `C89_mesh`, `C89_flat` (arrays of any length), `C89_columns_refuted`.
- **C90** (TikzModel/Proofs/Props; the drawing as a list of commands, midpoints of domains as an argument, sets in the order of numbers). `C90_lines`, `C90_corners`, `C90_corners_once`, `C90_labels`, `C90_box_partial`, `C90_forks_partial`, `C90_last_mesh_refuted`, `C90_letters_refuted`, `C90_cells`, `C90_nodes`, `C90_marks`. The strings themselves, colours, and which of several errors comes first are not modelled.
- **C91** (HistoryModel/Proofs/Props; demo/common.py: lists after an exception, reals with ln, ChainMap order). `C91_rates_partial`, `C91_order` (least squares as a relation), `C91_same_mesh`, `C91_rates_refuted`, `C91_add`, `C91_add_position`, `C91_missing_refuted`, `C91_surplus`, `C91_report`, `C91_columns_refuted`, `C91_first`, `C91_stops`. broken_norm is C115; the formats of numbers are not modelled.
- **C92** (ContextModel/Props; a memory of vectors, nests as lists of addresses, MatNullSpaceRemove). `C92_operator`, `C92_in_place_refuted`, `C92_nullspace_refuted`, `C92_preconditioner_partial`, `C92_preconditioner_refuted`, `C92_back`.
- **C93** (KeysModel/KeysProps on the caches of CacheModel; the keys of extensions, patch averages and interpolations). `C93_patch_partial`, `C93_coloring_refuted`, `C93_values_refuted` (with the averages of PatchModel), `C93_extension_partial`, `C93_empty_refuted`, `C93_interpolation_partial`, `C93_moved_refuted`. Values and geometry at the time of the request are a number that is not part of the key.
- **C94** (SystemModel/SystemProofs/SystemProps on BlockFormModel, ReducedModel, BcModel, ConvertModel). `C94_linear_system`, `C94_no_conditions`, `C94_from_forms`: the first two take any lists of blocks (`blocks2`, `blocks1`), the third block forms, whose arguments are of the listed spaces (no flux averages, see C96); the operators of C26 stay unevaluated cbc.block expressions until ii_convert collapses them; apply_bc runs on the block form of the system; the right sides are block vectors. Not covered: Constants as blocks (they raise), numbers in the right side, a space without any bilinear form (C08 shows what happens).
- **C95** (CoupledModel/KindsProofs/CoupledProofs/CoupledProps on FillModel, RestrictModel, EntityModel, Trace31Model, PatchModel, MeanModel, EvalModel, InjectModel, ReducedModel, SystemModel). `reduction_matrix` dispatches to the functions that make the matrices and may raise. `C95_bilinear`, `C95_linear`, `C95_functional`, `C95_system`: `sees` and `form_sees` say, as relations without matrices, which functions an integrand gets (`reduces_to`, with one relation per reduction in KindsProofs.v: `trace_of`, `on_cells`, `line_of`, `patch_of`, `mean_of`, `point_of`, `gradient_of`, `surface_of`); the proofs show that each matrix is made, has the sizes of the spaces and gives the unique such function (`gives`), and join that with the reduction of C26 and with C94. Hypotheses: `reductions_ok` (reduced spaces live on the meshes of the integrals), `coupled_ok` (for each reduction in the form what dolfin has to provide, `geometry_ok`; `reality` is what is true of the meshes but not known to the code: facets of trace cells, containment, basis functions). `acts_on` is the space of the function that is reduced (flux averages bring their own). Not covered: 'avg', 'jump' traces (C60: always raise), HDiv Trace elements, traces that do not conform, lookup in injections (C82), points given by coordinates, transposed traces (C97).
- **C96** (FluxProps on BlockFormModel, ReducedModel, CoupledModel, EvalModel). `domain_space` (reduced_assembler.py, flux_average_assembly.py:27-29) is the field `asm_domain` of an assembler; flux averages remember their domain in `w_domain`. `C96_fluxes_partial`: assembled from lists of blocks, sizes of the domain spaces and integrands that get `flux_values` (spec: `shape_flux`, mean of normal components). `C96_block_form_refuted`: block forms refuse the form alone and drop it, with all later integrals, in company. `C96_column_refuted`: with the scalar space among the spaces it lands in that column, with the columns of the domain.
- **C97** (TransposeProps on CoupledModel, RestrictModel, EntityModel, EmapModel; transpose_trace_matrix.py:21-26). `on_trace_mesh`: the function lives on a mesh that is not of larger dimension than the trace mesh, and the trace mesh is not stored as its own. `C97_matrix_refuted`: the matrix always raises AssertionError (embedded_mesh.py:390); `C97_form_refuted`: so does every form with it; `C97_sizes_refuted`: if it did not, the sizes would be exchanged.
- **C98** (CheckModel/CheckProofs/CheckProps on AnnotateModel, ElementModel; reduced_assembler.py:83-100 and the assertions at the beginning of the functions that make matrices). `pass` goes from a marked function and the mesh of the integral through is_compatible, the reduced space and the assertions up to the loops (these are the subject of C31-C37, C58, C60, C73, C74, C82, C83, C95). `of_space`: the function lives on a mesh of the cells of its element. One theorem per operator, from its acceptance (C72) to an equivalence. `C98_refuted`: witnesses of functions accepted by the operator and refused later; `C98_surface_refuted`: the mesh of SurfaceMean is not looked at. Not modelled: the caches (C28-C30, C93); that dolfin builds a space whenever cells agree.
- **C99** (DeepModel/DeepProofs/DeepProps on ConvertModel, BlockUtilsModel; matrix_utils.py:59-87, convert.py:230-243). `block_mat_to_numpy` on nested block matrices with the scan of scipy.sparse.bmat for the sizes. `spread d m n G` is the meaning of a nested block matrix as entries, from offsets of sizes given from outside; `known`: no row or column of numbers only. By induction on `spread`. `C99_identity` by induction on the nested list of spaces, `C99_reshape_partial` composes C52. Not modelled: convert itself on nested block matrices (what cbc.block's create_vec gives for them), petsc storage.
- **C100** (SkeletonModel/SkeletonProofs/SkeletonProps on EmbedModel; embedded_mesh.py:598-609). Facets and the facets of the cells are data; the cells of a facet and the marking of the boundary are computed. `facet_mesh m P em` says that `em` is the mesh of the facets with `P`. From C38_entities; `interior_iff`: a facet that is not marked has two different cells. Trusted: DomainBoundary marks the facets with exactly one cell (serial).
- **C101** (SegmentModel/SegmentProofs/SegmentProps on GeomModel; sandbox/line_distance.py:4-45). A quotient of zeros is `None` (nan), np.cross raises on vectors that are not of length 2 or 3, np.minimum keeps nan. `least_distance P S d`: no point of S is nearer and one is at the distance d; `on_segment` by a parameter in [0, 1]. From the identity of Lagrange for the cross product and convexity of the squared distance; the field by induction on the segments. Not modelled: dolfin's set_local and File.
- **C102** (CalcModel/CalcProofs/CalcProps; sandbox/calculus.py:6-46). Expressions are trees, SymPy's simplification is left out but for what it knows to be zero, a predicate `known_zero` over which all theorems quantify (`honest`: it knows 0, and what it knows is zero). `partial e s d`: at every point d is the derivative (Coq's `derivable_pt_lim`) of e by the symbol s; by induction on expressions. df.Expression is its list of codes.
- **C103** (CrossGridModel/CrossGridProofs/CrossGridProps on MakeMeshModel; sandbox/cross_grid_refine.py:6-49). `barycenter`, `in_simplex`, `inside_simplex` by weights of combinations; the cover takes the vertex of least weight, and inside of a child its weight is strictly the least. Cells by induction on the loop.
- **C104** (TransformModel/TransformProofs/TransformProps on ShapeModel; sandbox/transforms.py:5-82). nan is `None`. The circle and the disk from Pythagoras for the projection; onto by an explicit preimage; the collapse for n_z = 0 from the two unit vectors of z = 0 orthogonal to n. RB and S have the lines of average_shape's squares and share their frame.
- **C105** (CurveModel/CurveProofs/CurveProps; apps/enumath/meshing.py:98-158, apps/d123/meshing.py:143-168). Random choices are a list argument, shortest paths a function that returns paths of the mesh (`is_path`). `on_curve` (joined by a marked edge), `linked` (its closure); the loop keeps the invariant that the marked edges are linked to the last vertex on the surface; the refutations run the loop on a tree of four edges.
- **C106** (ImmersedModel/ImmersedProofs/ImmersedProps; demo/utils.py:6, 13-73). Vertices are pairs of numbers, coordinates their real quotients by n = 4*2**i. `side t` and `in_inner` are sets of points without tolerance, `on_boundary` means to belong to one cell only. The conditions of C++ are convex, so midpoints follow from vertices; n*EPS < 1 turns tolerances into equations of numbers; the rest is linear arithmetic over the three kinds of facets.
- **C107** (MmsModel/MmsProofs/MmsProps, GaussProofs; demo/poisson_babuska.py:12-82, poisson_babuska_bc.py:14-109, grad_div_babuska.py:12-79, curl_curl_babuska.py:12-80, sym_grad_babuska.py:14-124, mixed_poisson_babuska.py:15-100). Expressions are those of CalcModel.v with `diff`; a field is its value and derivatives at each point. The specification is analytic: `smooth`, `solution` (a field whose values are the expression's and whose derivatives are limits) and `balanced` (the iterated Riemann integral over the square and those over the four sides exist and add up to zero). `diff` is shown to be the derivative; GaussProofs.v proves the theorem of Gauss on rectangles (uniform continuity on an interval, derivative of an integral with a parameter, the fundamental theorem); each demo then gives the field whose divergence is the integrand.
- **C108** (Mms2Model/Mms2Proofs/Mms2Props; demo/dq_darcy_stokes.py:29-169, layton_darcy_stokes.py:12-92, isect_mortar_2d.py:57-105 and 148-175, elasticity_2d.py:12-48 and 105-143, elasticity_mixed_2d.py:14-60 and 109-147). As C107, with the square [1/4, 3/4]^2 in the unit square: `balanced_inner` and `balanced_outer` say that the integrals over a domain and over its sides exist and add up to zero, the outer domain's being the difference of two squares'; both follow from the theorem of Gauss. The parameters are symbols with any values.
- **C109** (Mms3Model/Mms3Proofs/Mms3Props; demo/emi_primal.py:21-132, emi_primal_mortar.py:9-66, twoDoneDoneD.py:45-140, bertoluzza_stokes.py:21-186, free_slip_stokes_iter.py:27-206, free_slip_stokes_iter_cylinder.py:27-202, isoP2_stokes.py:18-92, dirac_2d.py:6-34 and 56-74, sandbox/stokes.py:21-75 and 117-140, daq_3d1d.py:12-57). As C107 and C108; `balanced_halves` is for the square cut in two, with test functions that are smooth in each half and agree on the cut. `balanced_arc` says the same for the domain whose left side is half a circle: the iterated integral over the domain and those over the arc (by its angle) and the sides exist and add up to zero. ArcProofs.v proves the theorem of Gauss there: coordinates that straighten the arc (one-dimensional change of variables, chain rule for two variables) reduce it to the square. Three facts are refuted: the values of multipliers at the ends of the curves of twoDoneDoneD and free_slip_stokes_iter, and the block a11 of daq_3d1d. `C109_curve` also says that every half side has its boundary value, `C109_free_slip` that the jump term is symmetric, not negative and zero only without a jump; `C109_daq_energy`: the four forms of daq_3d1d are the energy of the curve and of the exchange, positive where the average is the trace, and without a11 it can be negative.
- **C110** (CsrModel/CsrProofs/CsrProps; convert.py:230-291 and 378-402, matrix_utils.py:46-56 and 90-119, extension_matrix.py:94-99, bc_apply.py:190-198). Matrices as PETSc and scipy store them: `indptr`, `indices`, `data`. `value` (the sum of what is stored for a row and a column) and `wf` (the fields fit together) are the specification. What csr_matrix, createAIJ, bmat, setValues and slicing check and return is modelled after their documentation. By induction on lists of rows, with `before` for the sum of sizes. The C99 model of the same block_mat_to_numpy is on matrices as functions. Not modelled: the preallocation and communicator of petsc_serial_matrix.
- **C111** (BoxModel/BoxProofs/BoxProps; cut_surface_mesh.py:5-30, line_collision.py:4-40). `meets`: some point of the segment has its coordinates between those of the box. `C111_collides` by an invariant of the loop over coordinates (the interval of parameters left so far is the set of parameters whose points satisfy the inequalities of the coordinates done). The Julia text is modelled; the file can not be imported in Python. Numbers are real, division is exact.
- **C112** (HeatModel/HeatProofs/HeatProps on BcModel; demo/time_dep.py). `euler_step` writes a step out by test functions; `C112_euler` by C12-C14 for the first matrix and the updater (`updated`: the matrix of time zero and the right hand side of a later time are the elimination of the system of that time) and induction on the passes. `C112_stable` tests the step with the new solution. `C112_float_refuted` runs the additions of the loop with the doubles of Coq's SpecFloat. Given: the matrices and vectors that dolfin assembles, the values of conditions, and an LU solver that solves if it returns.
- **C113** (NewtonModel/NewtonProofs/NewtonProps; sandbox/babuska_hand_newton.py and the two mortar scripts). Coefficients are lists of blocks of reals; the residual, the matrix and the solver are given. Norm of blocks is that of all coefficients (`block_norm_flat`), the update block by block is one subtraction (`update_ok`). Errors by induction on passes with the inequality of Minkowski.
- **C114** (DemoModel/DemoProofs/DemoProps on HistoryModel; demo/test_demos.py, ends of demos). Endings of a process: sys.exit, an exception, a signal. `within` is the specification of `in` for strings. What the demos ask of rates is one of three kinds (`want`); which demo asks for which is not modelled apart from those with an arc. The decoding of output and what the operating system does are not modelled.
- **C115** (BrokenModel/BrokenProofs/BrokenProps on ImmersedModel; demo/common.py:12-37). `norm_of loc norm_f`: the norm is the square root of a sum of nonnegative local terms over the cells of the mesh it is given. `Within`: all vertices and the midpoint of a cell are inside the subdomain, as in SubDomain::mark of dolfin. `C115_halves`, `C115_sides`, `C115_interface`: the subdomains of the demos on their meshes, with near and DOLFIN_EPS, for refinements whose cells are larger than the tolerance. Interpolation to the submesh is taken to be restriction.
- **C116** (Mms4Model/Mms4Props on MmsModel, GaussProofs; sandbox). As C106-C109: expressions with symbolic derivatives, `balanced` says that the integral over the square and those over the sides exist and add up to zero. In mini_hack.py f and h are the exact ones, not projections of interpolants. `C116_taylor_hood` also says that the velocity is prescribed on all of x = 0 and nowhere else.
- **C117** (ControlModel/ControlProofs/ControlProps; demo/optim_control_L2.py). Spaces are given by the integrals of pairs of basis functions; `state` is the weak form of the state equation, `cost` the objective, `optimal` compares with all pairs that satisfy the state equation. `C117_optimal` by expanding the cost along a direction, `C117_multiplier` by the vanishing of its linear term. Given: that integrals are symmetric and nonnegative, that the elliptic problem is solvable (for the existence of a multiplier), positive inverse row sums. The bounds on iterations the preconditioners are made for are not modelled. `C117_fractional` (sandbox/optim_control_H0.5.py): the trace and the matrix of HsNorm are arbitrary with the matrix symmetric and nonnegative; the branch `if False` (83-95) and B22 (106-108) are not modelled.
- **C118** (VesselModel/VesselProofs/VesselProps; apps/enumath/has_multiplier.py, not_has_multiplier.py, sandbox/daniele.py). Functions are coefficients and the spaces are given by integrals of products of basis functions; `integrals` collects what is used of them: symmetric, nonnegative, |average - u|^2 over the curve is nonnegative, a function with no gradient that vanishes on the boundary is zero, |u|^2 = 0 only for u = 0. The averaging matrix is arbitrary (its entries are those of C31-C36). `projection`: the projection of the average to the space of the vessel. `C118_positive` by writing the energy as a sum of squares, `C118_unique` and `C118_minimal` from it. Not modelled: meshes and MMS data of the scripts, the iterative solvers.
- **C119** (LayerModel/LayerProofs/LayerProps; demo/layer_2d.py, apps/d123/solving.py). As C118, with arbitrary restriction and trace matrices. `layer_optimal` and `d_state`, `d_cost` are the objective and the constraints of the headers; `C119_layer` and `C119_d123` by expanding the energies around the solution, where the multiplier cancels the slopes. `constants`: functions without gradient whose traces are each other. Given: integrals are symmetric and nonnegative and masses vanish only at zero.
- **C120** (DaqModel/DaqProps; sandbox/daq_standalone.py, demo/daq_3d1d.py). As C118, with average and trace matrices into the same space of functions on the curve, both arbitrary. `near` compares |average - trace|^2 with the energy of the tissue; `C120_energy` writes the energy with the product (average - p)(trace - p), whose sign is what matters. Not modelled: mesh, the data f.
- **C121** (DaqModel/DaqProps; demo/dirac_2d.py). Basis functions have values at the point; an integral over the mesh of a number is the number times the volume. Proved as C119. Not modelled: the matrix of PointTrace, the preconditioner.
- **C122** (Mms5Model/Mms5Proofs/Mms5Props with Gauss3Proofs; demo/poisson_babuska_3d.py). As C107 in three dimensions: `integral3` is the iterated Riemann integral, `gauss3` the theorem of Gauss for a box, proved by differentiating under the integral twice (`tube3` gives continuity of integrals with two parameters); `demo_u` is the function written with cos of Coq's reals. Sides are named by hand (`P3_tag`): marking of facets by CompiledSubDomain is not modelled.
- **C123** (PrecModel/PrecProps on MmsModel, Mms2Model, Mms3Model; demo/poisson_babuska_bc_iter.py, mixed_poisson_babuska_iter.py, twoDoneDoneD_iter.py, layton_darcy_stokes_iter.py). Blocks are integrands on jets and are compared with the rows of the systems of C107-C109 without data and multipliers. `riesz`: symmetric, nonnegative and zero only where the function (or its derivatives) is. `lm_curve`: the right and top sides with the ends (1, 0) and (0, 1). `near` is equality; names of Python that are not bound are `Err UnboundLocalError`. Not modelled: HsEig, HsNormAMG, HsRA of other packages, iteration counts.
- **C124** (ReuseModel/ReuseProofs/ReuseProps on ReducedModel; test/evolve_rhs.py, sandbox/lhs_reduced.py, trace_form.py:91-99). A heap of vectors, Functions as addresses; `sharing` is Function(V, v.vector()), `fill` writes into the vector, `assign` lets the Function refer to a new one. `plug` puts a Function with the same reduction in the place of the trial function. The plugged form is shown to satisfy the assumptions of C27, its value is that of the bilinear form at the coefficients, and vectors with the same products are equal. The loops by induction over the list of values. Comparison in the script is exact instead of up to DOLFIN_EPS.
- **C125** (GlueModel/GlueProofs/GlueProps; sandbox/incomple_trace.py, incomple_trace_tagged.py). The mesh of n by n squares with its vertices, edges and cells, `mark` on all vertices and the midpoint with the expressions of the script over the integers, the embedded interface, the submeshes by their vertices, the mass matrix and the sum of the integrals over tags. Values of a trace in vertices outside the mesh of its function are a parameter. The interface is compared with an explicit list of edges (`on_pieces`, `on_sides`); uniqueness by the positivity of the mass form on every edge. Not modelled: how the trace matrix finds cells (C28-C31), the error that is printed, the meshes 0 to 3 of lines 8-22 that are not used.
- **C126** (MeshFileModel/MeshFileProofs/PrintProofs/MeshFileProps; apps/d123/meshing.py 6-88, apps/enumath/meshing.py 9-85). The working directory as a list of named files, `convert`, `h5_file_name`, `generate` and the reads of `load` as programs that keep what they wrote when they raise; gmsh, dolfin-convert and the child python as programs that stop after a given number of files or statements; '%g' for rational numbers. A mesh is identified with the text of domain.geo and the gmsh command. Sessions by induction with an invariant of the directory; '%g' by reading its characters back. Assumed of the other programs: gmsh writes domain.msh, dolfin-convert writes the mesh and two region files in this order, a file is written completely or not at all (the h5 file data set by data set). Data sets carry the kind of what was written (mesh, facets, cells), so that reading another data set shows.
- **C127** (ZigzagModel/ZigzagProofs/ZigzagProps; apps/d123/meshing.py 105-141, domain.geo 6-28). The conditions as trees over the coordinates, `union` with brackets and ' || ' as tokens, the dictionary of lines, the candidates of a tag and the marking by midpoints over rational coordinates. The curve is specified as a polygon by its corners and segments by their parameter, independently of the conditions. The numbering of points, lines and faces of a box by OpenCASCADE is an assumption (C127_geo only). Not modelled: how gmsh fits the mesh to the lines, parsing of the C++ text, the mesh fields of domain.geo.
- **C128** (QuadTestModel/QuadTestProofs/QuadTestProps; test/test_reduction_quad.py 20-241, average_matrix.py 196-241, avg_test_square.py 54-75). The row of the averaging matrix at a dof applied to a function that the space has exactly, with the quadratures of ShapeModel.v and the tables of DiskModel.v, over the reals. The spec is the distance of a point from the centre, its bounds and the expected values as written in the tests; Gauss rules are any that have points in the interval and integrate 1 and t^2 (the rule with two points is shown to be one). The refutation for the disk sums up the table in integers. Not modelled: the L2 norm of the error on the line (only the values at the dofs), interpolation of functions that the space does not have.
- **C129** (HarmQuadModel/HarmQuadProofs/HarmQuadProps on SpaceOpModel, SolveProofs; extension_matrix.py 102-172). The matrices of C88 are assembled from values and derivatives at quadrature points, rational numbers. The spec has functions at points, integrals and the two weak problems, no matrices. SolveProofs.v has an elimination that solves every regular system, so the assumption on df.solve (here and in C88) can be met. Not modelled: that the quadrature is exact for the elements, how Trace gets the values on the curve (C46-C50 have that), floating point arithmetic of the solver.
- **C130** (BiotModel/BiotProofs/BiotProps; sandbox/bc_apply.py 8-108). The rows of the block matrix as bilinear forms in coefficients, with given matrices on the domains and sums over points on the interface. The spec has tangential parts and the energy balance. Not modelled: assembly of the forms and traces (C46-C50, C63), boundary conditions 113-140 (C24 has their rows), the right hand side (there is none).
- **C131** (SerialModel/SerialProofs/SerialProps on RestrictModel; matrix_utils.py 122-174, trace_matrix.py 451-510). The with block is a list of calls of setValues and exceptions; the matrix has entries, a stash for rows of other processes, what was sent, the mode of insertion and whether it is assembled. The behaviour of PETSc is taken from its documentation and sources (MatSetValues, MatAssemblyBegin/End, MatStash). The spec says which call gives which entry a value. The loops of trace_mat_two_restrict are modelled again as calls, and proved to do what RestrictModel.v has. Not modelled: nnz, maps from local to global numbers, calls with many rows (there are none in xii), what PETSc does with too large indices in builds without debugging (here: an error). `C131_rows`: rows inserted one after the other are those of the matrix FillModel fills.
- **C132** (`RenderModel.v`, `RenderProofs.v`, `RenderProps.v`; average_shape.py:285-329 and the loops of average_matrix.py:92-108, 187-203). Cells of the curve are two vertices and the dofs of the averages in them; the shapes are those of C34. `pairs`: the cells with each of their dofs; `around`: points of the circle around a dof, in the plane of the cell; `mirrored`: images in a line through the dof; `opposite`: on the other side of the dof. The pictures take the direction v1 - v0 and the averages v0 - v1. `C132_circles_partial`: one curve per dof and cell, on the circle of the average. `C132_mirrored`: the formula of Rodrigues for the rotation and that of the opposite normal gives the points of the average as mirror images of those shown (opposite points for vertical cells), so `C132_points_refuted`: a picture without any point of the average. `C132_squares`, `C132_rims`: the same sets of points (for rims with a symmetric rule, as Gauss rules are). `C132_components`: with several components each curve is shown once per component. `C132_tube`: both rings have the same unit directions, orthogonal to the cell, so the lines between them are those of a cone or a cylinder. `C132_fixed_corner_refuted`: Square with a fixed corner (the tuple the constructor accepts) raises, since the corner is not in the planes of both ends. `C132_traces_raise`: no pictures for shape None.
- **C133** (`DepModel.v`, `DepProofs.v`, `DepProps.v`; test/test_dep.py:8-83, 87-118). Expressions and forms as in C107, with t and k as parameters; the attributes t and k of the three shared expressions are the state, a turn of the loop records with which times right hand side and conditions are computed (matrices and solver: C112). `heat_exact`: the solution, written out. `C133_equation`: f is u_t - Laplace u, by derivatives of `heat_exact`. `C133_euler`: row 0 holds up to the error of the difference quotient for all test functions that vanish where conditions are, with multiplier dt du/dx; row 1 and the conditions exactly. `C133_turns`, `C133_returns`: step i uses the data of (i + 1) dt while i dt < 1/2, and u is compared at the last time. `C133_calls`: by induction over the calls, each is like the first. `C133_multiplier`: p_exact.t stays 0, ph is compared with zero; on x = 0 this is right since du/dx vanishes there at all times, so the test is blind for factors and signs of p. `C133_stale_refuted`: elsewhere it is not. `C133_float_refuted`: in double precision the steps of 102 are 50, 100, 200 and 401 in number, so the last column is for another end time.
- **C134** (`CoarseModel.v`, `CoarseProofs.v`, `CoarseProps.v`; sandbox/injection_mat.py:63-184, 211-219). Integrals are sums over points with weights, bases are given by values and gradients at the points, matrices are functions of row and column. Trusted: apply_bc clears rows and columns of the conditions and puts 1 (C16), assemble_system puts the number of cells of the dof. `nested`: coarse pressures are the fine ones with columns of J; `energy`, `paired`, `mass`: the integrals for functions; `stable`: the inf-sup condition. `C134_blocks`: the products with J are the forms with coarse pressures; symmetry. `C134_eigenvalues`: testing the rows of an eigenpair with itself and with the velocity of the stability condition gives beta^2 <= lambda (lambda - 1) <= 2 (Cauchy-Schwarz, (div u)^2 <= 2 |grad u|^2), or lambda = 1 without pressure, or the inverse number of cells of a dof with a condition. `C134_condition`: so moduli between (sqrt(1 + 4 beta^2) - 1)/2 and 2, none in [0, 1). `C134_conditions`, `C134_smallest_refuted`: each dof with a condition is an eigenvector, of an eigenvalue that is not bounded by the stability.
- **C135** (`SnesModel.v`, `SnesProofs.v`, `SnesProps.v`; sandbox/babuska_snes.py:49-91, 112-118). Residuals, linear solver and the subtraction of a plain from a nested vector are arguments; the objects that the solver keeps are empty or filled, and NewtonSolver::solve (criterion "residual") is a loop over methods F and J. Trusted: that loop, and that vectors of dolfin have no zeroEntries. `C135_script` says for all arguments how the script ends; `C135_repaired` proves the loop right for methods that overwrite (induction on the passes).
- **C136** (`ZerosModel.v`, `ZerosProofs.v`, `ZerosProps.v`; sandbox/block_form.py:5-24). Nested lists are trees. Trusted: list(map(f, l)) ends at a StopIteration of f, the shape np.asanyarray gives (ValueError for ragged lists, numpy 1.24 and later) and the shape of np.kron. Equivalence by induction on trees; entries by the product of the shape.
- **C137** (`StripModel.v`, `StripProofs.v`, `StripProps.v`; sandbox/harm_ext.py:11-36). Cells and facets of the structured mesh by index, SubDomain.mark as the test of vertices and midpoint, DomainBoundary by counting cells. Trusted: the triangles of UnitSquareMesh and that it takes only integers. An interval condition is decided by the vertices (convexity), neighbouring grid lines are further apart than the tolerance, the count of cells of a facet is by induction on the rows. Not modelled: rounding of the coordinates, the embedded meshes and the solve.
- **C138** (`H5LoadModel.v`, `H5LoadProofs.v`, `H5LoadProps.v`; xii/meshing/tikz.py:158-177). Files are lists of named data sets, entities are lists of vertices. Trusted: has_dataset, the comparison of dimensions and the matching of entities by vertices in HDF5File.read. By induction on the list of data sets and on the values of the file; `C138_returns` is an equivalence.
- **C139** (`InnerModel.v`, `InnerProofs.v`, `InnerProps.v`; demo/isect_mortar_2d.py:25-54, and the same marking in test/discacciati.py and sandbox/mortar_lin_couple.py, mortar_nlin_couple.py). Cells and facets as in StripModel.v. Fractions are compared by cross multiplication, so each geometric claim becomes one about indices; the cells of a facet are counted by a permutation of the filtered list of all cells to the list of its at most two cells. Trusted: the triangles of UnitSquareMesh, SubDomain.mark (vertices and midpoint), near, DomainBoundary. Not modelled: rounding.
- **C140** (`HalvesModel.v`, `HalvesProofs.v`, `HalvesProps.v`; demo/twoDoneDoneD.py:21-42). Cells, facets and points as in StripModel.v and InnerModel.v. The conditions are convex, so the vertices decide; on the grid a tolerance up to the width of a cell makes no difference; the tags are by induction on the list of conditions, and `means` (HalvesProofs.v) says independently what each tag stands for. Trusted as for C139.
- **C141** (`WireModel.v`, `WireProofs.v`, `WireProps.v`; sandbox/daniele.py:10-34). An edge is its first vertex and one of the seven directions of the box mesh. `on_grid` (WireProofs.v) says independently which lines there are; on the lattice a tolerance up to 1/N is the same as equality (`C141_edges`), and every point of a line lies between the ends of an edge of the curve when 4 divides N (`C141_covered`). `C141_grid_refuted`: N = 4k+2 passes the assertion `N % 2 == 0`, and the curve then consists of edges on x = y = 0 and on y = 0, z = ±1/2 only. Trusted: the vertices and edges of BoxMesh, marking by vertices and midpoint, EmbeddedMesh.
- **C142** (`QuarterModel.v`, `QuarterProofs.v`, `QuarterProps.v`; test/test_translate_markers.py:6-50). The mesh, the marks and the conditions as for C139 and C140. `q_means` (QuarterProofs.v) says independently what each tag stands for; `fold_tags` is the induction on the list of conditions. `C142_translated` proves the first assertion of the test and that the facets of each tag are the same in both meshes for all n = 4m; `C142_other_n` shows that the assertion fails for every other n. Not modelled: the comparison of sorted coordinates (36-50), which follows from equal facets, and the tests on the cube.
- **C143** (`KspArgsModel.v`, `KspArgsProofs.v`, `KspArgsProps.v`; sandbox/daniele.py:133-179). The options are an association list in the order of the calls, `as_args` (KspArgsProofs.v) says independently which arguments belong to a list of pairs. The ratio is stated with `extreme`. `C143_positive_refuted`: the assertion of line 176 is on a generator; any change of signs of the eigenvalues gives the same result. Trusted: truth of generators, max and min of empty arrays, numpy division by zero.

## Not modelled

Everything dolfin, PETSc, UFL, numpy, scipy and cbc.block do internally, floating point rounding, MPI, files
and VTK (the rest of `xii/io`), the rest of `cut_surface_mesh.py` (not Python: it contains Julia source and cannot be imported).

## Print Assumptions per theorem

| assumptions | theorems |
|---|---|
| none (closed under the global context) | `C01_assemble_in_place`, `C01_assemble_first_error`, `C01_assemble_ragged`, `C01_assemble_empty`, `C01_assemble_accepts_only_rectangular`, `C02_reshape_row_major`, `C02_row_major_meaning`, `C03_collapse_value`, `C03_collapse_exact`, `C03_collapse_acts`, `C03_no_tolerance_refuted`, `C04_collapse_terminates_refuted`, `C04_transpose_diverges_refuted`, `C04_minus_number_refuted`, `C04_plus_number_refuted`, `C04_collapse_terminates_partial`, `C04_collapse_returns_only`, `C05_convert_offsets`, `C05_convert_returns`, `C06_numeric_blocks_refuted`, `C06_numeric_blocks_partial`, `C07_convert_commutes`, `C07_convert_vec`, `C08_get_dims_refuted`, `C08_get_dims_partial`, `C09_nest_refuted`, `C09_nest_partial`, `C09_nest_dropped`, `C10_solutions`, `C10_no_rhs`, `C10_nothing_to_do`, `C10_returns`, `C10_empty_condition_raises`, `C10_refused`, `C100_interior`, `C100_all`, `C100_intervals`, `C102_grad_refuted`, `C102_expression_partial`, `C102_expression_refuted`, `C105_curve_partial`, `C105_errors`, `C105_union`, `C105_start_refuted`, `C105_none_refuted`, `C11_symmetric`, `C11_free_entries`, `C110_sparse`, `C110_dense`, `C110_zero`, `C110_row`, `C110_diagonal`, `C110_bmat`, `C110_numpy`, `C110_number_refuted`, `C110_petsc_refuted`, `C110_petsc_partial`, `C110_lg_map`, `C110_as_block`, `C110_roundtrip`, `C111_box_collides_refuted`, `C112_euler`, `C112_returns`, `C112_final_time`, `C112_stable`, `C112_float_refuted`, `C114_run`, `C114_sound_partial`, `C114_sound_refuted`, `C114_complete_refuted`, `C114_named`, `C114_selected`, `C117_optimal`, `C117_multiplier`, `C117_unique`, `C117_header_partial`, `C117_header_refuted`, `C117_nielsen`, `C117_zulehner`, `C117_fractional`, `C117_fractional_preconditioner`, `C12_rows`, `C12_constrained_row`, `C12_last_value`, `C123_choices_partial`, `C123_choices_refuted`, `C123_same_conditions`, `C124_action_partial`, `C124_fill_partial`, `C124_script_partial`, `C124_assign_partial`, `C124_assign_refuted`, `C125_interface`, `C125_domains`, `C125_odd`, `C126_session_partial`, `C126_clean_partial`, `C126_frame`, `C126_name`, `C126_printed`, `C126_sizes`, `C126_reuse`, `C126_again`, `C126_stale_refuted`, `C126_half_refuted`, `C126_edit_refuted`, `C126_digits_refuted`, `C127_marks`, `C127_exact_partial`, `C127_exact_refuted`, `C127_curve`, `C127_geo`, `C127_union`, `C127_union_refuted`, `C129_extends`, `C129_mass`, `C129_projected_mass`, `C129_reciprocal`, `C129_positive`, `C129_constant_lost`, `C13_updater_refuted`, `C13_updater_dict_refuted`, `C13_updater_nonsymmetric_refuted`, `C13_updater_partial`, `C131_enter`, `C131_inserted`, `C131_last`, `C131_added`, `C131_one_mode`, `C131_rows`, `C131_range`, `C131_raises`, `C131_processes_lost`, `C131_processes_kept`, `C131_traces_partial`, `C131_traces_refuted`, `C133_float_refuted`, `C133_float_stops`, `C136_mirror_partial`, `C136_returns`, `C136_mirror_refuted`, `C136_pairs`, `C136_shape`, `C136_rank_refuted`, `C138_loaded`, `C138_returns`, `C14_reassembles`, `C14_as_block`, `C143_options`, `C15_accepts`, `C15_rejects`, `C15_groups`, `C15_inverse_partial`, `C15_single_space_refuted`, `C15_negative_refuted`, `C16_accepts`, `C16_reduces`, `C16_negative_refuted`, `C17_adjoint`, `C17_scatter`, `C17_duplicate_refuted`, `C17_kinds`, `C21_initial`, `C21_add_bilinear`, `C21_add_linear`, `C21_any_order`, `C21_rejects_partial`, `C21_rejects_refuted`, `C21_arity`, `C22_permute_partial`, `C22_permute_linear_partial`, `C22_inverse`, `C22_rejects`, `C22_one_block_refuted`, `C22_by_space_partial`, `C23_upper_partial`, `C23_lower_partial`, `C23_rejects`, `C23_same_space_refuted`, `C23_triangular`, `C24_adjoint_partial`, `C24_form_partial`, `C24_same_space_refuted`, `C24_mixed_attributes_refuted`, `C24_other_attributes_refuted`, `C25_replace`, `C25_absent`, `C25_gone`, `C25_compound_partial`, `C25_prefix_refuted`, `C26_reduced_bilinear_partial`, `C26_any_assemblers`, `C26_reduced_bilinear_refuted`, `C26_equal_integrals_refuted`, `C27_reduced_linear_partial`, `C27_reduced_functional_partial`, `C27_reduced_linear_refuted`, `C28_key_criterion`, `C28_key_criterion_sharp`, `C28_trace_partial`, `C28_average_partial`, `C28_restriction_partial`, `C28_mean_partial`, `C28_transpose_partial`, `C28_point_trace_partial`, `C28_spaces_refuted`, `C28_operator`, `C29_direction_refuted`, `C29_one_direction_partial`, `C30_method_refuted`, `C30_fallback_refuted`, `C30_one_method_partial`, `C31_trace_rows`, `C31_restriction_rows`, `C31_trace_dg_rows`, `C31_visited_cells`, `C31_order_independent`, `C31_implementations_agree`, `C31_apply`, `C32_constants_partial`, `C32_vector_constants_partial`, `C32_outside_refuted`, `C32_half_refuted`, `C33_scalar_average`, `C33_vector_average`, `C33_outside_points`, `C33_linear`, `C33_local`, `C35_supported_partial`, `C35_beyond_refuted`, `C35_even`, `C37_plain`, `C37_plain_exists`, `C37_constants`, `C37_coloring_partial`, `C37_agree_partial`, `C37_shared_dof_refuted`, `C37_repeated_color_refuted`, `C37_uncolored_refuted`, `C37_dirac`, `C38_entities`, `C38_cells_partial`, `C38_no_markers`, `C38_vertices_rejected`, `C38_vertex_order_refuted`, `C38_repeated_marker`, `C39_with_values`, `C39_interface_partial`, `C39_returns_iff`, `C39_refuted`, `C40_unique`, `C40_transfer`, `C40_translate`, `C40_agree`, `C41_colors`, `C41_partial`, `C41_refuted`, `C41_shapes`, `C42_loop`, `C42_branch`, `C42_head_to_tail`, `C42_vertices`, `C42_mesh_rejected`, `C42_after_coloring`, `C42_two_cycles_refuted`, `C44_segment_refuted`, `C44_loop_refuted`, `C45_many_refuted`, `C51_values`, `C51_inverse`, `C51_monolithic`, `C52_reshape`, `C54_one_vector_refuted`, `C55_sum_bilinear`, `C55_sum_linear`, `C55_rejects`, `C56_partial`, `C56_returns`, `C56_blocks`, `C56_shared_refuted`, `C56_zero_refuted`, `C56_numbers_refuted`, `C56_endless_refuted`, `C56_names_refuted`, `C57_zero`, `C57_accepted`, `C57_refuses`, `C57_expression_refuted`, `C58_flux`, `C58_flux_constant`, `C58_point_partial`, `C58_point_accepted`, `C58_lagrange_refuted`, `C58_lagrange_type_error`, `C58_gradient`, `C58_gradient_accepted`, `C58_constants_refuted`, `C58_nonconforming`, `C58_nonconforming_none`, `C58_nonconforming_value`, `C59_single`, `C60_partial`, `C60_side_refuted`, `C60_interior`, `C60_boundary`, `C60_two_sides`, `C60_two_refuted`, `C60_facet_dofs`, `C60_nonconforming_refuted`, `C60_no_fallback`, `C60_assembled`, `C60_returns`, `C61_invariant`, `C61_others`, `C61_partial`, `C61_fresh`, `C61_failed`, `C61_refuted`, `C61_three_tags_refuted`, `C62_markers_refuted`, `C64_partial`, `C64_matrix`, `C64_lengths`, `C64_rectangular_refuted`, `C64_solution`, `C64_returns`, `C64_residuals_refuted`, `C64_cbc`, `C65_partial`, `C65_sequence`, `C65_unique`, `C65_accepted`, `C65_list_refuted`, `C65_diagonal`, `C66_partial`, `C66_values`, `C66_refuted`, `C66_cached`, `C66_rows`, `C67_new`, `C67_vectors`, `C67_functions`, `C67_spaces_refuted`, `C67_rejects`, `C67_items`, `C67_partial`, `C67_lengths`, `C67_exchange_refuted`, `C67_wired`, `C67_still_wired`, `C67_wired_refuted`, `C67_randomize`, `C68_fields`, `C68_action`, `C68_blocks`, `C68_single`, `C68_operators`, `C68_refused`, `C68_sum_refuted`, `C68_first_offset_refuted`, `C68_index_sets`, `C71_trace`, `C71_trace_cells`, `C71_trace_matrices`, `C71_trace_refuted`, `C71_average`, `C71_average_refuted`, `C71_flux`, `C71_point`, `C71_numbers`, `C71_same`, `C71_transpose`, `C71_transpose_refuted`, `C71_extension`, `C71_extension_refuted`, `C72_trace`, `C72_trace_accepts`, `C72_average`, `C72_average_accepts`, `C72_restriction`, `C72_restriction_accepts`, `C72_others`, `C72_terminals`, `C72_flux`, `C72_point_partial`, `C72_point_refuted`, `C72_two_points_refuted`, `C72_nested_refuted`, `C72_injection`, `C72_injection_refuted`, `C72_constants`, `C73_uniform`, `C73_components`, `C73_coincide`, `C73_bounds`, `C73_returns`, `C73_disjoint_refuted`, `C73_layout_refuted`, `C73_count_refuted`, `C73_dispatch`, `C73_type_refuted`, `C73_assemble_refuted`, `C74_mean`, `C74_mean_partial`, `C74_unweighted`, `C74_mean_refuted`, `C74_surface`, `C74_surface_constant`, `C77_curve`, `C77_surface`, `C77_others`, `C77_edges_partial`, `C77_edges_refuted`, `C77_points_refuted`, `C80_elements`, `C80_listed`, `C80_coordinates`, `C80_raises`, `C81_dofs`, `C81_dof`, `C81_basis`, `C81_new`, `C81_rejected`, `C81_kept`, `C81_dual`, `C81_negative`, `C81_range_refuted`, `C82_raises_refuted`, `C82_interpolates_partial`, `C82_any_cell_partial`, `C82_order_partial`, `C82_order_refuted`, `C82_sandbox`, `C82_sandbox_parent`, `C83_trace_partial`, `C83_outside`, `C83_embedded`, `C83_unmapped`, `C83_lines_refuted`, `C86_tubes`, `C86_uneven`, `C88_acts`, `C88_columns`, `C88_kept`, `C88_pool_refuted`, `C88_refused`, `C88_harmonic_partial`, `C88_poisson_refuted`, `C88_markers_refuted`, `C88_harmonic_refused`, `C89_mesh`, `C89_flat`, `C89_columns_refuted`, `C90_lines`, `C90_corners`, `C90_corners_once`, `C90_labels`, `C90_box_partial`, `C90_forks_partial`, `C90_last_mesh_refuted`, `C90_letters_refuted`, `C90_cells`, `C90_nodes`, `C90_marks`, `C90_returns`, `C91_report`, `C91_columns_refuted`, `C92_operator`, `C92_in_place_refuted`, `C92_nullspace_refuted`, `C92_preconditioner_partial`, `C92_preconditioner_refuted`, `C92_back`, `C92_nullspace_partial`, `C93_patch_partial`, `C93_coloring_refuted`, `C93_values_refuted`, `C93_extension_partial`, `C93_empty_refuted`, `C93_interpolation_partial`, `C93_moved_refuted`, `C94_linear_system`, `C94_no_conditions`, `C94_from_forms`, `C95_bilinear`, `C95_linear`, `C95_functional`, `C95_system`, `C95_injections`, `C96_fluxes_partial`, `C96_block_form_refuted`, `C96_column_refuted`, `C97_sizes_refuted`, `C98_trace_partial`, `C98_average_partial`, `C98_flux_partial`, `C98_restriction_partial`, `C98_injection_partial`, `C98_point_partial`, `C98_gradient_partial`, `C98_patch_partial`, `C98_mean_partial`, `C98_surface_partial`, `C98_extension_partial`, `C98_refuted`, `C98_surface_refuted`, `C99_monolithic_partial`, `C99_identity`, `C99_reshape_partial`, `C99_reshape_refuted`, `C99_number_refuted` |
| `ClassicalDedekindReals.sig_forall_dec` | `C132_components`, `C132_traces_raise`, `C69_dofs`, `C75_constant`, `C80_gaps_refuted`, `C80_twice_refuted` |
| `ClassicalDedekindReals.sig_forall_dec`, `FunctionalExtensionality.functional_extensionality_dep` | `C103_cells`, `C103_cover`, `C103_disjoint`, `C103_refused`, `C105_start`, `C105_surface`, `C106_outer`, `C106_inner`, `C106_interface`, `C106_names`, `C106_sharp`, `C106_rotate`, `C109_daq_energy`, `C109_daq_refuted`, `C111_collides`, `C111_direction`, `C111_ends`, `C111_bbox`, `C111_bbox_test`, `C119_layer`, `C119_layer_unique`, `C119_layer_header_refuted`, `C119_d123`, `C119_d123_unique_partial`, `C119_d123_unique_refuted`, `C119_d123_kernel`, `C119_d123_balance`, `C120_energy`, `C120_symmetric_partial`, `C120_positive_partial`, `C120_unique_partial`, `C120_unique_refuted`, `C120_symmetric_refuted`, `C121_optimal`, `C121_unique`, `C121_volume`, `C123_ends`, `C123_mixed_partial`, `C123_mixed_refuted`, `C123_same_blocks`, `C123_riesz`, `C123_flux`, `C130_symmetric`, `C130_balance`, `C130_slip`, `C130_friction_partial`, `C130_friction_refuted`, `C130_unique_partial`, `C130_unique_refuted`, `C134_blocks`, `C134_eigenvalues`, `C134_conditions`, `C137_cells`, `C137_extend`, `C137_marks`, `C137_even`, `C137_built_refuted`, `C139_cells`, `C139_gamma`, `C139_outer`, `C139_interface_refuted`, `C140_cells`, `C140_facets`, `C141_edges`, `C141_covered`, `C141_grid_refuted`, `C142_tags`, `C142_translated`, `C142_other_n`, `C18_orthogonal`, `C18_difference`, `C18_idempotent`, `C20_value`, `C20_projector`, `C20_collapse`, `C35_inside_partial`, `C35_outside_refuted`, `C43_dual`, `C43_dual_returns`, `C48_interval_elsewhere_refuted`, `C48_interval_elsewhere`, `C50_partial`, `C50_dependent`, `C50_parallel_refuted`, `C50_tolerance_refuted`, `C50_segments_3d_refuted`, `C50_default_tolerance`, `C53_l20_inner`, `C54_riesz_refuted`, `C54_riesz_partial`, `C54_correction`, `C57_partial`, `C57_block_partial`, `C59_partial`, `C59_accepted`, `C59_vectorized`, `C59_factor_refuted`, `C69_dofs_refuted`, `C70_facets`, `C75_oriented`, `C75_points`, `C75_sides_partial`, `C75_sides_refuted`, `C75_vector`, `C78_refine`, `C78_negative`, `C84_values`, `C85_markers`, `C85_markers_sides`, `C85_mesh_partial`, `C85_mesh_refuted`, `C85_normal_partial`, `C85_normal_refuted`, `C85_unknown` |
| `ClassicalDedekindReals.sig_not_dec`, `ClassicalDedekindReals.sig_forall_dec`, `FunctionalExtensionality.functional_extensionality_dep` | `C101_distance_partial`, `C101_distance_refuted`, `C101_dimension_refuted`, `C101_field_partial`, `C101_lengths`, `C102_scalar`, `C102_grad_partial`, `C102_div_partial`, `C102_div_refuted`, `C102_tensor_partial`, `C102_symbols_refuted`, `C102_script_refuted`, `C104_circle_partial`, `C104_nan_refuted`, `C104_onto_partial`, `C104_onto_refuted`, `C104_disk_partial`, `C104_centre_refuted`, `C104_square`, `C107_multiplier_bc_refuted`, `C109_curve_bc_refuted`, `C109_free_slip_bc_refuted`, `C113_runs`, `C113_returns`, `C113_linear`, `C113_residual`, `C113_start`, `C113_converges`, `C113_converged_refuted`, `C115_formula`, `C115_partition`, `C115_zero`, `C115_missing`, `C115_tag_refuted`, `C115_crossing_refuted`, `C115_halves`, `C115_sides`, `C115_interface`, `C118_symmetric`, `C118_energy`, `C118_positive`, `C118_unique`, `C118_minimal`, `C118_flux`, `C118_difference`, `C118_eliminate_partial`, `C118_eliminate_refuted`, `C118_multiplier_unique`, `C118_indefinite`, `C118_preconditioners`, `C118_spectral`, `C122_sides`, `C122_conditions`, `C122_multiplier`, `C125_glued`, `C125_tagged`, `C125_square`, `C128_circle`, `C128_rim`, `C128_square`, `C128_circle_tests`, `C128_square_tests`, `C128_disk_tests_refuted`, `C128_old_square_refuted`, `C132_circles_partial`, `C132_mirrored`, `C132_points_refuted`, `C132_squares`, `C132_rims`, `C132_tube`, `C132_fixed_corner_refuted`, `C133_equation`, `C133_turns`, `C133_returns`, `C133_calls`, `C133_multiplier`, `C134_condition`, `C134_smallest_refuted`, `C135_script`, `C135_solved_partial`, `C135_linear`, `C135_repaired`, `C135_solved_refuted`, `C143_condition`, `C143_positive_refuted`, `C19_orthonormal`, `C19_dependent_rejected`, `C19_first`, `C19_constants_raise`, `C20_orthonormalize`, `C20_accepts`, `C20_refuses`, `C34_circle_partial`, `C34_circle_tilted_partial`, `C34_plane_refuted`, `C34_circle_normals`, `C34_disk_partial`, `C34_square`, `C34_square_rim`, `C34_zero_normal`, `C34_rotation`, `C34_corners`, `C43_partial`, `C43_centroid`, `C43_centroid_returns`, `C43_strict`, `C43_circumcenter_partial`, `C43_circumcenter_refuted`, `C43_zero_refuted`, `C44_partial`, `C44_skipped`, `C44_raises`, `C44_junctions`, `C44_straight_partial`, `C44_straight_refuted`, `C45_partial`, `C45_glued`, `C45_returns`, `C45_one_by_one`, `C45_dimensions`, `C45_closed_refuted`, `C45_hole_refuted`, `C45_alias_refuted`, `C46_partial`, `C46_returns`, `C46_tets_refuted`, `C46_tets_assertion`, `C46_numbering_refuted`, `C47_partial`, `C47_returns`, `C47_one_cell_refuted`, `C47_extracted`, `C47_rejects`, `C48_circumcenter`, `C48_interval`, `C49_partial`, `C49_many`, `C49_measure`, `C49_refuted`, `C49_flat_refuted`, `C57_point_refuted`, `C61_search`, `C62_partial`, `C62_all`, `C62_returns`, `C62_checked`, `C62_once`, `C62_vertices_refuted`, `C62_cells_refuted`, `C63_partial`, `C63_segments`, `C63_triangles`, `C63_returns`, `C63_tags`, `C63_dims`, `C63_refuted`, `C69_unit`, `C69_returns`, `C69_tree`, `C69_curve`, `C69_loop`, `C69_loop_refuted`, `C69_components_refuted`, `C69_message_refuted`, `C70_function`, `C70_point`, `C70_convex`, `C70_inner`, `C70_refused`, `C70_convex_refuted`, `C70_flat_refuted`, `C70_square`, `C75_distance`, `C75_distance2`, `C75_returns`, `C75_origin_refuted`, `C75_centroid2`, `C75_centroid2_refuted`, `C75_line_refuted`, `C75_circum`, `C76_interior`, `C76_exterior`, `C76_plane`, `C76_single_refuted`, `C76_nan`, `C76_refuted`, `C76_nan_refuted`, `C76_solid_refuted`, `C76_both`, `C78_around`, `C78_value`, `C78_each`, `C78_repeated`, `C78_repeated_refuted`, `C78_open_refuted`, `C79_unit`, `C79_refused`, `C79_returns`, `C79_outer_refuted`, `C80_mesh_partial`, `C84_circle`, `C84_disk`, `C84_square`, `C84_rim`, `C84_uncovered`, `C84_degenerate`, `C97_matrix_refuted`, `C97_form_refuted` |
| `ClassicalDedekindReals.sig_not_dec`, `ClassicalDedekindReals.sig_forall_dec`, `FunctionalExtensionality.functional_extensionality_dep`, `Classical_Prop.classic` | `C107_poisson`, `C107_poisson_bc`, `C107_grad_div`, `C107_curl_curl`, `C107_sym_grad`, `C107_mixed`, `C108_dq`, `C108_layton`, `C108_mortar`, `C108_elasticity`, `C109_emi`, `C109_curve`, `C109_bertoluzza`, `C109_arc`, `C109_free_slip`, `C109_free_slip_arc`, `C109_isoP2`, `C109_dirac`, `C109_sandbox`, `C114_verdict`, `C114_iterations`, `C114_order`, `C114_one_mesh`, `C114_missing_refuted`, `C114_missing_dead`, `C116_nonlinear`, `C116_multiplier`, `C116_taylor_hood`, `C116_mini`, `C116_block`, `C116_grad_div`, `C116_mixed`, `C122_balanced`, `C122_general`, `C128_disk_partial`, `C133_euler`, `C133_stale_refuted`, `C36_exact_partial`, `C36_inexact_partial`, `C36_degree_11_refuted`, `C36_odd`, `C36_moments`, `C36_area_partial`, `C59_sizes_refuted`, `C78_limit`, `C78_inside`, `C78_separated`, `C78_coarse_refuted`, `C78_thin_refuted`, `C86_loops`, `C86_refused`, `C87_permutation`, `C87_centered_partial`, `C87_centre_refuted`, `C87_refused`, `C87_plane`, `C87_accepts`, `C91_rates_partial`, `C91_order`, `C91_same_mesh`, `C91_rates_refuted`, `C91_add`, `C91_add_position`, `C91_missing_refuted`, `C91_surplus`, `C91_first`, `C91_stops` |
