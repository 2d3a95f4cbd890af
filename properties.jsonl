{"id": "C01", "title": "Block assembly keeps every block in its place", "statement": "ii_assemble of a rectangular nested list of forms returns a block object of exactly the same nested shape, and the entry at every multi-index is the assembly of the form at that multi-index; a ragged list is rejected with AssertionError and an empty list with TypeError.", "quantifier": "every nested list of forms, of any depth and any (positive) shape, and every single-form assembler", "why_tests_cant": "a test fixes one shape; the flatten/map/reshape pipeline has to be right for every shape and depth", "anchors": ["xii/assembler/xii_assembly.py:assemble", "xii/linalg/list_utils.py:shape_list,flatten_list,reshape_list,package"]}
{"id": "C02", "title": "reshape_list is row-major reshape", "statement": "reshape_list(lst, shape) succeeds exactly when the two shapes hold equally many entries; its result has exactly the requested shape and enumerates the same entries in the same row-major order, so reshaping back restores the original.", "quantifier": "every rectangular nested list and every requested shape, including wrong and zero-containing shapes", "why_tests_cant": "the number of (list, shape) pairs is unbounded; the shipped self-test covers six reshapes of eight numbers", "anchors": ["xii/linalg/list_utils.py:reshape_list,package,flatten_list,shape_list"]}
{"id": "C03", "title": "ii_collapse returns the matrix the expression denotes", "statement": "Whenever ii_collapse of a cbc.block expression built from matrices, numbers, products, sums, differences and transposes returns, the returned matrix (or number) acts exactly as the expression does: its entries are the usual linear-algebra value of the expression (a number below 1e-14 in absolute value added to a matrix counts as zero).", "quantifier": "every expression tree of any depth, any chain length, all matrix sizes and entries, including scalars in any position", "why_tests_cant": "expression trees are unbounded, and the collapse recursion re-associates products and special-cases numbers", "anchors": ["xii/linalg/convert.py:collapse,collapse_tr,collapse_add,collapse_sub,collapse_mul"]}
{"id": "C04", "title": "ii_collapse terminates on every well-dimensioned expression", "statement": "For every well-dimensioned expression of matrices and numbers ii_collapse returns a matrix or a number after finitely many recursive calls.", "quantifier": "every well-dimensioned expression tree", "why_tests_cant": "non-termination on an untested expression shape cannot be excluded by finitely many runs", "anchors": ["xii/linalg/convert.py:collapse,collapse_tr,collapse_add,collapse_sub,collapse_mul"]}
{"id": "C05", "title": "ii_convert of a block matrix places every block at its offset", "statement": "ii_convert of a block_mat of matrices yields the monolithic matrix whose entry (o_i + r, o_j + c) is entry (r, c) of block (i, j), o being the prefix sums of the block sizes; a numeric block on the diagonal of a square block row becomes that multiple of the identity and a zero numeric block becomes a zero block.", "quantifier": "every block layout with any number and size of block rows and columns", "why_tests_cant": "offset arithmetic must hold for all layouts, rectangular blocks included", "anchors": ["xii/linalg/convert.py:convert,bmat_sizes,block_mat_to_numpy", "xii/linalg/matrix_utils.py:diagonal_matrix,zero_matrix"]}
{"id": "C06", "title": "ii_convert never changes the operator represented by a numeric block", "statement": "If ii_convert accepts a block matrix with a numeric block a at position (i, j), then the monolithic matrix acts on block j as multiplication by a does in the block matrix.", "quantifier": "every block matrix with numeric blocks", "why_tests_cant": "the failing combination (a non-zero number away from a square diagonal position) raises no error, so a test has to guess it", "anchors": ["xii/linalg/convert.py:convert"]}
{"id": "C07", "title": "ii_convert of a block vector is concatenation and commutes with the matrix action", "statement": "ii_convert of a block vector is the concatenation of its blocks in order, and multiplying the converted matrix with the converted vector gives the conversion of the block product.", "quantifier": "every block matrix and conforming block vector", "why_tests_cant": "an algebraic law over all sizes and values", "anchors": ["xii/linalg/convert.py:convert,block_vec_to_numpy,block_mat_to_numpy"]}
{"id": "C08", "title": "get_dims reports the dimensions of the expression", "statement": "get_dims of a well-dimensioned matrix expression is the pair (rows, columns) of the matrix that ii_collapse returns for it.", "quantifier": "every well-dimensioned expression, including scalar factors anywhere in a product chain", "why_tests_cant": "chains are unbounded and the scalar special case looks at a fixed position only", "anchors": ["xii/linalg/convert.py:get_dims,bmat_sizes"]}
{"id": "C09", "title": "nest and ii_convert describe the same operator", "statement": "The PETSc nest matrix built by nest has, block by block, the same entries as the monolithic matrix built by ii_convert.", "quantifier": "every block matrix of matrices and numbers and every dropping tolerance", "why_tests_cant": "both routes have their own rules for numeric and small blocks; agreement has to hold for every combination", "anchors": ["xii/linalg/nest.py:nest", "xii/linalg/convert.py:convert"]}
{"id": "C10", "title": "Boundary conditions: constrained system has exactly the right solutions", "statement": "After apply_bc (symmetric or not, any non-zero diag_val) a vector solves the returned system if and only if it takes the prescribed value on every constrained degree of freedom and satisfies the original equation of every unconstrained row.", "quantifier": "every square block system, every list of block-wise boundary conditions (overlapping and duplicated ones included), both symmetric modes and every non-zero diag_val", "why_tests_cant": "the claim is an equivalence over all vectors and systems", "anchors": ["xii/linalg/bc_apply.py:apply_bc"]}
{"id": "C11", "title": "Boundary conditions: symmetric elimination keeps symmetry", "statement": "With symmetric=True a symmetric monolithic matrix stays symmetric after apply_bc, and entries outside constrained rows and columns are untouched in both modes.", "quantifier": "every matrix and every set of constrained degrees of freedom", "why_tests_cant": "ranges over all matrices and constraint sets", "anchors": ["xii/linalg/bc_apply.py:apply_bc"]}
{"id": "C12", "title": "Boundary conditions: block-local indices are shifted to the right rows", "statement": "The condition of block i on local degree of freedom d constrains global row (sum of the sizes of blocks before i) + d and no row of another block; when one dof receives several values the last one applied wins.", "quantifier": "every block layout, list or dict of conditions, with duplicates", "why_tests_cant": "offset and overwrite order must be right for every layout", "anchors": ["xii/linalg/bc_apply.py:apply_bc"]}
{"id": "C13", "title": "Boundary conditions: the returned rhs updater matches the eliminated matrix", "statement": "The function returned with return_apply_b turns any right-hand side b into the vector that apply_bc would have produced for b.", "quantifier": "every right-hand side, every diag_val, list and dict conditions", "why_tests_cant": "the updater is only ever compared on the right-hand side and options used in a test", "anchors": ["xii/linalg/bc_apply.py:apply_bc"]}
{"id": "C14", "title": "Boundary conditions: the returned blocks reassemble the eliminated system", "statement": "The block system returned by apply_bc has the block sizes of the input and converting it again yields the eliminated monolithic system entry by entry.", "quantifier": "every block layout and every monolithic matrix/vector", "why_tests_cant": "splitting followed by merging must be the identity for all sizes", "anchors": ["xii/linalg/bc_apply.py:apply_bc,as_block"]}
{"id": "C15", "title": "Regrouping blocks loses nothing", "statement": "For RegroupOperator with offsets o over n blocks, applying the operator groups blocks o[k-1]..o[k]-1 in order into group k, and the transpose applied to that result returns the original blocks; offsets that are not strictly increasing or do not end at the number of spaces are rejected.", "quantifier": "every list of blocks and every offsets list", "why_tests_cant": "offset bookkeeping for arbitrary group sizes", "anchors": ["xii/linalg/block_utils.py:RegroupOperator,ReductionOperator,is_increasing"]}
{"id": "C16", "title": "Reduction operator concatenates groups and its transpose splits them", "statement": "ReductionOperator applied to block vectors yields one vector per group, the concatenation of the group's blocks; its transpose returns the original blocks with their original lengths.", "quantifier": "every list of block vectors and all valid offsets", "why_tests_cant": "all group layouts and vector lengths", "anchors": ["xii/linalg/block_utils.py:ReductionOperator"]}
{"id": "C17", "title": "SubSelect extracts and scatters consistently", "statement": "SubSelectOperator applied to x returns x at the selected indices in order; its transpose scatters y to those positions and zero elsewhere, so (S x, y) = (x, S^T y) for all x, y and S S^T y = y for distinct indices.", "quantifier": "all index lists and vectors", "why_tests_cant": "adjointness over all vectors and index sets", "anchors": ["xii/linalg/block_utils.py:SubSelectOperator"]}
{"id": "C18", "title": "Orthogonalization against a block nullspace", "statement": "For a BlockNullspace whose stored basis is orthonormal, orthogonalize(b) returns a vector orthogonal to every basis vector, differing from b by an element of their span, and orthogonalizing twice changes nothing.", "quantifier": "every orthonormal basis of any size and every vector", "why_tests_cant": "all vectors and bases; rounding-free algebraic content", "anchors": ["xii/linalg/block_nullspace.py:BlockNullspace.orthogonalize,angles"]}
{"id": "C19", "title": "Adding vectors keeps a block nullspace orthonormal", "statement": "Starting from an empty BlockNullspace, every sequence of accepted add_vector calls leaves the stored vectors orthonormal with the span of the vectors added.", "quantifier": "every sequence of vectors", "why_tests_cant": "a history property: every accepted insertion must preserve the invariant", "anchors": ["xii/linalg/block_nullspace.py:BlockNullspace.add_vector"]}
{"id": "C20", "title": "Rank-k projector is a projector", "statement": "The Projector built from vectors z_i that are orthonormal in the M inner product maps every z_i to zero, is idempotent, is self-adjoint in the M inner product, and its collapsed matrix acts as the operator.", "quantifier": "every dimension, symmetric M and M-orthonormal family", "why_tests_cant": "all vectors and families", "anchors": ["xii/linalg/sherman_morrison.py:Projector,orthonormalize"]}
{"id": "C21", "title": "Adding forms to a block_form routes each integral to its block", "statement": "block_form.add(form) adds each integral of the form to the block addressed by its test and trial space, leaves every other block unchanged, and adding forms in any order gives the same block contents as multisets of integrals; a form over a space not in the list is rejected.", "quantifier": "every list of spaces, every form and every sequence of additions", "why_tests_cant": "histories of additions are unbounded", "anchors": ["xii/assembler/block_form.py:_block_form.add"]}
{"id": "C22", "title": "Permuting a block_form is a symmetric permutation", "statement": "permute(a, ordering) returns the block form with block (k, l) equal to block (ordering[k], ordering[l]) and spaces permuted alike; permuting with the inverse ordering restores the original; anything that is not a permutation of 0..n-1 is rejected and every permutation is accepted.", "quantifier": "every block form with any number of blocks and every ordering list", "why_tests_cant": "n! orderings for every n", "anchors": ["xii/assembler/block_form.py:permute"]}
{"id": "C23", "title": "make_selfadjoint completes a triangular block form", "statement": "make_selfadjoint of an upper (lower) triangular block form keeps the given triangle and fills position (j, i) with the adjoint of the block at (i, j); a form that is neither is rejected with ValueError.", "quantifier": "every block form of any size", "why_tests_cant": "every sparsity pattern of every size", "anchors": ["xii/assembler/block_form.py:make_selfadjoint,is_upper_triangular,is_lower_triangular,is_null"]}
{"id": "C24", "title": "form_adjoint swaps test and trial function", "statement": "form_adjoint of a bilinear form exchanges test and trial function everywhere, keeps reduction attributes, and applying it twice gives back the form.", "quantifier": "every integrand expression over every pair of argument spaces", "why_tests_cant": "unbounded expression trees, and sequential substitution may interfere", "anchors": ["xii/assembler/block_form.py:form_adjoint", "xii/assembler/ufl_utils.py:replace"]}
{"id": "C25", "title": "Substitution in integrands", "statement": "replace(expr, arg, replacement) changes exactly the occurrences of arg (with matching reduction attributes), leaves an expression not containing arg unchanged, and afterwards arg no longer occurs unless it occurs in the replacement.", "quantifier": "every expression tree, argument and replacement", "why_tests_cant": "unbounded trees", "anchors": ["xii/assembler/ufl_utils.py:replace,contains,matches,is_equal_terminal"]}
{"id": "C26", "title": "Assembly of a reduced bilinear form is the form evaluated on reduced arguments", "statement": "For a form whose test/trial functions are traces, averages, restrictions etc., the operator returned by ii_assemble satisfies v'Mu = sum over the integrals of the plain form applied to the reduction of v and the reduction of u.", "quantifier": "every sum of integrals, every choice of which arguments are reduced, all coefficient vectors", "why_tests_cant": "combinations of reduced arguments over several integrals are unbounded; the identity is over all vectors", "anchors": ["xii/assembler/reduced_assembler.py:ReducedFormAssembler.assemble", "xii/assembler/xii_assembly.py:assemble"]}
{"id": "C27", "title": "Reduced linear forms and coefficients", "statement": "A linear form with a reduced test function assembles to the vector whose value on v is the plain linear form applied to the reduction of v; a reduced coefficient enters as its reduced interpolant.", "quantifier": "every sum of integrals and coefficient", "why_tests_cant": "identity over all vectors and forms", "anchors": ["xii/assembler/reduced_assembler.py:ReducedFormAssembler.assemble"]}
{"id": "C28", "title": "Cached reduction matrices are transparent", "statement": "After any sequence of assemblies, the reduction (trace/average/restriction) matrix used for a request equals the one computed afresh for that request.", "quantifier": "every history of requests over any spaces, meshes, tags, shapes", "why_tests_cant": "cache keys have to separate every pair of requests with different answers, over all histories", "anchors": ["xii/assembler/trace_matrix.py:memoize_trace", "xii/assembler/average_matrix.py:memoize_average", "xii/assembler/restriction_matrix.py:memoize_restriction", "xii/assembler/point_trace_matrix.py:memoize_point_trace"]}
{"id": "C29", "title": "Cached gradient point traces are transparent", "statement": "After any sequence of assemblies, the gradient point trace matrix used for a request (point, cell, direction) equals the one computed afresh.", "quantifier": "every history of requests", "why_tests_cant": "needs two requests differing only in the direction within one process", "anchors": ["xii/assembler/gradient_point_trace_matrix.py", "xii/assembler/point_trace_matrix.py:memoize_point_trace"]}
{"id": "C30", "title": "Cached injection matrices are transparent", "statement": "After any sequence of assemblies, the injection matrix used for a request (coarse space, fine space, non-nested method) equals the one computed afresh.", "quantifier": "every history of requests", "why_tests_cant": "needs two requests differing only in the method", "anchors": ["xii/assembler/injection_matrix.py:memoize_injmat"]}
{"id": "C31", "title": "Cell-by-cell row filling sets each row once", "statement": "The trace/restriction/interpolation matrix built by looping over cells has, in every row of a visited degree of freedom, exactly the values computed on the first visited cell that contains it, regardless of how many cells share it; if all cells sharing a dof compute the same row, the matrix does not depend on the cell order.", "quantifier": "every mesh connectivity, every visiting order", "why_tests_cant": "all connectivities and orders", "anchors": ["xii/assembler/trace_matrix.py:trace_mat_no_restrict", "xii/assembler/restriction_matrix.py", "xii/assembler/interpolation_matrix.py"]}
{"id": "C32", "title": "Averaging reproduces constants", "statement": "The average matrix applied to a constant function gives that constant at every degree of freedom of the line mesh, for every shape and quadrature.", "quantifier": "every line mesh, quadrature rule and mesh", "why_tests_cant": "depends on which quadrature points fall outside the mesh", "anchors": ["xii/assembler/average_matrix.py:scalar_average_matrix"]}
{"id": "C33", "title": "Averaging commutes with scaling and addition and is local", "statement": "The average at a line degree of freedom is sum_q w_q u(x_q) / sum_q w_q, linear in u, when every quadrature point lies in the mesh.", "quantifier": "every quadrature rule, mesh and function", "why_tests_cant": "identity over all functions", "anchors": ["xii/assembler/average_matrix.py:scalar_average_matrix"]}
{"id": "C34", "title": "Circle and square rim quadrature points lie on the declared curve", "statement": "Every quadrature point of Circle(radius) at x with unit normal n lies in the plane through x orthogonal to n at distance radius from x; the weights sum to the circumference.", "quantifier": "every centre, unit normal (also antiparallel to the reference axis), radius and degree", "why_tests_cant": "all normals, including degenerate rotation cases", "anchors": ["xii/assembler/average_shape.py:Circle,SquareRim,Square,Disk"]}
{"id": "C35", "title": "Disk quadrature rules are usable for every degree up to the advertised bound and above", "statement": "For every requested degree a rule is returned; all its points lie in the unit disk.", "quantifier": "every degree", "why_tests_cant": "the tables are fixed numbers but the claim covers all degrees, including those beyond the tables", "anchors": ["xii/assembler/disk_quadrature.py"]}
{"id": "C36", "title": "Disk quadrature rules integrate polynomials of the advertised degree", "statement": "For every odd table degree d and every monomial of total degree at most d the rule integrates the monomial over the unit disk up to the accuracy of the table.", "quantifier": "every table and every monomial up to its degree", "why_tests_cant": "moment conditions are checked for no monomial in the test-suite", "anchors": ["xii/assembler/disk_quadrature.py"]}
{"id": "C37", "title": "Patch averages with and without colouring agree", "statement": "CellPatchAverage gives the same operator with and without patch_coloring.", "quantifier": "every patch marking, colouring and mesh", "why_tests_cant": "all colourings, including ones whose patches of one colour share degrees of freedom", "anchors": ["xii/assembler/patch_average_matrix.py"]}
{"id": "C38", "title": "Embedded mesh keeps entities, coordinates and markers", "statement": "EmbeddedMesh(f, markers) has exactly one cell per marked entity; mapping its cells and vertices to the parent preserves incidence and coordinates, vertex numbering is order preserving, and each cell carries the marker of its parent entity.", "quantifier": "every mesh, marking function and list of distinct markers", "why_tests_cant": "all meshes and markings", "anchors": ["xii/meshing/embedded_mesh.py:EmbeddedMesh.__init__"]}
{"id": "C39", "title": "Interface cells of mortar meshes are paired with the right facets of both subdomains", "statement": "mortar_meshes returns an interface mesh where each cell of colour c is mapped, for both subdomains of color_map[c], to the facet of the submesh that coincides with it.", "quantifier": "every subdomain marking and list of markers", "why_tests_cant": "all cell numberings; failure depends on where the subdomain cells sit in the numbering", "anchors": ["xii/meshing/mortar_mesh.py:mortar_meshes"]}
{"id": "C40", "title": "Marker transfer to an embedded mesh", "statement": "transfer_markers (and translate_markers) give every entity of the embedded mesh the marker of the coinciding parent entity if that marker is requested, and 0 otherwise; the two functions agree.", "quantifier": "every parent mesh, embedded mesh, marking and marker set", "why_tests_cant": "all meshes and markings", "anchors": ["xii/meshing/transfer_markers.py:transfer_markers", "xii/meshing/embedded_mesh.py:EmbeddedMesh.translate_markers"]}
{"id": "C41", "title": "Branch colouring covers a 1d network", "statement": "color_branches assigns each cell of a 1d mesh exactly one branch or loop colour, cells connected through a bifurcation-free vertex share a colour, and every colour is reported exactly once as branch or loop.", "quantifier": "every 1d mesh (any graph of cells)", "why_tests_cant": "all network topologies, including components without end points", "anchors": ["xii/meshing/branching.py:color_branches"]}
{"id": "C42", "title": "Walking a branch visits it end to end", "statement": "walk_cells on a branch or loop yields each cell of the given colour exactly once, consecutive cells sharing a vertex and oriented head to tail.", "quantifier": "every path or cycle of any length, any cell numbering and orientation", "why_tests_cant": "all lengths and numberings", "anchors": ["xii/meshing/branching.py:walk_cells,walk_vertices"]}
{"id": "C43", "title": "Repeated interior-point refinement tracks ancestors", "statement": "After nrefs refinements by inner_point_refine (centroid/circumcenter) every fine cell is mapped to the root cell containing it, every root cell has exactly (d+1)^nrefs descendants, and root vertices keep their numbers.", "quantifier": "every mesh and every number of refinements", "why_tests_cant": "unbounded number of refinements and meshes", "anchors": ["xii/meshing/refinement.py:inner_point_refine", "xii/meshing/dual_mesh.py:dual_mesh"]}
{"id": "C44", "title": "Line meshes represent their branches", "statement": "line_mesh(branches) contains, for every branch, the consecutive segments of the branch as cells, and StraightLineMesh(A, B, n) has n cells for every n >= 1.", "quantifier": "every list of branches and every n", "why_tests_cant": "all branch lists, including two-point branches", "anchors": ["xii/meshing/line_mesh.py:line_mesh,StraightLineMesh", "xii/meshing/generation.py:line_mesh"]}
{"id": "C45", "title": "Gluing meshes", "statement": "union_mesh of any number of meshes keeps every cell, identifies only vertices that coincide, and reports for each mesh the map of its vertices to the glued mesh.", "quantifier": "every list of meshes", "why_tests_cant": "all lists; recursion over more than two meshes", "anchors": ["xii/meshing/union_mesh.py:union_mesh"]}
{"id": "C46", "title": "Gmsh import renumbers nodes consistently", "statement": "mesh_from_gmsh returns a mesh whose cells have the coordinates of the gmsh elements, for line, triangle and tetrahedron elements and any node numbering.", "quantifier": "every node list and element table", "why_tests_cant": "depends on gaps in the node numbering and on element type", "anchors": ["xii/meshing/gmsh_interopt.py:mesh_from_gmsh"]}
{"id": "C47", "title": "Embedding maps found by geometric search are correct", "statement": "build_embedding_map maps every cell of the embedded mesh to a parent entity that contains all images of the cell's vertices, and succeeds for every embedded mesh made of parent entities.", "quantifier": "every pair of meshes", "why_tests_cant": "all meshes; the intersection loop has to be right for any candidate sets", "anchors": ["xii/meshing/embedded_mesh.py:build_embedding_map,is_1_sequence", "xii/meshing/subdomain_mesh.py:OverlapMesh"]}
{"id": "C48", "title": "Circumcenters are equidistant", "statement": "CellCircumcenter gives, on every non-degenerate cell, a point with equal distance to all cell vertices, lying in the affine hull of the cell.", "quantifier": "every non-degenerate triangle (2d and 3d) and tetrahedron", "why_tests_cant": "all coordinates", "anchors": ["xii/meshing/cell_centers.py:CellCircumcenter"]}
{"id": "C49", "title": "Point-in-simplex test by areas is exact", "statement": "point_is_inside(x, cell) (in exact arithmetic) holds if and only if x lies in the closed simplex.", "quantifier": "every point and every interval or triangle", "why_tests_cant": "all points and cells", "anchors": ["xii/meshing/refinement.py:point_is_inside,simplices,simplex_area"]}
{"id": "C50", "title": "Segment-cell intersection test", "statement": "intersects(cell, seg) reports an intersection if and only if the segment meets the cell.", "quantifier": "every segment and every cell (segment in 2d, triangle in 3d)", "why_tests_cant": "all configurations, in particular parallel ones", "anchors": ["xii/meshing/line_collision.py:intersects"]}
{"id": "C51", "title": "Rearranging blocks", "statement": "RearangeOperator with groups ms maps a block vector to one vector per group, the concatenation of the listed blocks, gives the same result for a monolithic vector, and when every block is listed exactly once its transpose returns the original blocks.", "quantifier": "every list of groups and every block vector", "why_tests_cant": "all groupings and vector lengths", "anchors": ["xii/linalg/block_utils.py:RearangeOperator"]}
{"id": "C52", "title": "block_reshape keeps every block in its place", "statement": "block_reshape(AA, offsets) groups rows and columns so that block (i, j) of AA is block (i - first row of its group, j - first column of its group) of group (I, J); a one by one group is the block itself.", "quantifier": "every square block matrix and all valid offsets", "why_tests_cant": "all group layouts", "anchors": ["xii/linalg/matrix_utils.py:block_reshape"]}
{"id": "C53", "title": "L20 inner product", "statement": "L20_inner_product applied to u gives the vector w with v.w = (P u, P v)_M for all v, P the projector onto the complement of the nullspace.", "quantifier": "every symmetric M, M-orthonormal family and all u, v", "why_tests_cant": "all vectors and families", "anchors": ["xii/linalg/sherman_morrison.py:L20_inner_product"]}
{"id": "C54", "title": "L20 Riesz map inverts the L20 inner product", "statement": "For u in the M-orthogonal complement of the nullspace, L20_riesz_map applied to L20_inner_product applied to u returns u.", "quantifier": "every symmetric invertible M, M-orthonormal family and all u", "why_tests_cant": "all vectors and families", "anchors": ["xii/linalg/sherman_morrison.py:L20_riesz_map"]}
{"id": "C55", "title": "Sum of block forms", "statement": "a + b of two block forms of the same arity over the same spaces is the block form whose every block gathers the integrals of both blocks; different arities or spaces are rejected.", "quantifier": "every pair of block forms with any number of blocks", "why_tests_cant": "all block contents and sizes", "anchors": ["xii/assembler/block_form.py:_block_form.__add__"]}
{"id": "C56", "title": "Collapsing an expression by rewriting its graph", "statement": "collapse of collapse_iter returns, for every expression of matrices and numbers built with +, -, * and transposition and of fitting sizes, the matrix that the expression denotes, whatever the order in which collapsable trees are found; a block system is collapsed block by block.", "quantifier": "every expression of any size and depth, every order of the trees found in a round", "why_tests_cant": "the graph is rewritten in rounds whose order is that of a Python set; names of intermediate results, shared objects and deep expressions are all at play", "anchors": ["xii/linalg/collapse_iter.py:expr2graph", "xii/linalg/collapse_iter.py:collapsable_trees,replace_tree,collapse_tree,collapse"]}
{"id": "C57", "title": "Derivatives of functionals with restricted functions", "statement": "ii_derivative(f, x) returns the derivative of the functional f with respect to the degrees of freedom of x, where x may occur as itself, under derivatives and in the form of restricted copies that share its vector; block_jacobian returns all partial derivatives of a square system.", "quantifier": "every functional of any number of integrals and coefficients, every nonlinearity built of differentiable operators, every state and direction", "why_tests_cant": "tests compare with hand made Jacobians of single forms; the chain rule over copies, marks and substitution there and back has to hold for all expressions", "anchors": ["xii/nonlin/jacobian.py:ii_derivative", "xii/nonlin/jacobian.py:block_jacobian", "xii/assembler/ufl_utils.py:replace"]}
{"id": "C58", "title": "Matrices that evaluate functions represent the evaluation", "statement": "For every finite element function given by its coefficients, the rows of the evaluation matrices times the coefficients are the evaluation: (a) the flux average matrix gives at each dof of the discontinuous target the quadrature of the component of the function along the normals of the shape, over the points inside the mesh, divided by the sum of the weights; (b) the point trace matrix gives the value of the function at the given point (restricted to the given cell if the function is discontinuous), for continuous and for discontinuous spaces; (c) the gradient point trace matrix gives the derivative along the tangent of the function restricted to the given cell, at the given vertex; (d) the nonconforming trace matrix applies each dof of the target (as defined on the first cell that has it) to the function on the cell found at the point of the dof, and gives zero outside. All other rows are zero and arguments that do not fit are refused.", "quantifier": "all meshes, dof maps, elements, quadrature shapes, collision searches, points, cells, tangents and coefficient vectors", "why_tests_cant": "tests evaluate a few functions on structured meshes; the branch for continuous spaces is not exercised at all", "anchors": ["xii/assembler/flux_average_matrix.py:56-156", "xii/assembler/point_trace_matrix.py:33-160", "xii/assembler/gradient_point_trace_matrix.py:12-101", "xii/assembler/nonconforming_trace_matrix.py:14-98"]}
{"id": "C59", "title": "inverse of a combination of fractional norms is the inverse matrix", "statement": "For interpolation norms H^s = M U diag(l^s) U' M of symmetric matrices A, M (with A U = M U diag(l), U' M the inverse of U; eigenpairs either stored or computed by eigh), inverse applied to an expression of sums, differences and multiples of such norms that is an invertible matrix returns a matrix which is its inverse from both sides, whichever eigenvectors are used; it accepts exactly the linear combinations of norms made of the same matrices; a vectorized operator gives the vectorized inverse and a single norm its power -1.", "quantifier": "all symmetric matrices of all sizes, all eigenvalue solvers that solve the eigenvalue problem, all expressions, all real factors and exponents (any power function)", "why_tests_cant": "tests compare one combination on one mesh to a dense inverse in floating point; wrong signs in differences or a mixture of different matrices go unnoticed", "anchors": ["xii/linalg/hsmg_utils.py:12-41", "xii/linalg/hsmg_utils.py:43-98", "xii/linalg/hsmg_utils.py:101-113"]}
{"id": "C60", "title": "Restricted traces take the side they are asked for", "statement": "The trace matrix with restriction '+' ('-') evaluates the functional of every trace dof on the function in the cell of the facet above (below) it with respect to the normal, as documented; 'avg' gives the mean of both sides and 'jump' the value above minus the one below; the image of a facet dof of facet functions is that dof; rows of dofs without a tagged trace cell are zero; on trace meshes that do not conform the non-conforming trace matrix is used.", "quantifier": "all meshes, normals, spaces, functionals, restrictions, tags, maps, trace meshes with any stored maps", "why_tests_cant": "tests use one or two interfaces whose normals are computed by the package itself, so that a consistent swap of the sides is not seen; avg and jump are not called", "anchors": ["xii/assembler/trace_matrix.py:34-98", "xii/assembler/trace_matrix.py:201-249", "xii/assembler/trace_matrix.py:252-412", "xii/assembler/trace_matrix.py:415-510"]}
{"id": "C61", "title": "Stored facet maps are right and complete", "statement": "After any sequence of requests, some of which may fail, every entry of the maps that a trace mesh stores is right, no entry is lost and maps of other meshes are not touched; after a request that returns, all trace cells with the requested tags are mapped to their facets in the requested mesh.", "quantifier": "all trace meshes with any stored maps and tags, all meshes, mesh functions, sets of tags, sequences of requests", "why_tests_cant": "depends on the history of requests: the failing case needs three tags and two requests for a mesh that is not the parent", "anchors": ["xii/assembler/trace_matrix.py:513-558"]}
{"id": "C62", "title": "A second view of an embedded mesh maps its cells and vertices", "statement": "compute_embedding(f, tags) adds the map of an embedded mesh into the mesh of f: every entity with one of the tags is the image of exactly one cell, every cell and every vertex of the embedded mesh is mapped to the entity and vertex at its place, so that markers can be translated with it; the maps into other meshes and the mesh stay as they are, entities that are no cells are refused, and so is a mesh that has a map already.", "quantifier": "all embedded meshes with any stored maps, all meshes with mesh functions, tags, tolerances and bounding box searches", "why_tests_cant": "tests use one interface of two matching meshes and do not look at the vertices", "anchors": ["xii/meshing/embedded_mesh.py:127-190", "xii/meshing/embedded_mesh.py:192-242"]}
{"id": "C63", "title": "The mesh of the overlap is mapped right into both meshes", "statement": "OverlapMesh(mesh1, mesh2) for meshes with exactly one common tag returns the mesh of the cells of mesh1 with the tag with maps into mesh2 such that each vertex goes to the vertex at its place and each cell to the cell with the same vertices; meshes that do not match on the overlap, have no common tag or several, or other dimensions are refused.", "quantifier": "all pairs of meshes, tags, tolerances, bounding box searches and SubMesh implementations that return the cells asked for", "why_tests_cant": "the test in the file uses two parts of one mesh, which match; that a mesh which does not match is accepted needs the search to start again", "anchors": ["xii/meshing/subdomain_mesh.py:16-93"]}
{"id": "C64", "title": "Block systems are solved by other libraries", "statement": "The operator that the wrappers hand to scipy and pyamg acts on arrays as the block operator acts on blocks (for a block matrix: as the matrix with these blocks), and refuses arrays of other lengths; what the wrapper returns has the blocks of the initial guess and solves the block system in the sense in which the solver promises, a status other than 0 raises; the residuals returned are those of the iterates; cbc.block's solvers are chosen by their names, with the identity if there is no preconditioner.", "quantifier": "all block operators, sizes and numbers of blocks, right hand sides, solvers and notions of closeness", "why_tests_cant": "tests solve a few square systems; that rectangular operators never work and that residuals are norms of iterates is not seen by comparing solutions", "anchors": ["xii/linalg/krylov_api.py:10-31", "xii/linalg/krylov_api.py:34-101", "xii/linalg/krylov_api.py:104-127"]}
{"id": "C65", "title": "One operator acts on all components", "statement": "VectorizedOperator applies the operator to each component of a vector: entry i of component j of the product is row i of the matrix times component j, whatever was multiplied before; accepted are exactly square matrices of the size of a component of a space of equal elements, or of each space of a list; block_diag_mat has the given blocks on the diagonal and zeros elsewhere.", "quantifier": "all matrices, spaces, numberings of component dofs that are disjoint, sequences of vectors, lists of spaces", "why_tests_cant": "the working array is shared by all products, which matters for some numbering of dofs only; the branch for lists is not called by any test", "anchors": ["xii/linalg/block_utils.py:17-23", "xii/linalg/block_utils.py:184-245"]}
{"id": "C66", "title": "Operators given by their action become the right matrices", "statement": "collapse of an operator that is given by its linear action returns the matrix of the action, computes it once, and raises for spaces of dimension 0; row_matrix returns the matrix with the given rows and refuses rows of different sizes.", "quantifier": "all linear actions, dimensions, contents of pooled vectors, lists of rows", "why_tests_cant": "the vector of the loop comes from a pool: a test that collapses a fresh operator gets a zero vector", "anchors": ["xii/linalg/fe_space_op.py:8-54", "xii/linalg/matrix_utils.py:104-122"]}
{"id": "C67", "title": "Functions in several spaces hold the right components", "statement": "An ii_Function over spaces W without components has new zero functions of the spaces; with vectors it has functions of the spaces that share the vectors, which have to have the sizes of the spaces; with functions these are the components and have to be in the spaces; other lists are refused; interpolate gives each component the interpolant of its source and leaves other functions, also if the sources are components; the nested vector stays wired up with the components: change of the one changes the other.", "quantifier": "all spaces, stores of functions and vectors with any sharing, components, sources, interpolation operators, both meanings of assign", "why_tests_cant": "tests check values once after construction; aliasing, sources that are components and vectors kept from before an interpolation are not tried", "anchors": ["xii/linalg/function.py:10-16", "xii/linalg/function.py:21-37", "xii/linalg/function.py:45-77", "xii/linalg/function.py:79-93"]}
{"id": "C68", "title": "A field split preconditioner does what the block preconditioner does", "statement": "For a block diagonal preconditioner of LU, AMG, Elasticity blocks and sums of them, pc_nest sets PETSc's field split so that, solvers of both sides being equal, the result is the one of the block preconditioner; if it is Rt*P*R with a restriction R that groups blocks, the fields are the unions of the index sets of the groups: they are all rows once, in order; other preconditioners are refused.", "quantifier": "all sizes of blocks, offsets of the restriction, block preconditioners, solvers, vectors", "why_tests_cant": "tests would need PETSc for each grouping; index sets of groups and sums of more than two are not tried", "anchors": ["xii/linalg/nest.py:13-58", "xii/linalg/nest.py:61-121"]}
{"id": "C69", "title": "The tangent of a curve has unit length and goes along the curve", "statement": "TangentCurve gives on each cell the unit vector along the cell; on an open curve the vectors point from the root to the other end, on a tree away from the root, on closed curves in one direction around; a root that is not a leaf is refused; unvisited cells are reported; the function has on each cell the value of the cell.", "quantifier": "all meshes of intervals in any dimension, coordinates, cell orders and vertex orders, roots, dof maps", "why_tests_cant": "tests look at few curves with cells in order; closed curves, several curves and trees with other numberings are not tried", "anchors": ["xii/meshing/embedded_mesh.py:543-591"]}
{"id": "C70", "title": "The outer normal is the outer normal", "statement": "OuterNormal gives on each cell of a manifold mesh the unit normal that points away from the given point, with the given function, or from the mean of the vertices; for a convex surface and by default it is the outer normal; the inner normal is the opposite.", "quantifier": "all facet meshes, coordinates, cell normals of either sign, points, functions", "why_tests_cant": "tests are on squares and cubes; meshes that are not convex or flat are not tried", "anchors": ["xii/meshing/embedded_mesh.py:247-250", "xii/meshing/embedded_mesh.py:322-362", "xii/meshing/embedded_mesh.py:365-370"]}
{"id": "C71", "title": "The space of a reduced function has functions with the values of the function", "statement": "For each reduction (trace, average, averaged flux, point trace, gradient at a point, mean, surface mean, restriction, injection, transposed trace, extension) the space made for the reduced function is over the cells of the reduced mesh, and its functions have the same number and shape of values as the reduced function; other cells and shapes are refused.", "quantifier": "all elements (scalar, vector, tensor, mixed, nested), cells, dimensions, degrees", "why_tests_cant": "tests use scalars and vectors with as many components as dimensions", "anchors": ["xii/assembler/trace_form.py:8-79", "xii/assembler/average_form.py:9-52", "xii/assembler/flux_average_form.py:11-40", "xii/assembler/point_trace_form.py:13-26", "xii/assembler/transpose_trace_form.py:8-64", "xii/assembler/extension_form.py:7-74", "xii/assembler/mean_form.py:22-28", "xii/assembler/surface_mean_form.py:14-28", "xii/assembler/restriction_form.py:21-26"]}
{"id": "C72", "title": "Marking a function for a reduction leaves the function as it is", "statement": "Trace, Average, Restriction, Injection, TransposeTrace, PointTrace, GradientPointTrace, CellPatchAverage, FluxAverage, Extension, Mean and SurfaceMean give a new object with the same space and coefficient vector and with the asked data attached; the given function, other functions and the meshes are unchanged; what can not be reduced is refused.", "quantifier": "all functions, arguments, meshes, markers, tags, histories of earlier marks", "why_tests_cant": "tests mark each function once and look at the assembled numbers", "anchors": ["xii/assembler/trace_form.py:82-131", "xii/assembler/average_form.py:55-86", "xii/assembler/restriction_form.py:29-47", "xii/assembler/injection_form.py:28-66", "xii/assembler/transpose_trace_form.py:67-85", "xii/assembler/point_trace_form.py:29-44", "xii/assembler/gradient_point_trace_form.py:21-35", "xii/assembler/patch_average_form.py:38-65", "xii/assembler/flux_average_form.py:43-61", "xii/assembler/extension_form.py:77-95", "xii/assembler/mean_form.py:31-45", "xii/assembler/surface_mean_form.py:31-45", "xii/assembler/ufl_utils.py:127-139"]}
{"id": "C73", "title": "Uniform extension takes the value of the nearest point", "statement": "The extended function has in each dof of the extension space the value of the function in the nearest dof of the line, also for vectors component by component; hence the values stay within their bounds, and where dofs coincide the function is unchanged; extensions are assembled.", "quantifier": "all dof coordinates, numbers of components, coefficient vectors, spaces", "why_tests_cant": "nothing calls the module in the tests; the numbering of dofs of vector spaces is an accident of dolfin", "anchors": ["xii/assembler/extension_matrix.py:33-99", "xii/assembler/xii_assembly.py:35"]}
{"id": "C74", "title": "Means are integrals divided by the size of the domain", "statement": "Mean of a function is |domain|^{-1} times its integral over the domain of the measure with the given weight, SurfaceMean that of the trace over the surface; hence means of constants are the constants.", "quantifier": "all spaces, meshes, quadratures, weights, measures, trace matrices, coefficient vectors", "why_tests_cant": "tests use unit domains, on which the factor is one", "anchors": ["xii/assembler/mean_matrix.py:28-53", "xii/assembler/surface_mean_matrix.py:27-51", "xii/assembler/mean_form.py:31-36"]}
{"id": "C75", "title": "Functions on facets have the values of their definition", "statement": "pcws_constant has on each cell its marker; OrientedFacetNormal is on each facet the normal that points from the cell with the larger to the cell with the smaller marker, whichever cell is '+'; CentroidVector and CircumVector join the centers of the cells next to a facet, CentroidDistance and CircumDistance are their distances, CircumDistance2 and CentroidDistance2 the way from center to center through the middle of the facet.", "quantifier": "all meshes, numberings of dofs, markers, choices of '+' cells, positions", "why_tests_cant": "tests compare two distances on four meshes, three of which have parallelograms around facets, or look at circumcenters", "anchors": ["xii/meshing/dg_utils.py:5-56", "xii/meshing/cell_centers.py:294-462", "xii/meshing/cell_centers.py:466-495"]}
{"id": "C76", "title": "is_delaunay tells Delaunay meshes from others", "statement": "is_delaunay returns zeros exactly for meshes in which no vertex is inside the circumscribed sphere of a cell.", "quantifier": "all simplicial meshes in 2d and 3d", "why_tests_cant": "nothing tests the function", "anchors": ["xii/meshing/cell_centers.py:498-568"]}
{"id": "C77", "title": "is_continuous tells if the cells of a mesh hang together", "statement": "is_continuous is true for a mesh of intervals if there is a path between any two cells through common vertices, for a mesh of triangles through common edges, and false otherwise.", "quantifier": "all meshes of intervals and triangles, all numberings", "why_tests_cant": "tests look at a few connected meshes; the dimension of the common entities only matters for cells touching in a vertex", "anchors": ["xii/meshing/mortar_mesh.py:130-157"]}
{"id": "C78", "title": "Winding numbers count the turns of a contour", "statement": "wind_number is the number of counterclockwise turns of a closed contour around a point, up to an error that goes to zero with refinement, and is_inside_contour tells if it is not zero; refine_contour keeps the points, divides every edge in 2^n and leaves the contour closed.", "quantifier": "all closed contours without repeated points, all points not on the contour, all numbers of refinements", "why_tests_cant": "the error depends on how near the point is to the contour compared to the length of the edges; tests use a few points far from it", "anchors": ["xii/meshing/branching.py:163-177", "xii/meshing/branching.py:180-182", "xii/meshing/branching.py:185-212"]}
{"id": "C79", "title": "NormalCurve is the outer unit normal of a loop", "statement": "NormalCurve has on each cell of a loop in the plane a unit vector orthogonal to the cell that points out of the loop.", "quantifier": "all meshes that are loops in the plane, all numberings and coordinates, any value of the winding number of the outside point", "why_tests_cant": "whether the vectors point out depends on the local order of vertices in cells, which built-in meshes fix", "anchors": ["xii/meshing/embedded_mesh.py:516-541"]}
{"id": "C80", "title": "msh_gmsh_model hands over the elements of groups with the right nodes", "statement": "The data that msh_gmsh_model returns has for each type of elements exactly the elements of the entities of physical groups, once each, with the tag of the group, and the node numbers of an element refer to rows of the returned array that have the coordinates of its nodes.", "quantifier": "all models: any nodes, groups, entities and elements", "why_tests_cant": "tests mesh a few geometries, in which gmsh numbers nodes without gaps and each entity is in one group", "anchors": ["xii/meshing/gmsh_interopt.py:34-92"]}
{"id": "C81", "title": "Evaluators depend only on the cell and dof that were set last", "statement": "What DegreeOfFreedom and FEBasisFunction return is the value of dolfin's element for the last accepted cell and dof, whatever was called before; a rejected setter changes nothing, arrays returned earlier are not changed by later calls, and only numbers 0 to space_dimension - 1 are accepted as dof.", "quantifier": "all spaces, all sequences of calls", "why_tests_cant": "the objects hold state (coordinates, orientation, an array of values); tests call them in the order in which the assemblers do", "anchors": ["xii/assembler/fem_eval.py:5-58", "xii/assembler/fem_eval.py:61-106"]}
{"id": "C82", "title": "The injection matrix by lookup interpolates coarse functions", "statement": "For nested meshes the fallback of injection_matrix returns the matrix whose product with the coefficients of a coarse function are the degrees of freedom of that function in the fine space.", "quantifier": "all pairs of meshes and spaces, all orders of the parent map, all coefficient vectors", "why_tests_cant": "the fallback is reached only with a method other than 'interpolate', which no test uses", "anchors": ["xii/assembler/injection_matrix.py:39-98"]}
{"id": "C83", "title": "trace_3d1d_matrix evaluates functions at the dofs of the line", "statement": "The product of trace_3d1d_matrix with the coefficients of a function is, at each degree of freedom of the line space, the value of the function at its point (component by component); rows of cells of the line outside of the mesh are zero.", "quantifier": "all meshes and lines in them, all spaces with value sizes, all coefficient vectors, all parent maps", "why_tests_cant": "which tetrahedron an edge or midpoint is assigned to depends on the search tree and the numbering; lines which are not made of edges cross facets inside of their cells", "anchors": ["xii/assembler/average_matrix.py:252-331"]}
{"id": "C84", "title": "MeasureFunction has at each dof the measure of the shape there", "statement": "For circles, disks, squares and rims of squares the function returned by MeasureFunction has at each degree of freedom of the line the length or area of the shape at its point; a degree of freedom on no cell and cells of no length are refused.", "quantifier": "all line meshes with any order of cells, all radii and corners that depend on the point, all quadrature rules with the right total weight", "why_tests_cant": "each dof is written by the first cell which has it; the shape is a user callable", "anchors": ["xii/assembler/average_matrix.py:334-372"]}
{"id": "C85", "title": "OuterNormal given by markers, a mesh or a facet normal", "statement": "OuterNormal has on each cell of the manifold the unit normal of the facet, as seen from the side with the larger marker (markers) or pointing out of the mesh (mesh, FacetNormal), and does not depend on which side dolfin calls '+'.", "quantifier": "all meshes, manifolds made of their facets, markers and choices of the '+' side", "why_tests_cant": "the '+' side is chosen by dolfin by the numbering of cells; interior facets are in no exterior facet integral", "anchors": ["xii/meshing/embedded_mesh.py:252-320"]}
{"id": "C86", "title": "Pictures of tubes and surfaces are closed bands and loops", "statement": "vtk_tube_render returns all points of the rings and, for each tube, the quads between neighbours of its two rings, closed; vtk_plot_data returns the points of each surface in radial order with a closed loop of lines through them.", "quantifier": "all numbers of tubes and surfaces and of their points", "why_tests_cant": "offsets accumulate over the surfaces; the inner loop variable is used after the loop", "anchors": ["xii/io/plot.py:31-106"]}
{"id": "C87", "title": "radial_order_points orders points of a circle around it", "statement": "radial_order_points returns a permutation of its points which, for points on a circle, is a convex polygon: from each point to the next all others are on the same side.", "quantifier": "all numbers and positions of points in a plane, all bases of the plane", "why_tests_cant": "the angles are computed from coordinates with respect to the origin, which agrees with those about the centre only for some circles", "anchors": ["xii/io/plot.py:109-128"]}
{"id": "C88", "title": "The matrix of an operator between spaces acts as the operator, and the harmonic extension is the harmonic one", "statement": "For every linear operator between finite element spaces, collapse gives the matrix whose action is the operator, whatever vectors the pool hands out, and returns the same matrix ever after. An operator without matvec and a space without dofs are refused. The matrix of harmonic_extension_operator sends data on the curve to the extended mesh by the solution of the Poisson problem with the Dirichlet conditions on the marked boundary; wrong dimensions and unmarked boundaries are refused.", "quantifier": "all operators, dimensions, pooled vectors, solvers, forms and markers", "why_tests_cant": "A test runs a fresh pool, whose vectors are zero, and looks at pictures of the extension; that the wrong equation is solved shows in no assertion.", "anchors": ["xii/linalg/fe_space_op.py:8-62", "xii/assembler/extension_matrix.py:102-172"]}
{"id": "C89", "title": "A mesh made from vertices and cells has these vertices and cells in their order", "statement": "For all arrays of coordinates with gdim columns and cells with tdim + 1 columns make_mesh gives the mesh of these vertices and cells, in order, also into a mesh that was used before. Arrays with other numbers of columns are refused.", "quantifier": "all arrays, dimensions and given meshes", "why_tests_cant": "Tests build a few meshes whose columns fit; regrouping of columns that do not fit shows only for odd inputs.", "anchors": ["xii/meshing/make_mesh_cpp.py:24-89"]}
{"id": "C90", "title": "Drawings of meshes show the styled facets and name corners, box and bifurcations", "statement": "The lines of a drawing are exactly the facets whose colour has a style, of every facet function. The vertices where facets of two colours other than 0 meet are named, once per pair. The box and the bifurcations named are those of the meshes drawn. Names of points are different and consist of letters.", "quantifier": "all meshes, markers, styles and numbers of points", "why_tests_cant": "A drawing is compared by eye; more than 676 points, or several meshes in one drawing, are not looked at.", "anchors": ["xii/meshing/tikz.py:27-155"]}
{"id": "C91", "title": "Convergence studies record errors and rates for every solution and report them by name", "statement": "For every sequence of solutions the monitor has one error, mesh size, dimension and rate per solution, the rate being the logarithmic slope between neighbours (nan where there is none); errors C h^p give the rate p by increments and by the fit. Values are recorded under their names, by name as by position, all or none. A report has the columns of the header, in the order of the variables.", "quantifier": "all sequences of solutions, variables and values", "why_tests_cant": "A study has a few meshes and positive errors; an error of exactly zero, or a missing value, is met in none.", "anchors": ["demo/common.py:40-140"]}
{"id": "C92", "title": "Operators and preconditioners handed to PETSc act as before", "statement": "mult and multTranspose of the PETSc matrix of an operator set y to A x and to the transpose applied to x, whatever y held, and change nothing else, with and without blocks; the same holds for apply and applyTranspose of the preconditioner, and BlockPC of it is the operator again. The null space of the matrix is the one given.", "quantifier": "all operators, memories, vectors (disjoint or not) and null spaces", "why_tests_cant": "Krylov methods hide a wrong action or null space behind more iterations; which vectors hold what before a call differs from run to run.", "anchors": ["xii/linalg/block_utils.py:26-181", "xii/linalg/block_utils.py:416-433"]}
{"id": "C93", "title": "Cached extensions, patch averages and interpolations are those of their arguments", "statement": "A cached matrix of an extension, a patch average or an interpolation is the one that would be computed for the present arguments: spaces, reduced mesh, the type and data of the extension, the vertex function, patches, their values and colouring, and the meshes as they are at the time of the request.", "quantifier": "all sequences of requests", "why_tests_cant": "A stale answer needs a second request that shares a key with an earlier one; tests make one matrix for each pair of spaces.", "anchors": ["xii/assembler/extension_matrix.py:15-30", "xii/assembler/patch_average_matrix.py:14-26", "xii/assembler/interpolation_matrix.py:8-19"]}
{"id": "C94", "title": "From forms to a linear system", "statement": "Let forms be added to a block form over W one after the other, and the system be made by ii_assemble, apply_bc and ii_convert as the scripts make it. Every integral has reductions of its functions that are not confused with each other (in the sense of C26), every space has a form tested with it and one in which it is the trial space, and the conditions are well formed and mark a row. Then a vector solves the system exactly when it has the prescribed values and satisfies, for all test vectors vanishing at the prescribed rows, that the bilinear integrals of its parts equal the linear ones; with no conditions at all, when the equality holds for all test vectors.", "quantifier": "every list of spaces, all forms in any order of addition, any reductions of their arguments, all boundary conditions, both values of symmetric, all vectors", "why_tests_cant": "The statement links the block form, the assemblers, lazy products, elimination of rows and the conversion; a test sees one system.", "anchors": ["demo/emi_primal.py:163-165", "xii/assembler/xii_assembly.py:24-67", "xii/linalg/bc_apply.py:14-145", "xii/linalg/convert.py:21-75", "xii/assembler/block_form.py:93-152"]}
{"id": "C95", "title": "Forms of reduced functions see the values of the reductions", "statement": "For every multiscale form whose arguments and coefficients are wrapped by Trace (also with '+' or '-'), Restriction, Average, FluxAverage, CellPatchAverage, Mean, SurfaceMean, PointTrace, GradientPointTrace or Injection, the assembled matrix, vector or number, applied to any coefficient vectors, is the sum of the integrals over the reduced mesh with each wrapped function replaced by its reduction: for a trace the function with the values seen from a cell at the facet (on the side that is asked for), for a restriction the values cell by cell, for averages the quadrature mean over the shape around each point (without a shape the value there), for patches the mean over the patch, for means the integrals, for points the value or the derivative along the tangent.  The linear system built from such blocks is solved by exactly the vectors that meet the boundary values and for which this identity holds for every test function vanishing on the constrained dofs.", "quantifier": "all forms, spaces, cell lists, facets, quadratures, tangents, patches, coefficient vectors, boundary conditions; all orders of the integrals and of the subterms", "why_tests_cant": "The matrix a test inspects is a product of filled matrices with the matrix of a form on a small mesh; whether the product means the integral of the reduced function depends on every cell, row and index of both and on the pairing of each with the right argument.", "anchors": ["xii/assembler/trace_matrix.py:34-412", "xii/assembler/restriction_matrix.py:41-88", "xii/assembler/average_matrix.py:56-331", "xii/assembler/patch_average_matrix.py:29-190", "xii/assembler/mean_matrix.py:29-51", "xii/assembler/surface_mean_matrix.py:29-50", "xii/assembler/xii_assembly.py:24-67", "xii/assembler/trace_assembly.py:10-60", "xii/assembler/average_assembly.py:10-45"]}
{"id": "C96", "title": "Forms with flux averages find their block", "statement": "A form with the flux average of a test or trial function of a space V, added to a block form with V among its spaces, goes to the row or column of V, and what is assembled there has the dofs of V and gives the integrals with the function whose degrees of freedom are the means, over the shape around the point, of the component of the function of V along the shape's normal.", "quantifier": "all forms, spaces, lists of spaces, earlier contents of the block form, shapes, lines, coefficient vectors", "why_tests_cant": "The flux average of an argument is an argument of an auxiliary scalar space; that this space is looked up instead of V shows only when the form is added to a block form, and then as an exception or, with other integrals around, not at all.", "anchors": ["xii/assembler/flux_average_form.py:43-61", "xii/assembler/flux_average_assembly.py:27-37", "xii/assembler/flux_average_matrix.py:56-156", "xii/assembler/block_form.py:95-119", "xii/assembler/reduced_assembler.py:24-125"]}
{"id": "C97", "title": "Transposed traces can be assembled", "statement": "A form over a mesh with TransposeTrace(v) of a function v that lives on a trace mesh of it is assembled; its matrix maps the dofs of v to dofs of a space on the mesh.", "quantifier": "all trace meshes, stored maps, spaces and forms", "why_tests_cant": "Nothing in the repository uses the operator; that the lookup of facets is made with the meshes exchanged shows when it is called.", "anchors": ["xii/assembler/transpose_trace_matrix.py:21-26", "xii/assembler/transpose_trace_assembly.py:16-44", "xii/assembler/trace_matrix.py:73-98", "xii/meshing/embedded_mesh.py:383-398"]}
{"id": "C98", "title": "What the operators accept is accepted by the assembler", "statement": "If Trace, Average, FluxAverage, Restriction, Injection, PointTrace, GradientPointTrace, CellPatchAverage, Mean, SurfaceMean or Extension accepts a function and a mesh, then in integrals over that mesh the reduced space is constructed and the assertions in front of the loop that fills the matrix hold; in integrals over other meshes the function is refused.", "quantifier": "all elements, cells, meshes with or without maps, kinds of restriction, shapes, methods, patches, and meshes of the integral", "why_tests_cant": "Operator, space and matrix are checked in three modules by assertions of their own; that they agree is a statement about all elements and meshes, and a test meets only the combinations it builds.", "anchors": ["xii/assembler/reduced_assembler.py:83-100", "xii/assembler/trace_matrix.py:34-60", "xii/assembler/average_matrix.py:27-49", "xii/assembler/average_matrix.py:252-270", "xii/assembler/flux_average_matrix.py:27-48", "xii/assembler/restriction_matrix.py:24-37", "xii/assembler/patch_average_matrix.py:29-55", "xii/assembler/point_trace_matrix.py:33-57", "xii/assembler/gradient_point_trace_matrix.py:11-36", "xii/assembler/injection_matrix.py:28-40", "xii/assembler/surface_mean_matrix.py:27-37", "xii/assembler/extension_matrix.py:30-52"]}
{"id": "C99", "title": "Nested block matrices become one matrix", "statement": "The monolithic matrix of a block matrix whose blocks may be block matrices again has every matrix, at any depth, after the rows of the blocks above and the columns of the blocks to the left, and zeros elsewhere; identity_matrix of nested lists of spaces becomes the identity on all degrees of freedom; grouping the blocks with block_reshape before does not change the matrix.", "quantifier": "all nested block matrices and lists of spaces of any depth and size, and all groupings", "why_tests_cant": "Only flat block matrices of two or three blocks are converted in the tests; nesting and the sizes of zero blocks are a matter of recursion over all depths.", "anchors": ["xii/linalg/matrix_utils.py:59-70", "xii/linalg/matrix_utils.py:73-87", "xii/linalg/convert.py:230-243"]}
{"id": "C100", "title": "Skeleton is the mesh of the interior facets", "statement": "Skeleton(mesh) has exactly one cell for every facet that is shared by two different cells of the mesh, with the vertices and coordinates of the facet and no other vertices, all marked 1; with include_boundary one for every facet; meshes of intervals are refused.", "quantifier": "all meshes of dimension two and more, given by their facets and the facets of their cells", "why_tests_cant": "A test compares a skeleton of one structured mesh with a count; that exactly the shared facets are kept is a statement about all meshes, also those where facets of the boundary have all vertices on interior facets.", "anchors": ["xii/meshing/embedded_mesh.py:598-609", "xii/meshing/embedded_mesh.py:82-125"]}
{"id": "C101", "title": "The distance from a segment is the least distance from its points", "statement": "segment_distance(P, A, B) is the least of the distances of P from the points of the segment between A and B; the distance field of a list of segments is, at each dof, the least distance from the points of all segments, or 3 if that is less.", "quantifier": "all points of the plane and of space, all segments and all lists of segments and dofs", "why_tests_cant": "The script evaluates a field for a look at it; that the three cases of the foot of the perpendicular give the minimum is a statement over all positions.", "anchors": ["sandbox/line_distance.py:4-20", "sandbox/line_distance.py:36-43"]}
{"id": "C102", "title": "Grad and Div of the symbolic calculus give partial derivatives and divergences", "statement": "Grad of a scalar is the column of its two partial derivatives, Grad of a vector the matrix of the partial derivatives of its components; Div of a vector is the sum of the partial derivatives of the components by the matching symbols, Div of a tensor the divergences of its rows; asExpr returns the entries of its argument in their shape.", "quantifier": "all expressions of numbers, symbols, sums, products, powers, sin, cos and exp, all vectors, tensors and lists of symbols", "why_tests_cant": "The script checks five literal fields by SymPy's own comparison; that zero entries are dropped by values() and shift the others shows only on fields with zero components.", "anchors": ["sandbox/calculus.py:6-46"]}
{"id": "C103", "title": "Cross refinement splits every simplex into those of its facets and its centre", "statement": "cross_grid_refine adds to the vertices the centre of each cell and replaces the cell by one cell per facet, spanned by the facet and the centre, recording the cell as the parent of each; the children cover the cell, and no point is inside of two of them.", "quantifier": "all meshes of intervals, triangles and tetrahedra, all cells and points", "why_tests_cant": "The script refines meshes and writes them for a look; covering and disjointness are statements over all points of all simplices.", "anchors": ["sandbox/cross_grid_refine.py:6-49"]}
{"id": "C104", "title": "The maps from reference shapes reach the circles, disks and squares", "statement": "C(x0, n, R) maps the unit circle in z = 0 onto the circle with centre x0 and radius R in the plane orthogonal to n, D maps the unit disk onto the disk, S maps the reference square onto the square with a corner P and the four values of RB cover its sides.", "quantifier": "all centres, nonzero normals, radii and corners, all points of the reference shapes", "why_tests_cant": "The script tests one plane, the plane x = 1, by integrals that depend on the distance from the centre only; there all points of the circle go to two points and the tests still pass.", "anchors": ["sandbox/transforms.py:5-19", "sandbox/transforms.py:22-36", "sandbox/transforms.py:39-62", "sandbox/transforms.py:65-82"]}
{"id": "C105", "title": "Random curves of edges are connected and meet the surface once", "statement": "fun of the enumath mesh script marks the edges of a chain of shortest paths so that the curve they make is in one piece and has exactly one vertex on the surface of the box, the vertex it returns; fun of the d123 script marks exactly the edges of the shortest paths between the sampled pairs of vertices.", "quantifier": "all meshes, all outcomes of the random choices, all shortest path functions that return paths", "why_tests_cant": "The curves are drawn at random on one mesh and looked at; the claim is over all choices, and fails only if the start is not on the surface.", "anchors": ["apps/enumath/meshing.py:98-158", "apps/d123/meshing.py:143-168"]}
{"id": "C106", "title": "The geometry of the immersed square is tagged as its picture shows", "statement": "immersed_geometry(i, which) puts the triangles of the inner square in the inner and the others in the outer domain, tags each facet of a domain that is on one of the sides of the picture by that side, tags a facet at all if and only if it is on the boundary of the domain, and the interface is the facets that the domains share with the tags both give them.", "quantifier": "all refinement levels i up to 49, all cells and facets; at every finer level the claim is false as squares are smaller than the tolerance", "why_tests_cant": "Demos run on a few levels and integrate over tags; a facet that is on the boundary without a tag or tagged in the interior would change results only a little.", "anchors": ["demo/utils.py:6-6", "demo/utils.py:13-73"]}
{"id": "C107", "title": "The manufactured solutions of the demos on the unit square solve their systems", "statement": "For poisson_babuska, poisson_babuska_bc, grad_div_babuska, curl_curl_babuska, sym_grad_babuska (with each of the three multipliers) and mixed_poisson_babuska, with the right hand sides of setup_mms and the forms of setup_problem, the fields of setup_mms satisfy every equation of the system for all test functions, the integrals over the square and those over its sides add up to zero, and the values prescribed by boundary conditions are those of the solution.", "quantifier": "all continuously differentiable test functions (zero where values are prescribed), all setups of boundary conditions, all points of the sides", "why_tests_cant": "The demos print errors that are meant to converge; an inconsistent term is seen as a wrong rate on some meshes only and a test has a finite number of discrete test functions.", "anchors": ["demo/poisson_babuska.py:12-82", "demo/poisson_babuska_bc.py:14-109", "demo/grad_div_babuska.py:12-79", "demo/curl_curl_babuska.py:12-80", "demo/sym_grad_babuska.py:14-124", "demo/mixed_poisson_babuska.py:15-100"]}
{"id": "C108", "title": "The manufactured solutions of the demos with an inner and an outer domain solve their systems", "statement": "For dq_darcy_stokes, layton_darcy_stokes, isect_mortar_2d, elasticity_2d and elasticity_mixed_2d, with the right hand sides, interface and boundary data of setup_mms and the forms of setup_problem, the fields of setup_mms satisfy every equation of the system for all test functions: the integrals over the domains, over the interface and over the outer boundary add up to zero; the values prescribed by boundary conditions are those of the solution.", "quantifier": "all parameters (positive where the demo asserts it), all continuously differentiable test functions (zero where values are prescribed), all points of the interface", "why_tests_cant": "The demos print errors that are meant to converge; a wrong sign in the data of one side of the interface is seen as a wrong rate on some meshes only.", "anchors": ["demo/dq_darcy_stokes.py:29-169", "demo/layton_darcy_stokes.py:12-92", "demo/isect_mortar_2d.py:57-175", "demo/elasticity_2d.py:12-143", "demo/elasticity_mixed_2d.py:14-147"]}
{"id": "C109", "title": "The manufactured solutions of the demos with multipliers on curves solve their systems", "statement": "For emi_primal, emi_primal_mortar, twoDoneDoneD, bertoluzza_stokes, free_slip_stokes_iter (straight side and arc), isoP2_stokes, dirac_2d and sandbox/stokes the fields of setup_mms satisfy every equation of the system for all test functions, and the values prescribed by boundary conditions, of multipliers too, are those of the solution; the system of daq_3d1d has the terms of the equations in its header.", "quantifier": "all parameters, all continuously differentiable test functions (zero where values are prescribed), all points of the curves", "why_tests_cant": "Wrong values of a multiplier in two points or a dropped block change errors by little on each mesh; tests see a finite number of meshes and functions.", "anchors": ["demo/emi_primal.py:21-132", "demo/emi_primal_mortar.py:9-66", "demo/twoDoneDoneD.py:45-140", "demo/bertoluzza_stokes.py:21-186", "demo/free_slip_stokes_iter.py:27-206", "demo/free_slip_stokes_iter_cylinder.py:27-202", "demo/isoP2_stokes.py:18-92", "demo/dirac_2d.py:6-74", "sandbox/stokes.py:21-140", "demo/daq_3d1d.py:12-57"]}
{"id": "C110", "title": "Matrices made from rows of indices and values have the entries they are meant to have", "statement": "numpy_to_petsc, zero_matrix, diagonal_matrix, row_matrix and the matrix of the extension, which give PETSc or scipy the places where rows start, the column indices and the values, give consistent ones, and the matrix has the entries of the array, zeros, the diagonal, the given rows, or one 1 per row; block_mat_to_numpy and block_mat_to_petsc put every entry of every block at the sum of the sizes of the blocks before it and its own index; as_block picks the entries with the given rows and columns, and takes a collapsed matrix apart into its blocks; set_lg_map gives every matrix inside a block matrix the identity and changes nothing else.", "quantifier": "all sizes, all entries, all block shapes and block sizes (also empty blocks), all index lists", "why_tests_cant": "An index that is off by one in the start of rows moves entries to a neighbouring row, or is seen only if a row is empty or blocks differ in size; the function that is never called is never tested.", "anchors": ["xii/linalg/convert.py:230-291", "xii/linalg/convert.py:378-402", "xii/linalg/matrix_utils.py:46-56", "xii/linalg/matrix_utils.py:90-119", "xii/assembler/extension_matrix.py:94-99", "xii/linalg/bc_apply.py:190-198"]}
{"id": "C111", "title": "Boxes are tested for segments exactly", "statement": "The test of a segment against a box given in cut_surface_mesh.py (in Julia) says that they meet exactly if some point of the segment is in the box, whichever end is given first; bbox gives the smallest box with sides along the axes around the vertices; box_collides of line_collision.py says whether a segment meets a box.", "quantifier": "all segments and boxes of the same dimension, all lists of vertices", "why_tests_cant": "the cases of a segment parallel to a side, of touching and of a box met only inside are found only with the right positions; no test calls these functions", "anchors": ["xii/meshing/cut_surface_mesh.py:5-30", "xii/meshing/line_collision.py:4-40"]}
{"id": "C112", "title": "The heat equation is solved by implicit steps of Euler", "statement": "The demo of a time dependent problem makes steps of the implicit method of Euler at the times dt, 2 dt, ... with the boundary values and sources of these times, although the matrix is assembled and its boundary conditions are applied once only and the right hand side goes through the updater; it ends at the first time that is not less than 1 (with dt = 0.1 at 1); without sources and boundary values the norm of the solution does not grow.", "quantifier": "all matrices and vectors that fit together, all step sizes, all solvers that solve", "why_tests_cant": "a test can see one sequence of steps of one problem; that the updater of boundary conditions is right for all later times is not seen in a run", "anchors": ["demo/time_dep.py:5-62", "xii/linalg/bc_apply.py:apply_bc"]}
{"id": "C113", "title": "Newton iterations written out by hand do what they should", "statement": "The loops of the sandbox make at most maxiter steps of Newton from zero and stop before only if the last step is at most tol long; linear problems are solved in two passes; a start that is a solution is kept; the residual at the end is of the order of tol squared; near a regular solution the number of right digits doubles in every pass; what is returned is an approximate solution.", "quantifier": "all residuals, matrices and solvers that solve, all numbers of blocks and sizes, all tol and maxiter", "why_tests_cant": "convergence is seen in runs only for a few starts; the quadratic rate ends at rounding errors", "anchors": ["sandbox/babuska_hand_newton.py:47-92", "sandbox/mortar_lin_couple.py:65-89", "sandbox/mortar_nlin_couple.py:68-92"]}
{"id": "C114", "title": "Tests of the demos pass exactly if the demos pass", "statement": "run of test_demos.py is true exactly for demos whose verdict is passed; the verdicts are what is said of the rates between the last two meshes (and the fitted rates and the counts of iterations); errors C h^p pass exactly if p is as asked for; the demos with an arc pass when the module that makes the mesh is missing.", "quantifier": "all outputs, endings of processes, and sequences of errors and mesh sizes", "why_tests_cant": "the test runner is not tested, and a test that passes for a wrong reason looks like any other", "anchors": ["demo/test_demos.py:5-15", "demo/test_demos.py:92-93", "demo/poisson_babuska.py:116-127", "demo/bertoluzza_stokes.py:211-243", "demo/emi_primal.py:175-180", "demo/poisson_babuska_bc_iter.py:133-145", "demo/layton_darcy_stokes_iter.py:133-143"]}
{"id": "C115", "title": "Errors over subdomains add up to the error of the piecewise solution", "statement": "The norm of common.broken_norm is, for solutions given piece by piece on subdomains that split the cells, the norm of the difference to the piecewise solution; it is zero exactly if there is no error on the cells inside some subdomain; the subdomains of the demos split the meshes the demos make, and the pieces on them are those of the piecewise solution.", "quantifier": "all meshes, dictionaries of subdomains, solutions and norms that are square roots of sums over cells; for the subdomains of the demos all refinements i up to 49", "why_tests_cant": "a convergence test passes if cells are dropped or counted twice; it can not tell a norm over part of the domain from the norm", "anchors": ["demo/common.py:12-37", "demo/twoDoneDoneD.py:80-81", "demo/poisson_babuska_bc.py:85-88", "demo/sym_grad_babuska.py:21-24", "demo/emi_primal.py:57-62", "demo/dq_darcy_stokes.py:80-85"]}
{"id": "C116", "title": "Data of the sandbox problems belong to their manufactured solutions", "statement": "The manufactured solutions of the nonlinear problem with a multiplier, of the Stokes problems with bubbles (three assemblies of the same problem), of the grad-div problem and of the mixed Poisson problem satisfy the equations that are assembled, for every smooth test function, with the data, natural conditions and boundary values of the scripts; with bubbles, for every way to split the velocity; and no other constant multiplier does.", "quantifier": "all smooth test functions, all splittings of the velocity", "why_tests_cant": "a convergence test compares two things that may be wrong together, at a few mesh sizes", "anchors": ["sandbox/babuska_hand_newton.py:14-42", "sandbox/babuska_hand_newton.py:98-108", "sandbox/mini_hack.py:7-39", "sandbox/mini_hack.py:62-96", "sandbox/mini_hack.py:105-150", "sandbox/grad_div_hypre_2d.py:37-54", "sandbox/mixed_poisson_hypre_2d.py:112-139"]}
{"id": "C117", "title": "The control system has the minimiser as its only solution", "statement": "The system of the optimal control problem is solved exactly by the control and state that minimise the objective under the state equation (with some multiplier), there is one solution, and the matrices given to multigrid in both preconditioners are symmetric and positive definite; the objective is the one the file names. The same holds with the norm of H^{1/2} of the boundary.", "quantifier": "all finite element spaces given by their integrals, all data on the boundary, all eps > 0", "why_tests_cant": "a solver that converges shows that the system is solved, not that its solution minimises anything", "anchors": ["demo/optim_control_L2.py:1-6", "demo/optim_control_L2.py:12-46", "demo/optim_control_L2.py:49-110", "sandbox/optim_control_H0.5.py:35-70", "sandbox/optim_control_H0.5.py:97-103"]}
{"id": "C118", "title": "The coupled tissue and vessel problems are well posed and eliminate to each other", "statement": "The systems of tissue and vessel coupled by averages are symmetric; without multiplier the system is positive definite, its solution is the only one and has the least energy, for every radius; with multiplier there is one solution, in which the multiplier is the flux through the wall 2 pi r kG (u - average of u3); eliminating the multiplier gives the system without it; the matrices given to multigrid are symmetric and positive definite.", "quantifier": "all finite element spaces given by their integrals, all averaging matrices, all data, all positive constants and radii", "why_tests_cant": "the scripts are run by hand on a few meshes, and the two systems are never compared", "anchors": ["apps/enumath/has_multiplier.py:6-82", "apps/enumath/not_has_multiplier.py:6-59", "sandbox/daniele.py:37-125"]}
{"id": "C119", "title": "Problems coupled by multipliers have the constrained minimiser as their only solution", "statement": "The systems of demo/layer_2d.py (two domains coupled on their overlap) and of apps/d123/solving.py (domain, surface and curve) are solved by the functions that minimise the objective in the header of the file under its constraints, and only by these.", "quantifier": "all finite element spaces given by their integrals, all restriction and trace matrices, all data", "why_tests_cant": "the files only write the solutions to disk; a solver that returns does not show what the solution minimises or that it is unique", "anchors": ["demo/layer_2d.py:1-12", "demo/layer_2d.py:34-74", "apps/d123/solving.py:1-10", "apps/d123/solving.py:17-65"]}
{"id": "C120", "title": "The system of d'Angelo and Quarteroni is symmetric, positive and has one solution", "statement": "For the averages and traces of the tissue given, the coupled system of the script is symmetric, its energy is positive, and it has at most one solution.", "quantifier": "all finite element spaces given by their integrals, all averaging and trace matrices, all data; the constants of the script", "why_tests_cant": "the script solves one problem on one mesh; the average and the trace are different operators, so neither symmetry nor solvability follows from the form", "anchors": ["sandbox/daq_standalone.py:12-55", "demo/daq_3d1d.py:15-57"]}
{"id": "C121", "title": "The problem with a value at a point has the constrained minimiser as its only solution", "statement": "The system of the demo is solved by the function of least energy among those with the given value at the point, and by no other; the force is unique if functions with all values at the point exist; the volume of the mesh by which the integral of a number is too large changes only the force.", "quantifier": "all finite element spaces given by their integrals, all values of basis functions at the point, all data", "why_tests_cant": "the demo only prints iteration counts for one point and one domain of volume one", "anchors": ["demo/dirac_2d.py:6-34"]}
{"id": "C122", "title": "The manufactured solution on the unit cube solves the problem of the demo", "statement": "With u of the demo and the multiplier zero, the first equation integrates to zero over the cube and its sides for every smooth test function and the second holds at every point; every side has either the multiplier or the condition; the values prescribed are those of the solution and the multiplier is minus the normal derivative.", "quantifier": "all continuously differentiable test functions on the unit cube, all points", "why_tests_cant": "convergence rates on a few meshes are compared with a tolerance; a wrong sign in the data of a side with a small contribution goes unnoticed, and the demo says of itself that it is not in the asymptotic regime", "anchors": ["demo/poisson_babuska_3d.py:12-67", "demo/poisson_babuska_3d.py:102-106"]}
{"id": "C123", "title": "The preconditioners of the iterative demos fit their systems", "statement": "The blocks of the preconditioners are symmetric and positive, those for primal variables are the blocks of the system with conditions on the same sides, those for fluxes are above them by the divergence; the multiplier is constrained at the ends of its curve that meet conditions and only there; every realization of the norm that the parser offers is made.", "quantifier": "all functions (jets at a point), all positive parameters, all points of the multiplier's curve, all boundary setups and all choices of the command line", "why_tests_cant": "the demos are run with default arguments and count iterations against a bound; a constraint on too many points or a block of the wrong sign only changes counts", "anchors": ["demo/poisson_babuska_bc_iter.py:16-76", "demo/mixed_poisson_babuska_iter.py:16-56", "demo/twoDoneDoneD_iter.py:21-56", "demo/layton_darcy_stokes_iter.py:14-75"]}
{"id": "C124", "title": "A form with a reduced function follows the values of the function", "statement": "A linear form with a reduced Function, made once and assembled again after the vector of the Function was filled with other values, is the matrix of the bilinear form with the trial function in that place times the current values; the check of sandbox/lhs_reduced.py therefore never fails. A Function that is assigned to instead of filled leaves the form as it was.", "quantifier": "all forms that C26 covers and all reductions but flux averages, all sequences of values, all states of the other Functions and vectors, all orders of sets", "why_tests_cant": "the scripts fill one function of one space with three random vectors or five times; vectors shared by other functions or forms with coefficients of their own are not tried", "anchors": ["test/evolve_rhs.py:20-36", "sandbox/lhs_reduced.py:67-89", "xii/assembler/trace_form.py:91-99"]}
{"id": "C125", "title": "A function is glued on an interface from functions that know parts of it", "statement": "The interfaces of the scripts about incomplete traces are the sides of the square and the drawn star of three lines, each edge with the tag of its line; every edge belongs to the mesh of the piece whose trace is integrated there, so the system has the function that was cut into pieces as its only solution on the interface, whatever the traces give outside their pieces and whether or not the traces are restricted to their tags; the three domains cover every cell once.", "quantifier": "all numbers of squares (an even number for the domains), all tolerances that are small against the mesh size, all functions, all values of traces outside their pieces, all test functions", "why_tests_cant": "the scripts print the error of one linear function on one mesh; a wrong tag hidden by values that are found outside of a piece is not seen", "anchors": ["sandbox/incomple_trace.py:24-50", "sandbox/incomple_trace.py:60-100", "sandbox/incomple_trace_tagged.py:43-93"]}
{"id": "C126", "title": "The meshes that are loaded are those of the parameters", "statement": "load of the applications returns the mesh that gmsh makes of domain.geo with the given sizes: the name of the mesh file decides the command, sizes with one name agree to five digits, a file is made once and then reused, only the mesh file and files domain*.xml and domain*.msh are touched, and the intermediate files are gone after a success.", "quantifier": "all directories, all sizes (rational numbers), all sequences of calls of the two applications, all points at which gmsh, dolfin-convert and the child process can stop", "why_tests_cant": "needs gmsh and dolfin-convert, and programs that fail in the middle; tests never look at which mesh is in the file", "anchors": ["apps/d123/meshing.py:6-88", "apps/enumath/meshing.py:9-85"]}
{"id": "C127", "title": "The curve on the cube is the closed zigzag of domain.geo", "statement": "boring marks exactly the edges of the surface mesh that lie on the line of domain.geo, a closed curve of six sides that meet in the corners only: three edges of the face 1, one edge of the face 4 and the diagonals of the faces 2 and 3; union makes the disjunction of all strings of a nested list.", "quantifier": "all surface meshes whose cells lie in the faces of their tags, all sizes of the cube, all tolerances, all nested lists of conditions", "why_tests_cant": "only the midpoints of edges are looked at, so a mesh that is not fitted to the diagonals gives a wrong curve without an error; the application is not tested", "anchors": ["apps/d123/meshing.py:105-141", "apps/d123/domain.geo:6-28"]}
{"id": "C128", "title": "The averages the tests expect are those of the shapes", "statement": "The averages of the functions in test/test_reduction_quad.py over circles, squares, rims of squares and disks are the values the tests compare with: constants and functions along the line are preserved, and the square of the distance from the line is averaged to R^2, R^2/2, 4/3 and 2/3 of the square of the half side.", "quantifier": "all points of the lines of the tests, all tangents along it, all Gauss rules that integrate squares, and for the averages of squares of distances all normals, radii, corners and background meshes", "why_tests_cant": "the tests stop at the first failing assertion and use four meshes; whether the expected formula or the rule is wrong is not seen from a failure", "anchors": ["test/test_reduction_quad.py:20-241", "xii/assembler/average_matrix.py:196-241", "xii/assembler/disk_quadrature.py:3-119", "test/avg_test_square.py:54-75"]}
{"id": "C129", "title": "The harmonic extension moves all of the load and is symmetric", "statement": "With quadrature of positive weights harmonic_extension_operator returns the matrix of the projection of the trace of the solution of (grad u, grad v) + (u, v) = (f, Tv), both of which exist and are unique; the integral of the solution is that of f and the projection keeps the integral of the trace; the constant 1 is not extended as 1 unless the area is the length of the curve; extensions from the curve to the mesh and back are adjoint, and on the curve itself the extension is positive.", "quantifier": "all spaces with functions that are independent at the points, all positive weights, all traces, all functions f", "why_tests_cant": "one configuration is plotted in the file's main part; nothing is compared", "anchors": ["xii/assembler/extension_matrix.py:102-172", "xii/linalg/fe_space_op.py:22-53"]}
{"id": "C130", "title": "The system of Biot and Stokes is symmetric and dissipates", "statement": "The block matrix of sandbox/bc_apply.py is symmetric; tested with its own unknowns, pressures and multiplier with the sign turned, it leaves the energies, the friction along the interface and the storage of the pressure; friction never puts energy into the system; there is at most one solution if pressures and multiplier are seen by the velocities and displacements.", "quantifier": "all discretizations with mass and stiffness matrices that are positive, all parameters, all unit normals, all weights on the interface", "why_tests_cant": "the script only checks that boundary conditions can be applied to the matrix", "anchors": ["sandbox/bc_apply.py:8-108"]}
{"id": "C131", "title": "A matrix filled in a with block has the values that were set", "statement": "petsc_serial_matrix gives a matrix for two integers or two function spaces on one process and raises otherwise; when the block ends the matrix can be read and has the inserted values (the last one counts, order does not matter if they agree), the sums of added values, and zeros elsewhere; an exception of the block reaches the caller, who gets no matrix; the assertion on the number of processes is needed since assemblyBegin comes before the values; the calls of trace_mat_two_restrict give the matrix of averages and jumps.", "quantifier": "all sequences of calls of setValues and exceptions, all sizes, all numbers of processes and owners of rows, all meshes and dof maps", "why_tests_cant": "tests only fill matrices with one process and builds without debugging", "anchors": ["xii/linalg/matrix_utils.py:122-174", "xii/assembler/trace_matrix.py:451-510"]}
{"id": "C132", "title": "Pictures of averaging surfaces show the points of the averages", "statement": "render_avg_surface gives, for each cell of the curve and each dof of the space of averages in it, the points at which the average of that dof is taken; tube_render_avg_surface gives for each cell two rings, around its first and its last vertex, whose points lie over each other.", "quantifier": "all line meshes with cells of some length, all shapes of ShapeModel with all their parameters, all placements of dofs", "why_tests_cant": "The pictures are looked at and not compared with the matrices; a ring that is turned or mirrored looks like the right one.", "anchors": ["xii/assembler/average_shape.py:285-329", "xii/assembler/average_matrix.py:92-108", "xii/assembler/average_matrix.py:187-203"]}
{"id": "C133", "title": "The errors of the time dependent test are those at the time reached", "statement": "The source, the boundary values and the multiplier of test/test_dep.py belong to the solution sin(2t) sin(5(x^2+y^2)) of the heat equation; each implicit step uses the data of the new time; the errors are those of the solution and the multiplier at the time reached, in every call, although the expressions are shared; all runs end at the same time.", "quantifier": "all step sizes, times, test functions and states of the shared expressions; for the end in double precision the four step sizes of the file", "why_tests_cant": "The test prints tables of errors and asserts nothing; the multiplier of its solution is zero, so a stale time, a wrong factor or a wrong sign cannot be seen in the table.", "anchors": ["test/test_dep.py:8-83", "test/test_dep.py:87-118"]}
{"id": "C134", "title": "Stokes with a coarse pressure: what is printed is bounded by the stability of the pair", "statement": "The blocks of sandbox/injection_mat.py that are multiplied by the injection matrix are those of the forms with coarse pressures, the system and its preconditioner are symmetric, and the moduli of the eigenvalues of the preconditioned system, of which the smallest and the largest are printed, lie between (sqrt(1 + 4 beta^2) - 1)/2 and 2 for a pair of spaces that is stable with beta.", "quantifier": "all nested pressure spaces, velocity spaces, quadrature with nonnegative weights, sets of dofs with conditions and stability constants", "why_tests_cant": "The script prints numbers for five meshes; they look bounded also if they are those of the dofs with conditions.", "anchors": ["sandbox/injection_mat.py:63-184", "sandbox/injection_mat.py:211-219"]}
{"id": "C135", "title": "Newton's method through NLProblem and the solver of dolfin", "statement": "NewtonSolver applied to the problem of sandbox/babuska_snes.py makes Newton's steps on the coefficients of all functions until the residual passes the tolerance, and counts the assemblies.", "quantifier": "all residuals, all linear solvers (also ones that raise), all numbers and sizes of spaces, all tolerances and maximal numbers of iterations", "why_tests_cant": "the script is not run by any test; which calls of the methods raise depends on the state of the objects the solver keeps between them", "anchors": ["sandbox/babuska_snes.py:NLProblem"]}
{"id": "C136", "title": "Zero block forms are nested as the spaces", "statement": "zeros(V) is V with 0 in place of each space, and zeros(V, Q) has an entry for each pair of a space of V and a space of Q, as the matrix of a form of rank two.", "quantifier": "all nested lists of spaces, of any depth and length", "why_tests_cant": "the examples of the file are three lists; mixed and empty lists, which are truncated without an exception, are not among them", "anchors": ["sandbox/block_form.py:zeros"]}
{"id": "C137", "title": "The strip in which a function is extended harmonically", "statement": "The auxiliary mesh of sandbox/harm_ext.py consists of the cells that meet the curve x = 1/2, the function is extended to the facets on the two sides of this strip, and the facets of the auxiliary mesh are marked 2 on the sides, 1 on the ends and 0 inside.", "quantifier": "all odd numbers of columns, all numbers of rows, all positive tolerances up to the width of a column", "why_tests_cant": "the script has one mesh and is not run by any test; marks are made by tests of vertices and midpoints with a tolerance", "anchors": ["sandbox/harm_ext.py:mesh"]}
{"id": "C138", "title": "The mesh and the mesh functions of an HDF5 file", "statement": "load_mesh returns the mesh of the file and for each data set asked for, in order, None if it is not in the file and otherwise a mesh function of the dimension asked for with the values of the file on all entities; it raises exactly if the mesh is missing or a data set is of another kind or dimension.", "quantifier": "all files, all lists of data sets, all meshes", "why_tests_cant": "no test reads a file; missing data sets and wrong dimensions need files made for the purpose", "anchors": ["xii/meshing/tikz.py:load_mesh"]}
{"id": "C139", "title": "The inner square, its complement and the interface between them", "statement": "setup_domain makes the inner mesh of the cells in [1/4, 3/4]^2, the outer mesh of the other cells, the interface of the facets on the boundary of [1/4, 3/4]^2, and marks in the outer mesh the facets on the boundary of the unit square.", "quantifier": "all n (divisible by four for the inner square), all facets of the mesh, all positive tolerances up to 1/(4 n)", "why_tests_cant": "the demo runs for a few powers of two and never looks at the marks; cells are marked by midpoints and facets by vertices and midpoints", "anchors": ["demo/isect_mortar_2d.py:setup_domain", "test/discacciati.py:setup_domain", "sandbox/mortar_lin_couple.py:mortar_lin_couple"]}
{"id": "C140", "title": "The geometry of the divided square", "statement": "get_geometry tags each cell with 1 or 2 by its side of the line x = 1/2 and each facet by the part of the boundary or of the line that it lies on, 0 inside; no facet lies on two parts, so the order of the marking does not matter.", "quantifier": "all levels i, all cells and facets of the mesh, all positive tolerances up to the width of a cell", "why_tests_cant": "the demo runs for a few levels and compares errors only; marks are overwritten in the order of a dictionary", "anchors": ["demo/twoDoneDoneD.py:get_geometry"]}
{"id": "C141", "title": "The grid of lines in the cube", "statement": "create_mesh of sandbox/daniele.py takes as the curve exactly the edges on the nine vertical lines and the ten lines that connect them, its boundary vertex (0, 0, -1) is an end of the curve, and the assertion on N lets through only N for which every line has edges.", "quantifier": "all N > 0, all positive tolerances up to 1/N, all edges of the box mesh, all points of the lines", "why_tests_cant": "the script runs for powers of two only and checks eigenvalues, not the curve", "anchors": ["sandbox/daniele.py:create_mesh"]}
{"id": "C142", "title": "The marks in the test of translate_markers", "statement": "In test_translate_markers_2d each facet has the tag of the side of the unit square or of the inner square it lies on, no facet two; the embedded mesh has the cells of the inner square, the values of its facets are exactly 0 to 4, and the facets with a tag from 1 to 4 are the same in both meshes. This needs n divisible by four; for other n the assertion fails.", "quantifier": "all n, all positive tolerances up to 1/n (1/(4n) for n not divisible by four), all facets and cells of the mesh", "why_tests_cant": "the test runs for n = 32 only", "anchors": ["test/test_translate_markers.py:test_translate_markers_2d"]}
{"id": "C143", "title": "Arguments and eigenvalues of the solver of sandbox/daniele.py", "statement": "krylov_solve sets the options that are given as pairs of key and value, the last value of a key being in force and a single argument at the end ignored; it returns the ratio of the largest and the smallest modulus of the eigenvalues, and it returns only if all eigenvalues are positive.", "quantifier": "all lists of arguments, all lists of eigenvalues, block and monolithic operators", "why_tests_cant": "the script is run by hand; for symmetric positive definite systems the check is never challenged", "anchors": ["sandbox/daniele.py:krylov_solve"]}
