{"id": "C01", "title": "Slice selections mean what Python slices mean", "statement": "Selecting elements of a table with any slice start:stop:step (each part possibly absent or negative, step non-zero) keeps exactly the elements, in the order, that Python's own slicing of a sequence of that length would keep; a zero step is rejected.", "quantifier": "every table length n >= 0 and every slice with arbitrary integer or missing start, stop and step", "why_tests_cant": "The slice parts and the length are four unbounded integers with about a dozen sign/clamp regimes; a test suite samples a few of them.", "anchors": ["src/pysimulators/packedtables/core.py:PackedTable._normalize_slice", "src/pysimulators/packedtables/core.py:PackedTable.index", "src/pysimulators/packedtables/core.py:PackedTable.__len__"]}
{"id": "C02", "title": "Compressing an integer selection never changes it", "statement": "Whatever compact internal form (whole table, arithmetic progression, explicit list) is chosen for a list of valid positions, the table's index and length are exactly that list and its length.", "quantifier": "every table size and every list of in-range positions (any order, with or without repetitions)", "why_tests_cant": "The compact form is chosen from the data; regressions hide in rare shapes (two elements, equal elements, descending runs, progressions of full length).", "anchors": ["src/pysimulators/packedtables/core.py:PackedTable._normalize_int_selection", "src/pysimulators/packedtables/core.py:PackedTable.index", "src/pysimulators/packedtables/core.py:PackedTable.__len__"]}
{"id": "C03", "title": "A new table contains exactly the selected elements in row-major order", "statement": "After construction without ordering, the table's index is the increasing list of row-major positions of the selected elements: all of them when there is no selection, the True positions for a boolean selection, the given list for an integer selection, and the NumPy meaning for slices or tuples of slices and integers on the leading dimensions.", "quantifier": "every table shape, every number of splittable dimensions and every selection of each kind", "why_tests_cant": "Shapes, selections and selection kinds are unbounded and the code takes different shortcuts for each combination.", "anchors": ["src/pysimulators/packedtables/core.py:PackedTable.__init__", "src/pysimulators/packedtables/core.py:PackedTable._get_index", "src/pysimulators/packedtables/core.py:PackedTable._normalize_selection", "src/pysimulators/packedtables/core.py:PackedTable._selection2bool"]}
{"id": "C04", "title": "An ordering sorts the selected elements stably and drops negatives", "statement": "With an ordering array, the table's index contains each position whose ordering value is non-negative and which is selected exactly once, sorted by increasing ordering value, equal values being kept in row-major order.", "quantifier": "every table shape, every integer ordering array (with ties and negatives) and every boolean selection", "why_tests_cant": "It is a statement about all integer arrays, including ties; it needs sortedness, permutation and stability at once.", "anchors": ["src/pysimulators/packedtables/core.py:PackedTable._get_index"]}
{"id": "C05", "title": "Packing reads exactly the selected elements", "statement": "Packing an array whose leading dimensions match the table yields an array of length len(table) whose k-th entry is the input's entry at the k-th index, with trailing dimensions untouched; an array whose leading dimensions do not match is rejected; the result does not depend on the copy flag nor on giving an output array.", "quantifier": "every table reachable by construction and sub-selection, every array and trailing shape", "why_tests_cant": "All combinations of index form (whole, ascending or descending progression, list) times copy/out modes times shapes cannot be enumerated.", "anchors": ["src/pysimulators/packedtables/core.py:PackedTable.pack", "src/pysimulators/packedtables/core.py:PackedTable._indexable"]}
{"id": "C06", "title": "Unpacking writes the selected elements and the missing value elsewhere", "statement": "Unpacking a packed array yields an array of the table's shape whose entry at the k-th index is the k-th packed entry and whose every other entry is the missing value; a one-element packed array is broadcast to all selected elements; any other length is rejected.", "quantifier": "every reachable table, every packed array and missing value", "why_tests_cant": "The statement is about all positions of arrays of any size including the positions that must not be written.", "anchors": ["src/pysimulators/packedtables/core.py:PackedTable.unpack", "src/pysimulators/packedtables/core.py:PackedTable._indexable", "src/pysimulators/packedtables/core.py:PackedTable._get_default_missing_value"]}
{"id": "C07", "title": "Pack and unpack are mutually inverse", "statement": "pack(unpack(y)) = y for every packed array y, and unpack(pack(x)) equals x on the selected elements and the missing value on the others.", "quantifier": "every reachable table with distinct indices, every x and y", "why_tests_cant": "A round-trip over all index forms, including progressions with negative step, is an infinite family.", "anchors": ["src/pysimulators/packedtables/core.py:PackedTable.pack", "src/pysimulators/packedtables/core.py:PackedTable.unpack"]}
{"id": "C08", "title": "The removed mask is the exact complement of the index", "statement": "table.all.removed is True exactly at the positions that are not in table.index.", "quantifier": "every reachable table", "why_tests_cant": "Both inclusions must hold at every position of every table.", "anchors": ["src/pysimulators/packedtables/core.py:UnpackedTable.removed", "src/pysimulators/packedtables/core.py:PackedTable.unpack"]}
{"id": "C09", "title": "Sub-selection composes", "statement": "The index of table[s] is table.index[s] (Python/NumPy meaning of s) and len(table[s]) is its length, so any chain of sub-selections gives the composed index.", "quantifier": "every reachable table and every finite chain of slices, boolean masks and integer lists", "why_tests_cant": "Chains are unbounded and the composition of progressions uses separate arithmetic from the list case.", "anchors": ["src/pysimulators/packedtables/core.py:PackedTable.__getitem__"]}
{"id": "C10", "title": "Per-element attributes stay aligned with the index", "statement": "After any history of constructions, sub-selections, splits and attribute assignments, every per-element attribute has exactly len(table) entries and entry k still describes the element whose position is index[k].", "quantifier": "every finite history of operations on a table", "why_tests_cant": "It is an invariant over unbounded operation histories.", "anchors": ["src/pysimulators/packedtables/core.py:PackedTable.__getitem__", "src/pysimulators/packedtables/core.py:PackedTable.__setattr__", "src/pysimulators/packedtables/core.py:PackedTable.__init__", "src/pysimulators/packedtables/core.py:UnpackedTable.__setattr__"]}
{"id": "C11", "title": "Splitting partitions the table", "statement": "split(n) returns n tables whose indices concatenated in order give the table's index, and whose lengths differ by at most one.", "quantifier": "every reachable table and every n >= 1", "why_tests_cant": "Sizes and group counts are unbounded.", "anchors": ["src/pysimulators/packedtables/core.py:PackedTable.split"]}
{"id": "C12", "title": "Scatter then gather is the identity on any number of processes", "statement": "Scattering a table over a communicator and gathering it back gives, on every rank, the original index and the original per-element attributes; each element is held by exactly one rank meanwhile.", "quantifier": "every reachable table, every number of ranks >= 1 (more ranks than elements included)", "why_tests_cant": "MPI tests run on a handful of rank counts and table sizes.", "anchors": ["src/pysimulators/packedtables/core.py:PackedTable.scatter", "src/pysimulators/packedtables/core.py:PackedTable.gather"]}
{"id": "C13", "title": "Distributed unpack equals serial unpack", "statement": "Unpacking local packed pieces on a scattered table gives on every rank the array that unpacking the whole packed array on the unscattered table gives, whatever the order in which the pieces are written.", "quantifier": "every reachable table, number of ranks, packed array and order of arrival of the pieces", "why_tests_cant": "Depends on every interleaving of pieces and on rank counts.", "anchors": ["src/pysimulators/packedtables/core.py:PackedTable.unpack", "src/pysimulators/packedtables/core.py:PackedTable.scatter"]}
{"id": "C14", "title": "Assigning on a sub-table does not change the table it came from", "statement": "Assigning a per-element attribute on a table obtained by sub-selection leaves the attributes of the original table unchanged.", "quantifier": "every history of sub-selections and assignments", "why_tests_cant": "Aliasing depends on the kind of every selection in the history.", "anchors": ["src/pysimulators/packedtables/core.py:PackedTable.__setattr__", "src/pysimulators/packedtables/core.py:PackedTable.__getitem__"]}
{"id": "C15", "title": "Grid rows and columns identify an element", "statement": "For a grid layout or scene, (row, column) of distinct elements differ, row*ncolumns+column recovers the index, and both lie in the grid (shifted by one when numbering starts at one).", "quantifier": "every grid shape, selection and ordering", "why_tests_cant": "A bijection over all grids and indices.", "anchors": ["src/pysimulators/packedtables/layouts.py:LayoutGrid", "src/pysimulators/packedtables/scenes.py:SceneGrid"]}
{"id": "C16", "title": "Sparse products equal the dense matrix product, for any thread schedule", "statement": "For every fixed-sparse format (scalar, block, 2-d and 3-d rotation, by row or by column), the product with a vector adds to the output the product by the dense matrix obtained by summing the stored blocks (negative indices ignored), and the result does not depend on the order in which loop iterations are executed.", "quantifier": "every matrix size, stored content, input vector, initial output and iteration order", "why_tests_cant": "Schedules, duplicated indices and sizes are unbounded; a race or a missed duplicate shows up only for some of them.", "anchors": ["src/pysimulators/sparse.py:FSCMatrix._matvec", "src/pysimulators/sparse.py:FSRMatrix._matvec", "src/pysimulators/sparse.py:FSCBlockMatrix._matvec", "src/pysimulators/sparse.py:FSRBlockMatrix._matvec", "src/pysimulators/sparse.py:FSCRotation2dMatrix._matvec", "src/pysimulators/sparse.py:FSRRotation2dMatrix._matvec", "src/pysimulators/sparse.py:FSCRotation3dMatrix._matvec", "src/pysimulators/sparse.py:FSRRotation3dMatrix._matvec", "src/flib/sparse.f90.j2", "src/flib/module_operators.f90.j2"]}
{"id": "C17", "title": "The transpose of a sparse operator is its adjoint", "statement": "For every fixed-sparse format, <A x, y> = <x, A.T y> where A.T shares the stored data, and transposing twice gives back the operator.", "quantifier": "every matrix, x and y (and every number of broadcast columns for the scalar formats)", "why_tests_cant": "An algebraic identity over all contents.", "anchors": ["src/pysimulators/sparse.py:SparseOperator._rule_transpose", "src/pysimulators/sparse.py:FSCMatrix._transpose", "src/pysimulators/sparse.py:FSRMatrix._transpose"]}
{"id": "C18", "title": "Applying a sparse operator assigns or accumulates exactly", "statement": "With the assignment operation the previous content of the output is irrelevant; with in-place addition the result is the previous content plus the product; any other reduction is rejected without touching the output.", "quantifier": "every operator, input and initial output", "why_tests_cant": "The independence from stale contents quantifies over all stale contents.", "anchors": ["src/pysimulators/sparse.py:SparseOperator.direct", "src/pysimulators/sparse.py:_FSMatrix._matvec"]}
{"id": "C19", "title": "Restricting a sparse operator is masking its input", "statement": "Applying the operator restricted to a mask to a packed vector equals applying the original operator to the vector with zeros at the masked-out positions; the new indices are in range of the reduced dimension.", "quantifier": "every matrix, mask and vector", "why_tests_cant": "All masks and contents.", "anchors": ["src/pysimulators/sparse.py:SparseOperator.restrict", "src/flib/sparse.f90.j2:fsr_restrict"]}
{"id": "C20", "title": "Corestricting a sparse operator is packing its output", "statement": "Applying the operator corestricted to a mask equals packing the output of the original operator with that mask, for each row format that accepts it.", "quantifier": "every row-sparse matrix (scalar, 2-d and 3-d rotation), mask and vector", "why_tests_cant": "All masks and contents.", "anchors": ["src/pysimulators/sparse.py:SparseOperator.corestrict"]}
{"id": "C21", "title": "The one-entry-per-row shortcut for P.T*P is exact", "statement": "When a projection has one stored entry per row, the diagonal operator substituted for P.T*P acts exactly like applying P then P.T, for the scalar, 2-d and 3-d rotation formats.", "quantifier": "every such matrix whose blocks are scaled rotations, every input vector, every number of broadcast columns", "why_tests_cant": "An algebraic identity over all contents and duplicates.", "anchors": ["src/pysimulators/sparse.py:SparseOperator._rule_pTp", "src/flib/sparse.f90.j2"]}
{"id": "C22", "title": "Shape validation accepts exactly the compatible arrays", "statement": "A sparse matrix can be built from stored data exactly when sizes, block shape and stored shape agree, allocated data passes the same check as given data, and products accept exactly the inputs whose size is compatible.", "quantifier": "every shape, block shape and size", "why_tests_cant": "Integer arithmetic over all shapes.", "anchors": ["src/pysimulators/sparse.py:_FSMatrix.__init__", "src/pysimulators/sparse.py:_FSMatrix._validatein", "src/pysimulators/sparse.py:_FSMatrix._validateout", "src/pysimulators/sparse.py:_FSMatrix._reshapein"]}
{"id": "C23", "title": "A projection's hit map is the transpose applied to ones", "statement": "pT1 equals applying the transpose to a vector of ones, for each storage, and it is accumulated for any iteration order.", "quantifier": "every projection content", "why_tests_cant": "All contents and schedules.", "anchors": ["src/pysimulators/operators.py:ProjectionOperator.pT1", "src/flib/sparse.f90.j2"]}
{"id": "C24", "title": "Unseen pixels are exactly the kernel mask", "statement": "The kernel mask of a projection with non-negative weights marks exactly the pixels with no contribution, and restricting the projection to the complement loses nothing: the restricted operator applied to the packed map equals the operator applied to any map agreeing with it on seen pixels.", "quantifier": "every projection content and map", "why_tests_cant": "All contents.", "anchors": ["src/pysimulators/operators.py:ProjectionOperator.canonical_basis_in_kernel", "src/pysimulators/operators.py:ProjectionOperator (restrict inherited from SparseOperator)", "src/flib/sparse.f90.j2:fsr_kernel"]}
{"id": "C25", "title": "On-the-fly projections never serve another block's matrix", "statement": "Whatever the order in which blocks are applied, transposed and interleaved, each on-the-fly block operator uses the matrix computed for that block, also after a block's computation failed.", "quantifier": "every sequence of block accesses, with or without failures", "why_tests_cant": "A cache-coherence invariant over unbounded access histories and failure points.", "anchors": ["src/pysimulators/operators.py:ProjectionOnFlyOperator.matrix"]}
{"id": "C26", "title": "Exponential filtering has an exact transpose", "statement": "The truncated exponential convolution and its transpose satisfy <A x, y> = <x, A.T y> for every time constant, whether computed in place or not; in-place and out-of-place results agree.", "quantifier": "every number of samples, time constant per detector and signals", "why_tests_cant": "An identity over signals of all lengths.", "anchors": ["src/pysimulators/operators.py:ConvolutionTruncatedExponentialOperator", "src/flib/module_operators.f90.j2:trexp"]}
{"id": "C27", "title": "Unit arithmetic forms an abelian group compatible with powers", "statement": "Multiplying, dividing and raising units to powers obeys the group laws, cancelled units disappear, and multiplication followed by division by the same unit gives back the unit.", "quantifier": "every unit (any set of base names with any non-zero exponents) and every power", "why_tests_cant": "An algebraic law over all units.", "anchors": ["src/pysimulators/quantities.py:_multiply_unit_inplace", "src/pysimulators/quantities.py:_multiply_unit", "src/pysimulators/quantities.py:_divide_unit", "src/pysimulators/quantities.py:_power_unit"]}
{"id": "C28", "title": "Printed units parse back to the same unit", "statement": "Parsing the printed form of a unit gives the same unit, and every parse failure is reported as an error rather than a wrong unit.", "quantifier": "every unit with integer exponents and every string", "why_tests_cant": "A round-trip over all units and all strings.", "anchors": ["src/pysimulators/quantities.py:_strunit", "src/pysimulators/quantities.py:_extract_unit"]}
{"id": "C29", "title": "Unit conversion preserves the physical quantity", "statement": "Converting a quantity between compatible units and back restores the value; converting through an intermediate unit gives the same value as converting directly; incompatible units are refused.", "quantifier": "every pair or triple of units over any table of derived units, and every value", "why_tests_cant": "Over all unit tables and values.", "anchors": ["src/pysimulators/quantities.py:Quantity.inunit", "src/pysimulators/quantities.py:Quantity.tounit", "src/pysimulators/quantities.py:Quantity.SI"]}
{"id": "C30", "title": "Detectors/observations are distributed once each over processes", "statement": "Distributing a simulated or real observation over processes gives each (detector, observation) pair to exactly one process and leaves no process with a malformed share, for any number of processes.", "quantifier": "every number of processes, detectors and observations", "why_tests_cant": "Process counts and factorisations are unbounded.", "anchors": ["src/pysimulators/mpiutils.py:distribute_observation", "src/pysimulators/acquisitions.py:Acquisition.__init__"]}
{"id": "C31", "title": "Scattering a FITS header tiles the map exactly", "statement": "The local headers describe consecutive row ranges covering each row of the global image once, with consistent reference pixels, and gathering them restores the global header.", "quantifier": "every image height, reference pixel and number of ranks", "why_tests_cant": "Heights and rank counts are unbounded.", "anchors": ["src/pysimulators/mpiutils.py:scatter_fitsheader", "src/pysimulators/mpiutils.py:gather_fitsheader", "src/pysimulators/mpiutils.py:gather_fitsheader_if_needed"]}
{"id": "C32", "title": "Parallel FITS output is block aligned", "statement": "The data unit written in parallel is padded to a multiple of the FITS block size with the minimal number of padding bytes, and the ranks' byte ranges tile the data unit.", "quantifier": "every data size, image shape and number of ranks", "why_tests_cant": "Sizes are unbounded; the aligned case is rare in tests.", "anchors": ["src/pysimulators/mpiutils.py:write_fits", "src/pysimulators/mpiutils.py:read_fits"]}
{"id": "C33", "title": "Pixelisation conserves flux", "statement": "Summing over all unit cells of a region containing a polygon the areas of intersection with the polygon gives the polygon's area; each cell's value lies between 0 and the cell's area for a convex polygon.", "quantifier": "every polygon and every region containing it", "why_tests_cant": "Real-valued geometry over all polygons.", "anchors": ["src/flib/module_geometry.f90.j2:intersection_polygon_unity_square", "src/flib/projection.f90.j2:matrix_polygon_integration", "src/flib/geometry.f90:surface_simple_polygon"]}
{"id": "C34", "title": "Projection matrix rows list the intersected pixels, or report the needed width", "statement": "The integration matrix row of a detector holds every pixel of its region of interest with non-zero intersection, in order, when the row is wide enough; otherwise the reported minimum width is the true requirement and a second pass with that width holds them all.", "quantifier": "every polygon list, map shape and row width", "why_tests_cant": "All polygons and widths.", "anchors": ["src/flib/projection.f90.j2:matrix_polygon_integration", "src/pysimulators/packedtables/scenes.py:SceneGrid.get_integration_operator"]}
{"id": "C35", "title": "Polygon areas are invariant under rotation, translation and starting vertex", "statement": "The shoelace area is invariant under translation, rotation and choice of first vertex, changes sign when the orientation is reversed, and scales quadratically.", "quantifier": "every polygon", "why_tests_cant": "Algebra over all polygons.", "anchors": ["src/flib/geometry.f90:surface_simple_polygon", "src/pysimulators/geometry.py:surface_simple_polygon", "src/pysimulators/geometry.py:rotate"]}
{"id": "C36", "title": "Packing a pointing matrix does not change its action", "statement": "Packing (dropping zero-weight or masked pixels and renumbering) a pointing matrix and applying it to the packed map gives the same timeline as the original matrix applied to the map with masked pixels zeroed; the pixel mask marks exactly the pixels with no contribution.", "quantifier": "every valid pointing matrix, mask and map", "why_tests_cant": "All matrices and masks.", "anchors": ["src/flib/module_pointingmatrix.f90:pmatrix_pack", "src/flib/module_pointingmatrix.f90:pmatrix_mask", "src/flib/module_pointingmatrix.f90:pmatrix_direct"]}
{"id": "C37", "title": "Pointing-matrix direct and transpose are adjoint", "statement": "<P x, y> = <x, P.T y> for the legacy pointing matrix, in its general and one-pixel forms, and ptp is P.T applied after P.", "quantifier": "every valid pointing matrix, map and timeline", "why_tests_cant": "All matrices.", "anchors": ["src/flib/module_pointingmatrix.f90:pmatrix_direct", "src/flib/module_pointingmatrix.f90:pmatrix_transpose", "src/flib/module_pointingmatrix.f90:pmatrix_ptp"]}
{"id": "C38", "title": "Folding and unfolding a noise spectrum are inverse", "statement": "Folding an unfolded one-sided power spectrum gives back the spectrum, and unfolding conserves total power.", "quantifier": "every even transform length and spectrum", "why_tests_cant": "All lengths, including the shortest, and all values.", "anchors": ["src/pysimulators/noises.py:_fold_psd", "src/pysimulators/noises.py:_unfold_psd"]}
{"id": "C39", "title": "Selecting in an acquisition gives the operator of the selection", "statement": "The operator of acquisition[i, j] is the operator of the acquisition built from the selected instrument and sampling, whatever was computed before on the original.", "quantifier": "every history of operator computations and selections", "why_tests_cant": "A cache-staleness property over histories.", "anchors": ["src/pysimulators/acquisitions.py:Acquisition.__getitem__", "src/pysimulators/acquisitions.py:Acquisition.get_operator"]}
{"id": "C40", "title": "Rolling is orthogonal and composes", "statement": "Rolling by n then by m is rolling by n+m, the transpose of a roll is the roll by the opposite shift and its inverse, and no element is lost, for any axis tuple.", "quantifier": "every shape, axis and shift", "why_tests_cant": "All shifts modulo all sizes.", "anchors": ["src/pysimulators/operators.py:RollOperator"]}
{"id": "C41", "title": "Selecting the median, unique values and histogram are exact", "statement": "The median routine returns the element of middle rank, unique-value extraction lists each value once in order, and the histogram counts sum to the number of in-range samples.", "quantifier": "every array", "why_tests_cant": "Over all arrays.", "anchors": ["src/flib/module_math_old.f90:median", "src/flib/module_sort.f90:uniq", "src/flib/module_sort.f90:histogram"]}
{"id": "C42", "title": "Radial profiles conserve counts and flux", "statement": "The counts of a radial profile sum to the number of valid pixels within range and, bin by bin, mean times count sums to the map's total over those pixels, for any iteration order.", "quantifier": "every map, centre, bin width and number of bins", "why_tests_cant": "All maps and schedules.", "anchors": ["src/flib/datautils.f90.j2:profile_axisymmetric_2d", "src/pysimulators/datautils.py:profile"]}
{"id": "C43", "title": "Celestial rotations are orthogonal and invertible", "statement": "The equatorial to horizontal change of frame preserves angles and its inverse operator undoes it; sidereal times stay in one day.", "quantifier": "every date, latitude and longitude", "why_tests_cant": "Real-valued identities.", "anchors": ["src/pysimulators/operators.py:CartesianEquatorial2HorizontalOperator", "src/pysimulators/operators.py:_CartesianEquatorialHorizontal"]}
{"id": "C44", "title": "Text case conversion and splitting are total and consistent", "statement": "Lower-casing then upper-casing agree on all letters, and splitting a string then joining with the delimiter gives back the string.", "quantifier": "every string", "why_tests_cant": "All strings; a single missed letter is easily untested.", "anchors": ["src/flib/module_string.f90:strlowcase", "src/flib/module_string.f90:strupcase", "src/flib/module_string.f90:strsplit"]}
{"id": "C45", "title": "Sigma clipping terminates and honours its iteration limit", "statement": "Iterated outlier rejection stops after at most the requested number of iterations, only ever rejects more samples, and always terminates.", "quantifier": "every sample array, threshold and iteration limit", "why_tests_cant": "Termination for all inputs.", "anchors": ["src/flib/module_math_old.f90:sigma_clipping"]}
{"id": "C46", "title": "Template expansion yields one routine per declared variant", "statement": "Expanding a kernel template with k parallel lists of n values yields exactly n variants, the i-th using the i-th value of every list; lists of unequal length are rejected.", "quantifier": "every declared variable header", "why_tests_cant": "All headers.", "anchors": ["tools/generate_fortran.py:parse_template_variables", "tools/generate_fortran.py:generate_combinations"]}
{"id": "C47", "title": "The shape a sparse operator announces has the size of its product", "statement": "For an input of the operator's shape followed by any broadcast dimensions, the announced output shape has exactly as many elements as the product returns.", "quantifier": "every matrix, declared input and output shapes, broadcast dimensions", "why_tests_cant": "All factorisations of the shapes.", "anchors": ["src/pysimulators/sparse.py:SparseOperator.__init__", "src/pysimulators/sparse.py:SparseOperator.reshapein"]}
{"id": "C48", "title": "Every compiled kernel the sparse product asks for is generated, once", "statement": "For every index type, matrix type and vector type, the name of the compiled routine that the sparse product looks up is the name of exactly one routine generated from the template; other types fall back to the interpreted product.", "quantifier": "every combination of numpy index, matrix and vector types", "why_tests_cant": "The names are built at run time from type sizes and the routines at build time from a header; no test covers the product of both tables.", "anchors": ["tools/generate_fortran.py:main", "src/pysimulators/sparse.py:_FSMatrix._matvec", "src/flib/sparse.f90.j2:fsr_matvec"]}
{"id": "C49", "title": "The blocks of an acquisition tile its samplings and respect the memory limit", "statement": "The blocks made by the constructor are consecutive, cover the samplings, are not empty, and the operator of a block needs no more than the requested number of bytes.", "quantifier": "every number of samplings, memory per sampling and limit", "why_tests_cant": "Block boundaries depend on the arithmetic of three unbounded sizes.", "anchors": ["src/pysimulators/acquisitions.py:Acquisition.__init__"]}
{"id": "C50", "title": "Spectra are interpolated linearly between their nodes", "statement": "The interpolation of a tabulated function at increasing abscissae is, at each of them, on the line through the two neighbouring nodes, or of the first or last segment outside of the table; nodes are reached exactly.", "quantifier": "every table of at least two nodes and every increasing list of abscissae", "why_tests_cant": "The running index is a loop state; errors show only for particular relative positions of nodes and abscissae.", "anchors": ["src/pysimulators/noises.py:_interp"]}
{"id": "C51", "title": "Sorting through an index ends, fits its stack and sorts", "statement": "The index sort returns a permutation of the positions through which the array is read in order, NaN and masked elements last; its fixed stack of 1000 pending ranges never overflows.", "quantifier": "every array, mask and total preorder", "why_tests_cant": "All arrays; an overflow of the stack needs adversarial inputs.", "anchors": ["src/flib/module_sort.f90:QSORTGI", "src/flib/module_sort.f90:QSORTID", "src/flib/module_sort.f90:compare_mask_double"]}
{"id": "C52", "title": "Compensated sums are rounded once", "statement": "The compensated sums (masked or not), norms and scalar product return the exact sum of their terms rounded as if by a single addition, whatever the rounding of the running additions.", "quantifier": "every array, mask, ring of numbers and rounding of the running addition", "why_tests_cant": "All roundings and all lengths.", "anchors": ["src/flib/module_math_old.f90:sum_kahan_1d", "src/flib/module_math_old.f90:norm_huber", "src/flib/module_math_old.f90:dot"]}
{"id": "C53", "title": "Fast shift moves blocks of columns by their offset", "statement": "shift_fast shifts each block of consecutive columns by its own offset, filling with zeros, with separate arrays or in place.", "quantifier": "every array, number of offsets and offsets of any sign and size", "why_tests_cant": "All shapes and offsets.", "anchors": ["src/flib/module_math_old.f90:shift_fast"]}
{"id": "C54", "title": "Moments are those of the samples that are not masked", "statement": "Mean, mean deviation, variance, standard deviation, skewness and kurtosis are their textbook definitions over the samples that are not masked, and NaN where undefined.", "quantifier": "every array with NaN and every mask", "why_tests_cant": "All arrays and masks.", "anchors": ["src/flib/module_math_old.f90:moment"]}
{"id": "C55", "title": "Directed roundings of halves", "statement": "nint_down and nint_up round to the nearest integer, halves downwards and upwards respectively.", "quantifier": "every rational number of either sign", "why_tests_cant": "All numbers, both signs.", "anchors": ["src/flib/module_math_old.f90:nint_down", "src/flib/module_math_old.f90:nint_up"]}
{"id": "C56", "title": "Back projection and coverage skip masked samples", "statement": "The back projection adds to each pixel the sum of weight times sample, and the coverage the sum of weights, over the samples that are not masked, in any order of the additions; the mask handed to the Python method is the one used.", "quantifier": "every valid pointing matrix, timeline, mask and order", "why_tests_cant": "All matrices and masks.", "anchors": ["src/flib/module_pointingmatrix.f90:backprojection_weight", "src/pysimulators/operators.py:ProjectionBaseOperator.get_pTx_pT1"]}
{"id": "C57", "title": "Intersection tests find the samples that see a pixel", "statement": "intersects tells, overall, by detector or by sample, whether a stored element refers to the pixel of the given FITS coordinates, and to no other.", "quantifier": "every pointing matrix, map shape and coordinates", "why_tests_cant": "All matrices and coordinates.", "anchors": ["src/pysimulators/operators.py:ProjectionBaseOperator.intersects", "src/flib/pointingmatrix_old.f90:intersects"]}
{"id": "C58", "title": "Pointing matrices computed from positions and regions", "statement": "A matrix computed from detector positions refers to the nearest pixel of each position, one computed from regions of interest lists the intersected pixels in order with their areas and reports the width it needs; the flag tells whether something falls outside of the map.", "quantifier": "every list of positions or regions and map shape", "why_tests_cant": "All regions and widths.", "anchors": ["src/flib/module_pointingmatrix.f90:xy2pmatrix", "src/flib/module_pointingmatrix.f90:roi2pmatrix_cartesian"]}
{"id": "C59", "title": "A point is located with respect to a polygon", "statement": "point_in_polygon returns 0 exactly for the points of an edge of any polygon; for a strictly convex polygon it returns 1 for points strictly inside and -1 for points that are not inside.", "quantifier": "every polygon and point of the plane", "why_tests_cant": "Points on edges, on vertices and at the height of a vertex are exceptional for sampling.", "anchors": ["src/flib/module_geometry.f90.j2:point_in_polygon"]}
{"id": "C60", "title": "Shapes and grids have the size, place and orientation asked for", "statement": "Rotations add up and keep distances by every path of rotate; rectangles, squares and regular polygons have the area, centre and convexity asked for; the nodes of a grid are a regular centred lattice, reflected and rotated as asked, and the squares of a grid are centred on them and fill the asked part of a cell.", "quantifier": "every size, angle, centre, reflection and shape", "why_tests_cant": "Continuous parameters.", "anchors": ["src/pysimulators/geometry.py:rotate", "src/pysimulators/geometry.py:create_rectangle", "src/pysimulators/geometry.py:create_regular_polygon", "src/flib/geometry.f90:create_grid", "src/flib/geometry.f90:create_grid_squares"]}
{"id": "C61", "title": "Segmenting a polygon keeps it", "statement": "segment_polygon returns points of the boundary, consecutive ones no further apart than the maximum distance, and the same area.", "quantifier": "every polygon and positive distance", "why_tests_cant": "Continuous parameters and any number of vertices.", "anchors": ["src/pysimulators/geometry.py:segment_polygon"]}
{"id": "C62", "title": "Special numbers of the compiled routines are what they are named", "statement": "The constants NaN, -Inf and +Inf of the Fortran modules have the bits of a NaN, of minus infinity and of plus infinity of their kind.", "quantifier": "every constant of both modules", "why_tests_cant": "Their wrong values show only in outputs that are rarely looked at (empty bins, empty arrays).", "anchors": ["src/flib/module_math.f90.j2:NAN_8", "src/flib/module_math_old.f90:NaN"]}
{"id": "C63", "title": "Distances and gaussians by any number of axes", "statement": "distance, distance2 and aperture_circular are those of the Euclidean distance to the centre with one scale by axis, gaussian is the product of the normal laws of its axes with the width asked for, and the four-quadrant mask has the phase in two opposite quadrants, for every shape, index, centre and scale.", "quantifier": "every shape, index, centre, scale and width", "why_tests_cant": "Continuous parameters and any number of axes; one- and two-dimensional arrays have separate code.", "anchors": ["src/pysimulators/datautils.py:distance", "src/pysimulators/datautils.py:distance2", "src/pysimulators/datautils.py:gaussian", "src/pysimulators/datautils.py:aperture_circular", "src/flib/datautils.f90.j2:distance_2d"]}
{"id": "C64", "title": "Gaussian beams have their width and solid angle", "statement": "A gaussian beam is 1 on its axis, one half at half of its width, decreases with the angle, its backward form is its image, its solid angle is its integral over the plane, and the integral over the sphere is less, by a fraction less than sigma^2/3 + exp(-pi^2/(2 sigma^2)).", "quantifier": "every width and angle", "why_tests_cant": "Continuous parameters.", "anchors": ["src/pysimulators/beams.py:BeamGaussian"]}
{"id": "C65", "title": "FITS headers give back the shape, the scales and the orientation they were made with", "statement": "The shape read from a header is that it was created for; it has an astrometry exactly when scales were given; the scales and position angle read from it are those given, the matrix being that of the FITS standard; the Fortran code reads the same matrix.", "quantifier": "every shape, scale, angle and other keyword", "why_tests_cant": "Continuous parameters; signs of rotations are right for particular scales only.", "anchors": ["src/pysimulators/wcsutils.py:create_fitsheader", "src/pysimulators/wcsutils.py:create_fitsheader_for", "src/pysimulators/wcsutils.py:get_cdelt_pa", "src/pysimulators/wcsutils.py:has_wcs", "src/pysimulators/wcsutils.py:fitsheader2shape", "src/flib/module_wcs.f90:init_astrometry"]}
{"id": "C66", "title": "The gnomonic projection sends a direction to the pixel that sees it", "statement": "The pixel of a direction in front of the map is the one whose FITS ray is that direction, uniquely; the scale is the ratio of plane area to solid angle; areas are the determinant of the matrix; offsets of the instrument are rotated, keep their length and are along the documented directions; extrema over the pointings and the width of the samples are right whatever the sharing between threads.", "quantifier": "every astrometry, direction, pointing and schedule", "why_tests_cant": "Continuous parameters, singular directions and interleavings.", "anchors": ["src/flib/module_wcs.f90:ad2xy_gnomonic", "src/flib/module_wcs.f90:ad2xys_gnomonic", "src/flib/module_wcs.f90:projection_scale_gnomonic", "src/flib/module_wcs.f90:refpix_area", "src/flib/wcsutils.f90:object2ad", "src/flib/wcsutils.f90:object2xy_minmax", "src/flib/wcsutils.f90:object2pmatrix_sharp_edges", "src/pysimulators/wcsutils.py:RotationBoresightEquatorialOperator"]}
{"id": "C67", "title": "Angles and positions are averaged across the origin of longitudes", "statement": "Separations are the angles between directions; the barycentre is the direction of the sum of the vectors; the mean and the extrema of angles are those of the angles unwrapped, wherever the zero is, and NaN is ignored.", "quantifier": "every list of angles and positions with NaN", "why_tests_cant": "Wrapping at 0/360 for every arc.", "anchors": ["src/flib/wcsutils.f90:angle_lonlat", "src/flib/wcsutils.f90:barycenter_lonlat", "src/flib/wcsutils.f90:mean_degrees", "src/flib/wcsutils.f90:minmax_degrees", "src/pysimulators/wcsutils.py:angle_lonlat"]}
{"id": "C68", "title": "A combined header encompasses the headers it combines", "statement": "Whatever a pixel of a combined map sees is seen inside of the bounds of the combination, if the corners of the map are in front of its centre.", "quantifier": "every list of headers, scale and angle, every rounding to nearest", "why_tests_cant": "Continuous parameters and any number of maps.", "anchors": ["src/pysimulators/wcsutils.py:combine_fitsheader"]}
{"id": "C69", "title": "Universal functions of quantities compute with the values", "statement": "The value of a quantity is its magnitude times its unit; sums, differences, extrema, comparisons, products, quotients, roots and powers of quantities have the value of the function of the values, whatever the units of the operands, and are refused when the units cannot be converted.", "quantifier": "every unit, table of derived units, function of the given degree, number of operands", "why_tests_cant": "Any pair of units, nested derived units.", "anchors": ["src/pysimulators/quantities.py:Quantity.__array_ufunc__", "src/pysimulators/quantities.py:Quantity._get_inputs_with_common_units", "src/pysimulators/quantities.py:Quantity.tounit"]}
{"id": "C70", "title": "Numpy functions of quantities compute with the values", "statement": "Selections, orders, splits, joins, products and variances of quantities have the value of the function of the values; the units of arguments that are put together are made the same; units that cannot be converted are refused.", "quantifier": "every function of the table, arguments and units", "why_tests_cant": "A hundred functions times any units.", "anchors": ["src/pysimulators/quantities.py:FUNCTIONS", "src/pysimulators/quantities.py:Quantity.__array_function__", "src/pysimulators/quantities.py:Quantity._convert_function_inputs", "src/pysimulators/quantities.py:Quantity._convert_function_outputs"]}
{"id": "C71", "title": "An item of a quantity keeps the derived units of its elements", "statement": "After indexing, each element has the broadcast derived unit it had in the array, leftward or rightward.", "quantifier": "every rank, key and rank of the derived unit", "why_tests_cant": "Any combination of ranks and keys.", "anchors": ["src/pysimulators/quantities.py:Quantity.__getitem__"]}
{"id": "C72", "title": "The items of a Tod keep the masks of their samples", "statement": "Indexing, ravel and reshape give each sample the mask it had, of the shape of the result, and change no existing mask.", "quantifier": "every heap of masks, shape, indexing (views and copies) and key", "why_tests_cant": "Needs every indexing and every sharing of buffers between arrays.", "anchors": ["src/pysimulators/datatypes.py:Tod.__getitem__", "src/pysimulators/datatypes.py:Tod.mask", "src/pysimulators/datatypes.py:Tod.ravel", "src/pysimulators/datatypes.py:Tod.reshape"]}
{"id": "C73", "title": "Setting the mask of a Tod sets that mask only", "statement": "The mask takes the given values, is refused if its shape is wrong, and no other Tod changes; a Tod constructed from another has its own mask.", "quantifier": "every heap, Tod and value", "why_tests_cant": "Aliasing shows only through another object.", "anchors": ["src/pysimulators/datatypes.py:Tod.mask", "src/pysimulators/datatypes.py:Tod.__new__", "src/pysimulators/datatypes.py:Tod.__array_finalize__"]}
{"id": "C74", "title": "Reductions and functions of a Tod use its mask", "statement": "A reduction combines the unmasked samples of each group and masks the empty ones; the result of a function has a mask of its own shape with the masks of its operands.", "quantifier": "every mask, grouping and reduction", "why_tests_cant": "Any pattern of masked samples.", "anchors": ["src/pysimulators/datatypes.py:Tod._convert_function_outputs", "src/pysimulators/datatypes.py:Tod._view_function_input", "src/pysimulators/datatypes.py:Tod.sort", "src/pysimulators/quantities.py:Quantity._process_ufunc_result"]}
{"id": "C75", "title": "A FitsArray, a Map or a Tod saved in a file is read as it was", "statement": "Data, unit, derived units, header, coverage, error, origin and mask come back.", "quantifier": "every array, unit, header and attribute", "why_tests_cant": "Any header and unit.", "anchors": ["src/pysimulators/datatypes.py:FitsArray.__new__", "src/pysimulators/datatypes.py:FitsArray.save", "src/pysimulators/datatypes.py:Map.__new__", "src/pysimulators/datatypes.py:Map.save", "src/pysimulators/datatypes.py:Tod.__new__", "src/pysimulators/datatypes.py:Tod.save"]}
{"id": "C76", "title": "The coverage and the error of a Map follow its pixels", "statement": "Items, ravel and reshape give each pixel its coverage and error, of the shape of the result.", "quantifier": "every map, indexing and key", "why_tests_cant": "Any key and shape.", "anchors": ["src/pysimulators/datatypes.py:Map.__getitem__", "src/pysimulators/datatypes.py:Map.ravel", "src/pysimulators/datatypes.py:Map.reshape", "src/pysimulators/datatypes.py:Map.__array_finalize__"]}
{"id": "C77", "title": "Interferometry matrices rotate the polarisation from the sky to the instrument", "statement": "The element of a pixel multiplies the Stokes parameters by its value and turns Q and U as the rotation of the instrument turns the field seen in that direction; the index of the pixel is kept.", "quantifier": "every list of rotations, directions, values and weights, detector, sample and pixel", "why_tests_cant": "Continuous parameters; a sign or a transposition of the rotation shows only in polarised outputs.", "anchors": ["src/flib/bi.f90.j2:matrix_rot2d", "src/flib/bi.f90.j2:matrix_rot3d", "src/flib/bi.f90.j2:weighted_matrix_rot3d"]}
{"id": "C78", "title": "Samplings keep the angles, times and period they are given, and their centre is the mean of the valid samples", "statement": "Each sample has the angles given, in whatever way; its time is its position times the period or that given, through selections; all processes get as centre the direction of the mean of the samples that are not masked, and an error exactly when there are none.", "quantifier": "every number of samples, way of calling, keywords, selection, mask and distribution over processes", "why_tests_cant": "Many ways of calling and any distribution of masked samples.", "anchors": ["src/pysimulators/packedtables/samplings.py:Sampling", "src/pysimulators/packedtables/samplings.py:SamplingSpherical", "src/pysimulators/packedtables/samplings.py:SamplingSpherical.get_center", "src/pysimulators/packedtables/samplings.py:SamplingSpherical.velocity"]}
{"id": "C79", "title": "Spectra of noise have the documented shape and are interpolated along power laws", "statement": "The spectrum of an instrument is the white level times one plus the power of the ratio of the knee and the frequency, the white one integrates to the variance, and the log-log interpolation gives back power laws.", "quantifier": "every number of samples, frequency of sampling, deviation, knee, slope, amplitude, exponent and list of frequencies", "why_tests_cant": "Tests compare one spectrum with a tolerance; none looks at the level in the unit of the documentation or at short spectra.", "anchors": ["src/pysimulators/noises.py:39-80", "src/pysimulators/noises.py:164-198"]}
{"id": "C80", "title": "Noise drawn from a spectrum has its covariance, and the inverse noise inverts it", "statement": "For uncorrelated drawn numbers of unit variance the samples have the covariance of the spectrum without its zero frequency; the row made from the spectrum inverts this covariance; the noise and the inverse noise of an instrument agree for the same parameters.", "quantifier": "every number of samples, every spectrum, every law of the drawn numbers that is uncorrelated with unit variance, every pair of times", "why_tests_cant": "A covariance is an average over all draws; tests draw a finite number and compare with a large tolerance, or do not compare the noise with its inverse at all.", "anchors": ["src/pysimulators/noises.py:83-126", "src/pysimulators/noises.py:149-161", "src/pysimulators/instruments.py:194-236", "src/pysimulators/instruments.py:282-336"]}
{"id": "C81", "title": "The periodogram has the power of the samples at the right frequencies", "statement": "The frequencies of the periodogram are the multiples of the increment, its total power is the variance of the samples, and on average it is the spectrum from which the samples were drawn.", "quantifier": "every list of samples, every one-sided spectrum, every uncorrelated law of unit variance", "why_tests_cant": "Only averages over all draws and all lengths, odd ones too, show it; the tests use one even length.", "anchors": ["src/pysimulators/noises.py:129-146"]}
{"id": "C82", "title": "Operators with sequences of arguments are partitioned in blocks", "statement": "A class decorated by block_diagonal, called with sequences of n elements for its partition variables or with a partition of n sizes, is made of n blocks; block i receives element i of each sequence, the other arguments as they are, and the shapes of the whole with its own size along the axis. Without sequence nor partition it is built as without the decorator. Sequences of different lengths are refused.", "quantifier": "every list of argument names, partition variables, positional and keyword arguments, partition, axis and shapes", "why_tests_cant": "Tests use one class with four arguments and sequences of four elements, and never give shapes together with a stack.", "anchors": ["src/pysimulators/operators.py:65-225"]}
{"id": "C83", "title": "Keywords of FITS headers are read as the standard writes them", "statement": "For a header made of cards of 80 characters, the value of a keyword is that of the first card that has it, whatever the case of the letters: strings between quotes with their quotes and slashes, integers, logical values, and the comment after the slash. A keyword that is absent is reported.", "quantifier": "every header, every keyword of at most 8 characters, every position, every string, every integer, every length of the variable", "why_tests_cant": "Tests read two headers written by the same library, in which values have the usual columns; no test has quotes, slashes, missing keywords, short variables or letters Z.", "anchors": ["src/flib/module_fitstools.f90:42-337"]}
{"id": "C84", "title": "The astrometry of a header is the one that its cards define", "statement": "For a header with the keywords of a tangent projection, init_astrometry returns the sizes, the reference pixel and direction, and the matrix CD, or the one of the increments and the rotation, and nothing else in the header changes it; an incomplete matrix is refused.", "quantifier": "every header, every order of the cards, every other card, every value", "why_tests_cant": "Tests have one header; none has two matrices, units, a PC matrix or more than 36 cards.", "anchors": ["src/flib/module_wcs.f90:38-157", "src/flib/wcsutils.f90:225-238"]}
{"id": "C85", "title": "An observation in the MADMAP1 format is read as it was written", "statement": "From the filters, mask and TOD file of an observation, the filters name.0, name.1, ... are read by increasing numbers, the blocks tile the samples, the signal of each detector is that of the file, each entry of the pointing matrix has the pixel and the weight of the file, and the inverse noise of a block has the filters of that block; a file of another size is refused.", "quantifier": "every number of detectors, blocks, samples and entries by sample, every value, both byte orders, every directory and order of its files, every mask and missing value", "why_tests_cant": "The only test of an observation is expected to fail (its data are not in the repository); the other reads six filters.", "anchors": ["src/pysimulators/interfaces/madmap1.py:33-226", "src/pysimulators/operators.py:504-527"]}
{"id": "C86", "title": "The components of a grid layout are where its spacing, origin and units put them", "statement": "For a shape, a spacing, an origin, reflections and an angle, with or without units, the centre of each selected component is the node of its row and column, in the unit of the layout, the radius has the value asked for, the vertices are the corners of the square around the node, counter-clockwise from the top right, and incompatible units are refused.", "quantifier": "every shape, spacing, origin, angle, reflections, filling factor, units, and every selection and order of the components", "why_tests_cant": "Tests compare layouts with the routines they call, without units but for one case.", "anchors": ["src/pysimulators/packedtables/layouts.py:63-80", "src/pysimulators/packedtables/layouts.py:194-404", "src/pysimulators/geometry.py:67-156", "src/pysimulators/quantities.py:1002-1072"]}
{"id": "C87", "title": "Healpix pixels and directions correspond in each convention", "statement": "For the four conventions, written with any blanks and capital letters, the operators give the pixel of a direction and the direction of the centre of a pixel in the coordinates of the convention; compositions are replaced by the identity only when they are; the width of the gaussian convolution is one of fwhm and sigma, positive, and the gaussian is half of its maximum at half of fwhm; only maps are accepted.", "quantifier": "every text, convention, direction, pixel, width and shape, and every pair of functions from pixels to directions and back", "why_tests_cant": "Tests compare with healpy at a few pixels, and never the composition that goes through the pixels.", "anchors": ["src/pysimulators/interfaces/healpy/operators.py:48-51", "src/pysimulators/interfaces/healpy/operators.py:121-278", "src/pysimulators/interfaces/healpy/operators.py:290-355"]}
{"id": "C88", "title": "The laplacian of Healpix maps is the laplacian", "statement": "The operator gives zero for constant and linear maps and the laplacian of quadratic ones, and its matrix is symmetric.", "quantifier": "every map, pixel, neighbours and resolution", "why_tests_cant": "The test compares with the weights of the code itself.", "anchors": ["src/pysimulators/interfaces/healpy/operators.py:358-388"]}
{"id": "C89", "title": "Healpix scenes have their pixels, and temperatures are converted by Planck's law", "statement": "The shape is the number of pixels and the number of Stokes parameters, the solid angles of the pixels add up to the sphere, and the conversion of temperatures follows Planck's law with the background, and its derivative, in microkelvins, without it.", "quantifier": "every resolution, kind, frequency, temperature and constants", "why_tests_cant": "Tests compare with recorded values at one frequency.", "anchors": ["src/pysimulators/interfaces/healpy/scenes.py:38-60", "src/pysimulators/interfaces/healpy/scenes.py:122-129"]}
{"id": "C90", "title": "Spectra of black bodies and power laws are relative to their reference", "statement": "The black body operator multiplies by the ratio of the modified spectrum at the frequency and at the reference, for each temperature, the frequencies given as such or by the wavelength; at the reference it is one and ratios are multiplied; the power law is s (x/x0)^alpha and absorbs homotheties; arguments of other shapes are refused.", "quantifier": "every temperatures, frequencies, wavelengths, slopes and constants", "why_tests_cant": "Tests compare two or three frequencies with the formula of the code.", "anchors": ["src/pysimulators/operators.py:257-331", "src/pysimulators/operators.py:456-483"]}
{"id": "C91", "title": "Projections multiply units by the unit of the matrix", "statement": "The projection multiplies the unit of its argument by the ratio of its units, the transpose divides by it, each removes the header and gives its own derived units; the projection and its transpose give back the unit.", "quantifier": "every units, derived units and attributes", "why_tests_cant": "Tests take one unit and never the transpose of the result.", "anchors": ["src/pysimulators/operators.py:613-634", "src/pysimulators/operators.py:670-688", "src/pysimulators/operators.py:722-736"]}
{"id": "C92", "title": "Back projection and coverage are computed together", "statement": "pTx_pT1 gives the transpose applied to its argument and to ones, in the place given, replaced or added to, for every kind of matrix; other shapes and operations are refused.", "quantifier": "every matrix, shapes, argument, previous content and order of execution", "why_tests_cant": "Tests compare one random matrix with the dense product.", "anchors": ["src/pysimulators/operators.py:1124-1196"]}
{"id": "C93", "title": "Power spectrum densities of images conserve the variance", "statement": "The sum of the two-dimensional power spectrum density times the bandwidth is the mean of the squares, its zero frequency is at the middle, the profile is its mean over rings around it and the four-quadrant mask has the phase on two opposite quadrants.", "quantifier": "every image of real or complex values, sizes and sampling frequency", "why_tests_cant": "Tests never call these functions with an odd size or compare the profile with the density.", "anchors": ["src/pysimulators/datautils.py:507-568", "src/pysimulators/datautils.py:412-416"]}
{"id": "C94", "title": "Weighted back projection of regions gives weighted means", "statement": "The weighted back projection of regions of interest gives the weighted mean of the values over the regions that overlap each pixel, the region of a detector is the set of pixels it overlaps, and projections with one pixel per sample absorb diagonal operators.", "quantifier": "every regions, values, masks, weights, any commutative ring", "why_tests_cant": "Tests take one region and no mask.", "anchors": ["src/flib/module_pointingmatrix.f90:544-615", "src/pysimulators/operators.py:842-866"]}
{"id": "C95", "title": "Areas of pixels follow the header", "statement": "The area of the reference pixel is that of the image of a pixel by the linear transformation of the FITS header, in the product of the units of the axes; without the keywords there is none; the area of pixels in reference pixels is the scale of the projection, line by line, and one without world coordinates.", "quantifier": "every header, values, units and sizes", "why_tests_cant": "Tests take one header with the four CD keywords.", "anchors": ["src/pysimulators/quantities.py:1255-1302"]}
{"id": "C96", "title": "Hulls are sorted counter-clockwise and contain the points", "statement": "Whatever the order in which the points of the hull are found, convex_hull gives them once each, once around counter-clockwise, and all the points are on the left of all edges; circles have their radius and are convex; solid angles of beams are the integrals of their values over the sphere.", "quantifier": "every set of points that are not aligned, radius, centre and number of vertices", "why_tests_cant": "Tests take one set of points and compare to one ordered list.", "anchors": ["src/pysimulators/geometry.py:20-64", "src/pysimulators/beams.py:40-82"]}
{"id": "C97", "title": "Observations are the model plus the noise, in the order of the samplings", "statement": "The observation of an acquisition is the operation of the user applied to the sum of the data of the model and of the noise, block by block in the order of the samplings; without noise it is the data of the model; pack and unpack follow their arguments.", "quantifier": "every partition into blocks, operation, noise and data", "why_tests_cant": "Tests take one block and one instrument that has its own noise.", "anchors": ["src/pysimulators/acquisitions.py:189-225", "src/pysimulators/acquisitions.py:266-284", "src/pysimulators/instruments.py:257-300"]}
{"id": "C98", "title": "Nearest pixel matrices have the pixel that sees the detector and the ratio of areas", "statement": "The element of a sample that is not masked and of a detector has the pixel of the map where the direction of the detector is seen, none outside of the map, and the area of the detector divided by that of the pixel as weight; masked samples have neither; the flag tells that an element has no pixel.", "quantifier": "every astrometry, size of the map, positions, areas, pointings and mask", "why_tests_cant": "Tests take a map around the pointings.", "anchors": ["src/flib/wcsutils.f90:269-319", "src/flib/module_pointingmatrix.f90:621-646"]}
{"id": "C99", "title": "Variants on planes, copies and volumes do as the routines they follow", "statement": "Planes are shifted by the offset of their block; the median of a copy is that of the elements that are kept; positions in memory are those of the true elements; distances in a volume are Euclidean; Airy disks follow the pattern at the distance to the centre and their sum is one.", "quantifier": "every array, mask, offset, centre and scale", "why_tests_cant": "Tests take one array for each.", "anchors": ["src/flib/module_math_old.f90:112-133", "src/flib/module_math_old.f90:566-597", "src/flib/module_math_old.f90:843-873", "src/flib/module_sort.f90:744-758", "src/pysimulators/datautils.py:33-66"]}
{"id": "C100", "title": "Dense forms of sparse operators act as the operators, and vectors multiply on the left", "statement": "The dense form of an operator on e columns side by side has, at row r and column c, the element (r/e, c/e) of the matrix if r and c have the same remainder, zero otherwise; it maps every vector to what the operator maps it to; a vector times a matrix is the product by the transpose; input shapes computed from output shapes give them back.", "quantifier": "every format, data, schedule, number of columns and vector", "why_tests_cant": "Tests compare the dense form of one small matrix with one column.", "anchors": ["src/pysimulators/sparse.py:182-214", "src/pysimulators/sparse.py:840-870"]}
{"id": "C101", "title": "Kernel masks by the former method and without compiled code mark the unseen pixels", "statement": "The mask is true exactly where no stored weight different from zero is seen, combined with the former mask by the operation that is asked for; the order of the threads does not matter.", "quantifier": "every matrix of scalars or rotations, schedule, mask and operation", "why_tests_cant": "Tests take one thread and one matrix.", "anchors": ["src/pysimulators/operators.py:949-1002", "src/pysimulators/operators.py:1051-1060", "src/flib/operators.f90.j2:12-88"]}
{"id": "C102", "title": "Integers computed through double precision numbers are exact", "statement": "Quotients of integers rounded up, and tests that one divides another, made with a division rounded to double precision are those of integers; so are then the slices of tables, the blocks of acquisitions, the shares of the processes and the number of sides inferred from a number of pixels.", "quantifier": "every integer below 2^53 (2^100 for the squares of sides)", "why_tests_cant": "Tests take small integers.", "anchors": ["src/pysimulators/packedtables/core.py:758", "src/pysimulators/mpiutils.py:110-125", "src/pysimulators/acquisitions.py:120", "src/pysimulators/interfaces/healpy/operators.py:350"]}
{"id": "C103", "title": "Attributes of tables are evaluated with the table, and unpacked at their positions", "statement": "An attribute of a packed table that is a function or a method gets the table as its first argument: it is evaluated when it requires nothing else, otherwise the access gives a function of the other arguments. The attributes of the unpacked table are those of the packed one, put at their positions with the missing value elsewhere; the results of functions are unpacked likewise; other names are refused.", "quantifier": "every signature with at least one required parameter, every reachable table", "why_tests_cant": "Tests have one or two attributes of each kind.", "anchors": ["src/pysimulators/packedtables/core.py:281-307", "src/pysimulators/packedtables/core.py:770-799"]}
{"id": "C104", "title": "Derived units that vary along the axes convert each element by its own", "statement": "The SI value of an array whose derived units have its first axes (rightward) or its last ones (leftward) is, at each element, the SI value of the element with the derived units of the element; so is the conversion to another unit.", "quantifier": "every shape, unit and table of derived units, at any depth of definitions", "why_tests_cant": "Tests convert with one scalar or compute SI of two arrays.", "anchors": ["src/pysimulators/quantities.py:1028-1123", "src/pysimulators/quantities.py:1208-1252"]}
{"id": "C105", "title": "Quantities own what they show", "statement": "A quantity made from another object with the default copy=True, by tounit, as the result of a sum or by pickling shows the values, kind, class, unit and derived units asked for, and nothing done to it afterwards, in any order and any number of times (assigning values, converting in place, changing the unit or the derived units), is seen through the objects that existed before. inunit multiplies the values of the object by the conversion factor, replaces its unit, and leaves the class, unit and derived units of all other objects, and the values of those that share none with it.", "quantifier": "every state of objects, buffers, units and tables of derived units, every sequence of changes", "why_tests_cant": "Tests look at one object after one operation; aliasing shows only when two objects are followed through several.", "anchors": ["src/pysimulators/quantities.py:447-484", "src/pysimulators/quantities.py:835-848", "src/pysimulators/quantities.py:929-1080", "src/pysimulators/quantities.py:1125-1144"]}
{"id": "C106", "title": "Conversions do not depend on earlier conversions", "statement": "SI and conversions give what the magnitudes and units of the quantities of the tables of derived units define, whatever derived units earlier conversions have written in these quantities. A quantity that is in no table keeps its magnitude, unit and derived units through any sequence of conversions of any quantities, and is converted afterwards as before.", "quantifier": "every heap of quantities and tables, every sequence of conversions, every depth of definitions", "why_tests_cant": "Tests convert a few quantities once each; what is written in the shared table of the module shows only in a later conversion.", "anchors": ["src/pysimulators/quantities.py:1028-1123", "src/pysimulators/quantities.py:1208-1252", "src/pysimulators/quantities.py:1363-1371"]}
{"id": "C107", "title": "The communicators of acquisitions follow their selections", "statement": "After any sequence of selections on any process grid, each acquisition has the detectors and samplings selected from those of the process, and the communicators of the processes that share what has not been selected: all the processes of the row or of the column of the grid, or the process alone. A selection changes no other acquisition, and all the processes of a communicator have the same one, so that collective calls are made by all of them.", "quantifier": "every grid of processes, every number of detectors and samplings, every sequence of selections of acquisitions made before", "why_tests_cant": "Tests run on few processes and look at the acquisition that is returned, not at the one that is selected in; a slice covers all the elements on some of the processes only for some numbers of detectors.", "anchors": ["src/pysimulators/acquisitions.py:104-110", "src/pysimulators/acquisitions.py:127-184", "src/pysimulators/packedtables/core.py:309-345", "src/pysimulators/packedtables/core.py:366-375", "src/pysimulators/packedtables/core.py:452-483"]}
{"id": "C108", "title": "The maps of distributed acquisitions are those of one process", "statement": "The observations that the processes compute, put side by side, are those computed by one process; the transpose of the operator gives each process the same map, which is the one obtained by one process from all the observations, whatever the blocks of samplings and the order in which the processes are added; it is the adjoint for the scalar product summed over the processes. A distributed scene is refused.", "quantifier": "every grid of processes, every number of detectors, samplings and pixels, every response, blocks that tile the local or the global sampling, every reduction tree", "why_tests_cant": "Tests compare one response on a few grids with a tolerance.", "anchors": ["src/pysimulators/acquisitions.py:227-245", "src/pysimulators/packedtables/scenes.py:79-105"]}
{"id": "C109", "title": "The header of an array belongs to it and describes it", "statement": "Whatever the arrays that are made, copied, converted, cut and combined, and whatever the order in which their headers are read, written and replaced, the header of an array changes only by what is done to this array, and its keywords of structure (NAXISn, BITPIX) are those of the array.", "quantifier": "every sequence of constructions, copies, conversions of type, parts, results, readings and writings of headers, every shape and type", "why_tests_cant": "Tests look at the header of one array at a time; the headers are created when they are first read, so that what a test reads changes what it tests.", "anchors": ["src/pysimulators/datatypes.py:98-161", "src/pysimulators/datatypes.py:174-206", "src/pysimulators/datatypes.py:280-295", "src/pysimulators/wcsutils.py:387-410", "src/pysimulators/quantities.py:838-848"]}
{"id": "C110", "title": "Derived units of items taken with index arrays, lists and masks", "statement": "When elements of a quantity are taken with index arrays, lists, boolean masks and slices, in any order, the result has for each of its elements the broadcastable derived unit that the element had.", "quantifier": "every rank, key, index array and broadcastable derived unit", "why_tests_cant": "The tests take items with integers and slices; the place of the axis of the index arrays depends on the whole key, the derived unit sees a part of it.", "anchors": ["src/pysimulators/quantities.py:858-916"]}
{"id": "C111", "title": "Rounded sparse products", "statement": "With binary32 or binary64 arithmetic the compiled sparse products stay within ((1+u)^(k+1)-1)(|out|+|A||x|) + k(1+u)^(k+1)eta of the exact product, where k is the number of products made for the cell, in every schedule; with integers a cell of magnitude at most 2^prec is exact in every schedule.", "quantifier": "every class, precision, matrix, vector, output and interleaving of the iterations", "why_tests_cant": "The tests compare a few random products with a tolerance; the error depends on the sizes, the magnitudes and the order of the atomic updates.", "anchors": ["src/flib/sparse.f90.j2:16-432", "src/flib/module_operators.f90.j2:13-432", "src/pysimulators/sparse.py:112-181"]}
{"id": "C112", "title": "Rounded compensated sums", "statement": "With every operation rounded to prec >= 8 bits (ties to even, gradual underflow), the compensated sum of n <= 2^prec numbers is within u|S| + (2u + 16 n u^2) sum|x| of the exact sum S, also with a mask and whatever the order; in two and three dimensions the relative errors are composed; the norms and the scalar product add the rounding of their terms.", "quantifier": "every list, mask, precision and threshold", "why_tests_cant": "The error depends on the number and the magnitude of the terms; tests compare a few sums with a tolerance and cannot tell a compensated sum from a plain one.", "anchors": ["src/flib/module_math_old.f90:248-342", "src/flib/module_math_old.f90:347-493"]}
{"id": "C113", "title": "Rounded moments", "statement": "With every operation rounded, the mean, mean deviation, variance and standard deviation of moment are within explicit bounds of the textbook values: the variance is relative to the variance itself plus the square of the error of the mean; it is never negative; without samples all are NaN, with one the variance is NaN; skewness and kurtosis are within explicit bounds as soon as the bound on the power of the deviation is below it.", "quantifier": "every input, mask and precision of at least eight bits, at most 2^prec samples", "why_tests_cant": "Cancellation in the variance depends on the ratio of mean and deviation; a few samples do not bound it.", "anchors": ["src/flib/module_math_old.f90:135-216"]}
{"id": "C114", "title": "Rounded exponential response", "statement": "With every operation rounded, each output sample of the convolution by a truncated exponential response is within an explicit bound of the exact response with the weight meant: the error carried from sample to sample shrinks by w(1+u)^2 and ((1+u)^3-1)X + 2 eps X + 2(1+u)eta is added, so that the bound does not depend on the number of samples when w(1+u)^2 < 1; the transposed response has the same bound, the first sample being divided by 1 - w.", "quantifier": "every precision, time constants, number of detectors and samples, order of the detectors, and inputs bounded by X", "why_tests_cant": "The accumulation of errors over long inputs depends on the weight; tests compare a few samples with a tolerance.", "anchors": ["src/flib/module_operators.f90.j2:442-532", "src/flib/operators.f90.j2:356-423"]}
{"id": "C115", "title": "Policies of masks", "statement": "A MaskPolicy is accepted exactly when flags and values are strings, as many values as flags, no flag empty or starting with an underscore, every value one of keep, mask, remove up to blanks and case; the first wrong pair decides of the exception. Its attributes, its conversion to an array and its string give for each flag, in order, the value stated last; the conversion raises exactly when a flag has the name of the class attribute of a value in use.", "quantifier": "every list or comma-separated string of flags and values, and description", "why_tests_cant": "The exceptions depend on the order of the tests, and a flag named as an attribute of the class is only seen when the policy is converted.", "anchors": ["src/pysimulators/acquisitions.py:313-362"]}
{"id": "C116", "title": "Outputs that are not contiguous", "statement": "Whatever the sizes and strides of the array it is given, code that reshapes or flattens an array and writes in the result changes the elements of the array, each with its value, and nothing else: the WCS operators, the products of sparse matrices, restrict, unpack, the masks of detectors of the other processes, pT1 and pTx_pT1, and projections in memory. Products refuse outputs that are not C contiguous.", "quantifier": "every array of any rank, sizes and strides, elements distinct; every memory", "why_tests_cant": "The tests use arrays just allocated, which are contiguous: a reshape that silently becomes a copy is never met", "anchors": ["src/pysimulators/wcsutils.py:683-745", "src/pysimulators/sparse.py:112-181", "src/pysimulators/sparse.py:923-986", "src/pysimulators/packedtables/core.py:575-648", "src/pysimulators/mpiutils.py:143-146", "src/pysimulators/operators.py:636-668", "src/pysimulators/operators.py:733-757", "src/pysimulators/operators.py:1075-1196"]}
{"id": "C117", "title": "Shapes and rotations of integer coordinates", "statement": "Rotating integer coordinates gives the rotated points up to the rounding to integers; a rectangle or a square of integer type has its size; the vertices of a regular polygon of integer type are those of the polygon up to the conversion to integers.", "quantifier": "all integer points, sizes, centers, numbers of vertices and angles", "why_tests_cant": "The tests only use floating point coordinates and dtype=float", "anchors": ["src/pysimulators/geometry.py:159-254", "src/pysimulators/geometry.py:288-328"]}
{"id": "C118", "title": "Dot test of the sparse products with rounded operations", "statement": "For a sparse matrix A computed with rounded operations, (A x, y) and (x, A' y) differ by at most the bounds of the two products: with at most k products for a cell, 2 ((1 + u)^(k+1) - 1) |y|' |A| |x| and the contribution of underflows, in any order of the threads and whether or not the compiler contracts products and additions.", "quantifier": "all well-formed matrices of all classes, all vectors, schedules, precisions, and choices of contraction", "why_tests_cant": "The tests compare dense forms with a tolerance chosen by hand for a few matrices", "anchors": ["src/pysimulators/sparse.py:133-175", "src/flib/sparse.f90.j2:16-432"]}
{"id": "C119", "title": "Pointing matrices with more samples or pixels than 32-bit integers", "statement": "The kernels of the pointing matrices treat every sample, whatever the number of samples, which the wrappers take as a 64-bit integer; the index of a pixel is its column plus its row times the number of columns.", "quantifier": "all pointing matrices, maps, timelines and sizes", "why_tests_cant": "No test has 2^31 samples or a map of 2^31 pixels", "anchors": ["src/flib/module_pointingmatrix.f90:300-427", "src/flib/module_pointingmatrix.f90:506-537", "src/flib/module_pointingmatrix.f90:621-646", "src/flib/pointingmatrix_old.f90:10-63"]}
{"id": "C120", "title": "Pointing matrices of detectors with sharp edges", "statement": "For every sample that is not masked and every detector, the pointing matrix lists the pixels of the map that the projected polygon of the detector covers, in the order of the map, with the areas of the polygon over them in single precision; the rest of the row and the rows of the masked samples are cleared. The required number of elements per sample is the largest number of covered pixels, the flag tells if a polygon is not inside of the map, and the values of a convex polygon inside of the map add up to its area.", "quantifier": "all astrometries, map sizes, detectors, pointings, masks and numbers of elements per sample", "why_tests_cant": "A test compares the weights of one projection; the number of pixels, orientations and roundings are unbounded", "anchors": ["src/flib/wcsutils.f90:325-372", "src/flib/module_pointingmatrix.f90:601-615", "src/flib/module_pointingmatrix.f90:652-702", "src/flib/module_math_old.f90:512-538"]}
{"id": "C121", "title": "Products by pointing matrices with rounded numbers", "statement": "With rounded operations, whichever products the compiler contracts with the additions and whatever the order of the atomic additions, every sample of the projection, every pixel of the back projection and every entry of the product of both is within the usual bound of the exact value: (1+u)^(k+1)-1 times the magnitude plus k (1+u)^(k+1) times half of the smallest number, for k elements and a magnitude which is the same sum without the signs. The dot test holds to the sum of these bounds, and integers of magnitude up to 2^prec are exact.", "quantifier": "all matrices, maps, timelines, orders of the atomic additions, contractions, precisions and exponent ranges", "why_tests_cant": "A test compares a few products with a tolerance; the number of samples, the schedules of threads and the contractions of the compiler are unbounded", "anchors": ["src/flib/module_pointingmatrix.f90:300-321", "src/flib/module_pointingmatrix.f90:350-370", "src/flib/module_pointingmatrix.f90:399-427"]}
{"id": "C122", "title": "Units in distances, apertures, Airy patterns and profiles", "statement": "With a scale which is a quantity: the distance, with its unit, is that of the physical scale whatever the magnitudes of the units; the squared distance has the square of the unit; an aperture, an Airy pattern and a profile are those of the physical diameter, width and bins, so that a diameter without unit is in that of the scale, the pattern has no unit and the abscissae of the profile have that of the scale.", "quantifier": "all shapes, centres, scales, units, magnitudes of units, diameters, widths and bins", "why_tests_cant": "A test would choose a few units, usually the same for all the arguments", "anchors": ["src/pysimulators/datautils.py:33-91", "src/pysimulators/datautils.py:94-176", "src/pysimulators/datautils.py:177-237", "src/pysimulators/datautils.py:454-504"]}
{"id": "C123", "title": "Scene grids and the integration of maps over polygons", "statement": "A scene made from a FITS header of two axes has its rows and columns; the number that its transform gives to a pixel is the position of the pixel in the flattened array, the inverse transform gives back the pixel, whose coordinates are the column and the row of the element. The integration operator of a scene gives for each polygon the sum of the pixels, each with the area that the polygon covers, whatever the width first given for the matrix, what the matrix contained and the schedule of the threads.", "quantifier": "all sizes, maps, polygons, widths, contents of the memory and schedules", "why_tests_cant": "A test would choose a few polygons and maps; the memory of a matrix and the schedules cannot be chosen", "anchors": ["src/pysimulators/packedtables/scenes.py:106-155", "src/pysimulators/packedtables/scenes.py:157-178", "src/pysimulators/packedtables/scenes.py:180-261", "src/pysimulators/wcsutils.py:412-414"]}
{"id": "C124", "title": "Default values of the removed elements", "statement": "Without a missing value, the removed elements of an unpacked attribute have the value of their type: False, -1, 0, NaN, an empty string or None, and in structured types, however nested, every field has the value of its own type, whatever the memory contained; the other elements are those of the attribute.", "quantifier": "all reachable tables, attributes, structured types and contents of the memory", "why_tests_cant": "Structured types can be nested without bound, and the memory of a test is often already zero", "anchors": ["src/pysimulators/packedtables/core.py:564-648", "src/pysimulators/packedtables/core.py:650-665"]}
{"id": "C125", "title": "The galactic frame and the angles of celestial frames", "statement": "The matrix of the galactic frame is a rotation whose elements are those written in the source to nine decimals; it sends the galactic pole and centre to their documented equatorial coordinates (pole within 2e-9, centre within 1.7e-6). In every convention and unit, the angles returned by the spherical operators are those of the transformed direction, with an elevation between -90 and 90 degrees, and each operator undoes the other; the galactic and equatorial coordinates of samplings are those of their directions at the date of each sample.", "quantifier": "all matrices for the factorisation; all angles, conventions, units, dates, latitudes and longitudes", "why_tests_cant": "Tests compare some directions at one precision", "anchors": ["src/pysimulators/operators.py:1225-1316", "src/pysimulators/operators.py:1476-1744", "src/pysimulators/packedtables/samplings.py:206-216", "src/pysimulators/packedtables/samplings.py:344-370"]}
{"id": "C126", "title": "Rounding errors of the polarisation rotations of bolometric interferometry", "statement": "With every operation rounded, the element computed for a pixel and a sample multiplies the Stokes parameters by the value and rotates them from the frame of the sky to that of the instrument up to an error of 3000 u/W |val| + 5 tiny times |Q|+|U|, where u is the rounding unit and W bounds from below the squared sines of the distances to the poles in both frames, if W is at least 4096 u; once stored in the precision of the matrix, one more rounding is added. Correctly rounded matrices and directions are close enough inputs. Directions that are not poles have a finite frame: refuted near the poles in real64.", "quantifier": "all precisions and exponent ranges with emin <= 1 - 2 prec, all rotations, directions away from the poles, values and polarisations", "why_tests_cant": "A comparison with a few directions does not bound the error for all, and its growth near the poles is seen only when they are approached", "anchors": ["src/flib/bi.f90.j2:14-114"]}
{"id": "C127", "title": "Rounding errors of the areas of polygons inside of pixels", "statement": "With every operation rounded, the value computed for a pixel is the signed area of the polygon inside of it up to n u (4 n + 370 M^2), for n vertices no further than M from the corner of the pixel in both directions, u being the rounding unit; and what the row of the projection matrix stores for any pixel of the map, listed or not, is the area of the polygon inside of it up to n u (4 n + 370 (D+3/2)^2 + 4 C + 2), for coordinates at most C that differ by D at most. The pointing matrices made from polygons of real64 store in real32 the area up to its rounding and twice the first error. No division by a vanishing slope is used. A pixel that a convex polygon does not touch has no element: refuted in real64.", "quantifier": "all precisions of 6 bits or more and exponent ranges with emin <= 1 - 2 prec, all polygons of representable vertices (convex or not), all pixels and maps", "why_tests_cant": "Nearly vertical edges and vertices within a rounding error of the side of a pixel are not drawn at random, and comparing with a tolerance does not show that the division by the slope stays harmless", "anchors": ["src/flib/module_geometry.f90.j2:13-100", "src/flib/module_math.f90.j2:26-40", "src/flib/projection.f90.j2:17-72"]}
{"id": "C128", "title": "What is displayed", "statement": "The image given to the display is empty where the data are masked or not finite, and shows elsewhere the values brought inside of a range that keeps their order; on each side less than one value, and the asked percentage of the others, are outside of the range, so that nothing is changed without percentile; the mask is that of the call, or else that of the time-ordered data, or the pixels of the map without coverage. The interpolation, origin and figure are those of the call (refuted for the interpolation and the figure of maps). A new ds9 has the options of the call and the default ones that it does not give; the running one can be used (refuted).", "quantifier": "all images, masks, coverages and percentiles (a number or a pair), all options", "why_tests_cant": "Displays are not compared in tests, and the branches depend on kapteyn being installed or ds9 running", "anchors": ["src/pysimulators/datatypes.py:351-436", "src/pysimulators/datatypes.py:438-553", "src/pysimulators/datatypes.py:848-936", "src/pysimulators/datatypes.py:1271-1291"]}
{"id": "C129", "title": "Instruments select, iterate and split their detectors", "statement": "An instrument has the layout and the name it is given, in either order; its items, the instruments it iterates over, its parts and its shares have the same name and transforms and exactly the selected detectors, one by one, contiguous groups of nearly equal sizes or shares that tile the layout; the transforms of an imager are those given and inverse of each other.", "quantifier": "every reachable layout, selection, number of parts, relation of inverse operators", "why_tests_cant": "Any layout and selection; combinations of optional arguments.", "anchors": ["src/pysimulators/instruments.py:Instrument.__init__", "src/pysimulators/instruments.py:Instrument.__getitem__", "src/pysimulators/instruments.py:Instrument.__iter__", "src/pysimulators/instruments.py:Instrument.split", "src/pysimulators/instruments.py:Instrument.scatter", "src/pysimulators/instruments.py:Imager.__init__"]}
{"id": "C130", "title": "What is saved, sent to ds9 and plotted", "statement": "The figure that is saved shows what imshow displays, its size follows that of the image within limits and the interactive mode of matplotlib is restored; ds9 displays an array with the given origin, or with its own, and the array is not changed; the plot of time-ordered data has the line of each detector and points at its masked samples only.", "quantifier": "every image, mask, percentile, origin and shape", "why_tests_cant": "Any shape, mask and order of arrays; side effects show in later displays.", "anchors": ["src/pysimulators/datatypes.py:FitsArray.imsave", "src/pysimulators/datatypes.py:FitsArray.ds9", "src/pysimulators/datautils.py:Ds9.__call__", "src/pysimulators/datautils.py:plot_tod"]}
{"id": "C131", "title": "Plots of pointings show those that are not masked", "statement": "Over a map or a header, the line through the pixels of the pointings that are not masked, and only them, is drawn, and the first of them is marked; if all are masked nothing is, and it is an error to ask for a new figure.", "quantifier": "every list of pointings, masks, background and projection", "why_tests_cant": "Combinations of masks, maps and headers; interactive display.", "anchors": ["src/pysimulators/packedtables/samplings.py:SamplingEquatorial.plot", "src/pysimulators/packedtables/samplings.py:_plot_scan", "src/pysimulators/acquisitions.py:Acquisition.plot"]}
{"id": "C132", "title": "The rounded gnomonic projection is near the exact one", "statement": "The position in the tangent plane and the pixel that are computed with rounded operations are within a bound of those that see the direction; the bound is a constant times the unit of rounding and the inverse of the square of the cosine of the distance to the reference, plus the errors of the inverse matrix and of the reference pixel, and the inverse matrix is within a bound that follows the ratio of the products of the matrix and its determinant.", "quantifier": "every reference, direction, matrix and precision, for directions on the side of the reference", "why_tests_cant": "Errors depend on the direction and the matrix and cannot be enumerated.", "anchors": ["src/flib/module_wcs.f90:init_gnomonic", "src/flib/module_wcs.f90:ad2xy_gnomonic", "src/flib/module_wcs.f90:init_rotation", "src/flib/module_wcs.f90:xy2xy_rotation"]}
{"id": "C133", "title": "Surfaces, rotations and grids with rounded operations", "statement": "The surface of a polygon, the rotation of points and the points of a grid are within a bound of the exact ones, which is a number of units of rounding times the magnitude of what is added; the surface does not depend on the position of the polygon.", "quantifier": "every polygon, angle, grid, reflection and precision", "why_tests_cant": "Errors depend on all the coordinates.", "anchors": ["src/flib/geometry.f90:surface_simple_polygon", "src/flib/geometry.f90:rotate_2d", "src/flib/geometry.f90:rotate_2d_inplace", "src/flib/geometry.f90:create_grid"]}
{"id": "C134", "title": "Nearest pixels and weights with rounded operations", "statement": "The direction of a detector, the pixel where it is seen and its weight in the pointing matrix are those of exact arithmetic up to a bound in units of rounding: the index is exact unless the detector is seen within the error of the projection of a border of its pixel, halves are decided exactly, and the weight, rounded to the precision of the matrix, is near the ratio of the areas.", "quantifier": "every astrometry, pointing, detector, size of map and precisions", "why_tests_cant": "Errors depend on the position in the sky and grow far from the reference and near the poles.", "anchors": ["src/flib/wcsutils.f90:object2pmatrix_nearest_neighbour", "src/flib/wcsutils.f90:object2ad", "src/flib/module_wcs.f90:ad2xys_gnomonic", "src/flib/module_pointingmatrix.f90:xy2pmatrix", "src/flib/module_math_old.f90:nint_up"]}
{"id": "C135", "title": "Sidereal times and frames of the observer with rounded operations", "statement": "With rounded operations the sidereal time of Greenwich is in [0, 24) and is, on the circle of 24 hours, within 240400 units of rounding of the formula; the local sidereal time is within 240500 units, below 24, and every entry of the rotation between equatorial and horizontal coordinates is within 63400 units of that of exact arithmetic.", "quantifier": "every representable date within twenty centuries of 2000, every latitude, longitude, orientation, convention and precision", "why_tests_cant": "The formula has large terms that cancel modulo 24 hours; the remainder rounds at its border for rare inputs.", "anchors": ["src/pysimulators/operators.py:CartesianEquatorial2HorizontalOperator", "src/pysimulators/operators.py:CartesianHorizontal2EquatorialOperator", "src/pysimulators/operators.py:_CartesianEquatorialHorizontal"]}
{"id": "C136", "title": "Texts of time-ordered data and of packed tables", "statement": "The text of time-ordered data ends with its numbers of detectors and samples, so that it determines its last two dimensions; the text of a packed table lists the index and then, in the order of their names, exactly the special attributes that hold something else than nothing or a function, one by line if no value has line feeds, with at most the first 65 characters of their values.", "quantifier": "every shape, name and list of attributes with their texts", "why_tests_cant": "Tests compare a few texts.", "anchors": ["src/pysimulators/datatypes.py:Tod.__str__", "src/pysimulators/packedtables/core.py:PackedTable.__str__"]}
{"id": "C137", "title": "Distortions through given points, and headers given as texts", "statement": "A distortion sends every object point to its image and its inverse sends the image back, the inverse of the inverse is the distortion, and coordinates are accepted exactly if both have the same shape (npoints, 2); the cards of a header given as a text are its pieces of 80 characters before the one that starts with END.", "quantifier": "every set of distinct points, every interpolator through its values, every shape and text", "why_tests_cant": "Tests use one set of points.", "anchors": ["src/pysimulators/wcsutils.py:DistortionOperator", "src/pysimulators/wcsutils.py:str2fitsheader"]}
{"id": "C138", "title": "What the plot of a layout draws", "statement": "A layout with vertices is drawn as one polygon for each component, in their order, with its first two coordinates after the transform, else as circles of its radii around its centres, else as one marker at each centre; each polygon has the colour given for all the components or for this one, and is filled if a face colour is given and fill is not; the keywords of the markers are only completed with those that are missing.", "quantifier": "every layout, transform, colours, keywords", "why_tests_cant": "Drawings are not tested.", "anchors": ["src/pysimulators/packedtables/layouts.py:Layout.plot"]}
{"id": "C139", "title": "Conversions between pixels and positions act on each element of arrays", "statement": "Healpix pixels of an array of any shape become unit vectors or angles along a new last dimension, in the order of the elements and of the convention of the angles, and arrays of vectors or angles, accepted exactly if their last dimension is 3 or 2, become arrays of pixels of the other dimensions, which gives back the pixels; transforms of world coordinates do so on every pair of an array, and their inverses have the same header and the same origin; the boresight operator gives the position of each detector for each pointing, of the shape of the pointings followed by that of the detectors, and refuses pointings that are not equatorial; a conversion composed with its inverse is the identity.", "quantifier": "every array, shape, convention, header, origin and pointing; any healpy, astropy and kapteyn", "why_tests_cant": "Tests use small arrays, and one kind of shape per operator.", "anchors": ["src/pysimulators/interfaces/healpy/operators.py:_HealPixCartesian", "src/pysimulators/interfaces/healpy/operators.py:Healpix2CartesianOperator", "src/pysimulators/interfaces/healpy/operators.py:Cartesian2HealpixOperator", "src/pysimulators/interfaces/healpy/operators.py:Healpix2SphericalOperator", "src/pysimulators/interfaces/healpy/operators.py:Spherical2HealpixOperator", "src/pysimulators/wcsutils.py:RotationBoresightEquatorialOperator", "src/pysimulators/wcsutils.py:_WCSKapteynOperator", "src/pysimulators/wcsutils.py:_WCSOperator"]}
{"id": "C140", "title": "The positions in the sky of detectors are accurate in floating point", "statement": "The Fortran and Python conversions from the coordinates of a detector, at most ten degrees from the axis, to its right ascension and declination, with every operation rounded, give the declination within 735 units of roundoff (of one degree) and the right ascension within 1500 units of roundoff over the squared cosine of the declination, for every pointing whose declination keeps this cosine above 95000 units of roundoff.", "quantifier": "every precision from 24 bits, every pointing, position angle and detector, every library whose sine and cosine are within two units of roundoff", "why_tests_cant": "Tests compare a few positions with a loose tolerance; the worst rounding errors are at positions no test reaches.", "anchors": ["src/flib/wcsutils.f90:186-219", "src/pysimulators/wcsutils.py:RotationBoresightEquatorialOperator.direct"]}
{"id": "C141", "title": "The pixels of detectors in a map, and their bounds, are accurate in floating point", "statement": "The pixel of a map in which a detector sees the sky, computed with every operation rounded from its coordinates in the focal plane through its position in the sky and the gnomonic projection, is that of FITS within a bound proportional to the unit of roundoff, divided by the squared cosine of the declination and by the squared cosine of the angle to the reference of the map; the least and greatest coordinates of all the detectors for all the pointings are within the same bound.", "quantifier": "every precision from 24 bits, header with an invertible matrix, pointings and detectors, every library whose sine and cosine are within two units of roundoff", "why_tests_cant": "Tests compare a few pixels; how the errors of two conversions add up is not visible in them.", "anchors": ["src/flib/wcsutils.f90:186-219", "src/flib/wcsutils.f90:225-263", "src/flib/module_wcs.f90:206-241", "src/flib/module_wcs.f90:350-379"]}
{"id": "C142", "title": "Interpolating, folding and unfolding spectra is accurate in floating point", "statement": "With every operation rounded, each interpolated or extrapolated value of a spectrum is within six units of roundoff of the line through the two nodes around its abscissa, relative to the products that are added; between the nodes this is relative to the larger of the values of both nodes, a spectrum that is not negative stays so, and the values at the nodes are those of the nodes; folding and unfolding are exact.", "quantifier": "every precision from 8 bits, strictly increasing nodes, increasing abscissae, and every spectrum", "why_tests_cant": "Tests compare a few interpolated values with a tolerance.", "anchors": ["src/pysimulators/noises.py:16-36", "src/pysimulators/noises.py:180-198"]}
{"id": "C143", "title": "The angle between two positions in the sky is accurate in floating point", "statement": "With every operation rounded, the angle between two positions computed through the arccosine is a finite number whose cosine is the scalar product of both directions within 135 units of roundoff, and which is the angle between both directions within 31 times the square root of the unit of roundoff, in radians.", "quantifier": "every precision from 24 bits, positions of longitudes up to 360 degrees and latitudes up to 90, every library whose sine, cosine and arccosine are within a few units of roundoff", "why_tests_cant": "Tests compare a few separations; positions for which the argument of the arccosine is above one are rare.", "anchors": ["src/flib/module_math_old.f90:503-511", "src/flib/module_math_old.f90:47-48", "src/pysimulators/wcsutils.py:35-66"]}
{"id": "C144", "title": "The mean of angles is accurate in floating point", "statement": "With every operation rounded, and whatever the number of threads and the samples that each of them adds, the mean of n angles of an arc of 89 degrees is in [0, 360) and is the mean of the angles unrolled along the arc, up to turns, within 364 (n + threads) + 1500 units of roundoff; it is NaN exactly when there is no valid sample.", "quantifier": "every precision from 24 bits, every number and order of samples below the 1024th of the inverse of the unit of roundoff, every arc, every distribution between threads", "why_tests_cant": "Tests use a few samples that are integers; the threshold at 270 degrees and the remainder of tiny negative numbers need samples that are rounded.", "anchors": ["src/flib/wcsutils.f90:78-115", "src/pysimulators/wcsutils.py:472-477"]}
{"id": "C145", "title": "The barycentre of positions in the sky is accurate in floating point", "statement": "With every operation rounded, and whatever the number of threads and the positions that each of them adds, the barycentre of n valid positions is finite, its longitude is in [0, 360] and its direction is that of the sum of the directions of the positions, each component within 4 n (1.02 (n + threads) + 42) u / r + 6.2 sqrt u, where u is the unit of roundoff and r the norm of the sum.", "quantifier": "every precision from 24 bits, every number and order of positions of longitudes up to 360 degrees and latitudes up to 90, positions that are NaN, every distribution between threads, sums of norm at least 1/16, every library whose functions are within a few units of roundoff", "why_tests_cant": "Tests compare a few barycentres with a tolerance; the latitude is lost near the equator only.", "anchors": ["src/flib/wcsutils.f90:38-72", "src/pysimulators/wcsutils.py:69-82"]}
{"id": "C146", "title": "Radial profiles are accurate in floating point", "statement": "With every operation rounded, and whatever the distribution of the pixels between threads, every valid pixel is assigned to one bin, that of its distance d to the centre within 6 u d + u / 50 + eta times the width of the bins; every bin has the number of the pixels assigned to it, the mean of their distances and the mean of their values within about (n + threads + 5) u relative to the magnitudes; an empty bin has its centre and NaN.", "quantifier": "every precision from 24 bits, every centre, width and number of bins, every map with NaN, every distribution of the pixels between threads and every order of additions", "why_tests_cant": "Tests compare one profile; a width of 0.1 and distances that are multiples of it are needed to see pixels in the wrong bin.", "anchors": ["src/flib/datautils.f90.j2:117-161"]}
{"id": "C147", "title": "The extrema of angles are accurate in floating point", "statement": "With every operation rounded, and whatever the number of samples and their distribution between threads, the extrema of angles in an arc of 89 degrees are those of the angles unrolled along the arc, wherever the zero is, within 1300 units of roundoff in degrees: the error does not depend on that of the mean, which only selects the turn.", "quantifier": "every precision from 24 bits, every list of angles with NaN in an arc of 89 degrees, every distribution between threads", "why_tests_cant": "Tests have a few angles; the choice of the turn depends on the error of the mean.", "anchors": ["src/flib/wcsutils.f90:121-157"]}
{"id": "C148", "title": "Distances to a centre are accurate in floating point", "statement": "With every operation rounded, the distance of a pixel to the centre along one axis is within 2.01 u of the exact one relative to it, plus the smallest number; on two axes it is within 5.3 u relative, plus u / 500 times the norm of the scales, also at pixels next to the centre; the squares of the distances are within 6.2 u and 7.4 u relative, plus terms of the order of u^4 times the squares of the scales.", "quantifier": "every precision from 24 bits, every centre, every scale of which the square is not near the smallest numbers, every index up to 2^prec", "why_tests_cant": "Tests compare a few maps of distances with a tolerance.", "anchors": ["src/flib/datautils.f90.j2:11-85", "src/pysimulators/datautils.py:94-174", "src/pysimulators/datautils.py:177-263"]}
{"id": "C149", "title": "Gaussians of two variables are accurate in floating point", "statement": "With every operation rounded, and an exponential of the library within two units of roundoff, the value of gaussian_2d at a pixel is that of the normal law of two independent variables within (10.95 (x + y) + 20) u relative to it, plus 4 (1 + maximum) times the smallest number, x and y being the arguments of the exponentials.", "quantifier": "every precision from 24 bits, every centre, every width of which the square and its inverse are not near the smallest numbers, every pixel where the arguments are at most 1/(1024 u)", "why_tests_cant": "Tests compare one map with a tolerance; the error grows with the square of the distance.", "anchors": ["src/flib/datautils.f90.j2:88-112"]}
{"id": "C150", "title": "Circular apertures are right in floating point except near the circle", "statement": "With every operation rounded, aperture_circular is 0 or 1 at every pixel; it is 1 where the squared distance to the centre is under the square of the radius by more than a margin, and 0 where it is over by more than the margin. The margin is 7.4 u times the squared distance plus u times the square of the radius, plus terms of order u^4 of the squares of the scales and of the smallest number.", "quantifier": "every precision from 24 bits, every centre and radius, every scale of which the square is not near the smallest numbers, every pixel", "why_tests_cant": "Tests use a scale of one and small integers, for which no operation is rounded.", "anchors": ["src/pysimulators/datautils.py:69-91", "src/flib/datautils.f90.j2:65-85"]}
{"id": "C151", "title": "Gaussian beams are accurate in floating point", "statement": "With every operation rounded, and an exponential of the library and constants within two units of roundoff u, the value of BeamGaussian at an angle is 2 to the power - n^2, n being the angle from the axis in units of half the width, within (31 n^2 + 2.5) u relative to it, plus the smallest number. At half the width the value is 1/2 within 17 u, on the axis it is 1 within 3 u, forward and backward, and the solid angle is PI fwhm^2 / (4 ln 2) within 25 u relative to it.", "quantifier": "every precision from 24 bits, every width of which the square and its inverse are not near the smallest numbers, forward and backward beams, every angle for which n^2 is at most 1/(1024 u)", "why_tests_cant": "Tests evaluate one width; the relative error grows with the square of the angle.", "anchors": ["src/pysimulators/beams.py:40-68"]}
{"id": "C152", "title": "The 1/f spectrum is accurate in floating point", "statement": "With every operation rounded, and a power of the library within two units of roundoff u, the two-sided spectrum of _gaussian_psd_1f at every frequency is sigma^2 / fs (1 + (fknee / |f|)^fslope), f being the multiple of fs / n, and sigma^2 / fs at the frequency zero, within (12.7 fslope + 10) u relative to it. The rounded spectrum is exactly even, and if the power of the library does not decrease with its base it does not increase with the frequency and is nowhere under its value at zero, the frequencies not being rounded to zero.", "quantifier": "every precision from 24 bits, every number of samples, sampling frequency, deviation, knee and frequency within a range of which the cube is not near the smallest numbers, every positive slope up to 1/(1024 u)", "why_tests_cant": "Tests compare spectra with a tolerance; the frequencies are rounded four times before the power, which multiplies their errors by the slope.", "anchors": ["src/pysimulators/noises.py:39-80"]}
{"id": "C153", "title": "Distances on any number of axes are accurate in floating point", "statement": "With every operation rounded, the distance of _distance_slow on n axes is right within (0.53 n + 5) units of roundoff relative to it, if its square is not near the smallest numbers; before the root, the sum of squares is right within (1.02 n + 6.3) units and 2.2 n times the smallest number. At a centre which is a pixel the distance is exactly zero.", "quantifier": "every precision from 24 bits, every number of axes n up to 1/(1024 u), every centre, scale and pixel", "why_tests_cant": "Tests compare three axes of a few pixels with a tolerance.", "anchors": ["src/pysimulators/datautils.py:156-174"]}
