# Formal model of pysimulators: design

Source under study: `/repo` (pchanial/pysimulators, pinned commit), read as text.
Prover: Rocq/Coq 8.16.1, files in `rocq/theories`, logical root `Verif`.

## 1. Method

* **Shallow executable model.** Every modelled Python/Fortran function is a total
  Gallina function that mirrors the source branch by branch and carries a comment
  giving file and lines. Exceptions are values (`res A := Ok a | Err e`).
* **Separate specification.** `*Spec.v` files define what a property means (Python
  slice semantics, stable sort, dense matrix product, adjointness, exact cover ...)
  without using the helpers of the model.
* **Proofs apart.** `*Model.v` has definitions only, `*Facts.v` the lemmas,
  `*Props.v` only the property theorems, each closed by `exact lemma`, followed by
  `Print Assumptions`, with an `Example` beside it that meets its hypotheses.
* **Violations are results.** When the code does not have a property, the model
  keeps the code's behaviour, a theorem `..._refuted` exhibits a witness and a
  guarded theorem states what does hold. They are collected in section 5.

## 2. Trusted base

* Coq's kernel (and `coqchk` in the gate).
* What `Print Assumptions` prints below each property theorem. Models over Z, nat,
  lists and an arbitrary commutative ring are axiom free ("Closed under the global
  context"). Theorems over the real numbers use the axioms of Coq's own `Reals`
  library (`ClassicalDedekindReals.sig_forall_dec`, `sig_not_dec`,
  `functional_extensionality_dep`), and those on integrals, derivatives or powers (`Geo*.v`, `Data*.v`, `Wcs*.v`, `Psd*.v`, `Hp*.v`, `Sp*.v`, `Hull*.v`, `StrLog*.v`, `Nn*.v`, `Misc*.v`, `Float*.v`, `Rnd*.v`, `Rks*.v`, `Rkm*.v`, `Rkh*.v`, `Rtx*.v`, `Ig*.v`, `Fma*.v`, `Rad*.v`, `Sharp*.v`, `Rpm*.v`, `Qd*.v`, `Sg*.v`, `Gal*.v`, `Bir*.v`, `Rgeo*.v`, `Rgn*.v`, `Rgr*.v`, `Rnn*.v`, `Rst*.v`, `Rbo*.v`, `Rip*.v`, `Ran*.v`, `Rmd*.v`, `Rba*.v`, `Rpr*.v`, `Rmm*.v`, `Rds*.v`, `Rga*.v`, `Rap*.v`, `Rbm*.v`, `Rof*.v`, `Rsl*.v`, `Plot*.v`, `Beam*.v`) also
  `Classical_Prop.classic` of the standard library; each is listed below its theorem.
* In the models of `moment`, `median`, `module_sort` and `roi2pmatrix`/`backprojection`
  the constant NaN of `module_math_old.f90` is taken as a NaN (`None`); the constant itself
  is wrong in double precision (C62_module_math_old_refuted).
* The reading of the source: nothing ties the model to the code but the citations.
* Behaviour of third parties, taken as follows:
  * Python/NumPy indexing: basic slices follow CPython `PySlice_AdjustIndices`;
    integer-array and boolean-array indexing, `np.arange`, `np.where`, `np.take`
    have their documented meaning; `argsort(kind='mergesort')` is a stable sort.
  * `pyoperators.utils.split(n, m)`: m contiguous slices, the first `n mod m` have
    one more element (it is not in /repo).
  * MPI collectives: `Allgatherv`/`allgather` deliver each rank's contribution in
    rank order, `Allreduce(SUM)` sums.
  * OpenMP: `atomic` and `critical` make one update indivisible, everything else
    may interleave.

### What is not modelled
Floating-point rounding (numbers are a commutative ring, an ordered field or R), except in
C111 to C114, C118, C121, C126, C127 and the constants of C62, where every operation is rounded;
64-bit overflow (32-bit overflow: C42, C119); array dtypes and memory layout except where a property is about
them; conversion of strings to real numbers; plotting;
`pyoperators` itself beyond what is listed above (acquisitions.py 240 gives `axisin` to
`BlockColumnOperator`, madmap1.py 147 gives `axisout`: C108 takes both as the axis of
the samplings of the output).

## 3. Properties

PackedTable (`packedtables/core.py`; files `PT*.v`)

| id | modelled | proof |
|----|----------|-------|
| C01 | `_normalize_slice`, `__len__`, `index` over Z | case analysis on the clamp regimes against an independent Python-slice spec; the regime `step<0, stop<-n-1` is refuted |
| C02 | `_normalize_int_selection` | list induction: the progression test is exact; repeated positions refuted |
| C03 | `_normalize_selection`, `_get_index`, `_selection2bool` | row-major enumeration of index tuples; induction on the shape |
| C04 | `_get_index` with ordering | stable argsort, permutation + lexicographic sortedness |
| C05-C08 | `pack`, `unpack`, `removed`, `_indexable` on flat arrays of rows | `nth` characterisations, no-duplicate index |
| C09-C11 | `__getitem__`, `__setattr__`, `split` as a state machine | invariant by induction over op lists |
| C12, C13 | `scatter`, `gather`, distributed `unpack` for any communicator size | sums of split sizes, permutation invariance of disjoint writes |
| C14 | heap of arrays with views | refuted for slices + scalar assignment, proved for other selections |
| C15 | `LayoutGrid`/`SceneGrid` row/column | Euclidean division |

Sparse matrices (`sparse.py`, `sparse.f90.j2`, `module_operators.f90.j2`; files `Sparse*.v`)

| id | modelled | proof |
|----|----------|-------|
| C16 | all 8 formats as update events on an output vector, over any commutative ring | fold = sum, invariance under permutation (atomic updates) and under interleaving of rows |
| C17 | transposes of all formats | exchange of finite sums |
| C18 | `SparseOperator.direct`, and its output after any number of calls (`SparseMem*.v`) | corollary of C16; induction on the calls |
| C19, C20 | `restrict`, `corestrict`, `fsr_restrict` | renumbering is the rank function of the mask; corestriction of rotations refuted |
| C21 | `fsc_fsr_*_ncolmax1`, `_rule_pTp` | algebra per block; several broadcast columns refuted |
| C22 | constructor and validation arithmetic | integer arithmetic; column-block allocation refuted |
| C23, C24 | `pT1`, `canonical_basis_in_kernel`, `fsr_kernel` incl. its shared pointer | sums; interleaving semantics |

Operators and others

| id | modelled | proof |
|----|----------|-------|
| C25 | on-the-fly cache as a state machine with failing computations | invariant over access histories |
| C26 | `trexp` direct / transpose (both variants) over a commutative ring/field | induction on the signal; in-place transpose refuted |
| C27-C29 | unit dictionaries as finite maps with rational exponents, parser and printer on strings, conversion factors | group laws on canonical maps, string induction |
| C30 | `distribute_observation`, `Acquisition.__init__` process grid | arithmetic, exact cover |
| C31, C32 | header scatter/gather, padding arithmetic | split lemmas, modular arithmetic |
| C33-C35 | polygon/cell intersection and shoelace over R | clamp antiderivative telescopes over cells |
| C36, C37 | legacy pointing matrix routines | as C16-C19 |
| C38, C50 | `_fold_psd`, `_unfold_psd`, `_interp` | list lemmas; fold after unfold refuted |
| C39, C49 | acquisition selection, operator cache and blocks | histories of several objects; refuted |
| C40 | `RollOperator` on n-d arrays, any tuple of axes (`Roll*.v`) | modular arithmetic on each axis |
| C41, C51 | quickselect median, iterative quicksort with its stack, unique values, histograms (`Median*.v`, `Sort*.v`) | loop invariants; logarithmic bound of the stack |
| C33–C35, C59–C61 | clipping of polygons by pixels, polygon integration, areas, rotations, shapes, grids, segmentation (`Geo*.v`) | real numbers; the clip of an edge is an integral (Coquelicot); Chasles over pixels; sections of convex polygons by verticals |
| C36, C37, C56–C58 | legacy pointing matrices and projections (`Pm*.v`) | any commutative ring; atomic additions as events, in any order |
| C45 | `sigma_clipping` over reals with NaN (`Clip*.v`) | invariant over passes: the number of rejected samples bounds the number of passes; the limit is refuted |
| C52 | `sum_kahan_*`, norms, `dot` over any ring, with any rounding of the running addition (`Num*.v`) | invariant sum - compensation = exact partial sum |
| C53 | `shift_fast` as loops over arrays, in place or not | no position is read after it was written |
| C54 | `moment` | reduction to C52 over the reals |
| C55 | `nint_down`, `nint_up` on rationals | Euclidean division |
| C42, C63, C64 | radial profiles, distances, gaussians, beams (`Data*.v`) | real numbers; threads as any sharing of the pixels; rings partition a disc |
| C65–C68 | FITS headers, gnomonic projection, pointing, angles, combined headers (`Wcs*.v`); a world coordinate is a ray; two-dimensional arrays, no signed zeros; astropy's wcs is taken as the tangent projection of the standard | real numbers; orthonormal bases; affine maps take extrema at corners; threads as interleavings of reads and writes |
| C69–C71 | quantities in numpy functions and indexing (`Uf*.v`); what numpy computes is a parameter with a degree; basic indexing without array sizes | values as magnitude times unit; homogeneity; lists of keys |
| C72–C74 | masks of Tod (`Tod*.v`): a heap of buffers of booleans, arrays as views; NumPy's indexing is a parameter, its basic part (integers, slices, None, ellipsis) is given and proved to be an instance; `numpy.ma` reductions modelled | the mask of an element is looked up in the buffers; frame conditions on all arrays of the heap |
| C75 | FITS files of FitsArray, Map, Tod (`Fa*.v`); astropy's files as lists of units with headers | list induction on headers; printing and parsing of units (C28) |
| C76 | coverage and error of Map (`Map*.v`), arrays as values | same indexing as C72 |
| C77 | kernels of `bi.f90.j2` (`Bi*.v`), exact real numbers, the rounding of the stored fields left out | frames of unit vectors; the spec decomposes the rotated field on south and east |
| C78 | samplings (`Samp*.v`) over the tables of `PTModel`; dates and changes of frame left out | lists of keywords; the centre as a sum over ranks |
| C79 | spectra and their interpolation (`Psd*.v`) over the reals | powers as Rpower; a line is reproduced by any segment |
| C80 | _gaussian_sample, _psd2invntt, get_noise, get_invntt_operator for one detector; Fourier transforms as sums | orthogonality of the waves (telescoping sums); expectation as any functional that is right on products of two draws |
| C81 | _sampling2psd | Parseval; transform of the samples |
| C82 | decorator block_diagonal: numbers of blocks, dispatch of the arguments and shapes (`Block*.v`) | lists of arguments by induction; every count is 0 or n |
| C83 | get_keyword and the readers of logical values, integers and strings of `module_fitstools.f90` (`Fh*.v`); formatted input of integers as gfortran does it | lists of characters; a header is the concatenation of its cards |
| C84 | init_astrometry and the header of object2xy_minmax; real numbers and the rotation are parameters | corollaries of C83; the result depends on the first card of each of 17 keywords |
| C85 | `interfaces/madmap1.py` on files that are lists of bytes (`Mad*.v`); the values of floating point numbers are functions of their bits | writer of the format in the spec; induction on the blocks and on the filled part of the TOD; uniqueness of a strictly sorted permutation |
| C86 | constructors of `LayoutGrid` and `LayoutGridSquares` with units (`Lay*.v`), over R | positions are homogeneous in spacing and origin; row-major enumeration; C60 |
| C87 | `Healpix2SphericalOperator`, `Spherical2HealpixOperator`, their rules, constructor and shapes of `HealpixConvolutionGaussianOperator` (`Hp*.v`), over R | functions of healpy are parameters; independent relation of written names |
| C88 | `HealpixLaplacianOperator` (`Hp*.v`), over R | neighbours are a parameter; evaluation on quadratic maps |
| C89 | `SceneHealpix`, `SceneHealpixCMB` (`Hp*.v`), over R | derivative of Planck's law |
| C90 | `BlackBodyOperator`, `PowerLawOperator` (`Sp*.v`), over R | spectrum of the modified black body as independent specification |
| C91 | attributes and units of `ProjectionBaseOperator`, `get_pTx_pT1` (`Pu*.v`) | exponents of units |
| C92 | `ProjectionOperator.pTx_pT1` (`Ptx*.v`) | columns of the matrix, over any commutative ring, any order of execution |
| C93 | `psd2`, `profile_psd2`, `phasemask_fourquadrant` (`Im*.v`), over R | Parseval and sums of squares as independent specification; `profile` is that of C42 |
| C94 | `backprojection_weighted_roi`, `xy2roi`, `_rule_diagonal` (`Mini*.v`) | weighted means, overlap of intervals |
| C95 | `pixel_to_pixel_reference`, `pixel_reference_to_solid_angle` (`Area*.v`), over R | linear transformation of FITS and area of the image of the corners as independent specification |
| C96 | `convex_hull`, `create_circle`, `BeamUniformHalfSpace` (`Hull*.v`), over R | support lines, edges and angles around the mean; integrals over the sphere |
| C97 | `get_observation`, `get_noise`, `pack`, `unpack` of acquisitions (`Obs*.v`) | blocks of AcqModel, samples by position in the samplings |
| C98 | `object2pmatrix_nearest_neighbour` (`Nn*.v`), over R | rays of the gnomonic projection of C66 and half-open pixels |
| C99 | `shift_medium`, `median_copy`, `where_2d_1d`, `distance_3d`, `airy_disk` (`Misc*.v`) | specifications of C41, C53, C63; ratio to the pattern |
| C100 | `__mul__`, `__rmul__`, `todense`, `reshapeout` (`Dense*.v`) | matrix of entries, products over any commutative ring |
| C101 | `canonical_basis_in_kernel_old`, fallback of `canonical_basis_in_kernel`, `fsr*_kernel` (`Kern*.v`) | `seen` of C24 |
| C102 | the functions of C01, C30, C49, C87 with divisions and square roots rounded to double precision (`Float*.v`, Flocq) | integers; equality with the exact models |
| C103 | attribute access of packed and unpacked tables (`Attr*.v`) | callables with signatures; positions of C06 |
| C104 | `SI`, `inunit`, `_check_du`, `_get_du`, `_check_in_du` with arrays (`Bu*.v`) | scalar conversion of C29 at each index |
| C105 | `Quantity.__new__`, `__array_finalize__`, views, `tounit`, `inunit`, pickling as a heap of objects (`Qobj*.v`) | what is older than the result is a prefix of the heap; induction on the changes |
| C106 | `SI`, `inunit`, `_check_du`, `_get_du` with the objects of the tables (`Du*.v`) | simulation by the conversion with tables of values of C29 |
| C107 | process grid, scattering, selection in acquisitions and tables as objects, communicators, `copy` (`Dcomm*.v`) | objects with their history of selections; invariant of the heap of tables |
| C108 | operator of a distributed acquisition, distribution of the scene (`Dmap*.v`) | sums over shares of the grid, any reduction tree |
| C109 | headers of FitsArray as objects: constructor, views, `astype`, property `header` (`Hobj*.v`) | simulation of a program of values; invariant of description |
| C110 | `__getitem__` of quantities with index arrays, lists, masks; NumPy's advanced indexing (`Uk*.v`) | split of the key in slices, indices, slices; prefixes and suffixes of it |
| C111 | the compiled sparse products with rounded operations (`Rnd*.v`, kernels of `SparseModel.v`) | terms added to each cell without laws on the operations, permuted by the schedule; error carried by each term |
| C112 | the sums of `NumModel.v` with rounded operations (`Rks*.v`) | invariant of the loop: compensation below 3u sum, compensated error below 2u + 12 j u^2 |
| C113 | `moment` with rounded operations (`Rkm*.v`, `Rkh*.v`) | errors of quotients, of powers of residuals and identity of Koenig |
| C114 | the routines of `TrexpModel.v` with rounded operations, contracted or not (`Rtx*.v`) | recursion e <- w(1+u)^2 e + drift, geometric sum |
| C115 | `MaskPolicy` (`Mpol*.v`), strings as lists of characters | induction over the pairs; strip, split and lower characterised without their definitions |
| C116 | arrays with strides, NumPy `reshape`, `ravel`, `view`, and the code that writes through them (`Stride*.v`) | the place of an index in C order is a bijection; axes merge iff addresses are linear in the place |
| C117 | `rotate`, `create_rectangle`, `create_square`, `create_regular_polygon` with integer coordinates (`Ig*.v`), over R | conversion towards zero of the sines and cosines |
| C118 | `matvec` of the matrices and of their transposes with rounded operations, contracted or not (`FmaModel.v`), `Rad*.v` | bounds of C111 on both sides, exact adjoint of C17 |
| C119 | `pmatrix_direct`, `pmatrix_transpose`, `pmatrix_ptp`, `backprojection_weight`, `xy2pmatrix` with 32-bit sizes (`Cnt*.v`) | modular arithmetic, reduction to C37 and C56 |
| C120 | `object2pmatrix_sharp_edges`, `xy2roi`, `nint_down`, with `object2ad`, `ad2xy_gnomonic`, `roi2pmatrix_cartesian` and the intersection of polygons (`Sharp*.v`) | composition of C33, C58, C66 and the error of a rounding |
| C121 | `pmatrix_direct`, `pmatrix_transpose`, `pmatrix_ptp` with rounded operations (`Rpm*.v`, on the model of C37 and the operations of C111) | every cell carries its exact value, its magnitude and the number of its terms; permutations of the events |
| C122 | `distance`, `distance2`, `aperture_circular`, `airy_disk`, `profile` with quantities (`Qd*.v`, the numbers of C42, C63, C99 and the units of C69) | the squared norm is homogeneous; the unit of the Airy pattern is divided by itself |
| C123 | `SceneGrid`: `__init__`, `fromfits`, `column`, `row`, `get_integration_operator` applied to a map (`Sg*.v`, on the matrix of C34 and the product of C16) | division with remainder; the sum over the elements of a row is the sum over the pixels |
| C124 | `PackedTable._get_default_missing_value`, `unpack` without missing value (`Mv*.v`, on the tables of C06) | induction on the height of the type; every field is set once |
| C125 | `_CartesianEquatorialGalactic`, the four `Spherical…Operator` of frames, `galactic` and `equatorial` of samplings (`Gal*.v`, with the rotations of C43) | Householder reflections; sines of rational angles bounded by partial sums evaluated over Q |
| C126 | `en2ephi`, `en2etheta_ephi`, `rot_ephi`, `rotinv_e`, `eni2rotation` and the elements of `matrix_rot2d`, each operation rounded (`Bir*.v`) | forward error analysis against the exact rotation of C77, in units of u/W |
| C127 | the intersection of polygons and pixels of C33, the rows of `matrix_polygon_integration` and of the pointing matrices, each operation rounded (`Rgeo*.v`) | every edge follows a line that is close to it, whose exact area is that of a polygon moved by a few u; bounds of the pixels one unit apart |
| C128 | `imshow` of arrays, maps and time-ordered data up to the calls of matplotlib and kapteyn, options of `ds9` (`Disp*.v`) | percentiles as points of the broken line through the sorted values; counting |
| C129 | `Instrument` and `Imager`, instruments.py 21-103 and 337-366 (`Inst*.v`) | by the theorems on packed tables (C09, C11, C12) |
| C130 | `imsave`, the array and origin given to ds9, `plot_tod`; matplotlib and pyds9 are what they are asked to draw (`Show*.v`) | by C128; rows of flat lists |
| C131 | `SamplingEquatorial.plot`, `_plot_scan`, `Acquisition.plot`; kapteyn's topixel is a parameter (`Scan*.v`) | lists with NaN |
| C132 | `init_gnomonic`, `ad2xy_gnomonic`, `init_rotation` and `xy2xy_rotation` with rounded operations, in the order of the source; the library's sine and cosine and the constants are parameters (`Rgn*.v`) | error bounds in units of the rounding, relative to the scale of the plane |
| C133 | `surface_simple_polygon`, `rotate_2d`, `rotate_2d_inplace`, `create_grid` with rounded operations (`Rgr*.v`) | error of a running sum by induction; products with coefficients near the exact ones |
| C134 | `object2pmatrix_nearest_neighbour` for a detector with `object2ad`, `ad2xys_gnomonic`, `nint_up`, `xy2pmatrix`, with rounded operations (`Rnn*.v`) | errors in units of rounding over the cosine; the difference with the nearest integer is exact |
| C135 | `_CartesianEquatorialHorizontal._jd2gst`, `_gst2lst` and the rotation of the operators, with rounded operations (`Rst*.v`) | errors term by term in units of rounding; the remainder of a representable number is exact below 0 only up to one rounding; turns of the angle |
| C136 | `Tod.__str__`, `PackedTable.__str__` (`Txt*.v`) | decimal numbers are read back up to the blank; insertion sort against an order on texts; line feeds counted |
| C137 | `DistortionOperator`, `str2fitsheader` (`Dist*.v`) | the interpolator is any function through its values; induction on the pieces of the text |
| C138 | `Layout.plot` (`Plot*.v`) | induction on the components; circles from C96 |
| C139 | Healpix and WCS operators on arrays (`Coord*.v`) | lists of groups of d elements; one position from C66 and C87 |
| C140 | `object2ad`, `RotationBoresightEquatorialOperator.direct` with rounded operations (`Rbo*.v`) | errors in units of roundoff, with the lemmas of C132 |
| C141 | `object2xy_minmax` with rounded operations (`RboModel2.v`, `RboProps2.v`) | C140 and C132, the projection being Lipschitz away from the horizon of the reference |
| C142 | `_interp`, `_fold_psd`, `_unfold_psd` with rounded operations (`Rip*.v`) | relative errors of the terms, of their sum and of the quotient; doubling is exact; a node in double precision where the product is a tie |
| C143 | `angle_lonlat` with rounded operations (`Ran*.v`) | errors in units of roundoff, with the lemmas of C132; (a - b)^2 <= 8 abs(cos a - cos b); sines of rational numbers by their series for the 8 degrees |
| C144 | `mean_degrees` with rounded operations and reductions over threads (`Rmd*.v`) | relative error (1 + u)^k - 1 of sums of numbers that are not negative, k additions; angles unrolled by turns with the computed remainders; double precision evaluated for the counterexamples |
| C145 | `barycenter_lonlat` with rounded operations and reductions over threads (`Rba*.v`) | errors of sums (1 + u)^k (1 + 41 u) - 1 relative to the number of terms; (a - b)^2 <= 4 abs(cos^2 a - cos^2 b) for latitudes; double precision evaluated for the counterexample |
| C146 | `profile_axisymmetric_2d` with rounded operations and reductions over threads (`Rpr*.v`) | error of the distance through the root of a sum of squares, also near the centre; quotient by the width; errors of sums (1 + u)^k - 1 relative to the sum of magnitudes; double precision evaluated for the counterexample |
| C147 | `minmax_degrees` with rounded operations and reductions over threads (`Rmm*.v`) | the mean is within a degree, so that the turn of every sample is chosen right; extrema of lists that are close element by element |
| C148 | `distance_1d`, `distance2_1d`, `distance_2d`, `distance2_2d` with rounded operations (`Rds*.v`) | error of the root of a rounded sum of squares, with a term for pixels next to the centre; underflow evaluated for the counterexample |
| C149 | `gaussian_2d` with rounded operations (`Rga*.v`) | relative errors of the coefficient and of the inverse of the squared width; exp (x - z) - 1 within 1.2 abs(x - z); underflow carried as an absolute term |
| C150 | `aperture_circular` with rounded operations, two axes (`Rap*.v`) | the squared distances of C148 against the rounded square of the radius; the boundary is refuted by integers evaluated exactly |
| C151 | `BeamGaussian` with rounded operations (`Rbm*.v`) | relative errors through the root, the quotient, the square and the inverse; exp (x - z) - 1 within 1.2 abs(x - z); the value stated as a power of 2 |
| C152 | `_gaussian_psd_1f` two-sided and `fftfreq` with rounded operations (`Rof*.v`) | relative errors of the frequencies; the logarithm of the ratio within 10.3 u, multiplied by the slope; the distribution is an independent definition |
| C153 | `_distance_slow` with rounded operations (`Rsl*.v`) | relative errors of the terms with underflow as an absolute term; invariant of the sum, linear in the number of axes; the root halves the error |
| C62 | special constants as bit patterns (`Const*.v`) | IEEE decoding of the bits |
| C43 | celestial rotations and sidereal times over R (`Sky*.v`) | trigonometric identities |
| C44 | string helpers over lists of character codes; `floor(log10())` in double precision (`StrLog*.v`) | induction; letter Z refuted; rounding to nearest of Flocq |
| C46, C48 | template header parsing, expansion, guards, kernel names (`Template*.v`) | list induction; finite case analysis on types |
| C47 | `SparseOperator.reshapein/out` | products of shapes |

## 4. Files

See `rocq/_CoqProject`; one group of `Model/Spec/Facts/Props` per area.

## 5. Findings

Behaviours of the code that break the stated property; each is a theorem `..._refuted`
about the model (the code itself was not run).

| no | where | behaviour | theorem |
|----|-------|-----------|---------|
| 1 | `packedtables/core.py` `_normalize_slice` | backward slice with `stop < -n-1` is not clamped | C01_refuted |
| 2 | `PackedTable.__getitem__` | backward slice of a table with an explicit list of positions is silently empty; ValueError with array attributes | C09_reverse_refuted |
| 3 | `_normalize_int_selection` | two or more equal positions: ZeroDivisionError in `len`; negative positions kept as they are | C02_repeated_refuted, C09_negative_refuted |
| 4 | empty tables | sliced again from an explicit start: `pack` returns one element, `unpack` fails; also after `scatter` | C05_empty_refuted, C13_empty_refuted |
| 5 | `_normalize_selection` | full slices inside a tuple become Ellipsis: misaligned or IndexError | C03_full_slice_refuted, C03_two_full_slices_refuted |
| 6 | `_get_index` | a slice selects rows or elements depending on the ordering | C04_slice_meaning_refuted |
| 6b | `unpack` | duplicated positions leave uninitialised memory | C06_duplicates_refuted |
| 6c | `__setattr__` | assigning a number to a sliced sub-table writes in the parent; 0-d attributes are shared | C14_slice_refuted, C14_0d_refuted, C14_scatter_self_refuted |
| 6d | `gather` | the gathered table still has the distributed communicator | C12_gather_twice_refuted |
| 34 | `PackedGrid` rows/columns | with `ndim=1` the row number is divided by the number of columns | C15_ndim1_refuted |
| 7 | `sparse.py` 62 | column formats with rectangular blocks: the allocated data fails the check applied to given data | C22_allocation_refuted |
| 8 | `sparse.py` 454 | FSRBlockMatrix does not check the block shape; the compiled product then adds nothing | C16_block_shape_refuted, C22_block_shape_refuted |
| 9 | `sparse.py` 999-1028 | P.T*P shortcut wrong with broadcast columns | C21_broadcast_refuted |
| 10 | `sparse.py` 892-921 | corestriction of rotation matrices always fails | C20_rotation_refuted |
| 12b | `sparse.f90.j2` 520-543 | the pointer `val` is shared by the threads: the kernel mask may be wrong both ways when a stored element is zero | C24_race_refuted |
| 12d | `sparse.f90.j2` 557-565 | the column counter has the kind of the indices: 128 columns overflow 8 bits | C19_int8_refuted |
| 12f | `sparse.py` `_matvec` | matrix without rows and a given output | C16_no_rows_refuted |
| 12h | `operators.py` 1003-1062 | kernel mask: AttributeError for block matrices, partial with an extra dimension | C24_blocks_refuted, C24_broadcast_refuted |
| 12i | `operators.py` 1064-1122 | hit map of 2-d rotations is not the transpose of ones; with blocks of one column pixel 0 is copied everywhere | C23_rotation2d_refuted, C23_narrow_blocks_refuted |
| 12j | `sparse.py` 799-804 | announced output shape of the wrong size when no prefix of the input shape fits | C47_no_prefix_refuted |
| 12k | `sparse.py` 940-948 | restriction of block matrices with one column per block rejects every mask | C19_narrow_blocks_refuted |
| 12l | `sparse.py` 923-986 | nothing kept: operator without columns, application divides by zero | C19_nothing_kept_refuted |
| 16a | `sparse.f90.j2` column kernels | result depends on the thread schedule as soon as addition is not associative | C16_columns_rounding_refuted |
| 12n | `operators.f90.j2` template guards | guards compare strings with integers: hit map, old kernel and old restriction routines are never generated | C46_integer_guard_refuted, C46_missing_kernels_refuted |
| 12m | `sparse.py` `_matvec` | a complex vector loses its imaginary part in the compiled product, not in the fallback | C48_complex_refuted |
| 13 | `operators.py` 913-920 | on-the-fly cache: after a failed computation the previous block is served None; identifier None never computed | C25_after_failure_refuted, C25_none_refuted |
| 18 | `operators.py` 415-424 | 2-d arrays of 4-byte reals and 3-d arrays are accepted by validatein and then rejected | C26_float32_refuted, C26_cube_refuted |
| 19 | `module_operators.f90.j2` 487-507 | in-place transpose of the exponential response does not scale the last sample | C26_transpose_inplace_refuted |
| 19b | `operators.py` 362, `module_operators.f90.j2` 450 | negative time constant: zero next to a positive one, identity otherwise | C26_negative_refuted |
| 19c | `module_operators.f90.j2` 479, 505, 526 | signals without samples: access outside of the arrays | C26_empty_refuted |
| 24 | `quantities.py` 1305-1360 | the entry ('rad', 2) makes SI not idempotent: 'deg arcmin' and 'deg^2', 'rad^4' and 'sr^2' are incompatible | C29_rad_refuted |
| 25 | `quantities.py` 229-265, 333-372 | exponents printed in scientific notation are not read back; exponents within 1e-7 of an integer are printed as that integer; 'm^0' is not the dimensionless unit | C28_small_refuted, C28_close_refuted, C28_zero_refuted |
| 27 | `quantities.py` 1048-1050 | conversion to or from the empty unit relabels: any unit converts to any other in two steps | C29_empty_refuted |
| 14 | `mpiutils.py` 115-135 | several processes without observation or without good detector: UnboundLocalError | C30_empty_refuted |
| 36 | `acquisitions.py` 87-103 | nprocs_sampling is ignored when nprocs_instrument is given, even if contradictory | C30_grid_ignored_refuted |
| 35 | `mpiutils.py` 58-60 | 'CRTYPE1', 'CRTYPE2' instead of 'CTYPE1', 'CTYPE2': headers of different axis types are gathered | C31_ctype_refuted |
| 15 | `mpiutils.py` 330-332 | a useless block of padding when the data fills its last block | C32_padding_refuted |
| 15a | `mpiutils.py` 300-303 | the group made by Incl is not used: with fewer rows than ranks, the file is opened on a communicator whose other ranks do not take part (deadlock) | C32_open_refuted |
| 15b | `mpiutils.py` 277-284 | wrong numbers of rows are refused by some ranks only, the others wait | C32_rows_refuted |
| 15c | `mpiutils.py` 192-206 | headers of read data: CRPIX2 is moved for cubes, nothing is moved for projections other than RA---TAN | C31_read_refuted |
| 15d | `mpiutils.py` 177-190 | the search for the first unit with data does not end on a unit with axes and without data | C32_first_unit_refuted |
| 20 | `noises.py` 23 | _fold_psd takes p[n] instead of p[n-1] as last value: wrong Nyquist power, IndexError for two frequencies | C38_fold_refuted, C38_fold_two_refuted |
| 20b | `noises.py` 111-121, `instruments.py` 326-334 | noise from a given spectrum with an odd number of samples: ValueError (n-1 frequencies) | C38_sample_refuted |
| 21 | `acquisitions.py` 149, 166 | a selection keeps the operator computed for the complete acquisition (the cache of self is reset instead of that of the copy) | C39_stale_refuted, C39_selection_refuted |
| 21b | `acquisitions.py` 172 | a selection keeps the blocks of the complete acquisition: samplings are lost when there are more of them | C39_blocks_refuted |
| 21c | `acquisitions.py` 247-254 | get_operator_nbytes after get_operator: multiplied by the numbers of detectors and samplings once more | C39_nbytes_refuted |
| 37 | `acquisitions.py` 113-119 | blocks larger than max_nbytes, and empty blocks | C49_limit_refuted, C49_empty_refuted |
| 30 | `module_string.f90` strlowcase, strupcase | the letter Z/z is not converted (`ic >= 65 .and. ic < 90`) | C44_lower_refuted, C44_upper_refuted |
| 38 | `module_string.f90` strsplit | trailing blanks of the pieces are lost, long pieces are truncated | C44_split_join_refuted |
| 39 | `module_string.f90` strinteger | the length is computed from a rounded logarithm: 999999999999999 is followed by a blank | C44_integer_rounded_refuted, C44_integer_log_refuted |
| 40 | `module_math_old.f90` median_nocopy | NaN that are not removed: the search runs outside of the array | C41_median_nan_refuted |
| 41 | `module_math_old.f90` mad | with NaN, the elements copied over them are counted twice in the deviation | C41_mad_refuted |
| 42 | `module_sort.f90` uniq_double | an array of NaN has a unique value | C41_uniq_nan_refuted |
| 43 | `module_sort.f90` histogram | a sample out of the bins is counted outside of the array | C41_histogram_refuted |
| 44 | `module_sort.f90` QSORTID | NaN disorder a sorted array such as (0, 1, NaN) | C51_plain_refuted |
| 31 | `module_math_old.f90` sigma_clipping | the number of iterations is never incremented: limits other than 1 are ignored | C45_limit_refuted |
| 45 | `module_math_old.f90` shift_fast | a number of offsets that does not divide the number of columns: offsets read past their end, division by zero if there are more offsets than columns | C53_refuted |
| 28 | `module_pointingmatrix.f90` pmatrix_direct_one_pixel_per_sample; `operators.py` ProjectionBaseOperator.direct | samples without pixel, or of matrices without elements, keep the previous content of the output | C36_one_pixel_refuted, C37_stale_refuted |
| 28b | `pointingmatrix_old.f90` ptp_one | a sample without pixel writes array(-1) | C37_ptp_one_refuted |
| 29 | `module_pointingmatrix.f90` roi2pmatrix_cartesian and its wrapper | the flag of samples outside of the map is not initialised | C58_out_refuted |
| 46 | `operators.py` get_pTp | an array of booleans is handed to Fortran, which expects reals: always fails | C37_get_ptp_refuted |
| 47 | `operators.py` get_pTx_pT1 | the argument mask is refused (two or more samples) or ignored | C56_mask_refuted, C56_mask_one_refuted |
| 48 | `operators.py` intersects | FITS column 0 is found in every matrix with unused elements | C57_outside_refuted |
| 49 | `module_pointingmatrix.f90` pmatrix_pack | elements after the index -1 are not renumbered: the packed matrix may not be valid | C36_valid_refuted |
| 50 | `module_geometry.f90.j2` intersection_polygon_unity_square | parts of opposite orientation of a self-crossing polygon cancel: a pixel that is covered may be missing | C33_crossing_refuted |
| 51 | `projection.f90.j2` matrix_polygon_integration | the flag out (intent(out)) is set but never cleared: a polygon inside of the map is reported outside if the variable, undefined for Fortran, was true | C34_outside_refuted |
| 52 | `operators.py` RollOperator | no offset is accepted by the constructor, then fails with IndexError | C40_no_axis_refuted |
| 53 | `module_math.f90.j2` | NAN_8 and MINF_8 are tiny positive numbers, MINF_4 and PINF_4 finite | C62_module_math_refuted |
| 54 | `module_math_old.f90` | NaN, mInf and pInf are tiny positive numbers in double precision | C62_module_math_old_refuted |
| 55 | `datautils.f90.j2` profile_axisymmetric_2d | empty bins of double precision are not NaN; the number of the bin overflows for narrow bins; a negative width writes out of bounds | C42_nan_refuted, C42_overflow_refuted, C42_negative_refuted |
| 56 | `datautils.py` integrated_profile | the abscissae are mean distances instead of the documented upper boundaries | C42_boundary_refuted |
| 57 | `datautils.py` distance2, aperture_circular | three axes or more: np.sum is called with an array as axis, TypeError | C63_distance2_refuted |
| 58 | `datautils.py` distance | three axes or more: a centre without all its coordinates is accepted, axes without a coordinate are ignored | C63_center_refuted |
| 59 | `wcsutils.py` create_fitsheader | cd= always fails: the lines 284-286 replace it by the product of undefined scale and angle | C65_cd_refuted |
| 60 | `wcsutils.py` has_wcs | a header without axes raises ValueError | C65_no_axis_refuted |
| 61 | `wcsutils.py` create_fitsheader | with two scales of the same sign the rotation is opposite to the FITS convention | C65_direction_refuted |
| 62 | `module_wcs.f90` init_astrometry | CROTA2 is read with the opposite sign to the FITS standard and to get_cdelt_pa | C65_crota2_refuted |
| 63 | `module_wcs.f90` ad2xy_gnomonic | a direction behind the map falls on the pixel of its opposite | C66_antipode_refuted |
| 64 | `module_wcs.f90` projection_scale_gnomonic | uses the tangent of the resolution instead of the resolution | C66_pixel_scale_refuted |
| 65 | `wcsutils.f90` object2xy_minmax, minmax_degrees, barycenter_lonlat | start from constants that are not infinities or NaN: minima are about zero | C66_minmax_refuted, C67_minmax_refuted, C67_empty_refuted |
| 66 | `wcsutils.f90` object2pmatrix_sharp_edges | new_npixels_per_sample is shared by the threads without reduction: an update may be lost | C66_width_refuted |
| 67 | `wcsutils.f90` mean_degrees | angles 90 degrees apart across zero: the mean of 270 and 0 is 135 | C67_mean_refuted |
| 68 | `wcsutils.f90` angle_lonlat | arrays of different sizes are not refused: reads out of bounds | C67_sizes_refuted |
| 69 | `quantities.py` 764-781 | fmax and fmin convert nothing; float_power keeps the unit; copysign gives a number the unit of the second argument | C69_fmax_refuted, C69_float_power_refuted, C69_copysign_refuted |
| 70 | `quantities.py` 740, 804 | np.clip in the list is not the universal function: q.clip loses the unit and does not convert; so do positive, remainder, arctan2 | C69_other_refuted |
| 71 | `quantities.py` 797 | multiply.reduce (q.prod(), np.prod) raises IndexError | C69_prod_refuted |
| 72 | `quantities.py` 807-813 | out= keeps its former unit with the new values | C69_out_refuted |
| 73 | `quantities.py` 764-801 | floor, ceil, rint, trunc, floor_divide depend on the unit; exp and log take the magnitude of any unit; a number is taken in the unit of the other operand | C69_rounding_refuted, C69_exp_refuted, C69_number_refuted |
| 74 | `quantities.py` FUNCTIONS | np.clip does not convert its bounds; np.interp gives fp the unit of x; np.select does not convert the default | C70_clip_refuted, C70_interp_refuted, C70_select_refuted |
| 75 | `quantities.py` 520-525 | np.cov and np.where with one argument raise IndexError | C70_one_argument_refuted |
| 76 | `quantities.py` 675-700 | functions with a default rule that return several arrays lose the units | C70_several_refuted |
| 77 | `quantities.py` 879 | q[..., i]: the ellipsis is one slice short, the derived units of another axis are taken; None is counted as an axis; a leftward scalar raises IndexError | C71_ellipsis_refuted, C71_newaxis_refuted, C71_scalar_refuted |
| 78 | `datatypes.py` 1110-1117, 1188-1194 | tod[0, ...]: the setter's scalar case writes the mask of the item in the whole mask of the Tod, shared by the item | C72_scalar_item_refuted |
| 79 | `datatypes.py` Tod | reshape(()) and transposition keep the shape of the former mask; a Tod made from a masked array without mask has the scalar False as mask and its items raise IndexError | C72_reshape_refuted, C72_transpose_refuted, C72_masked_array_refuted |
| 80 | `datatypes.py` 1131-1133 | copy() and the results of operations share the mask: masking the copy masks the original | C73_copy_refuted |
| 81 | `datatypes.py` 1084-1087 | the constructor accepts a mask of any shape; mask=True gives a mask without dimension, after which slices raise IndexError | C73_constructor_refuted |
| 82 | `datatypes.py` 1153-1158 | np.sum of an all-masked Tod: a result without dimension with the mask of the argument | C74_all_masked_refuted |
| 83 | `datatypes.py`, `quantities.py` 838-848 | t.sum() ignores the mask, unlike np.sum(t); a + b forgets the mask of b; broadcast results have a mask of another shape; sort removes the mask | C74_method_refuted, C74_second_mask_refuted, C74_broadcast_refuted, C74_sort_refuted |
| 84 | `datatypes.py` 310-316 | a unit that was removed comes back from BUNIT in the header | C75_unit_refuted |
| 85 | `datatypes.py` 127, `quantities.py` 460-466 | a file of integers cannot be read with NumPy 2: conversion to float with copy=False | C75_integers_refuted |
| 86 | `datatypes.py` 663, 1069 | a file name given as a Path: coverage, error, origin and mask are not read | C75_path_refuted, C75_mask_path_refuted |
| 87 | `datatypes.py` 119-121, 943 | the derived units given by the caller are replaced by those of the file; Map.save writes DISPORIG in the header of the map | C75_derived_refuted, C75_save_refuted |
| 88 | `datatypes.py` 691-706 | coverage and error of any shape are accepted; transposed and reduced maps keep the former ones | C76_shape_refuted, C76_transpose_refuted |
| 89 | `bi.f90.j2` 14-41 | a pixel at the pole of the frame of the sky or of the instrument divides by zero: its polarisation element is not a number | C77_pole_refuted |
| 90 | `samplings.py` 94 | `SamplingEquatorial(ra, dec, pa=45)`: the angle given by keyword is replaced by 0 | C78_third_refuted |
| 91 | `samplings.py` 40 | `hasattr` on a dictionary: the period is never derived from the times, it is 1 | C78_period_refuted |
| 92 | `samplings.py` 104-106, 128 | angles of one element are broadcast for the shape and then refused; a scalar with an array has no coordinates; two scalars give one pair | C78_broadcast_refuted |
| 93 | `samplings.py` 163 | get_center writes zeros in coordinates assigned by the user | C78_center_stored_refuted |
| 94 | `samplings.py` 163 | masking by a product: a masked sample that is NaN makes the centre NaN | C78_center_nan_refuted |
| 95 | `samplings.py` 145-148 | velocity asks for an attribute that no class has; its vectors all have the norm 1 / period | C78_velocity_refuted, C78_speed_refuted |
| 96 | `noises.py` 44-45 and `instruments.py` 157, 257 | documented level of the spectrum sigma**2 / B with B = fs / N: the code has sigma**2 / fs, N times less | C79_documented_refuted |
| 97 | `noises.py` 172-174, 190-191 | a spectrum of two or three values: IndexError in the interpolation | C79_short_refuted |
| 98 | `instruments.py` 148, 232, `noises.py` 160 | get_invntt_operator of correlated noise with the default ncorr=None: TypeError | C80_default_refuted |
| 99 | `instruments.py` 331-334 | get_noise with one sigma per detector and a knee: all rows assigned to the row of each detector, ValueError; without knee it works | C80_detectors_refuted |
| 100 | `noises.py` 141-145 | _sampling2psd of an odd number of samples: last frequency above the sampling frequency, last power not doubled | C81_odd_refuted, C81_odd_power_refuted |
| 101 | `operators.py` 199-205 | block_diagonal with new_axisin and a shapein or shapeout: the result of np.delete is dropped, each block has the shape of the whole stack | C82_stack_refuted |
| 102 | `operators.py` 128-133, 166-170 | block_diagonal: partitions whose sizes do not add up to the shape of the whole are accepted; shapein given by position is not cut; an empty partition with sequences gives an operator without blocks | C82_sizes_refuted |
| 103 | `operators.py` 141-149 | block_diagonal: a partition variable given explicitly as None (the usual default) has no len(), TypeError | C82_none_refuted |
| 104 | `module_string.f90` 47 through `module_fitstools.f90` 63-70 | a keyword with the letter Z is not found when its case differs: BZERO is never found as bzero | C83_z_refuted |
| 105 | `module_fitstools.f90` 59 | with the additional character for which the code makes room, or an empty header, a keyword that is absent is read outside of the header | C83_terminator_refuted |
| 106 | `module_fitstools.f90` 324-335 | a string longer than the variable is written outside of it | C83_short_refuted |
| 107 | `module_fitstools.f90` 139, 170, 202 | an empty value is 0 or false; the value 12 34 is 1234; only the first 20 characters of an integer are read | C83_values_refuted |
| 108 | `module_wcs.f90` 93-106 | CUNIT is read and not used: coordinates in other units are taken as degrees | C84_unit_refuted |
| 109 | `module_wcs.f90` 113-140 | the matrix PCi_j, which astropy writes, is ignored without error | C84_pc_refuted |
| 110 | `module_wcs.f90` 142-148 | a tangent projection with the declination first is refused | C84_order_refuted |
| 111 | `wcsutils.f90` 231 | object2xy_minmax declares a header of 2880 characters: keywords after the 36th card are missing | C84_minmax_refuted |
| 112 | `madmap1.py` 183-195, `operators.py` 505 | the file has the fields (value, index) and PointingMatrix (index, value): NumPy assigns structured arrays by position, so that weights become pixel numbers and pixel numbers weights | C85_matrix_refuted |
| 113 | `madmap1.py` 123-133 | each block of the inverse noise receives the filters of all the blocks | C85_invntt_refuted |
| 114 | `madmap1.py` 53-58, 82 | the interval of the TOD file and those of the detectors after the first are not compared | C85_intervals_refuted |
| 115 | `madmap1.py` 203 | a truncated filter file is read without error | C85_truncated_refuted |
| 116 | `madmap1.py` 210 | the file name is not escaped in the regular expression: the filters of a_b are also those of a.b | C85_name_refuted |
| 117 | `madmap1.py` 74-75 | with an infinite missing value, the pixels of the other infinity are masked | C85_inf_refuted |
| 118 | `layouts.py` 231, `geometry.py` 101, 145 | a shape that is a list is accepted by the check and raises a TypeError in create_grid | C86_list_refuted |
| 119 | `layouts.py` 271-274 | vertices in another unit than the spacing are given its unit without conversion (and the unit of the array of the caller changes) | C86_vertex_refuted |
| 120 | `layouts.py` 320-324, `geometry.f90` 88-105 | with one reflection the corners are counted clockwise | C86_orientation_refuted |
| 121 | `healpy/operators.py` 48-51, 159-165, 209-211 | the composition from directions to pixels and back is replaced by the identity, although it moves directions to centres of pixels; same for the cartesian operators | C87_directions_refuted |
| 122 | `healpy/operators.py` 347-355 | maps without pixels pass the check of shapes | C87_empty_refuted |
| 123 | `healpy/operators.py` 385-387 | neighbours that share a side (SW, NW, NE, SE) have weight 1 and those that share a corner (W, N, E, S) weight 4, the stencil requires the opposite: the result is 3/2 of the laplacian | C88_laplacian_refuted |
| 124 | `healpy/operators.py` 380-387 | at pixels with seven neighbours the laplacian of a constant is not zero | C88_missing_refuted |
| 125 | `healpy/scenes.py` 122-125 | with absolute=True, Planck's law is applied to Q and U too: opposite values do not have opposite powers | C89_polarisation_refuted |
| 126 | `operators.py` 315-318 | the check of the reference frequency tests the frequency again: a reference that is an array is accepted | C90_reference_refuted |
| 127 | `operators.py` 250, 319 | beta, documented as array-like, is converted by float() | C90_beta_refuted |
| 128 | `operators.py` 670-688 | the unit of a dimensionless argument is not multiplied | C91_number_refuted |
| 129 | `operators.py` 670-688 | an argument whose unit is that of the input of the matrix becomes dimensionless, and the transpose does not give its unit back | C91_trip_refuted |
| 130 | `operators.py` 722-736 | the back projection of `get_pTx_pT1` has the unit of its argument, not divided by that of the projection | C91_back_projection_refuted |
| 131 | `operators.py` 613-634 | default derived units remove those of the argument | C91_default_derived_refuted |
| 132 | `operators.py` 1154-1156, 1172-1190 | `operation=operator.iadd` without `out` adds to uninitialised memory | C92_uninitialised_refuted |
| 133 | `datautils.py` 566 | the profile of the power spectrum density is centred one pixel after the zero frequency, whose density is not in the first ring | C93_profile_refuted, C93_constant_refuted |
| 134 | `operators.py` 858-866 | composing a projection of one pixel per sample with a diagonal operator of the shape of the samples raises ValueError | C94_diagonal_refuted |
| 135 | `quantities.py` 1290-1297 | the scale of the matrix PCi_j is forgotten in the area of the reference pixel | C95_pc_refuted |
| 136 | `quantities.py` 1290-1297 | a header that leaves out the elements of CDi_j that are zero, as it may, gives no area or that of CDELTi | C95_cd_refuted |
| 137 | `quantities.py` 1262-1269 | cubes whose third axis has no world coordinate have the area one, whatever the projection | C95_cube_refuted |
| 138 | `quantities.py` 1262-1275 | conversions of pixels raise for headers of arrays without dimension and of one dimension with world coordinates | C95_axes_refuted |
| 139 | `beams.py` 77-82 | the uniform half-space beam is one in both half spaces | C96_uniform_refuted |
| 140 | `beams.py` 59 | the solid angle of the gaussian beam is larger than its integral over the sphere | C96_gaussian_refuted |
| 141 | `acquisitions.py` 220-224 | `get_observation` adds the noise whatever the operation (subtraction, product) | C97_operation_refuted |
| 142 | `acquisitions.py` 227-245, 279-284 | with blocks that are not in increasing order the noise of other samplings is added | C97_blocks_refuted |
| 143 | `acquisitions.py` 279-284 | `get_noise` gives no parameter to the instrument, so that instruments that do not override it raise ValueError | C97_no_noise_model_refuted |
| 144 | `acquisitions.py` 189-197 | `pack` and `unpack` of acquisitions ignore `missing_value`, `out` and `copy` | C97_unpack_refuted |
| 145 | `wcsutils.f90` 303-312 | a detector that points to the half of the sky opposite to the map sees it with a negative weight | C98_antipode_refuted |
| 146 | `wcsutils.f90` 312 | the weight of the elements outside of the map, set to zero by `xy2pmatrix`, is overwritten | C98_outside_refuted |
| 147 | `module_math_old.f90` 853-856 | `shift_medium` reads offsets past their end or divides by zero unless their number divides that of planes | C99_planes_refuted |
| 148 | `module_sort.f90` 756 | `where_2d_1d` assigns its optional argument even if it is not present | C99_optional_refuted |
| 149 | `module_math_old.f90` 594 | `median_copy` without removal of NaN reads outside of the array when there are some | C99_median_copy_refuted |
| 150 | `sparse.py` 849-855 | `todense` of an operator of implicit shape removes the last dimension only: with several extra dimensions the dense form has too many rows and columns | C100_planes_refuted |
| 151 | `operators.py` 999 | the kernel of block matrices reads the field `r11`, which they do not have | C101_blocks_refuted |
| 152 | `operators.py` 999, 1057, `operators.f90.j2` 78 | three components: only the first value is tested, seen pixels may be reported in the kernel | C101_rotation_refuted |
| 153 | `operators.py` 1000-1001, 1059-1060 | without compiled code the kernel has one dimension and cannot be stored for inputs with several | C101_shape_refuted |
| 154 | `core.py` 758 | the size of a slice is rounded from 2^53 elements on, and elements are lost | C102_slices_refuted |
| 155 | `core.py` 294-307 | callable objects given as attributes: self is counted as a parameter, so that an object called with the table is not evaluated and one called without argument fails | C103_objects_refuted |
| 156 | `quantities.py` 1075-1079 | tounit and inunit apply leftward derived units along the first axes: square arrays are converted with the factors of the transpose, others raise ValueError | C104_leftward_refuted |
| 157 | `quantities.py` 1227-1240 | a derived unit with axes defined from another with axes: the second is aligned with the first instead of the array | C104_nested_refuted |
| 158 | `quantities.py` 1075-1080 | a slice converted in place multiplies the values of the array it comes from, which keeps its unit: q[:1].inunit("m") turns [1, 2] km into [1000, 2] km | C105_slice_refuted |
| 159 | `quantities.py` 464-472 | Quantity(q, unit, copy=False) is q itself: the unit of the caller is replaced and the values are not converted | C105_no_copy_refuted |
| 160 | `quantities.py` 460-466 | copy=False always fails for integers (ValueError with NumPy 2, which the list of ufuncs needs) | C105_no_copy_integers_refuted |
| 161 | `quantities.py` 237-238, 969 | a unit given as a dictionary is not copied: later changes by the caller change the unit of the quantity | C105_dictionary_refuted |
| 162 | `quantities.py` 1240 | a conversion writes the derived units of its quantity in the quantities of the table of the module: units["km"].SI is 3000 s after a conversion with m = 3 s as derived unit | C106_module_refuted |
| 163 | `quantities.py` 1240 | the derived units of a quantity given as derived unit are ignored by conversions and lost after them | C106_nested_refuted |
| 164 | `acquisitions.py` 168-173, `core.py` 311-312 | a slice that selects all the detectors (samplings) of a process gives the table of the acquisition itself, and its communicator is replaced by COMM_SELF in the acquisition that is selected in | C107_alias_refuted |
| 165 | `acquisitions.py` 168-182 | acq[:1] then acq[:, 0] with 3 detectors on 2 processes: the processes have different communicators and the collective calls of one of them wait for ever | C107_agree_refuted |
| 166 | `core.py` 374 | copy of a table always raises AttributeError: comm is a reserved attribute | C107_copy_refuted |
| 167 | `acquisitions.py` 127-143 | acq[:n] of a distributed acquisition selects the first n detectors of each process, not the first n detectors; the maps of the processes then differ | C108_selected_refuted |
| 168 | `datatypes.py` 159-161 | a keyword written in the header of a part (view, result) of an array is written in the header of the array, if the latter has been read before | C109_slice_refuted, C109_read_refuted |
| 169 | `datatypes.py` 139-148 | FitsArray(x, header=h, copy=False) is x itself, whose header becomes h | C109_nocopy_refuted |
| 170 | `datatypes.py` 202-205 | astype(bool), astype(complex) and astype of float16 raise KeyError when the header of the array exists, and only then | C109_astype_refuted |
| 171 | `datatypes.py` 159-161, 149-151 | the header of a part, of a product by a complex number and of a copy of an array of integers has the NAXISn or the BITPIX of the array it was made from | C109_describes_refuted |
| 172 | `sparse.py` 968-969 | restriction of an operator whose indices are unsigned integers: -1 cannot be stored in the new indices (NumPy 2), OverflowError | C19_unsigned_refuted |
| 173 | `sparse.py` 210-214 | the shape of the transposed product of a matrix of one row by a vector is that of a column | C100_one_row_refuted |
| 174 | `quantities.py` 874-875 | x[[i, j]] with a list: the derived unit of all the rows becomes that of the row i, since the list is made a tuple of integers | C110_list_refuted |
| 175 | `quantities.py` 877-887 | x[x > 0] with two dimensions and a rightward derived unit of one dimension raises IndexError; a leftward one gets the unit of the column k for the element k | C110_mask_refuted, C110_mask_leftward_refuted |
| 176 | `quantities.py` 899-902 | x[i, :, j] with index arrays (or one integer): the axis of the arrays is the first of the result, the leftward unit is taken as if it were the last | C110_separated_refuted, C110_separated_integer_refuted |
| 177 | `quantities.py` 881-885 | key.index(Ellipsis) stops at an array of several elements: x[[3, 1], ..., 0] has the units of another column, or units that can not be broadcast | C110_ellipsis_refuted |
| 178 | `quantities.py` 869-870, 900-910, 985-990 | q[i] with a derived unit for each row: the derived unit of the row is a number of NumPy without its unit; tounit raises UnitError for every unit, SI raises AttributeError | C110_row_refuted |
| 179 | `quantities.py` 899-902, 985-999 | a function is accepted as a derived unit whose name has brackets, every item raises AttributeError then | C110_function_refuted |
| 180 | `sparse.f90.j2` 16-182 | column formats in binary64: 2^53 + 1 + 1 is 2^53 or 2^53 + 2 depending on the schedule of the threads | C111_columns_refuted |
| 181 | `module_math_old.f90` 276-288 | compensated sums in binary64: 1 + 2^55 + 1 - 2^55 is 0, not 2: a term larger than the running sum is not compensated | C112_cancellation_refuted |
| 182 | `module_math_old.f90` 186-208 | equal samples in binary64: the mean of three 2^53-2 is 2^53-3, the variance 3/2, skewness and kurtosis are numbers instead of NaN | C113_constant_refuted |
| 183 | `module_operators.f90.j2` 526-530 | time constants from 2^26 samples on in binary32 (2^55 in binary64): exp(-1/tau) rounds to 1, the transpose divides by zero, the direct response repeats the first sample | C114_long_refuted |
| 184 | `acquisitions.py` 354 | a flag named KEEP, MASK or REMOVE is accepted, hides the attribute of the class, and `np.array(policy)` raises ValueError when the value of that name is in use | C115_reserved_refuted |
| 185 | `acquisitions.py` 338-350 | a flag stated twice is accepted; the array has the last value at both places | C115_repeated_refuted |
| 186 | `acquisitions.py` 339 | an empty flag (trailing comma) raises IndexError | C115_refused |
| 187 | `wcsutils.py` 715, 743 | `output.reshape((-1, 2))` is a copy when the first axes of the output do not merge (such as `big[:, :2, :]`): the output is left unchanged | C116_wcs_refuted, C116_wcs_lost |
| 188 | `sparse.py` 959-965 | `restrict(inplace=True)` of a matrix whose data is not contiguous renumbers a copy: the number of columns changes, the indices do not | C116_restrict_refuted, C116_restrict_lost |
| 189 | `sparse.py` 960 | `restrict(inplace=True)` raises ValueError when the last axis of data is not contiguous | C116_restrict_raises |
| 190 | `operators.py` 1097, 1186-1187, 744-753 | pT1, pTx_pT1 and get_pTx_pT1 add to `out.ravel()`, a copy when `out` is not contiguous: it is left at zero, or unchanged | C116_pT1_refuted, C116_pT1_lost |
| 191 | `operators.py` 655-668 | the transpose of a projection in memory sets the output to zero before the wrapper refuses it because it is not contiguous | C116_erased_refuted, C116_transpose |
| 192 | `operators.py` 643-651 | `np.empty_like(output)` keeps the order of the axes: the copy made because the output is not contiguous is refused when the strides increase | C116_direct_refuted, C116_direct |
| 193 | `geometry.py` 319-322 | the matrix of a rotation is converted to the type of the coordinates: integer points (`rotate([1, 0], 45)`) are all sent to the origin unless the angle is a multiple of 90 degrees | C117_other_angles, C117_rotate_refuted |
| 194 | `geometry.py` 183-186, 247-250 | with an integer dtype the half sizes become zero: rectangles and squares are points | C117_rectangle, C117_rectangle_refuted |
| 195 | `module_pointingmatrix.f90` 305-537 | sizes are copied to default integers: with 2^31 to 2^32 - 1 samples the projection does not write its output and the back projection is zero; from 2^32 on only the first samples are projected | C119_sizes_refuted, C119_first_refuted, C119_witness_refuted |
| 196 | `module_pointingmatrix.f90` 642 | the index of a pixel overflows in maps of more than 2^31 pixels | C119_index_refuted |
| 197 | `noises.py` 16-24, 78-79 | the one-sided 1/f spectrum: the value at the Nyquist frequency is that of the frequency before it (even numbers of samples), and one or two samples raise IndexError | C79_nyquist_refuted, C79_few_refuted |
| 198 | `wcsutils.f90` 365-368 | detectors that look away from the map, behind the tangent plane, are given pixels of the map with positive values, and the flag of what is outside of the map is not set | C120_behind_refuted |
| 199 | `module_pointingmatrix.f90` 361-368 | in binary64 the map of a back projection beyond 2^53 depends on the order of the atomic additions of the threads (2^53 or 2^53 + 2 for the same three samples) | C121_order_refuted |
| 200 | `datautils.py` 207, 236 | `distance2` gives the squared distance the unit of the scale instead of its square | C122_distance2_refuted |
| 201 | `datautils.py` 89-91 | `aperture_circular` with a diameter in the unit of the scale raises UnitError, since the square of the radius is compared with a squared distance of the wrong unit; without unit for the diameter, the mask has the unit of the scale | C122_aperture_refuted, C122_aperture_partial |
| 202 | `datautils.py` 60-65 | `airy_disk` ignores the unit of the width: with a scale in arcseconds, one arcminute is one arcsecond | C122_airy_refuted |
| 203 | `datautils.py` 484, 499 | `profile` ignores the unit of the bins: with a scale in arcseconds, bins of one arcminute are bins of one arcsecond | C122_profile_refuted |
| 204 | `scenes.py` 157-178 | `SceneGrid.fromfits(header, startswith1=True)`: the number given by `to1d` to the column and the row of an element is never its index, and is out of the map for the last one | C123_startswith1_refuted |
| 205 | `scenes.py` 206-207 | `get_integration_operator` of a scene of shape (ny, nx, n) with ndim=2 raises "The scene has removed elements" although none is (`len(self.all)` counts the other axes) | C123_extra_refuted |
| 206 | `packedtables/core.py` 650-665 | with a removed element, attributes that are dates or durations cannot be unpacked (KeyError), nor structured ones with an array inside of a field (AttributeError) or with a title (ValueError) | C124_types_refuted |
| 207 | `flib/bi.f90.j2` 20, 36 | `1 / sqrt(1 - z**2)` cancels near the poles: the direction 2^-27 radians away from a pole has z = 1 in real64 and its element is not finite, although its first two components are exact (x / sqrt(x**2 + y**2) would be right) | C126_pole_refuted |
| 208 | `flib/module_geometry.f90.j2` 79, 87, 93, 98 | the contributions of the edges are rounded and do not cancel: a pixel that the polygon does not touch gets an element (2^-54 in real64), since the values are compared with zero (`projection.f90.j2` 58) | C127_untouched_refuted |
| 209 | `wcsutils.py` 556-562, 585 | without rotation the first coordinate of the instrument goes along the increasing right ascensions, it is documented to go along the decreasing ones | C66_east_refuted |
| 210 | `datatypes.py` 877-886 | `Map.imshow` does not pass the interpolation on: it is always nearest for maps without astrometry or without kapteyn | C128_interpolation_refuted |
| 211 | `datatypes.py` 910-915 | `Map.imshow(new_figure=False)` with astrometry and kapteyn fails: `fig` has no value (UnboundLocalError) | C128_figure_refuted |
| 212 | `datatypes.py` 486-538 | `ds9(new=False)` fails when a ds9 is running: its name is put in `id` and that of `id_` is read (UnboundLocalError) | C128_current_refuted |
| 213 | `beams.py` 59 | (with 140) the solid angle of a gaussian beam is never that of the beam on the sphere; it is more than 4 pi for a width of 4 rad | C64_solid_angle_refuted |
| 214 | `datatypes.py` 906-907 | `Map.imshow` with astrometry and kapteyn never draws the color bar asked for (marked FIX ME in the code) | C128_colorbar_refuted |
| 215 | `instruments.py` 360-362 | an imager given both transforms ignores `image2object`, even if it is not the inverse of the other | C129_both_refuted |
| 216 | `instruments.py` 35-41, 359 | an imager whose name is None has no detector: the layout becomes its name | C129_anonymous_refuted |
| 217 | `instruments.py` 64-72 | `pack` and `unpack` have the documentation of the layout but refuse its keywords | C129_keywords_refuted |
| 218 | `operators.py` 447-453 | the documented example of the power law has wrong values (2.75e-11 instead of 1.1) | C90_documentation_refuted |
| 219 | `datatypes.py` 346 | `imsave` of a map with astrometry always fails when kapteyn is installed (211), and leaves matplotlib in the mode that is not interactive | C130_imsave_refuted |
| 220 | `datautils.py` 286 | `ds9(map, origin=...)` changes the origin of the map it displays, which `save` then writes in the file | C130_origin_refuted |
| 221 | `datautils.py` 286 | `ds9(array)` refuses arrays that are not in C order, such as transposed ones (NumPy 2: copy=False and order C) | C130_order_refuted |
| 222 | `datatypes.py` 542-543 | integers of 64 bits are given to ds9 modulo 2^32 | C130_integers_refuted |
| 223 | `datautils.py` 432-433 | `plot_tod` raises for no detector | C130_no_detector_refuted |
| 224 | `samplings.py` 275, `acquisitions.py` 302 | `plot()` without map or header fails: samplings have no method `get_map_header` (AttributeError) | C131_header_refuted |
| 225 | `samplings.py` 271-273 | `plot(map, new_figure=False)` fails over a map with astrometry (211) | C131_figure_refuted |
| 226 | `samplings.py` 258-259 | a mask of integers erases the pointings number 0 and 1 instead of those whose flag is set | C131_integers_refuted |
| 227 | `geometry.f90` 178 | the surface of a small polygon far from the origin is lost: half a unit at (2^27, 2^27) is found 0; differences with a vertex are not taken first | C133_translation_refuted |
| 228 | `operators.py` 1379 | with a tiny negative argument the remainder modulo 24 rounds to 24: a Greenwich sidereal time of 0 and a longitude of -15 2^-60 degrees give a local sidereal time of 24, not below 24 | C135_range_refuted |
| 229 | `datatypes.py` 1298-1305 | the text of time-ordered data of shape (2, 3, 4) tells 3 detectors instead of 6; without any it tells 0 detector, 0 sample | C136_detectors_refuted, C136_none_refuted |
| 230 | `packedtables/core.py` 361-362 | attributes of two dimensions, such as the centers of a layout, break the lines of the text of a table, and values that differ after 65 characters have the same text | C136_lines_refuted, C136_values_refuted |
| 231 | `wcsutils.py` 496 | `str2fitsheader` calls `header.ascard()`: headers of astropy have no such attribute, and it was a list in old versions, so that the function always fails | C137_header_refuted |
| 232 | `wcsutils.py` 500 | a card whose keyword only starts with END (ENDDATE) would end the header | C137_end_refuted |
| 233 | `wcsutils.py` 529 | scalar coordinates of a distortion give an IndexError instead of the ValueError of the check | C137_scalar_refuted |
| 234 | `packedtables/layouts.py` 124-127 | the colours of three components given as a tuple of grey levels ('0.1', '0.5', '0.9') are taken for one RGB colour, which matplotlib refuses since its levels are texts | C138_grey_refuted |
| 235 | `packedtables/layouts.py` 102 | the units of the radius and of the centres are dropped without conversion: a radius of 1 mm around centres in metres is drawn as 1 m | C138_units_refuted |
| 236 | `packedtables/layouts.py` 153-166 | edgecolor, facecolor and fill are silently dropped for components drawn as markers | C138_markers_refuted |
| 237 | `interfaces/healpy/operators.py` 47-50 | Healpix2CartesianOperator composed with Cartesian2HealpixOperator is replaced by the identity in both orders: vectors that are not the centres of pixels are kept, instead of being moved to the centres | C139_vectors_refuted |
| 238 | `wcsutils.py` 575-588 | RotationBoresightEquatorialOperator does not validate its input: a third coordinate gives a third result that is not initialised, scalars and single coordinates raise IndexError | C139_boresight_refuted |
| 239 | `noises.py` 197 | in double precision, the interpolation at a node need not give the value of the node: with the nodes 0 and 5 and the value y = (2^55 + 12) / 5 at 5, the interpolated value at 5 is y + 1, the next number | `C142_node_refuted` |
| 240 | `module_math_old.f90` 508 | the argument of the arccosine is not limited to [-1, 1]: in double precision the angle between a position at the latitude of 8 degrees and itself is NaN (the sum of the squares of the rounded cosine and sine is 1 + 2^-52) | `C143_self_refuted` |
| 241 | `wcsutils.f90` 111 | the remainder of a tiny negative number is rounded to the divisor: the mean of the double precision number just below 360 and three zeros is 360, not in [0, 360) | `C144_range_refuted` |
| 242 | `wcsutils.f90` 99-101 | the remainder of -90 + 2^-46 is rounded to 270, which is not above 270: the mean with 0 is 135 instead of -45 | `C144_arc_refuted` |
| 243 | `wcsutils.f90` 69 | the latitude of the barycentre is an arccosine, which loses half of the digits near the equator: in double precision the barycentre of one position at the latitude of 2^-21 degrees is at the latitude 0 | `C145_equator_refuted` |
| 244 | `datautils.f90.j2` 142 | the quotient of the distance by the width of the bins is rounded before it is truncated: in double precision with a width of 0.1, the pixel at the distance 3 is put in bin 30 although 3 is less than 30 times the width | `C146_ring_refuted` |
| 245 | `wcsutils.f90` 137-138 | in double precision too, the constants which are not infinities are among the samples: the minimum of the single angle 10 is at most 1 | `C147_minmax_refuted` |
| 246 | `datautils.f90.j2` 51-59 | the distances on two axes are roots of sums of squares without scaling: in double precision with scales of 2^-540 they are all 0, while those on one axis are right | `C148_underflow_refuted` |
| 247 | `datautils.py` 89-90 | rounding decides for the pixels on the circle: with exact data, scale 2^28 + 3 and a radius of five pixels, the fifth pixel is left out although its distance is the radius, while the first is kept for a radius of one pixel | C150_circle_refuted |
