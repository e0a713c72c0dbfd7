# Design

Formal model of NOAA-GFDL/FRE-NCtools in Rocq (Coq 8.16.1), sources in `rocq/theories`.

## Layout

* `M_X.v` is the model of one part of the code. Every definition cites the file and lines in /repo it models and says where it simplifies.
* `Spec_X.v` holds the vocabulary needed to state the properties: predicates written from the English property, not from the code.
* `P_X.v` holds proofs only.
* `T_X.v` holds the property theorems (`Cnn_...`), each with a `Print Assumptions` and a concrete `Example` that meets its hypotheses.
* `Base.v`, `Loops.v`, `Lst.v`, `Vec.v`, `Grid2.v`, `Shape.v`, `Tiles.v`, `Str.v` hold shared tools: outcomes, loops, arrays, strings.

## Conventions

* A program part is a total function into `outcome`: `Ok x`, `Err n` (the program stops with an error) or `UB` (undefined behaviour: access outside an array, read of an uninitialised value, division by zero).
* C and Fortran integers are `Z` and do not overflow, unless the property is about overflow (then said so). Arrays are lists with bounds-checked access.
* Data that is only copied has an arbitrary type. Floating-point arithmetic is exact real arithmetic where the property is an algebraic law. C25 (latitudes) and C26 hold for every arithmetic structure, hence for rounded doubles as well. C06 models single-precision rounding of the quotient that decides an integer.
* NetCDF files are records of dimensions, attributes and variables. The NetCDF library, MPI and the operating system are trusted.
* A property that is false of the code has a `_refuted` theorem with a concrete witness, next to the strongest true version. If that version leaves part of the property open its name ends in `_partial`.

## Trusted base

* Coq's kernel (8.16.1), including its virtual machine (`vm_compute` is used in some proofs), and `coqc`.
* No axioms of our own, no switched off kernel checks, no `Admitted`. No functors or module types.
* The axioms of the standard library that `Print Assumptions` lists are those of the real numbers:
  * `ClassicalDedekindReals.sig_forall_dec`
  * `ClassicalDedekindReals.sig_not_dec`
  * `FunctionalExtensionality.functional_extensionality_dep`
  * `Classical_Prop.classic` (through trigonometric lemmas of the standard library)
* The table below says which theorem uses which.
* The models themselves: that each definition says what the cited lines do. They were written by hand from the source text. The code was neither built nor run.
* What the models leave out; see below.

## Plan and result per property

| id | property | how it is modelled and proved | status |
|---|---|---|---|
| C01 | 1-D extents tile the index range | `M_Extent`: the loop with arrays as lists and an error outcome; invariant over remaining points and divisions. | proved |
| C02 | 1-D extents are balanced | Same model; invariant bounds on ceil(remaining points / remaining divisions). | proved |
| C03 | Symmetric decompositions are mirror images | Same model; the mirror slots written by the first half are read back by the second half. | proved |
| C04 | Default layout uses all processors | `M_Extent`: the integer part of the layout algorithm, started from an arbitrary divisor (the float square root is a parameter); product law. | proved |
| C05 | 2-D decomposition assigns each point to exactly one processor and global gather restores the field | `M_Domain2D`: compute domains built from the extents of C01; gather as the index loops of the code; partition and round trip. | proved |
| C06 | Scatter extents partition a dimension, also when grouped by an I/O layout | `M_ScatterExt`: the unsigned, single-precision copy of the algorithm; refinement to C01 for n <= 2^24; grouping by I/O layout. | partial |
| C07 | Sub-block extraction copies exactly the requested block | `M_Hyperslab`: nested index loops with bounds-checked reads; block characterisation per rank. | partial |
| C08 | Combining the pieces written by scatter restores the original variable | `M_Scatter` + `M_Combine`: whole programs composed; every piece characterised, then C09. | partial |
| C09 | Combine places every tile at its recorded position | `M_Combine`: whole program; buffer placement characterised pointwise, then the record, block and file loops. | partial |
| C10 | Combine does not depend on file order | Same model; permutation of files with disjoint tiles. | proved |
| C11 | Combine does not depend on the blocking factor | Same model; the flushes of the block loop write the same values as a factor of one. | proved |
| C12 | Inputs are removed only if they were combined | Same model, file set before and after main. | partial |
| C13 | Any combine error is reported and protects the inputs | Same model; two-run simulation with and without failing writes; error counter modulo 256. | partial |
| C14 | A gap in the input sequence is an error unless -f is given | Same model; the three ways of naming the inputs. For -f the run over a set with gaps is shown equal to the run in which every gap is a piece without elements (P_CombineGap). | partial |
| C15 | mppncscatter options are independent | `M_ScatterOpt`: option loop with the fall-through. | partial |
| C16 | Output file numbers are unique and recognisable | `M_ScatterName`: snprintf formatting over character lists; injectivity, agreement with the names the combiner tries. | partial |
| C17 | String-list set operations are exact | `M_StrList`: slot arrays as lists of optional strings. | proved |
| C18 | Decompression puts each packed value at its index and nowhere else | `M_Compress`: unpack loop; pointwise characterisation by an invariant. | proved |
| C19 | Packing then unpacking is the identity on packed points | `M_Compress`: pack loop; round trip. | partial |
| C20 | combine-ncc yields a sorted, complete, duplicate-preserving index | `M_Ncc`: merge sort with aliased storage; sortedness, permutation. | proved |
| C21 | scatter-ncc followed by combine-ncc is the identity | `M_Ncc`: scatter-ncc composed with combine-ncc. | proved |
| C22 | Decompressing several files composes | `M_Compress`: iteration over files. | partial |
| C23 | check_mask masks exactly the all-land domains | `M_CheckMask`: halo fill, scan and table; equivalence with an existential specification. | partial |
| C24 | check_mask reports a layout as valid iff no open boundary is cut | `M_CheckMask`: open boundary loop. | partial |
| C25 | Clipping a polygon against a box stays inside the box and inside the polygon | `M_Clip`: four Sutherland-Hodgman stages over an arbitrary arithmetic; instantiated with R. | proved |
| C26 | Clipping never overflows its fixed-size vertex buffers | `M_Clip`: length bounds for any arithmetic, as no store outside the arrays. | proved |
| C27 | Clipping against adjacent cells conserves area | `M_Clip`: edge-additive functional; split law; induction over the boxes of a grid. | proved |
| C28 | Exchange grid does not depend on the number of threads | `M_Xgrid`: block partition and threads as interleaved single steps (increment, test, store); any schedule. | partial |
| C29 | Exchange-grid output arrays are never overrun | `M_Xgrid`: bounded stores. | partial |
| C30 | First-order conservative remapping conserves the integral, preserves constants and creates no new extrema | `M_Interp`: accumulation loops over R. | proved |
| C31 | nearest_index returns a nearest element | `M_Interp`: the scan of nearest_index over R. | proved |
| C32 | Linear vertical interpolation is exact on linear data and creates no new extrema | `M_Interp`: vertical interpolation over R. | proved |
| C33 | The monotone cubic spline interpolates and is monotone | `M_Interp`: slopes and cubic over R; monotonicity of the Hermite cubic. | partial |
| C34 | Generated 1-D grids hit the requested bounds, have the requested size and increase strictly | `M_GridBound` on top of C33. | partial |
| C35 | Contact strings survive a write/read round trip | `M_Contact`: printf and atoi over strings, tokenizer of C36. | proved |
| C36 | Tokenizing inverts joining | `M_Contact`: character loop of tokenize. | proved |
| C37 | Supergrid contact indices convert consistently to model indices | `M_Contact`: integer arithmetic with C division. | proved |
| C38 | Model grid data is the exact subsampling of the supergrid | `M_Supergrid`: index loops. | proved |
| C39 | Boundary contacts match coincident points | `M_AlignContact`: boundary scan over R. | partial |
| C40 | runoff_regrid conserves total runoff and leaves none on land | `M_Runoff`: array loops over R. | proved |
| C41 | nearest ocean search returns the nearest ocean point | `M_Runoff`: scan with running minimum. | proved |
| C42 | Index sort returns a sorted permutation | `M_QsortIndex`: in-place partition loops with fuel, shown sufficient. | proved |
| C43 | Basin numbering is a bijection ordered by drainage area | `M_River` (sort_basin) on top of C42. | proved |
| C44 | Every river cell gets the basin of its outlet and its travel distance | `M_River`: sweeps over an abstract network; the fuel is shown sufficient. | partial |
| C45 | Drainage area is the sum over all upstream cells | `M_River`: accumulation by descending travel. | partial |
| C46 | River flow directions always descend towards larger drainage | `M_River`: neighbour scan; strict growth of drainage along the flow. | proved |
| C47 | Cyclic halo update wraps correctly | `M_River`: writes of the halo loops on flat arrays. | partial |
| C48 | Time average is the weighted mean of valid data | `M_TimeAvg`: accumulation per point over R. | proved |
| C49 | Each file's average does not depend on the other files | `M_TimeAvg`: state carried from file to file. | partial |
| C50 | combine_restarts dry run changes nothing | `M_Restarts`: directory as a list of names with contents, steps of the script, called programs as parameters. | partial |
| C51 | iceberg_comb accepts exactly complete consistent sets and keeps every iceberg | `M_Iceberg`: checks and concatenation. | partial |
| C52 | ncexists answers existence exactly | `M_NcExists`: option loop and query. | proved |
| C53 | Land domain tables list exactly the land cells | `M_LandDomain`: masks, tile counts, consistency check and packing. | partial |
| C54 | Longitude normalisation returns an equivalent longitude in range | `M_Longitude` and fix_lon of `M_Clip` over R. | partial |
| C55 | 3x3 inversion, line/plane intersection and pole rotation are exact | `M_Matrix` over R, ring and field. | proved |
| C56 | Longitude/latitude to Cartesian and back, rotated polygons | `M_Matrix` over R with sin, cos, asin, atan. | proved |
| C57 | Conservative regridding gives weighted means and conserves the total | `M_Fregrid`: the accumulation loops of all methods over R; sums per output cell, exchange of the order of summation for the totals. | partial |
| C58 | The monotone limiter creates no new extremes and conserves the total | `M_Fregrid`: the limiter; invariant for the extremes, one factor in [0,1] per input cell and output tile. | partial |
| C59 | The exchange grid keeps every overlap and centres it on its input cell | Model `setup` (M_Remap.v): clipping of one (output tile, input tile) pair on one processor is a parameter; appending to the growing arrays, the per-input-cell sums of area and first moments over all output tiles, the sum over processors, the 1e-3 area test and the subtraction are modelled. `C59_cells` gives the arrays exactly; `C59_centred` the zero average; `C59_conserved` feeds it to `C57_conserved`. | proved |
| C60 | A saved exchange grid gives the same regridding when read back | Models `write_file`, `read_file` and `reuse` (M_Remap.v): the gather of the columns over processors, 1-based indices, area scaling by the sphere area, the order flag; the reader filters by its own part. Round trip proved column by column (`C60_read`), then for equal (`C60_same_division`) and arbitrary (`C60_any_division`) divisions. | partial |
| C61 | Vertical regridding interpolates linearly and extends by the end levels | Models `setup_vertical_interp`, `do_vertical_interp` over real numbers (M_Vert.v) with the already modelled `linear_vertical_interp`. `C61_levels` gives the value of every output level from `column_value` (Spec_Vert.v), under the hypothesis that at least one output level lies within the range of the source levels. The other cases are refuted: `C61_gap_refuted`, `C61_outside_refuted`. | partial |
| C62 | Extrapolation fills missing values from their neighbours and keeps the others | Models `do_extrapolate` (M_Extrap.v) over real numbers, with what it prints. An invariant of every element of the padded array (bounds by the valid data and 0, zero beyond the edges, valid cells untouched) is kept by every pass because the coefficients are non-negative and sum to 1; the balance at the end follows from the last pass. The weights of Laplace's equation are stated in Spec_Extrap.v. "Within the range of the valid data" is false (`C62_range_refuted`, `C62_small_refuted`); with 0 added to the range it is proved (`C62_bounds`). | partial |
| C63 | Vector regridding keeps directions | M_Vector models the filling of cosrot/sinrot/rotate for input and output tiles and do_vector_conserve_interp (turn in place, accumulate, divide, turn back). C63_values_partial: by the accumulation lemma for exchange cells and c^2+s^2=1. The input angles are refuted for every grid (C63_input_angle_refuted). | partial |
| C64 | Halo points get the neighbour's values | M_Mhalo models get_contact_direction, setup_boundary and update_halo with the buffer filled and emptied in the loop order of the four rotations. C64_exchange_partial: invariant over all boundaries of all tiles (interior unchanged, halo points done so far right); the specification walks both ends of a contact from start to end and knows nothing of rotations. | partial |
| C65 | Smoothing the topography keeps coast, border and range of depths | The nine-point sum with the land mask, the passes and the copy to the local part are modelled; the nested loops are shown to compute iterates of a pointwise filter, and the invariants are proved by induction on the passes from positivity of the weights (which add up to 1). | proved |
| C66 | Depth and number of levels of every column agree after make_topog adjusted them | All steps of process_topo are modelled on arrays with halo. Each sweep is shown to act as a function on cells (`cell0`, `cell1`, `cell2` in P_Topog3.v), and an invariant linking depth and level is carried through the steps. | proved |
| C67 | No isolated ocean cells remain | The in-place sweep is shown to equal the simultaneous one; the four-cell minima and maxima are translated to the corner condition of Spec_Topog.v; monotonicity of the later steps keeps it. | partial |
| C68 | The land mask is kept when asked | By following an ocean cell through the steps. | proved |
| C69 | Remapped land tiles are those of the nearest source cell | Model of the whole path from land restart files to written variables: reading tiles per cell, search, mapping, compression per processor, gathering (M_RemapLand). The specification lists the tiles of the file directly (file_order in Spec_RemapLand). Proof: loop invariants of each stage (P_RemapLand to P_RemapLand7). | partial |
| C70 | Remapped land tiles keep the fractions of the cold restart | Same model; the fraction of a tile is specified by dest_frac, the sum over a kind by algebra on finite sums. | proved |
| C71 | remap_land finds the nearest tile of each kind or stops | Search loop invariant: the smallest of all distances seen so far; existence by taking the result of the search itself. | partial |
| C72 | make_coupler_mosaic finds every exchange cell once, on any number of processors | Doubles are reals, polygons lists of points, and clip_2dx2d, poly_area and fix_lon parameters with the properties of Record sound. M_Coupler.v models the loops with their search ranges, bounding-box tests, thresholds, the list of pieces and the gathering of the processors. Spec_Coupler.v writes the exchange grid as a list comprehension over all pairs of cells without ranges or boxes; P_Coupler*.v prove by invariants of the loops that the program gives that list. | partial |
| C73 | make_coupler_mosaic conserves area and the ocean fraction | Sums over the lists of C72, exchanged and compared with the common areas; the hypotheses on the geometry (tiled, disjoint, under_air) say that the grids cover each other or do not overlap. tile_sum, atm_sum, ocean_mask and land_mask model the loops of the program. | partial |
| C74 | make_coupler_mosaic finds every exchange cell between land or wave and ocean | The same specification with the land or wave grid as first grid; the range of rows needs a row strictly between the latitudes of the cells of a processor, which is the hypothesis; a small example with two processors refutes the rest. | partial |
| C75 | plevel interpolates linearly in the logarithm of pressure | M_Plevel.v models one column over the reals; C75_interpolation by induction over the search for the level, the mean pressure of a layer lies inside by the strict concavity of the logarithm; exactness, bounds and log-linear exactness follow from the line; a column with one level with data reads outside the array (C75_one_level_refuted). | partial |
| C76 | plevel masks what lies below the data, and only that | set_up_input_mask runs over all columns from the lowest level up: invariant on the levels found so far (C76_levels_with_data); C76_masked composes unpacking, interpolation, masking and packing; four refutations with concrete columns. | partial |
| C77 | plevel heights are hydrostatic; temperature and humidity are continued below the ground by lapse rate and relative humidity | C77_heights by an invariant of the loop from the surface up (half-level geopotential); C77_isothermal sums the layers; the extrapolations are solved for the lapse rate and the relative humidity; the table is shown to be defined for all its indices. | partial |
| C78 | plevel computes the sea level pressure of each column from that column | Fold over the columns with the level and sigma carried along as in the code (undefined before they are set); C78_sea_level_pressure by induction over the columns. | partial |
| C79 | plevel keeps packed data | Direct, with nint as floor of x + 1/2 away from zero. | proved |
| C80 | The rectangular grids of make_hgrid tile their region with the right lengths and areas | M_Hgrid.v models the creation of the four kinds of grid over the reals, on top of compute_grid_bound (C34). Spec_Hgrid.v says when the input is valid, what the grid lines are and what it means that an array is a table of rows. Lengths and areas are given in closed form; the sum of the areas telescopes in both directions. | partial |
| C81 | The tripolar grid of make_hgrid joins the regular grid and folds onto itself | The transformation is rewritten with the angle and the distance of the point on the cap (P_Tripolar.v): latitude and longitude become explicit monotone functions of the nominal ones, and the tolerances of tp_trans and the turns of lon_in_range are followed along a row by induction from west to east (P_Tripolar2.v, P_Tripolar3.v). The theorems speak about the arrays of the grid only. | partial |
| C82 | The six tiles of a cubed-sphere grid share their edges exactly | M_Cubic models the loops that copy the edges from tile to tile, the filling of the supergrid, the lengths and the loop that copies lengths, over arrays of values of any type. P_Cubic proves a general lemma on loops of assignments inside one array (destinations distinct and disjoint from the sources) and composes the five loops; the twelve edges are those of Spec_Cubic.cube_edges, which C82_closed shows to use each of the 24 sides once. P_Cubic2/3: the supergrid as a function of the corners by parity, edges of the supergrid from those of the corners, lengths. | proved |
| C83 | The points of a gnomonic cubed-sphere grid are those of a regularly divided cube | M_Gnomonic models gnomonic_ed, symm_ed, rot_3d, mirror_grid and the adjusting loop over the reals, array by array. Spec_Gnomonic states the six faces of the cube, the division of an edge and the direction of a longitude and latitude. P_Gnomonic: the division (values, monotony, a lower bound on the distance from the middle). P_Gnomonic2/3: the edges of the first tile on the sphere and back on the cube, the plane, and that symm_ed rewrites every value by itself. P_Gnomonic4/5: each tile is the first one rotated, with the cases at the poles and in the middle rows. P_Gnomonic6: a direction determines longitude and latitude, edges, spacing, covering. | partial |
| C84 | Stretching a cubed-sphere grid zooms in on the target and rotates the rest | M_Schmidt models direct_transform and cube_transform point by point and the loops over the six tiles. Spec_Schmidt states the stretching of a latitude and the turn of the sphere by the frame (north, east, up) at the target. P_Schmidt: the argument of asin is in range and gives the stretched latitude, half-angle form, the turn is a rotation (nsatz), atan2 and the wrap of the longitude, the loops. | partial |
| C85 | Bilinear interpolation gives a mean of the surrounding source cells, weighted by distance | M_Bilinear models get_closest_index, the weights of setup_bilinear_interp (dist2side, spherical_angle), do_c2l_interp and the scalar and vector drivers. Spec_Bilinear states the distance of a point from a great circle, the product weights (weights of the cells that exist) and the treatment of missing values. P_Bilinear: the angle computed by spherical_angle is the angle of the sphere, so that dist2side is the distance; P_Bilinear2: the loops and the case analysis over existing cells. | partial |
| C86 | Averaging from a finer grid keeps the range and the position of the field | M_Bilinear models redu2x and do_latlon_coarsening; P_Coarsen proves by induction over the loops that the result is mean_area of Spec_Bilinear; T_Coarsen composes steps by induction over their number. | partial |
| C87 | A nested grid divides the cells of its parent | M_Nest models spherical_linear_interpolation, index_an_gr, setup_aligned_nest and the loops over nests and over the six tiles. Spec_Nest states, without the formula of the program, when a point divides an arc in a given proportion (it lies in the plane of its ends, at the given fraction of the angle from one and the rest from the other), and from it which point a refined grid has at each position. C87_divides: there is only one such point. P_Nest: the formula with sines gives it; the loops store it. | proved |
| C88 | With --out_halo each tile is written with the values of its neighbours round it | M_GridHalo models fill_cubic_grid_halo and its calls. Spec_GridHalo states what lies beside a side of a tile, from the twelve edges of the cube of Spec_Cubic. P_GridHalo: every store of the function stores the final value of its place (good), so the places are filled one after the other; T_GridHalo compares the indices read with the places of the neighbour, for all sides of all tiles. | partial |
| C89 | The mask table of the land model lists exactly the domains without land in or beside them | M_LandMask models the land branch of main, update_cubic_halo and check_land_mask with the bounds of mpp_compute_extent (M_Extent). Spec_LandMask states which cell of which tile a place in or just beyond a tile stands for, from the twelve edges of the cube, and when a domain has land. P_LandMask: every store of update_cubic_halo stores the final value of its place, read from a place inside a tile, which never changes; P_LandMask2: that value is the land of the neighbouring cell, for all sides of all tiles, and the masks, their number and the lines of the table; T_LandMask puts them together. | proved |
| C90 | The land mask table follows from the exchange grid alone | M_LandArea models get_land_area (over the reals) and the land branch of main, with the input of M_LandDomain. T_LandArea: the areas are the sums over the files whose path contains the name of the tile, which with paths_tell are the files of the tile; the rest is C89_land_table. | partial |
| C91 | The boundaries of an ocean grid are read back from the contacts of its mosaic | M_Boundary models get_boundary_type for mosaic grids on top of read_mosaic_contact (M_Contact). T_Boundary: the contacts of Spec_Boundary meet the hypotheses of C35_roundtrip, which gives the model indices up to the supergrid cell; from these each test of get_boundary_type is decided. | partial |

A status of "partial" means that the full statement of properties.jsonl is not proved; in almost all cases because it is false of the code. The note in MANIFEST.json says what is missing.

## Modelled code

* `lib/libfrencutils/mpp_domain.c`: mpp_compute_extent, mpp_define_layout, mpp_define_domain2d and the domain queries, mpp_gather_field_double(_root), mpp_global_field_all_double(_3D), mpp_global_field_double(_3D) (MPI replaced by all ranks computed together).
* `lib/libfrencutils/create_xgrid.c`: clip, the thread/block/store structure of create_xgrid_2dx2d_order1/2, create_xgrid_1dx2d_order1. The test of one pair of cells is a parameter.
* `lib/libfrencutils/mosaic_util.c`: nearest_index, tokenize, delete_vtx, insert_vtx, fix_lon, latlon2xyz, xyz2latlon, unit_vect_latlon, mult, invert_matrix_3x3, intersect_tri_with_line, rotation routines.
* `lib/libfrencutils/interp.c`: cubic_spline_sp, conserve_interp, linear_vertical_interp.
* `lib/libfrencutils/tool_util.c`: compute_grid_bound, lon_in_range, lon_fix.
* `lib/libfrencutils/read_mosaic.c`: transfer_to_model_index, read_mosaic_contact, read_mosaic_grid_data.
* `lib/libnfu/nfu_compress.F90`: packing and unpacking of real and integer variables.
* `src/mpp-nccombine/mppnccombine.c`: main, process_file, process_vars, flush_decomp. Not: attributes, the dry run -x, output formats, -a (append).
* `src/mpp-ncscatter`: extents, hyperslabs, put/define functions and main of mppncscatter.c; opt.c; strlist.c; file names. Classification of a dimension by its attributes (get_scatter_dims) only as the resulting type.
* `src/land_utils`: combine-ncc.F90, scatter-ncc.F90, decompress-ncc.F90 (index and data paths).
* `src/check-mask/check_mask.c`: ocean mask, layouts, mask table, open boundaries.
* `src/make-solo-mosaic`: get_align_contact, get_contact_index and the contact output. Not: get_overlap_contact.
* `src/make-regional-mosaic/make_regional_mosaic.c`: the regional block and the tile number.
* `src/make-land-domain/make_land_domain.c`: main after the options.
* `src/river-regrid/river_regrid.c`: update_halo, calc_tocell, calc_river_data, sort_basin, qsort_index, adjust_lon. Not: the regridding of the source data, check_river_data, output.
* `src/runoff-regrid/runoff_regrid.c`: distance, nearest, setup_remap (maps), process_data.
* `src/timeavg/time_average.f90`: averaging one variable over a list of files.
* `src/combine-restarts, src/iceberg-comb, src/nc-exists`: the scripts and the program, except messages.
* `src/fre-grid/conserve_interp.c`: do_scalar_conserve_interp on one processor, without the conservation report.
* `src/fre-grid/conserve_interp.c`: setup_conserve_interp: collection of exchange cells, centroids, remap file writing (M_Remap.v)
* `lib/libfrencutils/read_mosaic.c`: read_mosaic_xgrid_order1, read_mosaic_xgrid_order2 as used to read a remap file (M_Remap.v)
* `src/fre-grid/fregrid_util.c`: set_remap_file: the READ flag of all tiles (M_Remap.v)
* `src/fre-grid/fregrid_util.c`: setup_vertical_interp 756-788, do_vertical_interp 790-821 (notes printed are left out)
* `src/fre-grid/fregrid_util.c`: do_extrapolate 2662-2799, fill_boundaries 2802-2812
* `src/fre-grid/conserve_interp.c`: do_vector_conserve_interp (917-1007): M_Vector.v
* `src/fre-grid/fregrid_util.c`: rotation angles (249-268, 531-549): M_Vector.v
* `src/fre-grid/fregrid_util.c`: get_contact_direction, setup_boundary, update_halo (2419-2567, 2614-2658): M_Mhalo.v
* `make-topog/topog.c`: filter_topo, process_topo, remove_isolated_cells, restrict_partial_cells, enforce_min_depth, kmin, hmin, min4/max4 (M_Topog.v). Not modelled: show_deepest, the create_* generators, create_realistic_topog, printing.
* `remap-land/remap_land.c`: get_land_tile_info, full_search_nearest, great-circle comparison, the mapping of soil, glacier and lake tiles (967-1534), compress_int_data, compress_double_data, the writing of tile_index, frac, tags and of integer and double fields (M_RemapLand.v). Not modelled: reading and writing of files, options, remap files, cohort variables (binary_search, quick_sort, gather_sort, compute_dst_coho_idx), several destination faces (the loop repeats the same steps).
* `make-coupler-mosaic/make_coupler_mosaic.c`: the search of exchange cells atmosphere x land x ocean (1249-1747), gathering (1795-1830, 2214-2375), o_area/l_area sums and masks (1767-1841, 2054-2071, 2110-2119), --check sums, land x ocean (2559-2718) and wave x ocean (3082-3258), the final error (3812-3818) (M_Coupler.v). Not modelled: reading and writing of files, the southern extension itself, great-circle clipping, centroids of interpolation order 2, nests but for their exclusion from the sums.
* `plevel/run_pressure_interp.F90, pressure_interp.F90, moisture_convert.F90`: compute_pres_full, compute_height, set_up_input_mask, field information (missing values and packing), read_variable/write_variable, mask_data, interp_field, sea level pressure, pres_interp_init, pres_interp, temp_extrap, q_extrap, the saturation vapour pressure table and humidity conversions (M_Plevel.v). Not modelled: files, namelists, axes, time, compression, wind_interp (not called), the heights of masked levels (only the formula is modelled, no theorem).
* `src/make-hgrid/create_lonlat_grid.c`: create_regular_lonlat_grid, set_regular_lonlat_grid, create_f_plane_grid, set_f_plane_grid, create_simple_cartesian_grid, create_spectral_grid (up to the weights), create_tripolar_grid without areas and angles, corners passed to great_circle_area (M_Hgrid.v); not the legacy way of computing the bounds
* `lib/libfrencutils/tool_util.c`: lat_dist, bp_lam, bp_phi, tp_trans, spherical_dist, bipolar_dist (M_Hgrid.v)
* `src/make-hgrid/create_gnomonic_cubic_grid.c`: create_gnomonic_cubic_grid without nests: adjustment of the points, consistency of the tile edges, supergrid, dx and dy and their consistency, lines 338-659 (M_Cubic)
* `src/make-hgrid/create_gnomonic_cubic_grid.c`: gnomonic_ed, symm_ed, mirror_latlon, mirror_grid, rot_3d, spherical_to_cartesian, cartesian_to_spherical and lines 287-347 of create_gnomonic_cubic_grid for grid type gnomonic_ed (M_Gnomonic); gnomonic_dist and gnomonic_angl are not modelled
* `src/make-hgrid/create_gnomonic_cubic_grid.c`: direct_transform, cube_transform and lines 388-415 of create_gnomonic_cubic_grid (M_Schmidt)
* `src/fre-grid/bilinear_interp.c`: get_closest_index, the weights in setup_bilinear_interp, dist2side, do_scalar_bilinear_interp, do_vector_bilinear_interp, do_c2l_interp, redu2x, do_latlon_coarsening, sort_index (first loop) (M_Bilinear)
* `src/make-hgrid/create_gnomonic_cubic_grid.c`: spherical_linear_interpolation, index_an_gr, setup_aligned_nest; in create_gnomonic_cubic_grid lines 186-213, 308-330 and 416-460 (M_Nest)
* `src/make-hgrid/make_hgrid.c`: fill_cubic_grid_halo and its calls at 1287-1304 (M_GridHalo)
* `src/check-mask/check_mask.c`: the land branch of main 459-476, update_cubic_halo, check_land_mask (M_LandMask)
* `src/check-mask/check_mask.c`: get_land_area and the checks of main 430-451 (M_LandArea)
* `lib/libfrencutils/tool_util.c`: get_boundary_type 686-743, branch VERSION_2 (M_Boundary)

## Not modelled

* The NetCDF, MPI and OpenMP libraries and the operating system (assumed to work; failures of writes and closes of mppnccombine are modelled).
* Rounding of floating-point arithmetic, except where said (C06, C25, C26).
* Integer overflow, except where said (C13, C06).
* src/fregrid-gpu, the rest of src/make-hgrid (GR variant, rotation angles, conformal grids, main), the generators of src/make-topog, src/make-quick-mosaic, src/make-vgrid (only its use of compute_grid_bound), src/transfer-mosaic-grid, src/split_ncvars, src/list-ncvars, src/cubic_utils.
* lib/libfrencutils/mpp_io.c, mpp.c, gradient_c2l.c, the great-circle clipping and the linked polygon lists of mosaic_util.c.

## Findings

Places where a property a user relies on is false of the code. Each is a theorem.

* **C05** mpp_global_field_double_3D places points wrongly when ishift and jshift differ; any gather of a field with a halo misplaces points (`C05_gather_3D_mixed_shift_refuted`, `C05_gather_with_halo_refuted`).
* **C06** mppncscatter divides in single precision: for dimensions longer than 2^24 the extents need not tile the dimension; more divisions than points are not refused (`C06_long_dimension_refuted`, `C06_too_many_divisions_refuted`).
* **C07** The rank-4 hyperslab copy ignores the first dimension (`C07_hyperslab_rank4_refuted`).
* **C08** Scatter then combine loses data for a scalar after a record variable, two dimensions on one axis, or a divided dimension without coordinate variable (`C08_*_refuted`).
* **C09** mppnccombine misplaces decomposed variables of rank above four, and skips later records of a record variable named like a dimension (`C09_*_refuted`).
* **C11** With no records mppnccombine takes a remainder by zero (`C11_no_records_refuted`).
* **C12** The removal loop of -r can delete files that were never combined (`C12_next_file_refuted`, `C12_range_refuted`).
* **C13** The error counter is an unsigned char: 256 failed writes are reported as success and the inputs removed; an unreadable decomposed variable is written from a null pointer (`C13_*_refuted`).
* **C14** Files missing before the first one found are not noticed (`C14_*_refuted`); with -f a missing first named file leaves the output description uninitialised.
* **C15** mppncscatter: -p also sets the start number (missing break); a repeated -X/-Y keeps names of the earlier one (`C15_*_refuted`).
* **C16** A percent sign in the prefix, or a long name, breaks the output names (`C16_*_refuted`).
* **C19** The integer version of the packed writer never writes the data (`C19_int_refuted`).
* **C22** decompress-ncc with the ocean fill option overwrites what earlier files gave (`C22_ocean_refuted`).
* **C23** check_mask: with both directions cyclic the corners of the halo are not filled; for halo >= 2 and narrow domains the western and southern halo is filled in reverse (`C23_*_refuted`).
* **C24** check_mask: open boundaries are tested wrongly (`C24_*_refuted`).
* **C28** The exchange grid of more threads has another order, and more threads can make the search fail (`C28_*_refuted`).
* **C29** create_xgrid_1dx2d tests the limit after the store: one more cell than MAXXGRID is written outside the arrays (`C29_1dx2d_refuted`).
* **C31** nearest_index reads past a one-element array (`C31_single_refuted`).
* **C33** The spline overshoots on an end interval with equal data (`C33_overshoot_refuted`).
* **C34** compute_grid_bound with c_cell loses interior bounds (`C34_c_cell_refuted`).
* **C35** Tile names with blanks do not survive writing and reading a contact (`C35_blank_name_refuted`).
* **C36** tokenize drops blanks before it looks for separators, so a blank never separates; fregrid relies on it (`C36_blank_separator_refuted`).
* **C39** Contacts with different numbers of points on the two sides are reported (`C39_equal_length_refuted`).
* **C40** Runoff on land without a reachable ocean point is moved outside the array (`C40_no_ocean_refuted`). Negative runoff stays on land (`C40_any_sign`).
* **C41** An antipodal ocean point is never found (`C41_antipode_refuted`).
* **C44** The travel loop stops after its first round if no cell drains into a sink (`C44_early_stop_refuted`).
* **C47** For y-cyclic tiles that are not square the halo loop runs over the wrong length (`C47_y_cyclic_refuted`).
* **C48** Files without time bounds get the averaging period (1,1) (`C48_no_bounds_refuted`).
* **C49** Whether missing data are excluded is decided from the first file only (`C49_first_file_refuted`).
* **C50** combine_restarts: the dry run deletes an old output of mppnccombine; unescaped dots mix sets (`C50_*_refuted`).
* **C51** iceberg_comb accepts a repeated input in place of a missing one, and refuses a one-file set (`C51_*_refuted`).
* **C52** ncexists ignores -v and -a if -g is given (`C52_both_refuted`).
* **C53** make_land_domain: one face copies an uninitialised buffer over the option text; _tile1 matches _tile10 (`C53_*_refuted`).
* **C54** lon_in_range returns the start of the window near its end; lon_fix centres with x[1] counted twice and x[0] not at all (`C54_*_refuted`).
* **C55** invert_matrix_3x3 uses an absolute threshold on the determinant: small well-conditioned matrices are reported as singular (`C55_small_refuted`). The comment on the rotation says 45 degrees, it is 90 (`C55_rotation`).
* **C57** --target_grid with missing values does not conserve (`C57_target_refuted`).
* **C58** The monotone limiter enforces only the upper bound on a cell that violates both, is applied to every output tile separately (not conservative for several output tiles), and loses all levels above the first (`C58_lower_refuted`, `C58_conserved_refuted`, `C58_levels_lost`). nx1 is that of the last input tile, hence the restriction to tiles of equal width.
* **C60** A remap file is written only for output tiles with exchange cells. On the next run one existing file switches all tiles to reading; the tile without a file is skipped and its exchange-cell count is uninitialised (malloc).
* **C61** If no output level lies within the range of the source levels the result is wrong: with all output levels deeper, the extension loop starts at level -1 and writes before the array; with all shallower, levels past the end of the output array are read; with levels on both sides only, the level just above the source range gets the deepest value (loop starts at kend, not kend+1).
* **C62** Extrapolation pulls values towards 0: beyond the first and last rows (and columns, unless cyclic) the padded array holds 0 and takes part in the mean. A constant field with one missing cell in the first column is not restored (C62_range_refuted, for every grid).
* **C62** If no valid value exceeds the stopping criterion in magnitude (0.005 by default: any field in small units such as kg/kg) the iteration ends after one pass and cells inside a gap get 0 (C62_small_refuted).
* **C62** A grid with one column or row makes do_extrapolate read dxu[-1] (C62_single_refuted).
* **C63** fregrid_util.c 258 computes the index of the angle as (2j+2)*(2nx+2)+2i+2 in an array of (2nx+1)*(2ny+1) values: with vector fields on the A grid the array is read beyond its end for every grid size.
* **C63** fregrid_util.c 540-543 takes the output angle at the lower left corner of the cell instead of its centre; axes turned by 180 degrees have sine 0 and are not turned at all; do_vector_conserve_interp with --target_grid divides by grid_out.area, which is never allocated.
* **C64** fregrid_util.c 2555-2560: no rotation is set when two west, two east or two south sides meet, though two north sides get 180 degrees: the halo values arrive in reverse order.
* **C64** fregrid_util.c 2536 and 2551 use nx and ny of the tile that receives for the last column or row of the tile that gives: wrong whenever the tiles differ in size.
* **C66** `C66_thickness_refuted`: with --fraction_full_cell 0 the smallest bottom cell is min(50, zw[0]) whatever the layer, so a column can become deeper than its layer and deeper than the whole vertical grid (layers 100, 110; depth 105 becomes 150).
* **C67** `C67_isolated_refuted`: with --dont_open_very_this_cell thin cells are closed after isolated cells were removed, which creates new isolated cells.
* **C68** `C68_mask_refuted`: --dont_change_landmask only applies to isolated cells (as its help text says); the default rule for columns shallower than kmt_min turns ocean into land.
* **C69_missing_refuted** remap_land.c 2656-2663, compress_int_data / compress_double_data: in files of a single kind (soil, vegn, lake, glac) a tile whose value equals the missing value is skipped instead of written; all later values of the variable move up one place and the last place is never set (integers: uninitialised memory is written). In files with all tiles a double equal to the missing value is written from uninitialised memory.
* **C71_room_refuted** remap_land.c get_land_tile_info tests `count > ntile` before adding a tile, so ntile+1 tiles are accepted: with ntile 1 (glaciers, lakes) the second tile of a cell is stored in the place of the next cell, or outside the array for the last cell.
* **C73** make_coupler_mosaic counts ocean cells whose fraction differs from the mask by more than 1e-4 but ends with an error only with --verbose (3812-3818): without it the run ends as if nothing were wrong (`C73_error_refuted`).
* **C73** The land fraction reads area_atm[nl][i] with the indices of the land tile (2110-2119): undefined when the land tile has more cells than the atmosphere tile of the same number or there is none (`C73_land_fraction_refuted`).
* **C74** The range of ocean rows searched for land or wave cells needs one row strictly between the southernmost and northernmost latitude of the cells of the processor (2606-2615, 3131-3140, both tests at once, unlike 1310-1345): a processor whose cells lie between two ocean rows finds no exchange cells, so the result depends on the number of processors (`C74_processors_refuted`).
* **C75** plevel: a column whose data is missing below its first level (kbot = 1; also kbot = 0) makes pres_interp_init read pressure level 0 (C75_one_level_refuted).
* **C76** plevel: a field without missing_value or _FillValue is written with missing_value = 0 although it is never masked: valid zeros become missing, and values below the ground are extrapolated (C76_no_missing_value_refuted).
* **C76** plevel: with use_default_missing_value a copied (2-d, unpacked) field keeps its old missing values while the attribute announces the default (C76_copied_missing_refuted).
* **C76** plevel: fields on half levels are masked from the last but one half level down, since kbot of the full levels is used; the lowest half level is never used as data (C76_half_levels_refuted).
* **C76** plevel: the search for missing levels stops at the first level (from below) without missing values; missing values above it are interpolated like data (C76_hole_refuted).
* **C77** plevel: temp_extrap and q_extrap start from the level above the lowest one (index - 1), so the temperature jumps just below the lowest level (C77_continuous_refuted).
* **C77** plevel: lookup_es reads its table before it checks the range of the temperature (C77_temperature_range_refuted).
* **C78** plevel: where no level has more than 0.8 of the surface pressure, the sea level pressure uses the level number left over from the column before, or an undefined one (C78_no_level_refuted).
* **C80** set_regular_lonlat_grid: a cell wider than 180 degrees gets a negative area, since box_area takes the difference of longitudes modulo 360 (C80_wide_cell_refuted).
* **C80** create_spectral_grid: the sum of the weights is added to before it is set, so a spectral grid with four or more rows depends on an uninitialised variable (C80_spectral_refuted).
* **C81** create_tripolar_grid: without a grid line opposite of the first longitude (for instance an odd number of equal columns) the cell across that meridian has length zero on rows of the cap, because the length is the difference of the nominal latitudes of the cap (C81_odd_refuted).
* **C81** create_tripolar_grid with great circle areas: it calls great_circle_area code with the first two Cartesian coordinates as longitude and latitude, while set_regular_lonlat_grid passes longitude and latitude in radians (C81_great_circle_refuted).
* **C83** make_hgrid --shift_fac is documented as "shift west by 180/shift_fac" but the grid is turned by M_PI/18 (10 degrees) for every shift_fac above 1e-4 (create_gnomonic_cubic_grid.c:345 and :873): the value only switches the turn on or off. C83_shift_refuted; witness --shift_fac 9.
* **C84** direct_transform and cube_transform move every point within about 4.5e-4 radians (2.8 km) of a pole to the pole itself, with longitude 0 (create_gnomonic_cubic_grid.c:1248 and :1437). On a grid with a finer resolution there, distinct points coincide and cells have no extent. C84_collapse_refuted; witness --do_schmidt --stretch_factor 3 --target_lat 90 with 3072 cells along a tile: the middle of tile 6 and its neighbour.
* **C85** do_vector_bilinear_interp compares the Cartesian components with the missing value; a vector whose components are both missing has Cartesian components that differ from it, so missing winds are interpolated as if they were numbers. C85_vector_missing_refuted.
* **C85** sort_index (bilinear_interp.c:618-655) allocates ntiles ints and writes 3*ntiles: memory is overwritten whenever it is called. C85_sort_refuted.
* **C86** redu2x: "if (vartmp[n1] /= missvalue)" divides where "!=" was meant (bilinear_interp.c, y-sweep), so with --finer_step every field that has a missing value is divided by it away from the poles. C86_missing_refuted.
* **C86** The means of redu2x are centred at the even cells of the finer grid, whose centres lie a quarter of a destination cell to the west of the longitudes written; a field equal to its longitude comes out shifted. C86_shift, C86_shift_refuted.
* **C88** fill_cubic_grid_halo reads the neighbour beyond the west side of tiles 1, 3, 5 with the row length of the tile itself (nxp, where the neighbour has nyp values in a row), and likewise beyond the east side of tiles 2, 4, 6. For dx and dy, whose rows have different lengths, the halo holds lengths of other cell sides. C88_lengths_refuted, C88_lengths_east_refuted.
* **C90** get_land_area searches the name of the tile in the whole path of the exchange file, not in its name (make_land_domain searches the name): in a directory whose name contains <land mosaic>_tile<n> every exchange file counts for tile n, and domains of this tile that should be left out are kept. C90_directory_refuted.
* **C91** get_boundary_type tells the kinds of contact apart by whether model indices are equal. On a grid of one column the contact of south and north is taken for cyclic in x, on a grid of one row for a folded north side; a fold of 2 columns is taken for cyclic in x. With an odd number of columns make_solo_mosaic writes a fold whose halves are no whole model cells, and no tool can read the mosaic. C91_narrow_refuted, C91_odd_fold_refuted.

Further remarks made while reading, not stated as theorems:

* mppnccombine -a: the table of output variables is never filled, so that appending uses uninitialised entries.
* mppncscatter get_scatter_dims: foundunits is not reset per dimension, so the cartesian_axis attribute of later dimensions is skipped.
* make_vgrid: n3 is used uninitialised if --dbnds is not given and the number of nz entries is inconsistent.
* river_regrid: a local int truncates the missing value of the drainage area; one branch of calc_tocell does not exclude missing values.
* time_average: at most 200 files; check_for_climo_avg compares dt(1) instead of dt(2) for the output period; the missing value is that of the first file.
* fregrid get_input_data: with several levels (--extrapolate, order 2) grad_c2l writes all levels of the gradient at the place of the first; halo points at unconnected edges are zero and enter gradients and monotone bounds; grad_mask is not freed in one branch.
* fregrid vector interpolation: the loop uses a leftover tile index and uninitialised level numbers; with --target_grid it divides by the area of the output grid, which is only set for input grids.
* fregrid.c: with --dst_vgrid extrapolation is switched on (line 805) after the opcode was computed (742) and after the checks on what extrapolation supports (788), so the checks for a single lat-lon tile are skipped.
* fregrid vectors on the B grid: grid.rotate is never set (uninitialised), and the vector loop in fregrid.c 1105-1113 indexes u_in and v_in with a variable left over from an earlier loop.
* fregrid_util.c 2457: a mosaic with one tile and any contact is treated as cyclic in longitude by the extrapolation. A tile with one column (nx=1): its east side has index 0 and is taken for the west side (get_contact_direction).
* topog.c: the limit computed for the first layer (p_cell_min[0]) is never used, so the minimum thickness is not enforced for one-level columns; the folded row of a tripolar grid is not examined for isolated cells; negative land depths are kept; the vertical grid must have two layers (nearest_index reads outside a one-layer grid).
* remap_land.c: soil, glacier and lake tiles together are not tested against ntile_dst, so a cell with more tiles overruns into the next one (hypothesis `fits`); fire files take tiles of all kinds but are read as if they had only one kind; the consistency test `idx > nidx_src[n]` (1029) accepts one index too many; line 2250 writes cohort_data where the cold restart case has filled cohort_data_cold.
* make_coupler_mosaic.c: a piece is stored at index MX before the check (1548-1560), so the 2001st piece is written out of bounds; fix_lon is applied again to the first four vertices of an ocean cell that may have more after the first call near a pole (1679-1688; hypothesis steady of C72); the wave part with great-circle clipping uses poly_area on Cartesian coordinates (3217); cart_xocn is allocated with the number of land tiles (896-897).
* plevel: nlev_out is not set when the first output pressure is below 1.e-6; only the temperature's (or one other field's) missing values decide kbot for all fields.
* make_hgrid FROM_FILE computes the offset of tile n from the size of the first tile (n*nxp*nyp), so tiles of different size overlap; seen while reading, not modelled.
* Bilinear interpolation, read in the source but not proved: with --extrapolate nz levels are allocated and only the first is filled; the sweep over all tiles in setup_bilinear_interp reads grid_out[l] for source tiles l, beyond the single destination tile; get_index reads grid_out->xt[n1] where n0 is meant, and the size of the finer destination grid from the source grid; with --center_y the latitudes of the finer grid do not contain those of the destination, so means are also displaced in latitude.
* Nests, read in the source but not proved: with halo 0 a nest that touches the east or north side of its parent is inside it and yet stops the program in index_an_gr (make_hgrid refuses --halo 0 with nests at line 976, so this does not happen there); a nest named as its own parent reads points that are not yet written; a negative --halo admits nests outside the parent, for which memory outside the tile is read; arcs shorter than 1e-5 radians are reported as antipodal points, true antipodal points are not noticed.
* --out_halo, read in the source but not proved: angle_dx and angle_dy are copied from turned neighbours as they are, not turned; together with --nest_grids the function is called for the nests too, whose tile numbers 6, 7, ... it takes modulo 6 and for which it reads beyond or inside other tiles.

## Testing the theorems against wrong programs

`seeded/LOG.jsonl` has one line per edit of the model that a realistic bug would make: the definition, the edit, the claim it breaks, the theorems whose proofs no longer go through and the theorems tightened because of it. To find the failing theorems the edited model was rebuilt in a scratch copy, each failing proof was replaced by `Admitted` there, and `Print Assumptions` of each property theorem showed which of them rest on one. A proof that no longer goes through does not by itself show that the statement has become false: some of the theorems listed for an edit, in particular `_refuted` ones, may only share a lemma with the one that fails. Edits found to leave the statement true carry a note.

## Print Assumptions per theorem

D = `sig_forall_dec`, N = `sig_not_dec`, F = `functional_extensionality_dep`, C = `classic`; empty = closed under the global context.

| theorem | file | axioms |
|---|---|---|
| C01_extents_tile | T_Extent.v |  |
| C01_too_many_divisions_refused | T_Extent.v |  |
| C02_extents_balanced | T_Extent.v |  |
| C03_extents_mirror | T_Extent.v |  |
| C04_layout_uses_all | T_Extent.v |  |
| C05_gather_3D_mixed_shift_refuted | T_Domain2D.v |  |
| C05_gather_field_concat | T_Domain2D.v |  |
| C05_gather_restores_2D | T_Domain2D.v |  |
| C05_gather_restores_3D | T_Domain2D.v |  |
| C05_gather_with_halo_refuted | T_Domain2D.v |  |
| C05_rectangles_partition | T_Domain2D.v |  |
| C05_sends_own_part | T_Domain2D.v |  |
| C06_bad_io_layout_refused | T_ScatterExt.v |  |
| C06_long_dimension_refuted | T_ScatterExt.v |  |
| C06_scatter_extents_partial | T_ScatterExt.v |  |
| C06_too_many_divisions_refuted | T_ScatterExt.v |  |
| C07_hyperslab_block | T_Hyperslab.v |  |
| C07_hyperslab_rank4_partial | T_Hyperslab.v |  |
| C07_hyperslab_rank4_refuted | T_Hyperslab.v |  |
| C07_hyperslab_scalar | T_Hyperslab.v |  |
| C08_no_coordinate_variable_refuted | T_Scatter.v |  |
| C08_same_axis_refuted | T_Scatter.v |  |
| C08_scalar_refuted | T_Scatter.v |  |
| C08_scatter_combine_partial | T_Scatter.v |  |
| C09_combine_partial | T_Combine.v |  |
| C09_named_variable_refuted | T_Combine.v |  |
| C09_rank5_refuted | T_Combine.v |  |
| C10_order_independent | T_Combine.v |  |
| C11_blocking_independent | T_Combine.v |  |
| C11_no_records_refuted | T_Combine.v |  |
| C12_next_file_refuted | T_CombineErr.v |  |
| C12_range_refuted | T_CombineErr.v |  |
| C12_removal_general | T_CombineErr.v |  |
| C12_removal_partial | T_CombineErr.v |  |
| C13_errors_reported_partial | T_CombineErr.v |  |
| C13_unreadable_refuted | T_CombineErr.v |  |
| C13_wraparound_refuted | T_CombineErr.v |  |
| C14_first_missing_refuted | T_CombineErr.v |  |
| C14_forced_first_missing_refuted | T_CombineErr.v |  |
| C14_forced_partial | T_CombineErr.v |  |
| C14_missing_partial | T_CombineErr.v |  |
| C14_range_first_missing_refuted | T_CombineErr.v |  |
| C15_accepted | T_ScatterOpt.v |  |
| C15_options_partial | T_ScatterOpt.v |  |
| C15_order_partial | T_ScatterOpt.v |  |
| C15_path_sets_start_refuted | T_ScatterOpt.v |  |
| C15_stale_names_refuted | T_ScatterOpt.v |  |
| C16_combiner_finds | T_ScatterName.v |  |
| C16_long_name_refuted | T_ScatterName.v |  |
| C16_names_partial | T_ScatterName.v |  |
| C16_percent_refuted | T_ScatterName.v |  |
| C17_append | T_StrList.v |  |
| C17_difference | T_StrList.v |  |
| C17_insertion | T_StrList.v |  |
| C17_membership | T_StrList.v |  |
| C17_union | T_StrList.v |  |
| C18_decompress | T_Compress.v |  |
| C18_decompress_int | T_Compress.v |  |
| C19_int_refuted | T_Compress.v |  |
| C19_round_trip | T_Compress.v |  |
| C20_combined | T_Ncc.v |  |
| C20_ranking | T_Ncc.v |  |
| C21_scatter_combine | T_Ncc.v |  |
| C22_decompress_files_partial | T_Compress.v |  |
| C22_ocean_refuted | T_Compress.v |  |
| C22_same_points_partial | T_Compress.v |  |
| C23_corner_refuted | T_CheckMask.v |  |
| C23_mask_table_partial | T_CheckMask.v |  |
| C23_narrow_refuted | T_CheckMask.v |  |
| C24_inverted_refuted | T_CheckMask.v |  |
| C24_no_note_refuted | T_CheckMask.v |  |
| C24_single_boundary_refuted | T_CheckMask.v |  |
| C25_clip_inside | T_Clip.v | D N F |
| C25_latitudes_any_arithmetic | T_Clip.v |  |
| C26_exchange_arrays | T_Clip.v |  |
| C26_river_arrays | T_Clip.v |  |
| C27_clip_conserves | T_Clip.v | D N F |
| C28_limit_refuted | T_Xgrid.v |  |
| C28_order_refuted | T_Xgrid.v |  |
| C28_schedule_independent | T_Xgrid.v |  |
| C28_thread_count_partial | T_Xgrid.v |  |
| C28_thread_counts_agree_partial | T_Xgrid.v |  |
| C29_1dx2d_partial | T_Xgrid.v |  |
| C29_1dx2d_refuted | T_Xgrid.v |  |
| C29_2dx2d_in_bounds | T_Xgrid.v |  |
| C30_conserve_interp | T_Interp.v | D F |
| C31_nearest_index | T_Interp.v | D F |
| C31_single_refuted | T_Interp.v | D F |
| C31_ties | T_Interp.v | D F |
| C32_linear_vertical | T_Interp.v | D F |
| C32_refused | T_Interp.v | D F |
| C33_interpolates | T_Interp.v | D F |
| C33_monotone_partial | T_Interp.v | D F |
| C33_overshoot_refuted | T_Interp.v | D F |
| C33_shape_partial | T_Interp.v | D F |
| C34_c_cell_refuted | T_GridBound.v | D F |
| C34_grid_partial | T_GridBound.v | D F |
| C34_refused | T_GridBound.v | D F |
| C35_blank_name_refuted | T_Contact.v |  |
| C35_roundtrip | T_Contact.v |  |
| C35_strings | T_Contact.v |  |
| C36_blank_separator_refuted | T_Contact.v |  |
| C36_empty | T_Contact.v |  |
| C36_join | T_Contact.v |  |
| C36_tokenize | T_Contact.v |  |
| C37_equal_length | T_Contact.v |  |
| C37_range | T_Contact.v |  |
| C38_read | T_Supergrid.v |  |
| C38_refused | T_Supergrid.v |  |
| C38_regional | T_Supergrid.v |  |
| C38_regional_cells | T_Supergrid.v |  |
| C38_regional_refused | T_Supergrid.v |  |
| C38_tile_number | T_Supergrid.v |  |
| C39_equal_length_refuted | T_AlignContact.v | D F |
| C39_folded | T_AlignContact.v | D F |
| C39_index_partial | T_AlignContact.v | D F |
| C39_matched | T_AlignContact.v | D F |
| C39_one_tile_partial | T_AlignContact.v | D F |
| C39_two_tiles_partial | T_AlignContact.v | D F |
| C40_any_sign | T_Runoff.v | D F |
| C40_conserved | T_Runoff.v | D F |
| C40_no_ocean_refuted | T_Runoff.v | D N F |
| C40_targets | T_Runoff.v | D N F |
| C40_total | T_Runoff.v | D F |
| C41_antipode_refuted | T_Runoff.v | D N F |
| C41_nearest | T_Runoff.v | D N F |
| C41_none | T_Runoff.v | D N F |
| C42_index | T_QsortIndex.v | D F |
| C42_sorts_part | T_QsortIndex.v | D F |
| C43_renumber | T_SortBasin.v | D F |
| C44_basins_partial | T_River.v | D F |
| C44_early_stop_refuted | T_River.v | D |
| C45_area_partial | T_River.v | D F |
| C46_acyclic | T_Tocell.v | D F |
| C46_directions | T_Tocell.v | D F |
| C46_network | T_River.v | D F |
| C46_uphill | T_Tocell.v | D |
| C47_cube_edges | T_Halo.v |  |
| C47_cyclic_partial | T_Halo.v |  |
| C47_halo_partial | T_Halo.v |  |
| C47_y_cyclic_refuted | T_Halo.v |  |
| C48_all_valid | T_TimeAvg.v | D F |
| C48_average | T_TimeAvg.v | D F |
| C48_between | T_TimeAvg.v | D F |
| C48_no_bounds_refuted | T_TimeAvg.v | D F |
| C48_single | T_TimeAvg.v | D F |
| C48_static | T_TimeAvg.v | D F |
| C49_first_file_refuted | T_TimeAvg.v | D F |
| C49_independent_partial | T_TimeAvg.v | D F |
| C49_static | T_TimeAvg.v | D F |
| C50_complete | T_Restarts.v |  |
| C50_dry_run_partial | T_Restarts.v |  |
| C50_dry_run_refuted | T_Restarts.v |  |
| C50_kept | T_Restarts.v |  |
| C50_order | T_Restarts.v |  |
| C50_program | T_Restarts.v |  |
| C50_wrong_set_refuted | T_Restarts.v |  |
| C51_any_utils | T_Iceberg.v |  |
| C51_combines | T_Iceberg.v |  |
| C51_duplicate_refuted | T_Iceberg.v |  |
| C51_single_refuted | T_Iceberg.v |  |
| C52_both_refuted | T_NcExists.v |  |
| C52_exact | T_NcExists.v |  |
| C52_fails | T_NcExists.v |  |
| C52_other | T_NcExists.v |  |
| C53_inconsistent | T_LandDomain.v | D N F |
| C53_one_face_refuted | T_LandDomain.v | D N F |
| C53_packed_partial | T_LandDomain.v | D N F |
| C53_ten_faces_refuted | T_LandDomain.v | D N F |
| C54_adjust | T_Longitude.v | D N F |
| C54_fix_lon | T_Longitude.v | D N F |
| C54_in_range | T_Longitude.v | D F |
| C54_in_range_refuted | T_Longitude.v | D F |
| C54_lon_fix | T_Longitude.v | D F |
| C54_lon_fix_refuted | T_Longitude.v | D F |
| C55_intersect | T_Matrix.v | D F |
| C55_inverse | T_Matrix.v | D F |
| C55_mult | T_Matrix.v | D |
| C55_rotation | T_Matrix.v | D N F |
| C55_small_refuted | T_Matrix.v | D F |
| C56_away | T_Matrix.v | D N C F |
| C56_frame | T_Matrix.v | D N F |
| C56_from_xyz | T_Matrix.v | D N C F |
| C56_rotate_poly | T_Matrix.v | D N C F |
| C56_round_trip | T_Matrix.v | D N C F |
| C57_bounds | T_Fregrid.v | D F |
| C57_conserved | T_Fregrid.v | D F |
| C57_conserved_sum | T_Fregrid.v | D F |
| C57_conserved_target | T_Fregrid.v | D F |
| C57_target_refuted | T_Fregrid.v | D F |
| C57_values | T_Fregrid.v | D F |
| C58_conserved | T_Mono.v | D F |
| C58_conserved_refuted | T_Mono.v | D F |
| C58_inactive | T_Mono.v | D F |
| C58_levels_lost | T_Mono.v | D F |
| C58_lower | T_Mono.v | D F |
| C58_lower_refuted | T_Mono.v | D F |
| C58_runs | T_Mono.v | D F |
| C58_upper | T_Mono.v | D F |
| C59_cells | T_Remap.v | D F |
| C59_cells_order1 | T_Remap.v | D F |
| C59_centred | T_Remap.v | D F |
| C59_conserved | T_Remap.v | D F |
| C60_any_division | T_Remap.v | D N F |
| C60_computed | T_Remap.v | D N F |
| C60_empty_tile_refuted | T_Remap.v | D N F |
| C60_read | T_Remap.v | D N F |
| C60_reuse | T_Remap.v | D N F |
| C60_same_division | T_Remap.v | D N F |
| C60_written | T_Remap.v | D |
| C61_gap_refuted | T_Vert.v | D F |
| C61_levels | T_Vert.v | D F |
| C61_outside_refuted | T_Vert.v | D F |
| C61_same_levels | T_Vert.v | D F |
| C62_balance | T_Extrap.v | D N F |
| C62_bounds | T_Extrap.v | D N F |
| C62_ends | T_Extrap.v | D N F |
| C62_range_refuted | T_Extrap.v | D N F |
| C62_single_refuted | T_Extrap.v | D N F |
| C62_small_refuted | T_Extrap.v | D N F |
| C62_valid_kept | T_Extrap.v | D N F |
| C63_centre_refuted | T_Vector.v | D N F |
| C63_input_angle_refuted | T_Vector.v | D N F |
| C63_output_angle | T_Vector.v | D N F |
| C63_reversed_refuted | T_Vector.v | D N F |
| C63_target_refuted | T_Vector.v | D F |
| C63_values_partial | T_Vector.v | D F |
| C64_exchange_partial | T_Mhalo.v | D |
| C64_same_side_refuted | T_Mhalo.v | D F |
| C64_size_refuted | T_Mhalo.v | D F |
| C65_filter | T_Topog.v | D F |
| C65_safe | T_Topog.v | D F |
| C66_errors | T_Topog.v | D F |
| C66_levels | T_Topog.v | D F |
| C66_runs | T_Topog.v | D F |
| C66_shallow | T_Topog.v | D F |
| C66_thickness_refuted | T_Topog.v | D F |
| C66_thin | T_Topog.v | D F |
| C66_unadjusted | T_Topog.v | D F |
| C67_floor | T_Topog.v | D F |
| C67_isolated_partial | T_Topog.v | D F |
| C67_isolated_refuted | T_Topog.v | D F |
| C68_mask | T_Topog.v | D F |
| C68_mask_refuted | T_Topog.v | D F |
| C69_double | T_RemapLand.v | D N C F |
| C69_index | T_RemapLand.v | D N C F |
| C69_int | T_RemapLand.v | D N C F |
| C69_missing | T_RemapLand.v | D N C F |
| C69_missing_refuted | T_RemapLand.v | D N C F |
| C69_order | T_RemapLand.v |  |
| C69_processors | T_RemapLand.v | D N C F |
| C70_frac | T_RemapLand.v | D N C F |
| C70_sum | T_RemapLand.v | D N F |
| C70_tags | T_RemapLand.v | D N C F |
| C71_abort | T_RemapLand.v | D N C F |
| C71_exists | T_RemapLand.v | D N C F |
| C71_room_refuted | T_RemapLand.v | D |
| C72_any_processors | T_Coupler.v | D N F |
| C72_exchange | T_Coupler.v | D N F |
| C72_indices | T_Coupler.v | D N F |
| C72_land | T_Coupler.v | D N F |
| C72_ocean | T_Coupler.v | D N F |
| C72_once | T_Coupler.v | D N F |
| C72_room | T_Coupler.v | D N F |
| C73_check_sums | T_Coupler.v | D N F |
| C73_conservation | T_Coupler.v | D N F |
| C73_error_refuted | T_Coupler.v | D F |
| C73_land_fraction | T_Coupler.v | D F |
| C73_land_fraction_refuted | T_Coupler.v | D N F |
| C73_no_excess | T_Coupler.v | D N F |
| C73_ocean_at_most | T_Coupler.v | D N F |
| C73_ocean_fraction | T_Coupler.v | D N F |
| C74_parallel_partial | T_Coupler.v | D N F |
| C74_processors_refuted | T_Coupler.v | D N F |
| C74_serial_partial | T_Coupler.v | D N F |
| C75_exact_at_levels | T_Plevel.v | D N C F |
| C75_interpolation | T_Plevel.v | D N C F |
| C75_log_linear_exact | T_Plevel.v | D N C F |
| C75_no_new_extremes | T_Plevel.v | D N C F |
| C75_one_level_refuted | T_Plevel.v | D N C F |
| C76_copied_missing_refuted | T_Plevel.v | D F |
| C76_half_levels_refuted | T_Plevel.v | D N C F |
| C76_hole_refuted | T_Plevel.v | D N C F |
| C76_levels_with_data | T_Plevel.v | D F |
| C76_masked | T_Plevel.v | D N C F |
| C76_no_missing_value_refuted | T_Plevel.v | D N C F |
| C76_not_masked | T_Plevel.v | D N C F |
| C77_continuous_refuted | T_Plevel.v | D N C F |
| C77_extrapolated_humidity | T_Plevel.v | D N C F |
| C77_extrapolated_temperature | T_Plevel.v | D N C F |
| C77_flag | T_Plevel.v | D F |
| C77_height_out | T_Plevel.v | D N C F |
| C77_heights | T_Plevel.v | D N C F |
| C77_isothermal | T_Plevel.v | D N C F |
| C77_temperature_range_refuted | T_Plevel.v | D N C F |
| C77_vapour_pressure | T_Plevel.v | D N C F |
| C78_no_level_refuted | T_Plevel.v | D N C F |
| C78_sea_level_pressure | T_Plevel.v | D N C F |
| C79_copied | T_Plevel.v | D F |
| C79_interpolated | T_Plevel.v | D N C F |
| C79_packed | T_Plevel.v | D F |
| C80_area | T_Hgrid.v | D N F |
| C80_cartesian | T_Hgrid.v | D F |
| C80_f_plane | T_Hgrid.v | D N F |
| C80_global | T_Hgrid.v | D N F |
| C80_regular | T_Hgrid.v | D N F |
| C80_spectral_refuted | T_Hgrid.v | D N C F |
| C80_wide_cell_refuted | T_Hgrid.v | D N F |
| C81_cap | T_Tripolar.v | D N C F |
| C81_fold | T_Tripolar.v | D N C F |
| C81_great_circle_corners | T_Tripolar.v | D N F |
| C81_great_circle_refuted | T_Tripolar.v | D N C F |
| C81_join | T_Tripolar.v | D N C F |
| C81_made | T_Tripolar.v | D N C F |
| C81_mirror | T_Tripolar.v | D N C F |
| C81_odd_refuted | T_Tripolar.v | D N C F |
| C81_positive | T_Tripolar.v | D N C F |
| C81_south | T_Tripolar.v | D N C F |
| C82_closed | T_Cubic.v |  |
| C82_distances | T_Cubic.v |  |
| C82_edges | T_Cubic.v |  |
| C82_lengths | T_Cubic.v |  |
| C82_points | T_Cubic.v |  |
| C83_consistent | T_Gnomonic.v | D N C F |
| C83_cover | T_Gnomonic.v | D N C F |
| C83_disjoint | T_Gnomonic.v | D N C F |
| C83_faces | T_Gnomonic.v | D N C F |
| C83_grid | T_Gnomonic.v | D N C F |
| C83_shift_refuted | T_Gnomonic.v | D N C F |
| C83_spacing | T_Gnomonic.v | D N C F |
| C84_collapse_refuted | T_Schmidt.v | D N C F |
| C84_distinct | T_Schmidt.v | D N C F |
| C84_grid | T_Schmidt.v | D N C F |
| C84_snap | T_Schmidt.v | D N F |
| C84_stretch | T_Schmidt.v | D N C F |
| C84_turn | T_Schmidt.v | D N F |
| C84_zoom | T_Schmidt.v | D N C F |
| C85_cell | T_Bilinear.v | D N C F |
| C85_defined | T_Bilinear.v | D N C F |
| C85_distance | T_Bilinear.v | D N C F |
| C85_formula | T_Bilinear.v | D N C F |
| C85_mean | T_Bilinear.v | D F |
| C85_scalar | T_Bilinear.v | D N C F |
| C85_sort_refuted | T_Bilinear.v |  |
| C85_vector | T_Bilinear.v | D F |
| C85_vector_missing_refuted | T_Bilinear.v | D F |
| C85_weights | T_Bilinear.v | D N C F |
| C86_mean | T_Coarsen.v | D N F |
| C86_missing_refuted | T_Coarsen.v | D N F |
| C86_shift | T_Coarsen.v | D N F |
| C86_shift_refuted | T_Coarsen.v | D N F |
| C86_steps | T_Coarsen.v | D N F |
| C87_agree | T_Nest.v | D N C F |
| C87_defined | T_Nest.v | D N C F |
| C87_divides | T_Nest.v | D N C F |
| C87_global | T_Nest.v | D N C F |
| C87_nest | T_Nest.v | D N C F |
| C87_nests | T_Nest.v | D N C F |
| C87_refused | T_Nest.v | D N C F |
| C88_halo_partial | T_GridHalo.v |  |
| C88_lengths_east_refuted | T_GridHalo.v |  |
| C88_lengths_refuted | T_GridHalo.v |  |
| C89_land_table | T_LandMask.v |  |
| C90_directory_refuted | T_LandArea.v | D N F |
| C90_land_mask_partial | T_LandArea.v | D N F |
| C91_boundaries_partial | T_Boundary.v |  |
| C91_closed | T_Boundary.v |  |
| C91_narrow_refuted | T_Boundary.v |  |
| C91_odd_fold_refuted | T_Boundary.v |  |
