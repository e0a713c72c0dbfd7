{"id": "C01", "title": "1-D extents tile the index range", "statement": "Splitting npts points into ndivs divisions (1<=ndivs<=npts) never reports an error and returns ndivs non-empty, contiguous, pairwise disjoint intervals whose union is exactly 0..npts-1; ndivs>npts is refused.", "quantifier": "all npts>=1 and all 1<=ndivs<=npts (and all ndivs>npts for the refusal)", "why_tests_cant": "The extents come from a stateful loop with mirrored assignments; a test checks a handful of (npts,ndivs) pairs, the claim is about all of them.", "anchors": ["lib/libfrencutils/mpp_domain.c: mpp_compute_extent"]}
{"id": "C02", "title": "1-D extents are balanced", "statement": "Division sizes returned for npts points over ndivs divisions differ from each other by at most 2 when the mirror rule is used and by at most 1 otherwise; every size is at least floor(npts/ndivs)-1 and at most ceil(npts/ndivs).", "quantifier": "all 1<=ndivs<=npts", "why_tests_cant": "Needs an invariant over the remaining points/remaining divisions ratio along an arbitrarily long loop.", "anchors": ["lib/libfrencutils/mpp_domain.c: mpp_compute_extent"]}
{"id": "C03", "title": "Symmetric decompositions are mirror images", "statement": "When ndivs and npts have the same parity, or ndivs is odd, npts even and ndivs<npts/2, division k and division ndivs-1-k have mirror-image extents: begin(k)+end(ndivs-1-k)=npts-1.", "quantifier": "all 1<=ndivs<=npts in the symmetric class and all k<ndivs", "why_tests_cant": "Quantifies over all sizes; the max() guards in the code only matter at the middle division.", "anchors": ["lib/libfrencutils/mpp_domain.c: mpp_compute_extent"]}
{"id": "C04", "title": "Default layout uses all processors", "statement": "The default 2-D layout for ndivs processors always exists: the search terminates and returns idiv,jdiv>=1 with idiv*jdiv=ndivs, for every aspect ratio and whatever value the floating-point square root produced.", "quantifier": "all ndivs>=1, all grid sizes, all possible rounded square roots", "why_tests_cant": "Termination and exact factorisation for every integer and every rounding outcome.", "anchors": ["lib/libfrencutils/mpp_domain.c: mpp_define_layout"]}
{"id": "C05", "title": "2-D decomposition assigns each point to exactly one processor and global gather restores the field", "statement": "With a valid layout every global point lies in the compute domain of exactly one processor, and gathering each processor's compute-domain values into a global array reproduces the global field exactly (zero halo).", "quantifier": "all grid sizes, all layouts with 1<=layout<=size, all field values", "why_tests_cant": "All layouts and all array contents; tests run on one or two processor counts.", "anchors": ["lib/libfrencutils/mpp_domain.c: mpp_define_domain2d, mpp_global_field_double, mpp_global_field_int, mpp_global_field_double_3D"]}
{"id": "C06", "title": "Scatter extents partition a dimension, also when grouped by an I/O layout", "statement": "mppncscatter's per-file extents along a dimension of length n over d divisions are non-empty, contiguous and cover 0..n-1; with an I/O layout io that divides d the grouped extents are unions of d/io consecutive divisions and again partition 0..n-1.", "quantifier": "all n,d with 1<=d<=n and all io dividing d", "why_tests_cant": "All sizes and all divisor pairs; the single-precision ceil must be exact for every reachable quotient.", "anchors": ["src/mpp-ncscatter/mppncscatter.c: mpp_compute_extent, get_scatter_extents, get_scatter_extents_iolayout, scatter_dims"]}
{"id": "C07", "title": "Sub-block extraction copies exactly the requested block", "statement": "Copying a hyperslab (start,count) out of an n-D buffer yields, in row-major order, exactly the elements whose index lies in [start,start+count) in every dimension, without touching memory outside either buffer.", "quantifier": "all ranks 0..4, all dimension sizes, all starts/counts within bounds, all buffer contents", "why_tests_cant": "Index arithmetic over all shapes; off-by-one in one rank/axis is invisible to square test grids.", "anchors": ["src/mpp-ncscatter/mppncscatter.c: hyperslabcopy"]}
{"id": "C08", "title": "Combining the pieces written by scatter restores the original variable", "statement": "For any variable decomposed along any subset of its dimensions, running the combiner over the pieces written by the scatterer (data plus domain_decomposition metadata) reproduces every element of the original variable.", "quantifier": "all shapes up to rank 4 (plus records), all decompositions and I/O layouts, all data", "why_tests_cant": "Round trip over all shapes and all layouts.", "anchors": ["src/mpp-ncscatter/mppncscatter.c: def_dim, def_var, put_var", "src/mpp-nccombine/mppnccombine.c: process_file, process_vars, flush_decomp"]}
{"id": "C09", "title": "Combine places every tile at its recorded position", "statement": "After combining, the output element at global index g equals the element of the input tile whose domain_decomposition covers g; elements covered by no tile hold the fill value (missing_value if present, else 0).", "quantifier": "all sets of tiles with in-range decompositions, all data", "why_tests_cant": "All tile geometries, including partial coverage.", "anchors": ["src/mpp-nccombine/mppnccombine.c: process_vars, flush_decomp"]}
{"id": "C10", "title": "Combine does not depend on file order", "statement": "If tiles are pairwise disjoint, combining them in any order gives the same output.", "quantifier": "all permutations of all sets of disjoint tiles", "why_tests_cant": "All permutations (schedules) of input files.", "anchors": ["src/mpp-nccombine/mppnccombine.c: main, process_file, process_vars"]}
{"id": "C11", "title": "Combine does not depend on the blocking factor", "statement": "The output of the combiner is the same for every record blocking factor -k: every record of every variable is written exactly once, with the same content.", "quantifier": "all record counts>=1, all blocking factors 1..100, all data", "why_tests_cant": "All pairs (records, factor), including factors that do not divide the count.", "anchors": ["src/mpp-nccombine/mppnccombine.c: process_vars, flush_decomp, main"]}
{"id": "C12", "title": "Inputs are removed only if they were combined", "statement": "With -r, every file the combiner deletes was combined into the output; no other file is deleted.", "quantifier": "all directories of numbered input files, all start/end numbers, with and without -e", "why_tests_cant": "All directory contents (histories of which numbered files exist).", "anchors": ["src/mpp-nccombine/mppnccombine.c: main"]}
{"id": "C13", "title": "Any combine error is reported and protects the inputs", "statement": "If any write or read error occurred while combining, the program returns a failure status and removes no input, however many errors occurred.", "quantifier": "all numbers of errors", "why_tests_cant": "Counter wrap-around is only visible after exactly 256 errors.", "anchors": ["src/mpp-nccombine/mppnccombine.c: main (infileerrors, outfileerrors)"]}
{"id": "C14", "title": "A gap in the input sequence is an error unless -f is given", "statement": "Without -f, if a numbered input file in the requested set is missing, the combiner fails with status 9 and leaves no output file; with -f it combines exactly the files that exist.", "quantifier": "all sets of existing numbered files and all set sizes", "why_tests_cant": "All subsets of present files.", "anchors": ["src/mpp-nccombine/mppnccombine.c: main"]}
{"id": "C15", "title": "mppncscatter options are independent", "statement": "Each command-line option sets only its own setting: giving -p PATH does not change the start number, order of options does not matter for distinct options, and the last occurrence wins.", "quantifier": "all option sequences and all argument strings", "why_tests_cant": "All argument strings; a test with one -p value ('out/') happens to parse as 0.", "anchors": ["src/mpp-ncscatter/opt.c: getmnsopts"]}
{"id": "C16", "title": "Output file numbers are unique and recognisable", "statement": "The names given to scattered files are pairwise distinct and, for the default width, are exactly the names the combiner looks for with the same base name and start number.", "quantifier": "all base names, start numbers, file counts and widths", "why_tests_cant": "All counts, including those that overflow the width.", "anchors": ["src/mpp-ncscatter/mppncscatter.c: mppncscatter", "src/mpp-nccombine/mppnccombine.c: main"]}
{"id": "C17", "title": "String-list set operations are exact", "statement": "Membership, insertion, union and difference on name lists behave as set operations: union contains exactly the names in either list without inventing duplicates, difference contains exactly the names in the first but not in the second, and insertion never loses a stored name.", "quantifier": "all lists (with free slots) and all names", "why_tests_cant": "All list contents and capacities, including full lists.", "anchors": ["src/mpp-ncscatter/strlist.c: instringlist, addstringtolist, appendstringtolist, strlistu, strlistsd"]}
{"id": "C18", "title": "Decompression puts each packed value at its index and nowhere else", "statement": "Reading a compressed-by-gathering variable yields, at each grid point listed (as a non-negative index) in the compress index, the packed value, sets the mask there, and leaves all other points untouched (or ocean-filled when requested).", "quantifier": "all index lists, all data, all shapes", "why_tests_cant": "All index lists incl. negative padding and repeated entries.", "anchors": ["lib/libnfu/nfu_compress.F90: get_compressed_var_r8, get_compressed_var_int"]}
{"id": "C19", "title": "Packing then unpacking is the identity on packed points", "statement": "Writing a field through the compression index and reading it back returns the field at all indexed points.", "quantifier": "all index lists of valid indices, all fields", "why_tests_cant": "Round trip for all index lists.", "anchors": ["lib/libnfu/nfu_compress.F90: put_compressed_var_r8, get_compressed_var_r8, put_compressed_var_int"]}
{"id": "C20", "title": "combine-ncc yields a sorted, complete, duplicate-preserving index", "statement": "combine-ncc's ranking is a stable sorting permutation: the combined compress index consists of exactly the non-negative indices of all inputs, in non-decreasing order, and each data value stays attached to its index.", "quantifier": "all numbers of files, all index lists", "why_tests_cant": "In-place merge sort with aliased storage, all lengths.", "anchors": ["src/land_utils/combine-ncc.F90: inquire_dimension, reorder_compressed_index, rank_ascending, mergerank, merge"]}
{"id": "C21", "title": "scatter-ncc followed by combine-ncc is the identity", "statement": "Scattering a compressed restart (strictly increasing valid index) over an I/O layout that divides the grid and then combining it gives back the same index list and the same data.", "quantifier": "all grids, all dividing layouts, all strictly increasing index lists, all data", "why_tests_cant": "All layouts and all land distributions, including files with no land.", "anchors": ["src/land_utils/scatter-ncc.F90", "src/land_utils/combine-ncc.F90"]}
{"id": "C22", "title": "Decompressing several files composes", "statement": "Decompressing a set of compressed files with disjoint indices equals decompressing their union, whichever order they are listed in, also when an ocean fill value is requested.", "quantifier": "all sets of files with disjoint indices", "why_tests_cant": "All partitions of the land points among files.", "anchors": ["src/land_utils/decompress-ncc.F90", "lib/libnfu/nfu_compress.F90: get_compressed_var_r8"]}
{"id": "C23", "title": "check_mask masks exactly the all-land domains", "statement": "For a layout, the mask table lists exactly the domains that have no wet point in their compute domain extended by the halo (with the grid's periodicity), and the announced number of masked domains is the number of listed entries.", "quantifier": "all grids, wet masks, layouts, halos and boundary types", "why_tests_cant": "All masks and layouts.", "anchors": ["src/check-mask/check_mask.c: check_ocean_mask, get_ocean_mask, update_cubic_halo, check_land_mask"]}
{"id": "C24", "title": "check_mask reports a layout as valid iff no open boundary is cut", "statement": "With open boundaries, a layout is reported as having no open-boundary error iff none of the open boundaries is contained in masked domains/cut by a domain edge as documented, for every boundary including the first.", "quantifier": "all open-boundary lists and layouts", "why_tests_cant": "All OBC positions; the first one is special-cased by accident.", "anchors": ["src/check-mask/check_mask.c: check_ocean_mask"]}
{"id": "C25", "title": "Clipping a polygon against a box stays inside the box and inside the polygon", "statement": "Every vertex returned by clipping lies in the closed box, and is a convex combination of two vertices of the polygon being clipped at that stage; a polygon inside the box is returned unchanged.", "quantifier": "all polygons (any vertex count), all boxes", "why_tests_cant": "All real coordinates.", "anchors": ["lib/libfrencutils/create_xgrid.c: clip"]}
{"id": "C26", "title": "Clipping never overflows its fixed-size vertex buffers", "statement": "Clipping an n-vertex polygon against a box never stores more vertices than fit in the scratch arrays when the input has the sizes the callers use.", "quantifier": "all n-vertex polygons", "why_tests_cant": "Worst case over all polygons, including non-convex.", "anchors": ["lib/libfrencutils/create_xgrid.c: clip"]}
{"id": "C27", "title": "Clipping against adjacent cells conserves area", "statement": "For any polygon and any column of cells with increasing edges that covers it, the areas of the clipped pieces add up to the polygon's area (no overlap counted twice, nothing lost), for any edge-additive antisymmetric area functional.", "quantifier": "all polygons, all partitions of the covering interval", "why_tests_cant": "An exact algebraic law over all polygons and all grids; tests compare with tolerances on few grids.", "anchors": ["lib/libfrencutils/create_xgrid.c: clip, create_xgrid_1dx2d_order1"]}
{"id": "C28", "title": "Exchange grid does not depend on the number of threads", "statement": "The list of exchange cells (with areas) produced by the threaded 2-D x 2-D search is the same for every number of blocks/threads and every schedule of the blocks.", "quantifier": "all thread counts, all interleavings of block execution, all grids", "why_tests_cant": "Schedules.", "anchors": ["lib/libfrencutils/create_xgrid.c: create_xgrid_2dx2d_order1, create_xgrid_2dx2d_order2"]}
{"id": "C29", "title": "Exchange-grid output arrays are never overrun", "statement": "Every exchange cell is stored inside the caller's arrays of size MAXXGRID, or the program stops with an error before storing.", "quantifier": "all grids and masks", "why_tests_cant": "Needs worst-case counts (10^7 cells).", "anchors": ["lib/libfrencutils/create_xgrid.c: create_xgrid_1dx2d_order1, create_xgrid_2dx1d_order1, create_xgrid_2dx2d_order1"]}
{"id": "C30", "title": "First-order conservative remapping conserves the integral, preserves constants and creates no new extrema", "statement": "The remapped field's area integral equals the source integral over the exchange cells; a constant source gives that constant on every covered cell; covered cells lie between the min and max of contributing source values; uncovered cells are 0.", "quantifier": "all exchange grids with positive areas, all fields", "why_tests_cant": "Algebraic laws over all exchange grids.", "anchors": ["lib/libfrencutils/interp.c: conserve_interp, conserve_interp_great_circle"]}
{"id": "C31", "title": "nearest_index returns a nearest element", "statement": "For a non-decreasing array and any value, the returned index is in range and no other element is strictly closer; ties go to the larger index.", "quantifier": "all non-decreasing arrays of length>=2 and all values", "why_tests_cant": "All arrays and values, including duplicates and ends.", "anchors": ["lib/libfrencutils/mosaic_util.c: nearest_index"]}
{"id": "C32", "title": "Linear vertical interpolation is exact on linear data and creates no new extrema", "statement": "Target values equal the data at coincident levels, lie between the two bracketing data values, and reproduce any linear profile exactly; levels outside the range are refused.", "quantifier": "all strictly increasing source grids, all targets, all data", "why_tests_cant": "All grids and data.", "anchors": ["lib/libfrencutils/interp.c: linear_vertical_interp, lib/libfrencutils/mosaic_util.c: nearest_index"]}
{"id": "C33", "title": "The monotone cubic spline interpolates and is monotone", "statement": "The shape-preserving spline passes through all nodes and, on each interval, stays between the two end data values and is monotone when the data are monotone.", "quantifier": "all strictly increasing grids with >=2 nodes, all data", "why_tests_cant": "Monotonicity of a cubic on an interval for all data.", "anchors": ["lib/libfrencutils/interp.c: cubic_spline_sp"]}
{"id": "C34", "title": "Generated 1-D grids hit the requested bounds, have the requested size and increase strictly", "statement": "make_vgrid/make_hgrid bounds computation returns exactly the requested number of points, contains each requested bound at its cumulative index, and is strictly increasing for strictly increasing bounds.", "quantifier": "all lists of strictly increasing bounds and positive counts", "why_tests_cant": "All resolutions and bounds.", "anchors": ["lib/libfrencutils/tool_util.c: compute_grid_bound", "src/make-vgrid/create_vgrid.c: create_vgrid"]}
{"id": "C35", "title": "Contact strings survive a write/read round trip", "statement": "A contact written by make_solo_mosaic (tile names and index ranges) is read back by the mosaic reader as the same tiles and indices.", "quantifier": "all tile names without separators, all positive indices", "why_tests_cant": "All strings/integers.", "anchors": ["src/make-solo-mosaic/make_solo_mosaic.c: main", "lib/libfrencutils/mosaic_util.c: tokenize", "lib/libfrencutils/read_mosaic.c: read_mosaic_contact"]}
{"id": "C36", "title": "Tokenizing inverts joining", "statement": "Splitting a string at a set of separator characters returns exactly the non-empty separator-free fields in order (with the documented treatment of blanks and trailing separators), and refuses overflow of either limit.", "quantifier": "all strings and separator sets", "why_tests_cant": "All strings.", "anchors": ["lib/libfrencutils/mosaic_util.c: tokenize"]}
{"id": "C37", "title": "Supergrid contact indices convert consistently to model indices", "statement": "Converting a contact's supergrid index range to model cells gives ranges of equal length on both sides, inside the tile, direction preserved; odd mismatches are refused.", "quantifier": "all contact index pairs with even extents", "why_tests_cant": "All ranges, both directions.", "anchors": ["lib/libfrencutils/read_mosaic.c: transfer_to_model_index, read_mosaic_contact"]}
{"id": "C38", "title": "Model grid data is the exact subsampling of the supergrid", "statement": "Reading a model-resolution field from a supergrid file returns, at (j,i), the supergrid value at (2j+joff, 2i+ioff); the regional mosaic grid is the exact sub-window of the parent tile.", "quantifier": "all grid sizes, offsets and contents", "why_tests_cant": "All sizes.", "anchors": ["lib/libfrencutils/read_mosaic.c: read_mosaic_grid_data", "src/make-regional-mosaic/make_regional_mosaic.c: main"]}
{"id": "C39", "title": "Boundary contacts match coincident points", "statement": "When two tile edges are reported as in contact, the reported index ranges have equal length and the two end points coincide on both edges; edges with no coincident points are not reported.", "quantifier": "all pairs of edge coordinate lists", "why_tests_cant": "All edge coordinates.", "anchors": ["src/make-solo-mosaic/get_contact.c: get_contact_index, get_align_contact"]}
{"id": "C40", "title": "runoff_regrid conserves total runoff and leaves none on land", "statement": "If every land cell has an ocean point other than its exact antipode, moving runoff from land cells to their nearest ocean cell conserves the total for non-negative runoff, and no land cell keeps any. (With no such ocean point the tool writes outside its array; negative runoff stays on land.)", "quantifier": "all masks, all exchange grids, all runoff fields", "why_tests_cant": "All masks and fields.", "anchors": ["src/runoff-regrid/runoff_regrid.c: process_data, setup_remap, nearest"]}
{"id": "C41", "title": "nearest ocean search returns the nearest ocean point", "statement": "Whenever some ocean point is not the exact antipode of the given point, the nearest-ocean search returns an ocean point minimising the distance, the first in scan order among ties. (Otherwise it reports none, although there may be one.)", "quantifier": "all masks, coordinates and target points", "why_tests_cant": "All masks.", "anchors": ["src/runoff-regrid/runoff_regrid.c: nearest, distance"]}
{"id": "C42", "title": "Index sort returns a sorted permutation", "statement": "The in-place index sort terminates, leaves the array sorted in non-decreasing order, and the index array tells, for each sorted position, the original position.", "quantifier": "all arrays", "why_tests_cant": "In-place quicksort over all arrays incl. duplicates.", "anchors": ["src/river-regrid/river_regrid.c: qsort_index"]}
{"id": "C43", "title": "Basin numbering is a bijection ordered by drainage area", "statement": "Renumbering basins is a bijection onto 1..nbasin under which a basin whose outlet drains a larger area gets a smaller number; cells share a basin after iff they did before.", "quantifier": "all river networks", "why_tests_cant": "All networks.", "anchors": ["src/river-regrid/river_regrid.c: sort_basin"]}
{"id": "C44", "title": "Every river cell gets the basin of its outlet and its travel distance", "statement": "For every acyclic river network every land cell is assigned the basin of the outlet its flow path ends in and a travel count equal to its number of steps, and the loop terminates.", "quantifier": "all acyclic flow networks", "why_tests_cant": "All networks; iteration count unbounded.", "anchors": ["src/river-regrid/river_regrid.c: calc_river_data"]}
{"id": "C45", "title": "Drainage area is the sum over all upstream cells", "statement": "After accumulation each cell's drainage area is the total cell area of all cells whose flow path passes through it, so outlet drainage areas add up to total land area.", "quantifier": "all acyclic flow networks and cell areas", "why_tests_cant": "All networks.", "anchors": ["src/river-regrid/river_regrid.c: calc_river_data"]}
{"id": "C46", "title": "River flow directions always descend towards larger drainage", "statement": "Each cell flows to one of its eight neighbours with strictly larger source drainage area, with matching direction code (tocell=2^dir), so flow paths cannot cycle.", "quantifier": "all subA fields", "why_tests_cant": "Acyclicity for all fields.", "anchors": ["src/river-regrid/river_regrid.c: calc_tocell"]}
{"id": "C47", "title": "Cyclic halo update wraps correctly", "statement": "After a halo update on a cyclic tile every halo cell holds the value of the interior cell it wraps to and interior cells are unchanged.", "quantifier": "all nx, ny and contents", "why_tests_cant": "All (nx,ny), not only square tiles.", "anchors": ["src/river-regrid/river_regrid.c: update_halo_double"]}
{"id": "C48", "title": "Time average is the weighted mean of valid data", "statement": "For each point the output is the interval-length-weighted mean of the records that are not missing, or the missing value when the valid weight does not exceed the requested fraction of the total; the mean lies between the smallest and largest valid value; a single record is copied unchanged.", "quantifier": "all records, weights, missing patterns and fractions", "why_tests_cant": "All missing patterns and histories of files.", "anchors": ["src/timeavg/time_average.f90"]}
{"id": "C49", "title": "Each file's average does not depend on the other files", "statement": "When several files are averaged in one run, output record k depends only on file k; a variable without record dimension gets the value of the first file and is not written again.", "quantifier": "all sequences of input files", "why_tests_cant": "Histories: state carried from one file to the next.", "anchors": ["src/timeavg/time_average.f90"]}
{"id": "C50", "title": "combine_restarts dry run changes nothing", "statement": "With -n no file is created, modified or deleted; without -n, with -r an input is removed only after its combine succeeded. Each set of numbered files is given to the program for its kind (compressed, iceberg, other), chosen by its first file.", "quantifier": "all directory contents and outcomes of the called tools", "why_tests_cant": "All directory states.", "anchors": ["src/combine-restarts/combine_restarts.in"]}
{"id": "C51", "title": "iceberg_comb accepts exactly complete consistent sets and keeps every iceberg", "statement": "The iceberg combiner produces output only if every input is a valid iceberg restart of the same set, all members are present and the output does not exist; then the output contains exactly the icebergs of all inputs in order.", "quantifier": "all lists of input files", "why_tests_cant": "All input sets.", "anchors": ["src/iceberg-comb/iceberg_comb.sh.in"]}
{"id": "C52", "title": "ncexists answers existence exactly", "statement": "ncexists prints 1 iff the named global attribute, variable, or variable attribute exists, and 0 otherwise. It fails without an answer if the file cannot be read or the question is incomplete or an option unknown; asking for help or the version succeeds.", "quantifier": "all files and all queries", "why_tests_cant": "All file contents/queries.", "anchors": ["src/nc-exists/ncexists.c"]}
{"id": "C53", "title": "Land domain tables list exactly the land cells", "statement": "The packed land index lists every cell with positive land area exactly once in face-major order, the per-face counts add up to the total, and each listed cell has a positive tile count.", "quantifier": "all land masks and tile tables", "why_tests_cant": "All masks.", "anchors": ["src/make-land-domain/make_land_domain.c: main"]}
{"id": "C54", "title": "Longitude normalisation returns an equivalent longitude in range", "statement": "Bringing a longitude into a window of width 2*pi terminates, returns a value in the window and changes the longitude only by a multiple of 2*pi; polygon longitude fixing leaves consecutive vertices less than pi apart and shifts all by the same multiple at the end.", "quantifier": "all longitudes and windows", "why_tests_cant": "All reals.", "anchors": ["lib/libfrencutils/tool_util.c: lon_in_range", "lib/libfrencutils/mosaic_util.c: fix_lon", "src/river-regrid/river_regrid.c: adjust_lon"]}
{"id": "C55", "title": "3x3 inversion, line/plane intersection and pole rotation are exact", "statement": "The 3x3 inverse routine returns a two-sided inverse whenever it reports success and reports success exactly when the determinant is at least 1e-15 in size; the line/plane routine returns the unique intersection of the line with the plane whenever the two are not (nearly) parallel; the pole rotation is a proper rotation (preserves lengths, distances and orientation).", "quantifier": "all matrices, all points", "why_tests_cant": "Algebraic law over all reals.", "anchors": ["lib/libfrencutils/mosaic_util.c: invert_matrix_3x3, mult, intersect_tri_with_line, set_the_rotation_matrix, rotate_point"]}
{"id": "C56", "title": "Longitude/latitude to Cartesian and back, rotated polygons", "statement": "Converting a point of the sphere to Cartesian coordinates and back gives the same longitude in [0,2pi) and latitude except within 1e-10 of a pole; every non-zero vector converts to coordinates that give back its direction; the east and north unit vectors form a right-handed orthonormal frame with the point; rotating a polygon away from the pole keeps all distances between vertices and their orientation, and does move vertices near a pole away from both poles.", "quantifier": "all points, vectors and polygons of any number of vertices", "why_tests_cant": "Trigonometric identities over all reals, with the branch structure of atan2 and the pole special case.", "anchors": ["lib/libfrencutils/mosaic_util.c: latlon2xyz, xyz2latlon, unit_vect_latlon, rotate_poly"]}
{"id": "C57", "title": "Conservative regridding gives weighted means and conserves the total", "statement": "fregrid with first- or second-order conservative remapping writes in every output cell the mean of the valid input values that overlap it, weighted with overlap area (times the weight field and, with cell measures, the measured fraction), or their sum for a field of sums; the missing value where no valid value overlaps; a mean stays between the values it is made of, so constants stay constant; and when the exchange grid covers the input, the total over the output equals the total over the valid input (also relative to the target cell areas with --target_grid when nothing is missing).", "quantifier": "all grids, tiles, exchange grids, fields, missing values, weights and numbers of levels", "why_tests_cant": "Needs algebra over all exchange grids and fields; a test checks a few grids up to rounding.", "anchors": ["src/fre-grid/conserve_interp.c: do_scalar_conserve_interp"]}
{"id": "C58", "title": "The monotone limiter creates no new extremes and conserves the total", "statement": "fregrid with conserve_order2_monotonic never stops with an error; no output value lies outside the range of the valid input values in the cells it overlaps and their eight neighbours; where second-order remapping stays in that range the result is the second-order result; the total over the output equals the total over the valid input when the exchange grid covers the input; all levels of the field are remapped.", "quantifier": "all grids, tiles of equal width, exchange grids, fields, gradients and missing values", "why_tests_cant": "The bound and the conservation must hold together for every field, gradient and cut of a cell; a test checks a few fields.", "anchors": ["src/fre-grid/conserve_interp.c: do_scalar_conserve_interp (MONOTONIC)"]}
{"id": "C59", "title": "The exchange grid keeps every overlap and centres it on its input cell", "statement": "Setting up a conservative regridding gives, for every output tile, exactly the overlaps of its cells with the cells of all input tiles, each once, in order and with its area; for second order each has the offset of its centroid from the centroid of all overlaps of the same input cell over all output tiles and processors (or from the centroid of the cell if the overlaps do not fill it); hence these offsets average to zero over every filled cell and second-order regridding conserves the total.", "quantifier": "all clipping results, numbers of processors, output tiles and input tiles", "why_tests_cant": "The offsets of one cell are spread over all output tiles and processors; conservation needs their sum for every possible cut.", "anchors": ["src/fre-grid/conserve_interp.c: setup_conserve_interp"]}
{"id": "C60", "title": "A saved exchange grid gives the same regridding when read back", "statement": "With --remap_file the first run saves the exchange grid of every output tile and later runs read it: every processor of a later run gets exactly the exchange cells of its part of the tile, unchanged and in order, whatever the division among processors when it was written or is read; nothing is lost or read twice; a second run works with the same exchange grid as the first.", "quantifier": "all exchange grids, orders, divisions among processors at writing and at reading, and numbers of output tiles", "why_tests_cant": "Needs all pairs of writing and reading layouts and all exchange grids, including empty ones.", "anchors": ["src/fre-grid/conserve_interp.c: setup_conserve_interp", "lib/libfrencutils/read_mosaic.c: read_mosaic_xgrid_order1, read_mosaic_xgrid_order2", "src/fre-grid/fregrid_util.c: set_remap_file"]}
{"id": "C61", "title": "Vertical regridding interpolates linearly and extends by the end levels", "statement": "With --dst_vgrid every output level inside the range of the source levels gets, in every column, the value linearly interpolated between the two surrounding source levels; a level above the shallowest or below the deepest source level gets the value of that source level; nothing is read or written outside the arrays; if the two sets of levels agree the data are unchanged.", "quantifier": "all grid sizes, all increasing sets of source and output levels, all data", "why_tests_cant": "Which levels are interpolated and which extended depends on how the two sets of levels interleave; the boundary cases are endless.", "anchors": ["src/fre-grid/fregrid_util.c: setup_vertical_interp, do_vertical_interp", "lib/libfrencutils/interp.c: linear_vertical_interp"]}
{"id": "C62", "title": "Extrapolation fills missing values from their neighbours and keeps the others", "statement": "With --extrapolate on a latitude-longitude grid every value that is not missing is kept unchanged; every missing value is replaced by one that equals the area-weighted mean of its four neighbours up to 10/9 of the printed largest change of the last pass; every run ends after at most 4000 passes per level; and the filled values stay within the range of the valid data.", "quantifier": "all grid sizes, coordinates, data with any pattern of missing values, numbers of levels, stopping criteria, cyclic or not", "why_tests_cant": "The filled values come from an iteration whose length depends on the data; bounds must hold for every pattern of gaps.", "anchors": ["src/fre-grid/fregrid_util.c: do_extrapolate, fill_boundaries"]}
{"id": "C63", "title": "Vector regridding keeps directions", "statement": "When fregrid regrids a pair of vector components, it turns every input vector to east and north with the angle of its cell, averages east and north separately with the areas of the exchange cells whose two components are both valid, and turns the mean back to the axes of the output cell; output cells with no valid vector below them are missing in both components. The angle used for a cell is the one of its centre.", "quantifier": "all numbers and sizes of input and output tiles, all exchange grids with positive areas, all angles, all component values and patterns of missing values", "why_tests_cant": "Tests use a few grids, mostly regular in latitude and longitude where all angles are zero; the claim is about every angle field and every overlap.", "anchors": ["src/fre-grid/conserve_interp.c:do_vector_conserve_interp", "src/fre-grid/fregrid_util.c:get_input_grid", "src/fre-grid/fregrid_util.c:get_output_grid_from_mosaic"]}
{"id": "C64", "title": "Halo points get the neighbour's values", "statement": "Before fregrid computes gradients or interpolates bilinearly, the one-point halo of every tile is filled from its neighbours: for every contact of the mosaic, the halo point beyond the s-th point of one end holds the value that the s-th point of the other end had (for corner fields: of the point one step inside the other tile), for all levels, whichever sides of the tiles meet; all other points keep their values.", "quantifier": "all mosaics (numbers and sizes of tiles, contacts between any sides, tiles in contact with themselves), all fields with any number of levels, cell-centred and corner fields", "why_tests_cant": "Tests use one lat-lon grid and one cubed sphere, in which only some pairs of sides meet and all tiles have one size.", "anchors": ["src/fre-grid/fregrid_util.c:setup_boundary", "src/fre-grid/fregrid_util.c:update_halo", "src/fre-grid/fregrid_util.c:get_contact_direction"]}
{"id": "C65", "title": "Smoothing the topography keeps coast, border and range of depths", "statement": "make_topog --filter_topog applies the requested number of passes of the nine-point Shapiro filter (weights 1/4, 1/8, 1/16; land neighbours replaced by the cell itself) to the whole grid and every processor gets its part of that one result. Land cells stay land, the outermost rows and columns are unchanged, ocean cells stay ocean and within the smallest and largest ocean depth of the input, and no cell gets deeper unless --smooth_topo_allow_deepening is given.", "quantifier": "every depth field of every size, every number of passes, both settings of the deepening flag, every rectangular part of the grid owned by a processor", "why_tests_cant": "a test runs one field; the invariants must hold after any number of passes for any coast line and any decomposition", "anchors": ["src/make-topog/topog.c:filter_topo"]}
{"id": "C66", "title": "Depth and number of levels of every column agree after make_topog adjusted them", "statement": "For every vertical grid (increasing layer bottoms, at least two layers) the depth and the number of levels written for a cell agree: no levels iff the depth is not positive, otherwise the depth lies in the last of the levels; land is unchanged; with adjustment ocean columns have at least kmt_min levels and the bottom layer of a column of two or more is not thinner than the limit set by --fraction_full_cell and --min_thickness. The rules for shallow columns and thin bottom cells are exactly the documented ones. The result does not depend on the division of the grid among processors. The run stops with an error iff kmt_min exceeds the number of layers or more than one shallow rule is given.", "quantifier": "every depth field, vertical grid, combination of the options of process_topo and division of the grid among processors", "why_tests_cant": "the combinations of options, coast lines, cyclic and folded borders and decompositions cannot be enumerated", "anchors": ["src/make-topog/topog.c:process_topo", "src/make-topog/topog.c:restrict_partial_cells", "src/make-topog/topog.c:enforce_min_depth", "src/make-topog/topog.c:remove_isolated_cells"]}
{"id": "C67", "title": "No isolated ocean cells remain", "statement": "Unless --dont_fill_isolated_cells is given, every ocean cell of the result has a corner all of whose cells are at least as deep in levels, so that every level of every column has a velocity point, across cyclic and tripolar borders; with kmt_min 1 each cell keeps the deepest such level; cells are never deepened by this step. With --dont_change_landmask cells that have no open corner at all may stay. (With --dont_open_very_this_cell this fails: see the refutation.)", "quantifier": "every depth field, vertical grid, boundary type and option set", "why_tests_cant": "isolation depends on global patterns of neighbours that are changed in place during the sweep; tests see a few patterns", "anchors": ["src/make-topog/topog.c:remove_isolated_cells", "src/make-topog/topog.c:process_topo", "src/make-topog/topog.c:kmin", "src/make-topog/topog.c:hmin"]}
{"id": "C68", "title": "The land mask is kept when asked", "statement": "With --dont_change_landmask, or without filling of isolated cells or any adjustment, a cell of the result is land iff it was land in the input, provided no shallow columns are removed (--deepen_shallow or kmt_min 1). Without that proviso it fails: see the refutation.", "quantifier": "every depth field, vertical grid and option set", "why_tests_cant": "three adjustment steps interact; each may change land to ocean or back", "anchors": ["src/make-topog/topog.c:process_topo", "src/make-topog/topog.c:remove_isolated_cells", "src/make-topog/topog.c:enforce_min_depth"]}
{"id": "C69", "title": "Remapped land tiles are those of the nearest source cell", "statement": "Without a remap file, every destination cell gets, for each kind of tile (soil, glacier, lake) it has in the cold restart file, all tiles of that kind of the nearest source cell that has any. The written file has every such tile exactly once, ordered by tile index, and every integer and double field has at each tile the value of the source tile it was taken from. The result does not depend on the number of processors. (Missing values in a file of a single kind are dropped, which shifts all later values: see the refutation.)", "quantifier": "every source and destination grid, every set of restart files, every number of processors and every field", "why_tests_cant": "the compression and the gathering over processors reorder every field; the nearest cell depends on all cells of all faces", "anchors": ["src/remap-land/remap_land.c:main", "src/remap-land/remap_land.c:full_search_nearest", "src/remap-land/remap_land.c:get_land_tile_info", "src/remap-land/remap_land.c:compress_int_data", "src/remap-land/remap_land.c:compress_double_data", "lib/libfrencutils/mpp_domain.c:mpp_gather_field_int_root"]}
{"id": "C70", "title": "Remapped land tiles keep the fractions of the cold restart", "statement": "In the remapped land file the tiles of each kind in a cell cover together the fraction the cold restart file gives to that kind; soil tiles share it in proportion to their fractions in the source cell; the soil, vegetation, glacier and lake tags of every tile are those of its source tile and are missing for tiles of the other kinds.", "quantifier": "every source and cold restart file, destination cell and number of processors", "why_tests_cant": "the sum involves all tiles of two cells of different files; tests compare a few outputs", "anchors": ["src/remap-land/remap_land.c:main", "src/remap-land/remap_land.c:get_land_tile_info", "src/remap-land/remap_land.c:compress_double_data"]}
{"id": "C71", "title": "remap_land finds the nearest tile of each kind or stops", "statement": "If the source has a tile of every kind a destination cell needs, the search succeeds for every cell; if a needed kind does not occur in the source at all, the run stops with an error. A second glacier or lake tile in a cell is an error. (The last clause fails: see the refutation.)", "quantifier": "every source and destination grid and every set of tiles", "why_tests_cant": "absence of a tile kind and ties of distances are global conditions of the input", "anchors": ["src/remap-land/remap_land.c:full_search_nearest", "src/remap-land/remap_land.c:get_land_tile_info"]}
{"id": "C72", "title": "make_coupler_mosaic finds every exchange cell once, on any number of processors", "statement": "For every atmosphere tile the exchange grid with a land or ocean tile has, for each pair of cells whose common dry (land) or wet (ocean) area is more than area_ratio_thresh of the smaller of the two cells, one exchange cell with that area and the indices of the two cells starting at 1 (without the southern extension of the ocean grid), and no other. The search ranges in latitude and the bounding boxes never hide a cell, and the number of processors does not change the result.", "quantifier": "every set of atmosphere, land and ocean tiles, ocean fractions, thresholds and numbers of processors", "why_tests_cant": "the search ranges depend on the latitudes of all cells of a processor", "anchors": ["src/make-coupler-mosaic/make_coupler_mosaic.c:main", "lib/libfrencutils/mosaic_util.c:minval_double"]}
{"id": "C73", "title": "make_coupler_mosaic conserves area and the ocean fraction", "statement": "Where the grids cover an atmosphere cell and no sliver is dropped, the areas of its exchange cells with land and ocean add up to its area; they never add up to more. The ocean fraction written is that of the ocean mask where the atmosphere covers the ocean cell, and never more; a run that writes fractions which differ by more than 1e-4 ends with an error. The land fraction is the exchange area by the area of the land cell. (The clauses on the error and on the land fraction fail: see the refutations.)", "quantifier": "every set of tiles, fractions and thresholds", "why_tests_cant": "sums over all overlapping cells of three grids", "anchors": ["src/make-coupler-mosaic/make_coupler_mosaic.c:main"]}
{"id": "C74", "title": "make_coupler_mosaic finds every exchange cell between land or wave and ocean", "statement": "The exchange grid of land and ocean and that of wave and ocean are those of C72 with the land or wave grid in place of the atmosphere, for every number of processors. (False in general: see the refutation.)", "quantifier": "every set of land or wave and ocean tiles, fractions, thresholds and numbers of processors", "why_tests_cant": "depends on the cells that a processor gets and the rows of the other grid", "anchors": ["src/make-coupler-mosaic/make_coupler_mosaic.c:main"]}
{"id": "C75", "title": "plevel interpolates linearly in the logarithm of pressure", "statement": "For a column with increasing pressures and at least two levels with data, the pressures assigned to the levels lie inside the layers, the value written at an output pressure between two levels lies on the straight line in log p through the values of both levels (so it is exact at levels, makes no new extremes and reproduces fields linear in log p); above the first and below the last level the line through the two nearest levels is followed for at most half their distance. (With a single level with data the result should be defined too: refuted.)", "quantifier": "every number of levels, pressures, data and output pressures", "why_tests_cant": "the search for the level and the limits of the extrapolation depend on every combination of pressures", "anchors": ["src/plevel/pressure_interp.F90:pres_interp_init", "src/plevel/pressure_interp.F90:pres_interp", "src/plevel/run_pressure_interp.F90:compute_pres_full"]}
{"id": "C76", "title": "plevel masks what lies below the data, and only that", "statement": "The lowest level with data is found in every column; a field with a missing value gets, where the output pressure is below that level and masking is on, the value that the missing_value attribute of the output announces, and no other value is changed. Copied fields and fields on half levels are treated likewise. (False for fields without missing value, copied fields with use_default_missing_value, half levels and gaps above the lowest level: refuted.)", "quantifier": "every set of columns, missing values, attributes, options and output pressures", "why_tests_cant": "depends on the pattern of missing values over all columns and the combination of attributes and options", "anchors": ["src/plevel/run_pressure_interp.F90:set_up_input_mask", "src/plevel/run_pressure_interp.F90:interp_field", "src/plevel/run_pressure_interp.F90:mask_data", "src/plevel/run_pressure_interp.F90:get_field_info"]}
{"id": "C77", "title": "plevel heights are hydrostatic; temperature and humidity are continued below the ground by lapse rate and relative humidity", "statement": "The heights of the levels and of the output pressures are in hydrostatic balance with the virtual temperature, increase upwards and are exact for an isothermal dry atmosphere; below the lowest level the temperature follows 6.5 K/km and the relative humidity is kept; saturation vapour pressure is available from -160 C to 100 C and other temperatures are reported. (The continuation starts from the level above the lowest one, so the temperature jumps; temperatures outside are not reported: refuted.)", "quantifier": "every column, surface height, temperature, humidity and output pressure", "why_tests_cant": "must hold for every profile", "anchors": ["src/plevel/run_pressure_interp.F90:compute_height", "src/plevel/pressure_interp.F90:temp_extrap", "src/plevel/pressure_interp.F90:q_extrap", "src/plevel/moisture_convert.F90:lookup_es"]}
{"id": "C78", "title": "plevel computes the sea level pressure of each column from that column", "statement": "Sea level pressure is the surface pressure where the surface is at sea level; elsewhere it is the surface pressure reduced with the standard lapse rate from the temperature of the first level with more than 0.8 of the surface pressure, is larger than the surface pressure for points above sea level, and does not depend on other columns. (False where no level has more than 0.8 of the surface pressure: refuted.)", "quantifier": "every list of columns", "why_tests_cant": "the state carried from column to column only shows for particular neighbours", "anchors": ["src/plevel/run_pressure_interp.F90:process_time_level"]}
{"id": "C79", "title": "plevel keeps packed data", "statement": "A field that is only copied comes out with the numbers it had, packed or not; an interpolated packed field is written as a whole number whose unpacked value differs from the computed one by at most half a packing unit.", "quantifier": "every scale, offset, missing value and value", "why_tests_cant": "must hold for every value and combination of attributes", "anchors": ["src/plevel/run_pressure_interp.F90:read_variable", "src/plevel/run_pressure_interp.F90:write_variable"]}
{"id": "C80", "title": "The rectangular grids of make_hgrid tile their region with the right lengths and areas", "statement": "For any valid bounds and numbers of cells, a regular lon-lat grid has increasing grid lines from the first to the last bound; the lengths of the cell edges are those of the arcs on the sphere, every cell area is positive, and the areas add up to the area of the region (of the sphere, for a global grid). The grid on an f-plane has the lengths of that latitude in every row, a simple Cartesian grid has equally spaced points and the lengths asked for, and in both the area of a cell is the product of its sides. A spectral (Gaussian) grid can be made.", "quantifier": "all numbers of bounds, bounds, numbers of cells between them, latitudes of the f-plane and cell lengths", "why_tests_cant": "Tests compare a few grids with stored files; the sum of the areas and the lengths must be right for every choice of bounds, and a cell wider than half the globe or an uninitialised weight sum does not show on the usual grids.", "anchors": ["src/make-hgrid/create_lonlat_grid.c: create_regular_lonlat_grid, set_regular_lonlat_grid, create_f_plane_grid, set_f_plane_grid, create_simple_cartesian_grid, create_spectral_grid", "lib/libfrencutils/tool_util.c: spherical_dist, box_area (via mosaic_util.c), cartesian_dist, cartesian_box_area"]}
{"id": "C81", "title": "The tripolar grid of make_hgrid joins the regular grid and folds onto itself", "statement": "For any valid bounds and join latitude, the join is the grid row nearest to the latitude asked for; south of it the tripolar grid is the regular grid. Along the join both parts have the same points and lengths. North of it every point lies between the latitude of the join and the pole, the longitudes of each row go once round without turning back, and with symmetric longitudes the cap is symmetric. If the last row is nominally at the pole, its points i and nx - i are the same point, so that the grid can be folded there. The edges along the rows of the cap have positive lengths, and areas by great circles are those of the cells.", "quantifier": "all bounds, numbers of cells, first longitudes, join latitudes, rows and columns", "why_tests_cant": "The transformation goes through inverse trigonometric functions with case distinctions by quadrant and tolerances; that no point of any grid ends in the wrong quadrant, and that the seam closes for every number of columns, is not settled by a few grids.", "anchors": ["src/make-hgrid/create_lonlat_grid.c: create_tripolar_grid", "lib/libfrencutils/tool_util.c: tp_trans, bp_lam, bp_phi, lat_dist, lon_in_range, bipolar_dist"]}
{"id": "C82", "title": "The six tiles of a cubed-sphere grid share their edges exactly", "statement": "make_hgrid with a gnomonic grid type and no nests writes six tiles whose common edges agree to the last bit: for every grid size, whatever the projection, rotation or stretching, along each of the twelve edges of the cube the two tiles have the same points (corners and midpoints of the supergrid), running in the direction the contact regions of the mosaic assume, and the same lengths dx or dy. Every point of the supergrid is written: the corners are the transformed points of the projection, the others the midpoints and centres of the cells. The lengths are the distances between neighbouring points, on the edges too (for an unstretched grid, where dy is taken as the transpose of dx, if the tile is symmetric).", "quantifier": "all grid sizes, all points and all functions for adjusting, transforming, halving and measuring (so in particular the floating-point ones); all twelve edges and all places on them", "why_tests_cant": "A seam error shows only at certain edges and corners and for certain sizes or transformations, as gaps of rounding size that break contact search and exchange grids much later; a test compares a few grids.", "anchors": ["src/make-hgrid/create_gnomonic_cubic_grid.c: create_gnomonic_cubic_grid", "src/make-hgrid/create_gnomonic_cubic_grid.c: cell_center", "src/make-hgrid/create_gnomonic_cubic_grid.c: cell_east", "src/make-hgrid/create_gnomonic_cubic_grid.c: cell_north"]}
{"id": "C83", "title": "The points of a gnomonic cubed-sphere grid are those of a regularly divided cube", "statement": "make_hgrid --grid_type gnomonic_ed places point (j,i) of each of the six tiles in the direction of a point of the corresponding face of a cube whose edges are divided into equal angles: the same division for all edges and both directions of every face, increasing and symmetric. The tiles therefore cover the sphere once (every direction lies in a cell, and in one only unless it lies on a cell border), share their edges even before they are made consistent, and the poles are in the middle of tiles 3 and 6. Longitudes written are in [0, 2 pi), latitudes in [-pi/2, pi/2], and the whole grid is turned to the west by 180/shift_fac degrees.", "quantifier": "all grid sizes up to the largest int, all tiles and points, all values of the work arrays, all shift_fac; computed in real numbers", "why_tests_cant": "Special cases at the poles, the middle rows and the date line appear only for some sizes and tiles; a wrong sign or axis in one of the rotations still gives six plausible tiles, and a test of one size compares against values made by the same program.", "anchors": ["src/make-hgrid/create_gnomonic_cubic_grid.c: gnomonic_ed", "src/make-hgrid/create_gnomonic_cubic_grid.c: symm_ed", "src/make-hgrid/create_gnomonic_cubic_grid.c: mirror_grid", "src/make-hgrid/create_gnomonic_cubic_grid.c: rot_3d", "src/make-hgrid/create_gnomonic_cubic_grid.c: create_gnomonic_cubic_grid", "src/make-hgrid/make_hgrid.c: usage"]}
{"id": "C84", "title": "Stretching a cubed-sphere grid zooms in on the target and rotates the rest", "statement": "make_hgrid --do_schmidt and --do_cube_transform move every point of the six tiles by the same map: the tangent of half its distance from the south pole (the middle of tile 6) is divided by the stretch factor, and the sphere is then rotated so that the south pole comes to target_lon, target_lat. With stretch factor 1 all angles between points are kept. With --do_cube_transform the j direction of tile 6 points north at the target, with --do_schmidt (which has priority) south. The longitudes are in [0, 2 pi), the latitudes in [-pi/2, pi/2], and different points remain different.", "quantifier": "all grid sizes, all tiles and points, all stretch factors > 0, all target longitudes from -180 to 360 and all target latitudes; computed in real numbers", "why_tests_cant": "A wrong sign or a swapped sine and cosine gives a plausible grid somewhere else; the special case near the poles depends on the resolution, the factor and the target together, and shows only on grids far larger than those in tests.", "anchors": ["src/make-hgrid/create_gnomonic_cubic_grid.c: direct_transform", "src/make-hgrid/create_gnomonic_cubic_grid.c: cube_transform", "src/make-hgrid/create_gnomonic_cubic_grid.c: create_gnomonic_cubic_grid", "src/make-hgrid/make_hgrid.c: usage"]}
{"id": "C85", "title": "Bilinear interpolation gives a mean of the surrounding source cells, weighted by distance", "statement": "fregrid --interp_method bilinear gives every destination point a weighted mean of the values of the four source cell centres around it (three at a corner of the cube). The weight of a centre is proportional to the product of the distances, along the sphere, of the destination point from the two opposite sides; the weights are not negative and add up to 1. So no result lies outside the range of the four values, constants are kept and a destination point that coincides with a source centre gets its value. If one of the four values is missing the result is missing, or with --fill_missing the value of the centre with the largest weight. For vectors the three Cartesian components are interpolated and projected on east and north at the destination; missing vectors are treated like missing values.", "quantifier": "all source tiles and sizes, all fields with and without missing values, all destination points; computed in real numbers", "why_tests_cant": "A swapped pair of opposite sides gives smooth results of the right size; only the formula for all cells tells them apart. The cells at the corners of the cube and values equal to the missing value occur at a few points only.", "anchors": ["src/fre-grid/bilinear_interp.c: setup_bilinear_interp", "src/fre-grid/bilinear_interp.c: get_closest_index", "src/fre-grid/bilinear_interp.c: do_scalar_bilinear_interp", "src/fre-grid/bilinear_interp.c: do_vector_bilinear_interp", "src/fre-grid/bilinear_interp.c: do_c2l_interp", "src/fre-grid/bilinear_interp.c: dist2side", "lib/libfrencutils/mosaic_util.c: spherical_angle"]}
{"id": "C86", "title": "Averaging from a finer grid keeps the range and the position of the field", "statement": "fregrid --finer_step n interpolates to a grid 2^n times finer and averages. The result has the size of the destination grid; each value away from the poles is the area-weighted mean of the 3 by 3 finer values around it (weights 1/2, 1, 1/2 in both directions, times the cosine of the latitude), at the poles it is the finer value. So no result lies outside the range of the field and constants are kept, also if the field has a missing value. The mean is centred at the point whose longitude is written to the output.", "quantifier": "all destination sizes, all numbers of steps, all fields; computed in real numbers", "why_tests_cant": "The averages look right everywhere; a shift by a quarter of a cell or a scaled result shows only for a field whose exact values are known.", "anchors": ["src/fre-grid/bilinear_interp.c: do_latlon_coarsening", "src/fre-grid/bilinear_interp.c: redu2x", "src/fre-grid/fregrid_util.c: get_output_grid_by_size"]}
{"id": "C87", "title": "A nested grid divides the cells of its parent", "statement": "make_hgrid --nest_grids puts a grid on the cells istart..iend, jstart..jend of a parent tile, each divided in refine_ratio by refine_ratio. Every refine_ratio-th point of the nest is exactly a corner of the parent. The other points divide the sides of the parent's cells along j in arcs of equal angle and then the arcs between these points along i in arcs of equal angle. Longitudes lie between 0 and 2 pi. A nest that with its halo does not lie inside its parent is refused; one that does is made. Making a nest changes no other tile; two nests of the same ratio agree where they overlap; a nest can be the parent of a later one. With --parent_tile 0 all six tiles are refined, and sides shared by two tiles stay shared point by point.", "quantifier": "all parent tiles, positions, ratios and halos, all lists of nests; computed in real numbers", "why_tests_cant": "Whether every inner point is on the right arc at the right place depends on the index arithmetic for all ratios and positions. The shared sides of a globally refined grid agree only because the formula is symmetric in the two ends of an arc.", "anchors": ["src/make-hgrid/create_gnomonic_cubic_grid.c: setup_aligned_nest", "src/make-hgrid/create_gnomonic_cubic_grid.c: spherical_linear_interpolation", "src/make-hgrid/create_gnomonic_cubic_grid.c: index_an_gr", "src/make-hgrid/create_gnomonic_cubic_grid.c: create_gnomonic_cubic_grid"]}
{"id": "C88", "title": "With --out_halo each tile is written with the values of its neighbours round it", "statement": "make_hgrid --out_halo 1 writes every tile of a cubed-sphere grid with one more row and column of values on each side. In the middle is the tile itself. Beyond each side stand, in the order in which they lie on the sphere, the values of the neighbouring tile next to the common side: the first points not on that side, the first cells, the lengths of the first cell sides not on it. Where the neighbour is turned by a quarter circle its lengths along y continue lengths along x and the other way round. The four corners, where no cell exists, hold the missing value.", "quantifier": "all grid sizes, the six tiles and their four sides, all values; points, side lengths along x and y, cells", "why_tests_cant": "An index that is wrong only for side lengths beyond some sides of some tiles gives numbers of the right size: tests that compare sizes or ranges do not see it.", "anchors": ["src/make-hgrid/make_hgrid.c: fill_cubic_grid_halo", "src/make-hgrid/make_hgrid.c: main"]}
{"id": "C89", "title": "The mask table of the land model lists exactly the domains without land in or beside them", "statement": "check_mask --model land writes, for a cubed-sphere grid of six square tiles, a mask table. Each tile is divided into layout[0] by layout[1] domains. A domain may be left out of the run only if no cell of it has land and none of the cells round it, one row or column further, has: beyond a side of the tile these are the cells of the neighbouring tile that lie there on the sphere, in the right order where the neighbour is turned or runs in the other direction. The table lists exactly these domains, each once, as column, row and tile counted from 1; it begins with their number and with the layout and the number of tiles. No table is written exactly if every domain has to be used.", "quantifier": "all tile sizes, all layouts, all distributions of land over the six tiles", "why_tests_cant": "A neighbour taken from the wrong tile or in the wrong direction matters only where a coast crosses an edge of the cube near a domain without land of its own.", "anchors": ["src/check-mask/check_mask.c: update_cubic_halo", "src/check-mask/check_mask.c: check_land_mask", "src/check-mask/check_mask.c: main"]}
{"id": "C90", "title": "The land mask table follows from the exchange grid alone", "statement": "check_mask --model land finds the land in the exchange grid between atmosphere and land: a land cell has land if the areas of the exchange cells on it, over all exchange files of its tile, add up to more than 0. The mask table lists exactly the domains with no such cell in or beside them. Which files belong to a tile is told by their names; where the files are kept makes no difference.", "quantifier": "all exchange grids on six square tiles of any size, all layouts, all file names that tell their tile, all directories", "why_tests_cant": "The outcome depends on the path in which a run happens to take place; tests run in directories whose names have nothing to do with the grid.", "anchors": ["src/check-mask/check_mask.c: get_land_area", "src/check-mask/check_mask.c: main", "src/check-mask/check_mask.c: check_land_mask"]}
{"id": "C91", "title": "The boundaries of an ocean grid are read back from the contacts of its mosaic", "statement": "The contacts that make_solo_mosaic writes for a grid of one tile (west side with east side, south side with north side, the two halves of the north side) are read by check_mask and make_topog as cyclic in x, cyclic in y and tripolar: each of the three is reported exactly if its contact is in the file. A mosaic without contacts has closed boundaries.", "quantifier": "all grids of one tile of any size, all one or two contacts of the three kinds in any order, all names of the mosaic and the tile that fit the buffers", "why_tests_cant": "Tests use one tripolar grid of usual size; the rule by which the kinds are told apart fails only on particular shapes of the grid.", "anchors": ["lib/libfrencutils/tool_util.c: get_boundary_type", "lib/libfrencutils/read_mosaic.c: read_mosaic_contact", "src/make-solo-mosaic/make_solo_mosaic.c: main", "src/make-solo-mosaic/get_contact.c: get_align_contact"]}
