{
 "claims": [
  {
   "property": "C01",
   "status": "proved",
   "theorems": [
    "C01_extents_tile",
    "C01_too_many_divisions_refused"
   ],
   "note": ""
  },
  {
   "property": "C02",
   "status": "proved",
   "theorems": [
    "C02_extents_balanced"
   ],
   "note": ""
  },
  {
   "property": "C03",
   "status": "proved",
   "theorems": [
    "C03_extents_mirror"
   ],
   "note": ""
  },
  {
   "property": "C04",
   "status": "proved",
   "theorems": [
    "C04_layout_uses_all"
   ],
   "note": ""
  },
  {
   "property": "C05",
   "status": "proved",
   "theorems": [
    "C05_sends_own_part",
    "C05_rectangles_partition",
    "C05_gather_restores_2D",
    "C05_gather_restores_3D",
    "C05_gather_3D_mixed_shift_refuted",
    "C05_gather_with_halo_refuted",
    "C05_gather_field_concat"
   ],
   "note": "Compute-domain (and corner) fields, zero halo. The _refuted theorems record two defects outside the stated property: the 3-D gather with ishift<>jshift and any gather with a halo."
  },
  {
   "property": "C06",
   "status": "partial",
   "theorems": [
    "C06_scatter_extents_partial",
    "C06_bad_io_layout_refused",
    "C06_long_dimension_refuted",
    "C06_too_many_divisions_refuted"
   ],
   "note": "Proved for dimension lengths up to 2^24; beyond that the code's single-precision quotient makes the property false (C06_long_dimension_refuted)."
  },
  {
   "property": "C07",
   "status": "partial",
   "theorems": [
    "C07_hyperslab_block",
    "C07_hyperslab_scalar",
    "C07_hyperslab_rank4_partial",
    "C07_hyperslab_rank4_refuted"
   ],
   "note": "Proved for ranks 0-3; the rank-4 case ignores the first dimension and is refuted unless its block is one element at 0."
  },
  {
   "property": "C08",
   "status": "partial",
   "theorems": [
    "C08_scatter_combine_partial",
    "C08_scalar_refuted",
    "C08_same_axis_refuted",
    "C08_no_coordinate_variable_refuted"
   ],
   "note": "Whole-program round trip scatter then combine, for any layout, I/O layout, dimensions and variables meeting [scatterable]; the excluded cases (scalar after a record variable, two dimensions on one axis, divided dimension without coordinate variable, rank-4 non-record variable) are refuted."
  },
  {
   "property": "C09",
   "status": "partial",
   "theorems": [
    "C09_combine_partial",
    "C09_rank5_refuted",
    "C09_named_variable_refuted"
   ],
   "note": "Whole-program run of the combiner over a complete set; decomposed variables of rank above four and record variables named like another dimension are refuted."
  },
  {
   "property": "C10",
   "status": "proved",
   "theorems": [
    "C10_order_independent"
   ],
   "note": ""
  },
  {
   "property": "C11",
   "status": "proved",
   "theorems": [
    "C11_blocking_independent",
    "C11_no_records_refuted"
   ],
   "note": "For files with at least one record; with none the program's blocking factor is 0 (C11_no_records_refuted)."
  },
  {
   "property": "C12",
   "status": "partial",
   "theorems": [
    "C12_removal_partial",
    "C12_removal_general",
    "C12_next_file_refuted",
    "C12_range_refuted"
   ],
   "note": "Exact removal for a complete set not followed by further numbered files; the removal loop does delete never-combined files otherwise (refuted)."
  },
  {
   "property": "C13",
   "status": "partial",
   "theorems": [
    "C13_errors_reported_partial",
    "C13_wraparound_refuted",
    "C13_unreadable_refuted"
   ],
   "note": "Two-run simulation for all directories, options and failures below 256 writes; the unsigned char error counter wraps at 256 and an unreadable decomposed variable makes the flush write from a null pointer (refuted)."
  },
  {
   "property": "C14",
   "status": "partial",
   "theorems": [
    "C14_missing_partial",
    "C14_forced_partial",
    "C14_first_missing_refuted",
    "C14_range_first_missing_refuted",
    "C14_forced_first_missing_refuted"
   ],
   "note": "Missing after the first file: status 9 and no output for every directory. With -f and a first file: exactly the existing files are combined, status 1, nothing removed. Missing before the first file is not noticed (refuted); with -f a missing first named file is undefined behaviour (refuted)."
  },
  {
   "property": "C15",
   "status": "partial",
   "theorems": [
    "C15_options_partial",
    "C15_accepted",
    "C15_order_partial",
    "C15_path_sets_start_refuted",
    "C15_stale_names_refuted"
   ],
   "note": "Every setting is given by the last option of its own letter; the start number only if no -p follows the last -s (the code falls through from -p to -s), and -X/-Y lists only if given once or without empty names. Refuted in the remaining cases. getopt_long is not modelled."
  },
  {
   "property": "C16",
   "status": "partial",
   "theorems": [
    "C16_names_partial",
    "C16_combiner_finds",
    "C16_percent_refuted",
    "C16_long_name_refuted"
   ],
   "note": "For all prefixes without a percent sign, all base names, start numbers and widths >= 0 for which the names fit the program's 256-byte buffers; refuted otherwise."
  },
  {
   "property": "C17",
   "status": "proved",
   "theorems": [
    "C17_membership",
    "C17_insertion",
    "C17_append",
    "C17_union",
    "C17_difference"
   ],
   "note": "For all slot lists, with enough free slots for union and difference."
  },
  {
   "property": "C18",
   "status": "proved",
   "theorems": [
    "C18_decompress",
    "C18_decompress_int"
   ],
   "note": "All variables with any number of dimensions, any of them compressed by gathering: every listed grid point gets its datum, every other point keeps its old value, and the mask marks exactly the listed points."
  },
  {
   "property": "C19",
   "status": "partial",
   "theorems": [
    "C19_round_trip",
    "C19_int_refuted"
   ],
   "note": "Packing then unpacking and the reverse are proved for real variables. Missing: integer variables, for which the writer never writes the data; the full claim is refuted by a witness."
  },
  {
   "property": "C20",
   "status": "proved",
   "theorems": [
    "C20_ranking",
    "C20_combined"
   ],
   "note": "In-place merge sort with its aliasing, the dropping of negatives and the reordering of every slice; all numbers of files, all index lists (also with duplicates, negatives, empty files)."
  },
  {
   "property": "C21",
   "status": "proved",
   "theorems": [
    "C21_scatter_combine"
   ],
   "note": "All grids, dividing layouts, tile counts, strictly increasing valid non-empty indices and data, including output files without land points."
  },
  {
   "property": "C22",
   "status": "partial",
   "theorems": [
    "C22_decompress_files_partial",
    "C22_same_points_partial",
    "C22_ocean_refuted"
   ],
   "note": "Proved without the ocean fill option. With it the claim is refuted by a witness."
  },
  {
   "property": "C23",
   "status": "partial",
   "theorems": [
    "C23_mask_table_partial",
    "C23_corner_refuted",
    "C23_narrow_refuted"
   ],
   "note": "Proved for every grid, wet mask and layout whose domains are at least as wide as the halo (or halo <= 1) and that is not periodic in both directions; the full statement is false: doubly periodic corners are not filled, and for halo >= 2 with narrow domains the western/southern halo is filled in reverse. Not covered: open boundaries (see C24), the land mask."
  },
  {
   "property": "C24",
   "status": "partial",
   "theorems": [
    "C24_single_boundary_refuted",
    "C24_no_note_refuted",
    "C24_inverted_refuted"
   ],
   "note": "The property is false of the code. Proved for all inputs: with one open boundary no layout is ever reported; without --show_valid_only the error note is never printed. A witness shows that a layout with every domain in error is reported as valid."
  },
  {
   "property": "C25",
   "status": "proved",
   "theorems": [
    "C25_clip_inside",
    "C25_latitudes_any_arithmetic"
   ],
   "note": "Exact real arithmetic for the geometry (box, convex hull, identity inside, empty outside), for every polygon and box; the latitude bounds hold for every arithmetic, hence for rounded doubles."
  },
  {
   "property": "C26",
   "status": "proved",
   "theorems": [
    "C26_river_arrays",
    "C26_exchange_arrays"
   ],
   "note": "For every arithmetic (any rounding, NaN included since only the outcome of comparisons matters): 4 vertices into 20-element arrays, and 4 vertices through fix_lon into 50-element arrays. fix_lon can return no vertex (all vertices at one pole), which the callers exclude before."
  },
  {
   "property": "C27",
   "status": "proved",
   "theorems": [
    "C27_clip_conserves"
   ],
   "note": "Exact real arithmetic; any 2-D grid of boxes covering the polygon, any edge functional; the exact form of the spherical area terms is shown to be one."
  },
  {
   "property": "C28",
   "status": "partial",
   "theorems": [
    "C28_schedule_independent",
    "C28_thread_count_partial",
    "C28_thread_counts_agree_partial",
    "C28_order_refuted",
    "C28_limit_refuted"
   ],
   "note": "For a fixed number of threads every interleaving (at the level of single increments, tests and stores) gives the same list. Across numbers of threads the lists are equal only up to order, and more threads can make the search fail; both are shown by witnesses. The geometric test of one pair is an arbitrary function."
  },
  {
   "property": "C29",
   "status": "partial",
   "theorems": [
    "C29_2dx2d_in_bounds",
    "C29_1dx2d_partial",
    "C29_1dx2d_refuted"
   ],
   "note": "The threaded 2-D x 2-D search never overruns. The 1-D x 2-D search (and its siblings with the same test) overruns exactly when the number of cells exceeds MAXXGRID."
  },
  {
   "property": "C30",
   "status": "proved",
   "theorems": [
    "C30_conserve_interp"
   ],
   "note": "Over exact reals, for any exchange grid with indices inside the grids and positive areas (the search that makes it is C28/C29)."
  },
  {
   "property": "C31",
   "status": "proved",
   "theorems": [
    "C31_nearest_index",
    "C31_ties",
    "C31_single_refuted"
   ],
   "note": "Over exact reals. Ties between different values go to the larger index; repeated equal elements may give any of their indices. A one-element array equal to the value reads past its end (C31_single_refuted), outside the stated range."
  },
  {
   "property": "C32",
   "status": "proved",
   "theorems": [
    "C32_linear_vertical",
    "C32_refused"
   ],
   "note": "Over exact reals."
  },
  {
   "property": "C33",
   "status": "partial",
   "theorems": [
    "C33_interpolates",
    "C33_shape_partial",
    "C33_monotone_partial",
    "C33_overshoot_refuted"
   ],
   "note": "Over exact reals. The shape claim is false on an end interval with equal data next to an interval with different data (C33_overshoot_refuted); it is proved everywhere else."
  },
  {
   "property": "C34",
   "status": "partial",
   "theorems": [
    "C34_grid_partial",
    "C34_refused",
    "C34_c_cell_refuted"
   ],
   "note": "compute_grid_bound over exact reals. Size, end points and strict growth for all three centrings, every bound at its cumulative index for 'none' and 't_cell'. With 'c_cell' interior bounds are lost (C34_c_cell_refuted)."
  },
  {
   "property": "C35",
   "status": "proved",
   "theorems": [
    "C35_strings",
    "C35_roundtrip",
    "C35_blank_name_refuted"
   ],
   "note": "Names without ':' , blanks and NUL whose contact string fits the 255-byte buffer; all contacts of a mosaic; stale contents of the reader's buffer. Names containing blanks do not come back (refuted)."
  },
  {
   "property": "C36",
   "status": "proved",
   "theorems": [
    "C36_tokenize",
    "C36_empty",
    "C36_join",
    "C36_blank_separator_refuted"
   ],
   "note": "Every string, separator set and pair of limits. A blank given as a separator never separates (refuted; fregrid does this)."
  },
  {
   "property": "C37",
   "status": "proved",
   "theorems": [
    "C37_range",
    "C37_equal_length"
   ],
   "note": "Every supergrid range inside the tile: converted or refused."
  },
  {
   "property": "C38",
   "status": "proved",
   "theorems": [
    "C38_read",
    "C38_refused",
    "C38_regional",
    "C38_regional_refused",
    "C38_regional_cells",
    "C38_tile_number"
   ],
   "note": "All sizes, cell locations and windows; values of any type. Axis values of the regional file are taken as rounded to integers."
  },
  {
   "property": "C39",
   "status": "partial",
   "theorems": [
    "C39_index_partial",
    "C39_matched",
    "C39_equal_length_refuted",
    "C39_two_tiles_partial",
    "C39_folded",
    "C39_one_tile_partial"
   ],
   "note": "End points coincide, nothing is reported without coincident points, edges matched point by point are reported with equal lengths. Equal length in general is false: edges with different numbers of points between the same end points are reported (refuted). get_overlap_contact is not modelled."
  },
  {
   "property": "C40",
   "status": "proved",
   "theorems": [
    "C40_targets",
    "C40_conserved",
    "C40_total",
    "C40_any_sign",
    "C40_no_ocean_refuted"
   ],
   "note": "Over exact reals, one processor. C40_any_sign gives the exact balance for runoff of any sign. Without a reachable ocean point the move writes outside the array (C40_no_ocean_refuted)."
  },
  {
   "property": "C41",
   "status": "proved",
   "theorems": [
    "C41_nearest",
    "C41_none",
    "C41_antipode_refuted"
   ],
   "note": "Over exact reals.  The unrestricted claim (any ocean point) is refuted: an antipodal ocean point is not found."
  },
  {
   "property": "C42",
   "status": "proved",
   "theorems": [
    "C42_sorts_part",
    "C42_index"
   ],
   "note": "Over exact reals; depth bounded by the length."
  },
  {
   "property": "C43",
   "status": "proved",
   "theorems": [
    "C43_renumber"
   ],
   "note": "For networks in which every basin number up to the largest has exactly one outlet, as calc_river_data numbers them. Equal areas are ordered arbitrarily."
  },
  {
   "property": "C44",
   "status": "partial",
   "theorems": [
    "C44_basins_partial",
    "C44_early_stop_refuted",
    "C46_network"
   ],
   "note": "All grids, cyclic boundaries and cubes. Needs that some cell flows into a sink or no cell is more than one step upstream; without it the loop stops after its first round and the property is false of the code (C44_early_stop_refuted). C46_network shows that calc_tocell's output meets the hypotheses."
  },
  {
   "property": "C45",
   "status": "partial",
   "theorems": [
    "C45_area_partial",
    "C46_network"
   ],
   "note": "Over exact reals, under the same condition as C44."
  },
  {
   "property": "C46",
   "status": "proved",
   "theorems": [
    "C46_directions",
    "C46_uphill",
    "C46_acyclic"
   ],
   "note": "Over exact reals. The boundary values of the drainage area field must agree with the cells they stand for, as update_halo leaves them."
  },
  {
   "property": "C47",
   "status": "partial",
   "theorems": [
    "C47_halo_partial",
    "C47_cyclic_partial",
    "C47_cube_edges",
    "C47_y_cyclic_refuted"
   ],
   "note": "x-cyclic tiles of every size, square y-cyclic tiles and cubes are proved; for y-cyclic tiles that are not square the property is false of the code (C47_y_cyclic_refuted)."
  },
  {
   "property": "C48",
   "status": "proved",
   "theorems": [
    "C48_average",
    "C48_between",
    "C48_all_valid",
    "C48_single",
    "C48_static",
    "C48_no_bounds_refuted"
   ],
   "note": "Over exact reals, one variable. C48_no_bounds_refuted is a side finding: files without time bounds get the averaging period (1,1)."
  },
  {
   "property": "C49",
   "status": "partial",
   "theorems": [
    "C49_independent_partial",
    "C49_static",
    "C49_first_file_refuted"
   ],
   "note": "True when the first file has two or more records, or there is no missing value, or every file has one record, and all files declare the variable alike. In general false of the code (C49_first_file_refuted)."
  },
  {
   "property": "C50",
   "status": "partial",
   "theorems": [
    "C50_kept",
    "C50_order",
    "C50_complete",
    "C50_program",
    "C50_dry_run_partial",
    "C50_dry_run_refuted",
    "C50_wrong_set_refuted"
   ],
   "note": "Removal safety is proved. The dry run is clean only if no set for mppnccombine has an old output: the code deletes it (C50_dry_run_refuted). C50_wrong_set_refuted: unescaped dots put parts of another set into a combined file."
  },
  {
   "property": "C51",
   "status": "partial",
   "theorems": [
    "C51_combines",
    "C51_any_utils",
    "C51_duplicate_refuted",
    "C51_single_refuted"
   ],
   "note": "Acceptance and content are proved exactly; that all members are present is false of the code when an input is repeated (C51_duplicate_refuted), and a one-file set is refused."
  },
  {
   "property": "C52",
   "status": "proved",
   "theorems": [
    "C52_exact",
    "C52_fails",
    "C52_other",
    "C52_both_refuted"
   ],
   "note": "All option lists and files. getopt's own parsing of argv is outside. Finding: -v/-a are ignored when -g is also given."
  },
  {
   "property": "C53",
   "status": "partial",
   "theorems": [
    "C53_packed_partial",
    "C53_inconsistent",
    "C53_one_face_refuted",
    "C53_ten_faces_refuted"
   ],
   "note": "Proved for two or more faces when the file names identify the face. Findings: one face is undefined behaviour (strcpy arguments swapped); with ten or more faces _tile1 matches _tile10."
  },
  {
   "property": "C54",
   "status": "partial",
   "theorems": [
    "C54_in_range",
    "C54_in_range_refuted",
    "C54_fix_lon",
    "C54_adjust",
    "C54_lon_fix",
    "C54_lon_fix_refuted"
   ],
   "note": "Over exact reals. Unrolling is proved whenever the polygon can be unrolled with each vertex moved by at most one turn (cells winding once or less). Within 1e-4 degrees of an end of the window lon_in_range returns the start of the window, which is not an equivalent longitude (C54_in_range_refuted). Finding: lon_fix centres by a sum that has x[1] instead of x[0] (C54_lon_fix_refuted)."
  },
  {
   "property": "C55",
   "status": "proved",
   "theorems": [
    "C55_inverse",
    "C55_mult",
    "C55_intersect",
    "C55_small_refuted",
    "C55_rotation"
   ],
   "note": "Over exact reals (long double in the code). Finding: the threshold 1e-15 on the determinant is absolute, so a line crossing a triangle of size below about 1e-5 at a right angle is reported as parallel (C55_small_refuted). The comment in the code says 45 degrees; the rotation is a quarter turn (last clause of C55_rotation)."
  },
  {
   "property": "C56",
   "status": "proved",
   "theorems": [
    "C56_from_xyz",
    "C56_round_trip",
    "C56_frame",
    "C56_rotate_poly",
    "C56_away"
   ],
   "note": "Over exact reals; atan2 and asin of the C library are their mathematical definitions. Vertices landing within 1e-10 of a pole get longitude 0 and are excluded from C56_rotate_poly."
  },
  {
   "property": "C57",
   "status": "partial",
   "theorems": [
    "C57_values",
    "C57_bounds",
    "C57_conserved",
    "C57_conserved_sum",
    "C57_conserved_target",
    "C57_target_refuted"
   ],
   "note": "Over exact reals, one processor. Second order needs offsets that average to zero over every input cell (C59). Finding: with missing values the --target_grid correction counts the area without a value and does not conserve (C57_target_refuted)."
  },
  {
   "property": "C58",
   "status": "partial",
   "theorems": [
    "C58_runs",
    "C58_upper",
    "C58_lower",
    "C58_inactive",
    "C58_conserved",
    "C58_levels_lost",
    "C58_lower_refuted",
    "C58_conserved_refuted"
   ],
   "note": "Over exact reals, one processor, input tiles of equal width. Findings: an input cell with pieces above and below its neighbours is limited from above only (C58_lower_refuted); every output tile is limited by itself, so more than one tile breaks conservation (C58_conserved_refuted); levels above the first are filled with -1e20 (C58_levels_lost)."
  },
  {
   "property": "C59",
   "status": "proved",
   "theorems": [
    "C59_cells",
    "C59_cells_order1",
    "C59_centred",
    "C59_conserved"
   ],
   "note": "Over exact reals. The clipping of one pair of tiles is an arbitrary function giving pieces with indices in range and positive area; the sums over processors (mpp_sum_double) are sums over ranks."
  },
  {
   "property": "C60",
   "status": "partial",
   "theorems": [
    "C60_written",
    "C60_read",
    "C60_same_division",
    "C60_any_division",
    "C60_reuse",
    "C60_computed",
    "C60_empty_tile_refuted"
   ],
   "note": "Proved for every output tile with at least one exchange cell. An output tile without exchange cells writes no file, and the next run, which finds the files of the other tiles, works with uninitialised memory for it (C60_empty_tile_refuted). netCDF storage is exact: doubles and ints are read as written."
  },
  {
   "property": "C61",
   "status": "partial",
   "theorems": [
    "C61_levels",
    "C61_same_levels",
    "C61_gap_refuted",
    "C61_outside_refuted"
   ],
   "note": "Proved whenever at least one output level lies within the range of at least two source levels. Otherwise the claim is false of the code (C61_gap_refuted, C61_outside_refuted: accesses outside the arrays)."
  },
  {
   "property": "C62",
   "status": "partial",
   "theorems": [
    "C62_ends",
    "C62_valid_kept",
    "C62_bounds",
    "C62_balance",
    "C62_range_refuted",
    "C62_small_refuted",
    "C62_single_refuted"
   ],
   "note": "All proved except the last clause: the range kept is that of the valid data together with 0 (C62_bounds); without 0 it is false (C62_range_refuted, C62_small_refuted). At least two rows and columns are required (C62_single_refuted). Over exact reals."
  },
  {
   "property": "C63",
   "status": "partial",
   "theorems": [
    "C63_values_partial",
    "C63_output_angle",
    "C63_centre_refuted",
    "C63_input_angle_refuted",
    "C63_target_refuted",
    "C63_reversed_refuted"
   ],
   "note": "Proved for given cosines and sines of the cells, for all grids, overlaps and missing values, provided the missing value exceeds every valid vector in size. The reading of the angles is wrong in the code: the angle array of an input tile is read beyond its end on every grid, the output angle is that of a corner, axes turned by exactly 180 degrees are not turned, and --target_grid uses an area never set."
  },
  {
   "property": "C64",
   "status": "partial",
   "theorems": [
    "C64_exchange_partial",
    "C64_same_side_refuted",
    "C64_size_refuted"
   ],
   "note": "Proved for all pairs of sides except west-west, east-east and south-south, for which the order of the values is wrong (C64_same_side_refuted), and where the tile that receives has the width or height of the tile that gives (C64_size_refuted otherwise). Contacts are at least two cells long (shorter ones are rejected by the code)."
  },
  {
   "property": "C65",
   "status": "proved",
   "theorems": [
    "C65_filter",
    "C65_safe"
   ],
   "note": "Over real numbers; the global field assembled by mpp_global_field is the input."
  },
  {
   "property": "C66",
   "status": "proved",
   "theorems": [
    "C66_runs",
    "C66_errors",
    "C66_levels",
    "C66_unadjusted",
    "C66_shallow",
    "C66_thin",
    "C66_thickness_refuted"
   ],
   "note": "The thickness clause needs the limit not to exceed the layer; without it the refutation gives a column deeper than the vertical grid."
  },
  {
   "property": "C67",
   "status": "partial",
   "theorems": [
    "C67_isolated_partial",
    "C67_floor",
    "C67_isolated_refuted"
   ],
   "note": "Proved when thin bottom cells are opened (the default); with --dont_open_very_this_cell the claim is false (refutation). The folded row of a tripolar grid is not examined by the code."
  },
  {
   "property": "C68",
   "status": "proved",
   "theorems": [
    "C68_mask",
    "C68_mask_refuted"
   ],
   "note": "With a minimum number of levels and the rounding or filling rule the mask can change even with --dont_change_landmask (refutation)."
  },
  {
   "property": "C69",
   "status": "partial",
   "theorems": [
    "C69_index",
    "C69_order",
    "C69_int",
    "C69_double",
    "C69_processors",
    "C69_missing",
    "C69_missing_refuted"
   ],
   "note": "Proved for fields without missing values (files with all tiles may have missing integers), for one destination face, no remap file and files other than fire files; cohort variables are not modelled. C69_missing says what happens with missing integers and C69_missing_refuted that the end of the variable is then never set."
  },
  {
   "property": "C70",
   "status": "proved",
   "theorems": [
    "C70_frac",
    "C70_sum",
    "C70_tags"
   ],
   "note": "C70_sum needs the fractions of the soil tiles of the source cell not to add up to 0; C70_frac needs no fraction to be the missing value."
  },
  {
   "property": "C71",
   "status": "partial",
   "theorems": [
    "C71_exists",
    "C71_abort",
    "C71_room_refuted"
   ],
   "note": "The clause on a second glacier or lake tile is false (refutation)."
  },
  {
   "property": "C72",
   "status": "partial",
   "theorems": [
    "C72_exchange",
    "C72_ocean",
    "C72_land",
    "C72_once",
    "C72_any_processors",
    "C72_indices",
    "C72_room"
   ],
   "note": "Proved for the legacy clipping with the polygon routines as parameters (Record sound says what is assumed of them), interpolation order 1, and land mosaics that are the atmosphere mosaic or for which shifting an ocean cell in longitude again and again is the same as shifting it once (steady); great-circle clipping and centroids are not modelled."
  },
  {
   "property": "C73",
   "status": "partial",
   "theorems": [
    "C73_conservation",
    "C73_no_excess",
    "C73_check_sums",
    "C73_ocean_fraction",
    "C73_ocean_at_most",
    "C73_error_refuted",
    "C73_land_fraction",
    "C73_land_fraction_refuted"
   ],
   "note": "The clause on the error for wrong ocean fractions is false without --verbose (C73_error_refuted); the land fraction needs an atmosphere tile with as many cells as the land tile (C73_land_fraction_refuted). That the grids cover each other is a hypothesis (tiled, disjoint, under_air)."
  },
  {
   "property": "C74",
   "status": "partial",
   "theorems": [
    "C74_serial_partial",
    "C74_parallel_partial",
    "C74_processors_refuted"
   ],
   "note": "False in general (C74_processors_refuted): a processor whose cells lie between two rows of the ocean grid finds nothing. Proved where the ocean rows are parallels and one passes through the cells of each processor."
  },
  {
   "property": "C75",
   "status": "partial",
   "theorems": [
    "C75_interpolation",
    "C75_exact_at_levels",
    "C75_no_new_extremes",
    "C75_log_linear_exact",
    "C75_one_level_refuted"
   ],
   "note": "False for columns with fewer than two levels with data (C75_one_level_refuted); proved for all others, over the reals."
  },
  {
   "property": "C76",
   "status": "partial",
   "theorems": [
    "C76_levels_with_data",
    "C76_masked",
    "C76_not_masked",
    "C76_no_missing_value_refuted",
    "C76_copied_missing_refuted",
    "C76_half_levels_refuted",
    "C76_hole_refuted"
   ],
   "note": "Proved for fields on full levels with a missing value, when the missing values of each column are those below some level; the other clauses are refuted."
  },
  {
   "property": "C77",
   "status": "partial",
   "theorems": [
    "C77_heights",
    "C77_flag",
    "C77_height_out",
    "C77_isothermal",
    "C77_extrapolated_temperature",
    "C77_extrapolated_humidity",
    "C77_vapour_pressure",
    "C77_continuous_refuted",
    "C77_temperature_range_refuted"
   ],
   "note": "Heights proved for columns without missing levels. The continuation below the ground starts from the level above the lowest (C77_continuous_refuted); temperatures outside the table are not reported (C77_temperature_range_refuted)."
  },
  {
   "property": "C78",
   "status": "partial",
   "theorems": [
    "C78_sea_level_pressure",
    "C78_no_level_refuted"
   ],
   "note": "Proved when every column above sea level has a level with more than 0.8 of the surface pressure; false otherwise (C78_no_level_refuted)."
  },
  {
   "property": "C79",
   "status": "proved",
   "theorems": [
    "C79_copied",
    "C79_interpolated",
    "C79_packed"
   ],
   "note": "Over the reals; the range of the packed type is not modelled."
  },
  {
   "property": "C80",
   "status": "partial",
   "theorems": [
    "C80_regular",
    "C80_area",
    "C80_global",
    "C80_f_plane",
    "C80_cartesian",
    "C80_wide_cell_refuted",
    "C80_spectral_refuted"
   ],
   "note": "Proved for cells up to 180 degrees wide (a wider one gets a negative area, C80_wide_cell_refuted). A spectral grid of four or more rows cannot be made (C80_spectral_refuted)."
  },
  {
   "property": "C81",
   "status": "partial",
   "theorems": [
    "C81_made",
    "C81_south",
    "C81_join",
    "C81_cap",
    "C81_positive",
    "C81_mirror",
    "C81_fold",
    "C81_great_circle_corners",
    "C81_odd_refuted",
    "C81_great_circle_refuted"
   ],
   "note": "Proved for grids with a grid line opposite of the first longitude; without it a cell gets the length zero (C81_odd_refuted). Great-circle areas are taken of other polygons (C81_great_circle_refuted). The other areas and the angles of the cap are not modelled."
  },
  {
   "property": "C82",
   "status": "proved",
   "theorems": [
    "C82_closed",
    "C82_edges",
    "C82_lengths",
    "C82_points",
    "C82_distances"
   ],
   "note": "For grids without nests (nests and the rotation angles are not modelled). Holds for any functions, so for the floating-point ones: only that a midpoint does not depend on the order of the two points is used."
  },
  {
   "property": "C83",
   "status": "partial",
   "theorems": [
    "C83_faces",
    "C83_spacing",
    "C83_cover",
    "C83_disjoint",
    "C83_consistent",
    "C83_grid",
    "C83_shift_refuted"
   ],
   "note": "In real arithmetic. Everything but the amount of the turn is proved; that clause is false (C83_shift_refuted): the grid is turned by 10 degrees whatever --shift_fac is, which C83_grid states. Grids with a Schmidt or cube transformation are not turned; their transformation is not part of this claim."
  },
  {
   "property": "C84",
   "status": "partial",
   "theorems": [
    "C84_stretch",
    "C84_turn",
    "C84_grid",
    "C84_zoom",
    "C84_snap",
    "C84_distinct",
    "C84_collapse_refuted"
   ],
   "note": "In real arithmetic. The last clause is false (C84_collapse_refuted): points whose sine of latitude comes within 1e-7 of 1 or -1, that is within 0.0256 degrees (2.8 km) of a pole, are all moved to the pole. C84_grid says exactly which points these are, C84_snap bounds the move, C84_distinct is the clause for the others. A stretch factor within 5e-8 of 1 counts as 1."
  },
  {
   "property": "C85",
   "status": "partial",
   "theorems": [
    "C85_cell",
    "C85_distance",
    "C85_formula",
    "C85_defined",
    "C85_weights",
    "C85_mean",
    "C85_scalar",
    "C85_vector",
    "C85_vector_missing_refuted",
    "C85_sort_refuted"
   ],
   "note": "In real arithmetic. Proved for the cells found by the search; of the search itself the choice among the four cells around the closest centre is modelled (C85_cell), the search for the closest centre and the remap file are not. The clause on missing vectors is false (C85_vector_missing_refuted). C85_sort_refuted: the fallback search writes outside its array."
  },
  {
   "property": "C86",
   "status": "partial",
   "theorems": [
    "C86_mean",
    "C86_steps",
    "C86_shift",
    "C86_shift_refuted",
    "C86_missing_refuted"
   ],
   "note": "In real arithmetic, for fields without missing values. Two clauses are false: the mean is centred a quarter of a cell west of its longitude (C86_shift, C86_shift_refuted), and fields that have a missing value are divided by it (C86_mean with has_missing, C86_missing_refuted). Fields in which values are missing are not covered."
  },
  {
   "property": "C87",
   "status": "proved",
   "theorems": [
    "C87_divides",
    "C87_nest",
    "C87_refused",
    "C87_defined",
    "C87_agree",
    "C87_global",
    "C87_nests"
   ],
   "note": "In real arithmetic. Points closer than 1e-8 radians in longitude and latitude count as one point (close in Spec_Nest), longitudes within 1e-10 of the poles are 0, and C87_defined excludes arcs shorter than 1e-5 radians (64 m), which the program refuses with the message for antipodal points."
  },
  {
   "property": "C88",
   "status": "partial",
   "theorems": [
    "C88_halo_partial",
    "C88_lengths_refuted",
    "C88_lengths_east_refuted"
   ],
   "note": "C88_halo_partial proves the statement for points and cells on all sides and for side lengths except beyond the west side of tiles 1, 3, 5 (dx, dy) and the east side of tiles 2, 4, 6 (dy). There it is false: C88_lengths_refuted (every grid size), C88_lengths_east_refuted."
  },
  {
   "property": "C89",
   "status": "proved",
   "theorems": [
    "C89_land_table"
   ],
   "note": "For every tile size and every layout that does not exceed it. The land of each cell (whether its area is positive) is the input; how it is found from the exchange grid is C90."
  },
  {
   "property": "C90",
   "status": "partial",
   "theorems": [
    "C90_land_mask_partial",
    "C90_directory_refuted"
   ],
   "note": "C90_land_mask_partial: proved over the reals, if no directory name in the path contains the name of a tile. For such directories the statement is false: C90_directory_refuted."
  },
  {
   "property": "C91",
   "status": "partial",
   "theorems": [
    "C91_boundaries_partial",
    "C91_closed",
    "C91_narrow_refuted",
    "C91_odd_fold_refuted"
   ],
   "note": "C91_boundaries_partial: proved for grids of at least 2 by 2 model cells, with a folded north side for an even number of at least 4 columns. For grids of one column or row and for folds of 2 columns the statement is false (C91_narrow_refuted), and with an odd number of columns the mosaic of a folded grid cannot be read (C91_odd_fold_refuted). Grids without a mosaic file (VERSION_1) are not modelled; how get_align_contact finds the contacts from the coordinates is not part of this property."
  }
 ]
}