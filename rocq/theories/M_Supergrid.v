(** * Model of reading model-resolution fields from a supergrid file
    (lib/libfrencutils/read_mosaic.c) and of make_regional_mosaic

    Values of any type [V]; a file variable of dimensions (nyp,nxp) is the row-major
    list of its values. *)
From Coq Require Import String.
Open Scope list_scope.
From Verif Require Import Base Str M_ScatterName.

(** read_mosaic_grid_data, read_mosaic.c:787-810.  [ni], [nj] are the dimensions nx, ny
    of the tile file and [tmp] its variable (get_var_data reads all of it into the
    allocated (ni+1)*(nj+1) values; a variable of another size is not modelled);
    [data] is the caller's array. *)
Definition read_mosaic_grid_data {V} (ni nj : Z) (tmp : list V) (nx ny ioff joff : Z) (data : list V) : outcome (list V) :=
  if negb (ni =? nx * 2) || negb (nj =? ny * 2) then Err 1 else
  let nxp := nx + 1 - ioff in
  let nyp := ny + 1 - joff in
  ofor 0 nyp (fun data j => ofor 0 nxp (fun data i =>
    do v <- oget tmp ((2 * j + joff) * (ni + 1) + 2 * i + ioff) ;
    oset data (j * nxp + i) v) data) data.

(** mpp_get_var_value_block on a variable of dimensions (d0,d1), mpp_io.c: the netCDF
    library refuses a block that is not inside the variable, and else returns the block
    in row-major order *)
Definition get_block {V} (d0 d1 : Z) (f : list V) (start0 start1 nread0 nread1 : Z) : outcome (list V) :=
  if (start0 <? 0) || (start1 <? 0) || (nread0 <? 0) || (nread1 <? 0) || (d0 <? start0 + nread0) || (d1 <? start1 + nread1) then Err 2 else
  ofor 0 nread0 (fun b j => ofor 0 nread1 (fun b i =>
    do v <- oget f ((start0 + j) * d1 + (start1 + i)) ; Ok (b ++ [v])) b) [].

(** strstr: does [p] occur in [s]? *)
Fixpoint is_prefix (p s : str) : bool :=
  match p, s with
  | [], _ => true
  | _, [] => false
  | a :: p, b :: s => (a =? b) && is_prefix p s
  end.
Fixpoint strstr (s p : str) : bool :=
  is_prefix p s || match s with [] => false | _ :: s => strstr s p end.

(** The tile number, make_regional_mosaic.c:144-161: the first n with .tile<n+1>.nc in
    the name *)
Definition tile_number (regional_file : str) (ntiles : Z) : outcome Z :=
  do tile <- ofor 0 ntiles (fun tile n =>
    if negb (tile =? -1) then Ok tile else
    do s <- sprintf 32 (chars ".tile%d.nc") [AInt (n + 1)] ;
    Ok (if strstr regional_file s then n else -1)) (-1) ;
  if tile =? -1 then Err 3 else Ok tile.

(** The grid of the region, make_regional_mosaic.c:163-225: [indx], [indy] are the
    (rounded) axis values of the regional file, [d0], [d1] the dimensions of the
    variable of the global tile.  Result: nx, ny and the block. *)
Definition regional_grid {V} (indx indy : list Z) (d0 d1 : Z) (f : list V) : outcome (Z * Z * list V) :=
  let nx := zlen indx in
  let ny := zlen indy in
  do i_min <- oget indx 0 ; do i_max <- oget indx (nx - 1) ;
  do j_min <- oget indy 0 ; do j_max <- oget indy (ny - 1) ;
  if negb (i_max - i_min + 1 =? nx) then Err 4 else
  if negb (j_max - j_min + 1 =? ny) then Err 5 else
  do b <- get_block d0 d1 f (2 * j_min - 2) (2 * i_min - 2) (2 * ny + 1) (2 * nx + 1) ;
  Ok (nx, ny, b).
