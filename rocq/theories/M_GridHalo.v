(** Model of the output of a cubed-sphere grid with a halo: src/make-hgrid/make_hgrid.c,
    --out_halo.  The values are of an arbitrary type, since they are only copied. *)
From Coq Require Import ZArith List Bool.
From Verif Require Import Base.
Open Scope Z_scope.

(** fill_cubic_grid_halo, make_hgrid.c:453-505.  [missing] is MISSING_VALUE. *)
Definition fill_cubic_grid_halo {A} (missing : A) (nx ny halo : Z) (data data1_all data2_all : list A)
    (tile ioff joff : Z) : outcome (list A) :=
  let nxp := nx + ioff in let nyp := ny + joff in
  let nxph := nx + ioff + 2 * halo in let nyph := ny + joff + 2 * halo in
  do data <- ofor 0 (nxph * nyph) (fun data i => oset data i missing) data ;
  do data <- ofor 1 nyp (fun data j => ofor 1 nxp (fun data i =>
    do v <- oget data1_all (tile * nxp * nyp + (j - 1) * nxp + (i - 1)) ; oset data (j * nxph + i) v) data) data ;
  let ntiles := 6 in
  if Z.rem tile 2 =? 1 then
    let lw := Z.rem (tile + ntiles - 1) ntiles in let le := Z.rem (tile + ntiles + 2) ntiles in
    let ls := Z.rem (tile + ntiles - 2) ntiles in let ln := Z.rem (tile + ntiles + 1) ntiles in
    do data <- ofor 1 nyp (fun data j =>
      do v <- oget data1_all (lw * nxp * nyp + (j - 1) * nxp + nx - 1) ; do data <- oset data (j * nxph) v ;
      do v <- oget data2_all (le * nxp * nyp + ioff * nxp + nyp - j) ; oset data (j * nxph + nxp + 1) v) data ;
    ofor 1 nxp (fun data i =>
      do v <- oget data2_all (ls * nxp * nyp + (nxp - i) * nyp + (nx - 1)) ; do data <- oset data i v ;
      do v <- oget data1_all (ln * nxp * nyp + joff * nxp + i - 1) ; oset data ((nyp + 1) * nxph + i) v) data
  else
    let lw := Z.rem (tile + ntiles - 2) ntiles in let le := Z.rem (tile + ntiles + 1) ntiles in
    let ls := Z.rem (tile + ntiles - 1) ntiles in let ln := Z.rem (tile + ntiles + 2) ntiles in
    do data <- ofor 1 nyp (fun data j =>
      do v <- oget data2_all (lw * nxp * nyp + (ny - 1) * nxp + nyp - j) ; do data <- oset data (j * nxph) v ;
      do v <- oget data1_all (le * nxp * nyp + (j - 1) * nxp + ioff) ; oset data (j * nxph + nxp + 1) v) data ;
    ofor 1 nxp (fun data i =>
      do v <- oget data1_all (ls * nxp * nyp + (ny - 1) * nxp + i - 1) ; do data <- oset data i v ;
      do v <- oget data2_all (ln * nxp * nyp + (nxp - i) * nyp + joff) ; oset data ((nyp + 1) * nxph + i) v) data.

(** The calls in main, make_hgrid.c:1287-1304, for --out_halo 1 and a global tile [t] of [n] by
    [n] cells: x, y, angle_dx or angle_dy ([halo_points]), dx, dy and area. *)
Definition halo_points {A} (missing : A) (n t : Z) (v tmp : list A) := fill_cubic_grid_halo missing n n 1 tmp v v t 1 1.
Definition halo_dx {A} (missing : A) (n t : Z) (dx dy tmp : list A) := fill_cubic_grid_halo missing n n 1 tmp dx dy t 0 1.
Definition halo_dy {A} (missing : A) (n t : Z) (dx dy tmp : list A) := fill_cubic_grid_halo missing n n 1 tmp dy dx t 1 0.
Definition halo_area {A} (missing : A) (n t : Z) (area tmp : list A) := fill_cubic_grid_halo missing n n 1 tmp area area t 0 0.
