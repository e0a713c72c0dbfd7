(** * Model of combine-ncc and scatter-ncc, src/land_utils/

    Positions are 0-based (the Fortran ones are 1-based).  A compressed variable is
    handled slice by slice (one level, one record), and every slice is treated alike;
    the model describes one slice of one variable.  The NetCDF calls succeed. *)
From Verif Require Import Base M_Compress.

(** ** combine-ncc.F90 *)

(** The two loops of subroutine merge, combine-ncc.F90:409-430.  [a] is the whole
    array; the output c starts at position [off] in it and the input b at [off + na],
    inside c.  [t] is the input called a there. *)
Fixpoint merge_rest (fuel : nat) (t : list Z) (na off : Z) (a : list Z) (i k : Z) : outcome (list Z) :=
  if i <? na then
    match fuel with
    | O => Err 1
    | S fuel => do v <- oget t i ; do a <- oset a (off + k) v ; merge_rest fuel t na off a (i + 1) (k + 1)
    end
  else Ok a.
Fixpoint merge_loop (fuel : nat) (x t : list Z) (na nb off : Z) (a : list Z) (i j k : Z) : outcome (list Z) :=
  if (i <? na) && (j <? nb) then
    match fuel with
    | O => Err 1
    | S fuel =>
      do ai <- oget t i ; do bj <- oget a (off + na + j) ;
      do xa <- oget x ai ; do xb <- oget x bj ;
      if xa <=? xb then do a <- oset a (off + k) ai ; merge_loop fuel x t na nb off a (i + 1) j (k + 1)
      else do a <- oset a (off + k) bj ; merge_loop fuel x t na nb off a i (j + 1) (k + 1)
    end
  else merge_rest (Z.to_nat na) t na off a i k.
Definition merge (x t : list Z) (na nb off : Z) (a : list Z) : outcome (list Z) :=
  merge_loop (Z.to_nat (na + nb)) x t na nb off a 0 0 0.

(** mergerank, combine-ncc.F90:381-407, on the [n] elements of [a] from [off]; the
    work array t only carries the copy made before merging. *)
Fixpoint mergerank (fuel : nat) (x a : list Z) (off n : Z) : outcome (list Z) :=
  if n <? 2 then Ok a
  else if n =? 2 then
    do a1 <- oget a off ; do a2 <- oget a (off + 1) ; do x1 <- oget x a1 ; do x2 <- oget x a2 ;
    if x1 >? x2 then do a <- oset a off a2 ; oset a (off + 1) a1 else Ok a
  else
    match fuel with
    | O => Err 1
    | S fuel =>
      let na := (n + 1) / 2 in let nb := n - na in
      do a <- mergerank fuel x a off na ;
      do a <- mergerank fuel x a (off + na) nb ;
      do p <- oget a (off + na - 1) ; do q <- oget a (off + na) ; do xp <- oget x p ; do xq <- oget x q ;
      if xp >? xq then
        do t <- ofor 0 na (fun t i => do v <- oget a (off + i) ; Ok (t ++ [v])) [] ;
        merge x t na nb off a
      else Ok a
    end.

(** rank_ascending, combine-ncc.F90:360-375 *)
Definition rank_ascending (x : list Z) : outcome (list Z) :=
  mergerank (length x) x (zseq 0 (zlen x)) 0 (zlen x).

(** The loop that skips the leading negatives, combine-ncc.F90:338-341: the first
    position whose index is not negative (the number of positions if there is none). *)
Fixpoint first_valid (buff rank : list Z) (k : Z) : outcome Z :=
  match rank with
  | [] => Ok k
  | r :: rank => do v <- oget buff r ; if v >=? 0 then Ok k else first_valid buff rank (k + 1)
  end.

(** reorder_compressed_index, combine-ncc.F90:323-355; [idxs] are the index variables
    of the files. *)
Definition reorder_compressed_index (idxs : list (list Z)) : outcome (list Z) :=
  let buff := concat idxs in
  do rank <- rank_ascending buff ;
  do k <- first_valid buff rank 0 ;
  let n := zlen rank in
  do rank <- ofor 0 (n - k) (fun rank i => do v <- oget rank (i + k) ; oset rank i v) rank ;
  ofor (n - k) k (fun rank i => oset rank i (-1)) rank.

(** inquire_dimension's length, combine-ncc.F90:308-316 *)
Definition dim_len (idxs : list (list Z)) : Z := zlen (filter (fun v => v >=? 0) (concat idxs)).

(** The reading, reshuffling and writing of one slice, combine-ncc.F90:196-264; with no
    valid index the variable is skipped. *)
Definition combine_slice {A} (idxs : list (list Z)) (datas : list (list A)) : outcome (list A) :=
  if dim_len idxs =? 0 then Ok [] else
  do rank <- reorder_compressed_index idxs ;
  let buffer := concat datas in
  ofor 0 (dim_len idxs) (fun out k => do r <- oget rank k ; do v <- oget buffer r ; Ok (out ++ [v])) [].

(** ** scatter-ncc.F90 *)
Record layout := MkLayout { ly_nlon : Z; ly_nlat : Z; ly_px : Z; ly_py : Z }.
Definition nlon_local y := ly_nlon y / ly_px y.
Definition nlat_local y := ly_nlat y / ly_py y.
Definition nfiles_out y := ly_px y * ly_py y.

(** The file of grid point [l] and its place there, scatter-ncc.F90:156-162, 258-267
    (the Fortran values minus one) *)
Definition file_of (y : layout) (l : Z) : Z :=
  let ij := l mod (ly_nlon y * ly_nlat y) in
  let i := ij mod ly_nlon y in let j := ij / ly_nlon y in
  (j / nlat_local y) * ly_px y + i / nlon_local y.
Definition place_of (y : layout) (l : Z) : Z :=
  let npts := ly_nlon y * ly_nlat y in
  let ij := l mod npts in let t := l / npts in
  let i := ij mod ly_nlon y in let j := ij / ly_nlon y in
  t * (nlon_local y * nlat_local y) + (j mod nlat_local y) * nlon_local y + i mod nlon_local y.

(** Fortran's pack *)
Fixpoint pack {A} (b : list A) (m : list bool) : list A :=
  match b, m with x :: b, true :: m => x :: pack b m | _ :: b, false :: m => pack b m | _, _ => [] end.

(** The lengths of the compressed dimension in the output files, scatter-ncc.F90:146-168
    (before the maximum with 1); [vsize] is the number of grid points, [idx] the index. *)
Definition dimlen_list (y : layout) (vsize : Z) (idx : list Z) : outcome (list Z) :=
  do '(_, mask) <- get_compressed [MkCdim (zlen idx) (Some idx) vsize] idx (repeat 0 (Z.to_nat vsize)) (repeat false (Z.to_nat vsize)) None ;
  ofor 0 vsize (fun dl l => do m <- oget mask l ;
     if (m : bool) then do c <- oget dl (file_of y l) ; oset dl (file_of y l) (c + 1) else Ok dl) (repeat 0 (Z.to_nat (nfiles_out y))).

(** The buffers buffer_2d and mask_2d, scatter-ncc.F90:248-271: one row per file. *)
Definition scatter_rows {A} (y : layout) (vsize : Z) (idx : list Z) (data : list A) (zero : A) : outcome (list (list A) * list (list bool)) :=
  let vloc := vsize / nfiles_out y in
  do '(buffer, mask) <- get_compressed [MkCdim (zlen idx) (Some idx) vsize] data (repeat zero (Z.to_nat vsize)) (repeat false (Z.to_nat vsize)) None ;
  ofor 0 vsize (fun '(b2, m2) l => do m <- oget mask l ;
    if (m : bool) then
      do v <- oget buffer l ;
      do row <- oget b2 (file_of y l) ; do row <- oset row (place_of y l) v ; do b2 <- oset b2 (file_of y l) row ;
      do mrow <- oget m2 (file_of y l) ; do mrow <- oset mrow (place_of y l) m ; do m2 <- oset m2 (file_of y l) mrow ;
      Ok (b2, m2)
    else Ok (b2, m2))
    (repeat (repeat zero (Z.to_nat vloc)) (Z.to_nat (nfiles_out y)), repeat (repeat false (Z.to_nat vloc)) (Z.to_nat (nfiles_out y))).

(** The contents of the variable in each output file, scatter-ncc.F90:272-282: the
    packed values over a variable filled with the fill value. *)
Definition scatter_slice {A} (y : layout) (vsize : Z) (idx : list Z) (data : list A) (zero fill : A) : outcome (list (list A)) :=
  do dl <- dimlen_list y vsize idx ;
  do '(b2, m2) <- scatter_rows y vsize idx data zero ;
  ofor 0 (nfiles_out y) (fun out n => do len <- oget dl n ; do row <- oget b2 n ; do mrow <- oget m2 n ;
     let p := pack row mrow in
     if zlen p >? Z.max len 1 then Err 1   (* the write beyond the dimension fails *)
     else Ok (out ++ [p ++ repeat fill (Z.to_nat (Z.max len 1 - zlen p))])) [].
