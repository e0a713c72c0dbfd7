(** * Model of src/fre-grid/conserve_interp.c: conservative regridding of fregrid

    Doubles are real numbers.  One processor: the indices of the target are those of its
    part.  Arrays of the exchange grid are a list of records, one per exchange cell.  Division by a
    zero cell area (infinity in the code) has an unspecified value. *)
From Coq Require Import Reals.
From Verif Require Import Base M_Interp M_Runoff.
Open Scope Z_scope.

(** Exchange cell: interp[m].t_in, i_in, j_in, i_out, j_out, area, di_in, dj_in (globals.h, Interp_config) *)
Record xc := MkXc { x_t : Z; x_i : Z; x_j : Z; x_io : Z; x_jo : Z; x_a : R; x_di : R; x_dj : R }.
(** An input tile: grid_in[tile] (nx, ny, cell_area, weight) and field_in[tile] (data, area, grad_x,
    grad_y, grad_mask).  For second order [t_data] has a halo of one point. *)
Record tile := MkTile { t_nx : Z; t_ny : Z; t_cell : list R; t_weight : list R; t_data : list R; t_frac : list R;
                 t_gx : list R; t_gy : list R; t_gmask : list Z }.
(** An output tile: grid_out[m].nxc, nyc, cell_area and the exchange cells interp[m] *)
Record otile := MkOtile { o_nx : Z; o_ny : Z; o_cell : list R; o_xgrid : list xc }.
Inductive method := Order1 | Order2 | Monotone.
(** field_in->var[varid]: missing value if there is one, area_missing, cell_methods == SUM,
    cell_measures; grid_in[0].weight_exist; TARGET without use_volume (lines 541-542); nz *)
Record opts := MkOpts { p_missing : option R; p_area_missing : R; p_weight : bool; p_sum : bool; p_measures : bool;
                 p_target : bool; p_nz : Z }.
(** MAXVAL, conserve_interp.c:36, and lines 544-545 *)
Definition MAXVAL : R := (10 ^ 20)%R.
Definition missing (p : opts) : R := match p_missing p with Some m => m | None => (- MAXVAL)%R end.

(** field_out[m].data, out_area, out_miss *)
Definition acc := (list R * list R * list Z)%type.
(** data[n0] += v*area; out_area[n0] += area; and, unless [mark] is false, out_miss[n0] = 1 *)
Definition add (mark : bool) (n0 : Z) (v area : R) (st : acc) : outcome acc :=
  let '(data, oa, om) := st in
  do d <- oget data n0 ; do data <- oset data n0 (d + v * area)%R ;
  do s <- oget oa n0 ; do oa <- oset oa n0 (s + area)%R ;
  do om <- (if mark then oset om n0 1 else Ok om) ;
  Ok (data, oa, om).
(** if(weight_exist) area *= grid_in[tile].weight[j1*nx1+i1] *)
Definition weigh (p : opts) (t : tile) (n1 : Z) (area : R) : outcome R :=
  if p_weight p then do w <- oget (t_weight t) n1 ; Ok (area * w)%R else Ok area.
(** The cell_methods / cell_measures scaling, lines 588-597; [check]: with the test for a missing area *)
Definition scale (check : bool) (p : opts) (t : tile) (n1 : Z) (area : R) : outcome R :=
  if p_sum p then do a <- oget (t_cell t) n1 ; Ok (area / a)%R
  else if p_measures p then
    do f <- oget (t_frac t) n1 ;
    if check && reqb f (p_area_missing p) then Err 4 else
    do a <- oget (t_cell t) n1 ; Ok (area * (f / a))%R
  else Ok area.

(** First order, missing values: lines 574-604 *)
Definition cell_o1m (p : opts) (tiles : list tile) (nx2 : Z) (st : acc) (c : xc) : outcome acc :=
  do t <- oget tiles (x_t c) ;
  let n1 := x_j c * t_nx t + x_i c in let n0 := x_jo c * nx2 + x_io c in
  do area <- weigh p t n1 (x_a c) ;
  do v <- oget (t_data t) n1 ;
  if negb (reqb v (missing p)) then do area <- scale true p t n1 area ; add true n0 v area st else Ok st.
(** First order, no missing values: lines 606-628 *)
Definition cell_o1 (p : opts) (tiles : list tile) (nx2 ny2 : Z) (st : acc) (c : xc) : outcome acc :=
  do t <- oget tiles (x_t c) ;
  do area <- weigh p t (x_j c * t_nx t + x_i c) (x_a c) ;
  do r <- ofor 0 (p_nz p) (fun '(st, area) k =>
    let n1 := k * t_nx t * t_ny t + x_j c * t_nx t + x_i c in
    let n0 := k * nx2 * ny2 + x_jo c * nx2 + x_io c in
    do area <- scale false p t n1 area ;
    do v <- oget (t_data t) n1 ;
    do st <- add true n0 v area st ;
    Ok (st, area)) (st, area) ;
  Ok (fst r).
(** Second order, missing values: lines 758-798 *)
Definition cell_o2m (p : opts) (tiles : list tile) (nx2 : Z) (st : acc) (c : xc) : outcome acc :=
  do t <- oget tiles (x_t c) ;
  let n1 := x_j c * t_nx t + x_i c in let n0 := x_jo c * nx2 + x_io c in
  let n2 := (x_j c + 1) * (t_nx t + 2) + x_i c + 1 in
  do area <- weigh p t n1 (x_a c) ;
  do v <- oget (t_data t) n2 ;
  if negb (reqb v (missing p)) then
    do area <- scale true p t n1 area ;
    do g <- oget (t_gmask t) n1 ;
    if negb (g =? 0) then add true n0 v area st else
    do gx <- oget (t_gx t) n1 ; do gy <- oget (t_gy t) n1 ;
    add true n0 (v + gx * x_di c + gy * x_dj c)%R area st
  else Ok st.
(** Second order, no missing values: lines 800-828 *)
Definition cell_o2 (p : opts) (tiles : list tile) (nx2 ny2 : Z) (st : acc) (c : xc) : outcome acc :=
  do t <- oget tiles (x_t c) ;
  do area <- weigh p t (x_j c * t_nx t + x_i c) (x_a c) ;
  do r <- ofor 0 (p_nz p) (fun '(st, area) k =>
    let n0 := k * nx2 * ny2 + x_jo c * nx2 + x_io c in
    let n1 := k * t_nx t * t_ny t + x_j c * t_nx t + x_i c in
    let n2 := k * (t_nx t + 2) * (t_ny t + 2) + (x_j c + 1) * (t_nx t + 2) + x_i c + 1 in
    do area <- scale false p t n1 area ;
    do v <- oget (t_data t) n2 ;
    do gx <- oget (t_gx t) n1 ; do gy <- oget (t_gy t) n1 ;
    do st <- add true n0 (v + gx * x_di c + gy * x_dj c)%R area st ;
    Ok (st, area)) (st, area) ;
  Ok (fst r).

(** ** Monotone second order, lines 631-755 *)
(** f_bar_max, f_bar_min of one tile, lines 634-661: largest and smallest valid value of the 3x3
    neighbourhood *)
Definition bars (p : opts) (t : tile) : outcome (list (R * R)) :=
  ofor 0 (t_ny t) (fun l j => ofor 0 (t_nx t) (fun l i =>
    do b <- ofor (j - 1) 3 (fun b jj => ofor (i - 1) 3 (fun b ii =>
      do v <- oget (t_data t) ((jj + 1) * (t_nx t + 2) + ii + 1) ;
      if negb (reqb v (missing p)) then
        Ok (if rlt (fst b) v then v else fst b, if rlt v (snd b) then v else snd b)
      else Ok b) b) (- MAXVAL, MAXVAL)%R ;
    Ok (l ++ [b])) l) [].
(** xdata and f_max, f_min, lines 664-690; [nx1] is the width of the last tile (the loop
    variables keep the values of the loop of lines 634-662).  The extremes are a list of tiles of
    pairs (f_max, f_min).  [None]: xdata[n] = missing. *)
Definition mono_cell (p : opts) (tiles : list tile) (nx1 : Z) (st : list (list (R * R)) * list R) (c : xc)
    : outcome (list (list (R * R)) * list R) :=
  let '(ext, xs) := st in
  do t <- oget tiles (x_t c) ;
  let n1 := x_j c * nx1 + x_i c in let n2 := (x_j c + 1) * (nx1 + 2) + x_i c + 1 in
  do v <- oget (t_data t) n2 ;
  if negb (reqb v (missing p)) then
    do g <- oget (t_gmask t) n1 ;
    do x <- (if negb (g =? 0) then Ok v else
             do gx <- oget (t_gx t) n1 ; do gy <- oget (t_gy t) n1 ; Ok (v + gx * x_di c + gy * x_dj c)%R) ;
    do e <- oget ext (x_t c) ; do b <- oget e n1 ;
    do e <- oset e n1 (if rlt (fst b) x then x else fst b, if rlt x (snd b) then x else snd b) ;
    do ext <- oset ext (x_t c) e ;
    Ok (ext, xs ++ [x])
  else Ok (ext, xs ++ [missing p]).
(** TOLERANCE, line 37 *)
Definition TOLERANCE : R := (1 / 10 ^ 10)%R.
(** Limiting, lines 700-735 *)
Definition limit (p : opts) (tiles : list tile) (nx1 : Z) (bar ext : list (list (R * R))) (c : xc) (x : R) : outcome R :=
  do t <- oget tiles (x_t c) ;
  let n1 := x_j c * nx1 + x_i c in let n2 := (x_j c + 1) * (nx1 + 2) + x_i c + 1 in
  do fbar <- oget (t_data t) n2 ;
  if reqb x (missing p) then Ok x else
  do e <- oget ext (x_t c) ; do fe <- oget e n1 ;
  do b <- oget bar (x_t c) ; do fb <- oget b n1 ;
  if rlt (fst fb) (fst fe) then
    let x := (fbar + (x - fbar) / (fst fe - fbar) * (fst fb - fbar))%R in
    if rlt (fst fb) x then
      let x := if rlt (x - fst fb) TOLERANCE then fst fb else x in
      if rlt (fst fb) x then Err 5 else Ok x
    else Ok x
  else if rlt (snd fe) (snd fb) then
    let x := (fbar + (x - fbar) / (snd fe - fbar) * (snd fb - fbar))%R in
    if rlt x (snd fb) then
      let x := if rlt (snd fb - x) TOLERANCE then snd fb else x in
      if rlt x (snd fb) then Err 6 else Ok x
    else Ok x
  else Ok x.
(** Remapping, lines 743-754; nx1 again that of the last tile *)
Definition cell_mono (p : opts) (tiles : list tile) (nx1 nx2 : Z) (st : acc) (cx : xc * R) : outcome acc :=
  let '(c, x) := cx in
  if reqb x (missing p) then Ok st else
  do t <- oget tiles (x_t c) ;
  let n1 := x_j c * nx1 + x_i c in
  do area <- weigh p t n1 (x_a c) ;
  do area <- scale false p t n1 area ;
  add false (x_jo c * nx2 + x_io c) x area st.
Definition mono (p : opts) (tiles : list tile) (nx2 : Z) (X : list xc) (st : acc) : outcome acc :=
  let nx1 := t_nx (last tiles (MkTile 0 0 [] [] [] [] [] [] [])) in
  do bar <- ofold (fun l t => do b <- bars p t ; Ok (l ++ [b])) tiles [] ;
  let ext := map (fun t => repeat (- MAXVAL, MAXVAL)%R (Z.to_nat (t_nx t * t_ny t))) tiles in
  do r <- ofold (mono_cell p tiles nx1) X (ext, []) ;
  let '(ext, xs) := r in
  do ys <- ofold (fun l cx => do x <- limit p tiles nx1 bar ext (fst cx) (snd cx) ; Ok (l ++ [x])) (combine X xs) [] ;
  ofold (cell_mono p tiles nx1 nx2) (combine X ys) st.

(** ** One output tile, lines 555-885 *)
Definition accumulate (m : method) (p : opts) (tiles : list tile) (o : otile) (st : acc) : outcome acc :=
  let nx2 := o_nx o in let ny2 := o_ny o in
  match m, p_missing p with
  | Order1, Some _ => ofold (cell_o1m p tiles nx2) (o_xgrid o) st
  | Order1, None => ofold (cell_o1 p tiles nx2 ny2) (o_xgrid o) st
  | Monotone, _ => mono p tiles nx2 (o_xgrid o) st
  | Order2, Some _ => ofold (cell_o2m p tiles nx2) (o_xgrid o) st
  | Order2, None => ofold (cell_o2 p tiles nx2 ny2) (o_xgrid o) st
  end.
(** Lines 838-847, cell_methods == SUM (then nz = 1) and 849-856 *)
Definition finish (p : opts) (n : Z) (st : acc) : outcome (list R) :=
  let '(data, oa, om) := st in
  ofor 0 n (fun data i =>
    do a <- oget oa i ; do u <- oget om i ;
    if p_sum p then
      (if reqb a 0 then oset data i (if u =? 0 then missing p else 0%R) else Ok data)
    else
      if rlt 0 a then do d <- oget data i ; oset data i (d / a)%R
      else oset data i (if u =? 1 then 0%R else missing p)) data.
(** Lines 858-883, TARGET *)
Definition to_target (p : opts) (tiles : list tile) (o : otile) (data : list R) : outcome (list R) :=
  let nx2 := o_nx o in let n := o_nx o * o_ny o in
  do oa <- ofold (fun oa c =>
    do t <- oget tiles (x_t c) ;
    let n0 := x_jo c * nx2 + x_io c in let n1 := x_j c * t_nx t + x_i c in
    do s <- oget oa n0 ;
    if p_measures p then
      do f <- oget (t_frac t) n1 ; do a <- oget (t_cell t) n1 ; oset oa n0 (s + x_a c * f / a)%R
    else oset oa n0 (s + x_a c)%R) (o_xgrid o) (repeat 0%R (Z.to_nat n)) ;
  ofor 0 (n * p_nz p) (fun data i =>
    do d <- oget data i ;
    if negb (reqb d (missing p)) then
      do s <- oget oa (Z.rem i n) ; do a <- oget (o_cell o) (Z.rem i n) ; oset data i (d * (s / a))%R
    else Ok data) data.
Definition one_tile (m : method) (p : opts) (tiles : list tile) (o : otile) : outcome (list R) :=
  let n := o_nx o * o_ny o * p_nz p in
  do st <- accumulate m p tiles o (repeat 0%R (Z.to_nat n), repeat 0%R (Z.to_nat n), repeat 0 (Z.to_nat n)) ;
  do data <- finish p n st ;
  if negb (p_sum p) && p_target p then to_target p tiles o data else Ok data.
(** do_scalar_conserve_interp, lines 507-912, without the conservation report: the data of all output
    tiles *)
Definition do_scalar (m : method) (p : opts) (tiles : list tile) (otiles : list otile) : outcome (list (list R)) :=
  if (1 <? p_nz p) && (match p_missing p with Some _ => true | None => false end) then Err 1 else
  if (1 <? p_nz p) && p_measures p then Err 2 else
  if (1 <? p_nz p) && p_sum p then Err 3 else
  ofold (fun l o => do d <- one_tile m p tiles o ; Ok (l ++ [d])) otiles [].
