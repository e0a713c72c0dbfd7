(** * Model of get_align_contact, src/make-solo-mosaic/get_contact.c

    Coordinates are real numbers.  A tile has nx by ny supergrid points, stored row by
    row.  printf is omitted. *)
From Coq Require Import Reals.
From Verif Require Import Base M_Interp M_Contact.
Open Scope Z_scope.

Definition EPSLN : R := (/ 10000000000)%R.
Definition EPSLN2 : R := (/ 10000000)%R.

(** west_bound, east_bound, south_bound, north_bound, get_contact.c:522-556 *)
Definition west_bound (data : list R) (nx ny : Z) : outcome (list R) :=
  ofor 0 ny (fun b i => do v <- oget data (i * nx) ; Ok (b ++ [v])) [].
Definition east_bound (data : list R) (nx ny : Z) : outcome (list R) :=
  ofor 0 ny (fun b i => do v <- oget data (i * nx + nx - 1) ; Ok (b ++ [v])) [].
Definition south_bound (data : list R) (nx ny : Z) : outcome (list R) :=
  ofor 0 nx (fun b i => do v <- oget data i ; Ok (b ++ [v])) [].
Definition north_bound (data : list R) (nx ny : Z) : outcome (list R) :=
  ofor 0 nx (fun b i => do v <- oget data ((ny - 1) * nx + i) ; Ok (b ++ [v])) [].

(** The test of two points, get_contact.c:470-474 and 492-496 *)
Definition coincident (x1 y1 x2 y2 periodx periody : R) : bool :=
  let dx := Rabs (x1 - x2) in
  let dx := Rmin dx (Rabs (dx - periodx)) in
  let dy := Rabs (y1 - y2) in
  let dy := Rmin dy (Rabs (dy - periody)) in
  rlt dx EPSLN && rlt dy EPSLN.

(** The two searches (goto foundstart / foundend), get_contact.c:468-481 and 490-503;
    [ix1], [ix2] turn the loop counters into indices (ascending or descending) *)
Definition search (size1 size2 : Z) (ix1 ix2 : Z -> Z) (x1 y1 x2 y2 : list R) (periodx periody : R)
  : outcome (option (Z * Z)) :=
  ofor 0 size1 (fun st n1 => ofor 0 size2 (fun st n2 =>
    match st with
    | Some _ => Ok st
    | None =>
      let i1 := ix1 n1 in let i2 := ix2 n2 in
      do a1 <- oget x1 i1 ; do a2 <- oget x2 i2 ; do b1 <- oget y1 i1 ; do b2 <- oget y2 i2 ;
      Ok (if coincident a1 b1 a2 b2 periodx periody then Some (i1 + 1, i2 + 1) else None)
    end) st) None.

(** get_contact_index, get_contact.c:459-519: start1, end1, start2, end2 *)
Definition get_contact_index (size1 size2 : Z) (x1 y1 x2 y2 : list R) (periodx periody : R)
  : outcome (option (Z * Z * Z * Z)) :=
  do s <- search size1 size2 (fun n => n) (fun n => n) x1 y1 x2 y2 periodx periody ;
  match s with
  | None => Ok None
  | Some (start1, start2) =>
    do e <- search size1 size2 (fun n => size1 - 1 - n) (fun n => size2 - 1 - n) x1 y1 x2 y2 periodx periody ;
    match e with
    | None => Ok None
    | Some (end1, end2) =>
      if (start1 =? end1) || (start2 =? end2) then Ok None else
      let '(start1, end1) := if start1 >? end1 then (start1 - 1, end1) else (start1, end1 - 1) in
      let '(start2, end2) := if start2 >? end2 then (start2 - 1, end2) else (start2, end2 - 1) in
      Ok (Some (start1, end1, start2, end2))
    end
  end.

Inductive edge := West | East | South | North.
Definition bound (e : edge) := match e with West => west_bound | East => east_bound | South => south_bound | North => north_bound end.
Definition bsize (e : edge) (nx ny : Z) := match e with West | East => ny | South | North => nx end.
(** The i and j range of a contact on an edge: the assignments to istart, iend, jstart,
    jend in get_align_contact *)
Definition on_edge (e : edge) (nx ny s t : Z) : Z * Z * Z * Z :=
  match e with
  | West => (1, 1, s, t) | East => (nx - 1, nx - 1, s, t)
  | South => (s, t, 1, 1) | North => (s, t, ny - 1, ny - 1)
  end.

(** One block of get_align_contact, e.g. get_contact.c:58-75 *)
Definition try_edges (e1 e2 : edge) (nx1 ny1 nx2 ny2 : Z) (x1 y1 x2 y2 : list R) (periodx periody : R)
    (tile1 tile2 : Z) (out : list contact) : outcome (list contact) :=
  do xb1 <- bound e1 x1 nx1 ny1 ; do yb1 <- bound e1 y1 nx1 ny1 ;
  do xb2 <- bound e2 x2 nx2 ny2 ; do yb2 <- bound e2 y2 nx2 ny2 ;
  do r <- get_contact_index (bsize e1 nx1 ny1) (bsize e2 nx2 ny2) xb1 yb1 xb2 yb2 periodx periody ;
  match r with
  | None => Ok out
  | Some (start1, end1, start2, end2) =>
    let '(is1, ie1, js1, je1) := on_edge e1 nx1 ny1 start1 end1 in
    let '(is2, ie2, js2, je2) := on_edge e2 nx2 ny2 start2 end2 in
    Ok (out ++ [{| k_tile1 := tile1; k_tile2 := tile2; k_is1 := is1; k_ie1 := ie1; k_js1 := js1; k_je1 := je1;
                   k_is2 := is2; k_ie2 := ie2; k_js2 := js2; k_je2 := je2 |}])
  end.

(** The test for a folded north boundary, get_contact.c:215-243: the state is folded
    (and not left the loop) and num *)
Definition folded_north (xb yb : list R) (nx : Z) : outcome bool :=
  do '(folded, num) <- ofor 0 (nx / 2) (fun '(folded, num) i =>
    if negb folded then Ok (folded, num) else
    do b1 <- oget yb i ; do b2 <- oget yb (nx - i - 1) ;
    let dy := Rabs (b1 - b2) in
    if rlt EPSLN2 dy then Ok (false, num) else
    do a1 <- oget xb i ; do a2 <- oget xb (nx - i - 1) ;
    let dx := Rabs (a1 - a2) in
    if rlt EPSLN2 dx && rlt EPSLN2 (Rabs (dx - 360)) then
      if rlt (Rabs (dx - 180)) EPSLN2 then Ok (true, num + 1) else Ok (false, num)
    else Ok (true, num)) (true, 0) ;
  Ok (folded && negb (num >? 1)).

(** get_align_contact, get_contact.c:47-266: the contacts in the order of the output
    arrays *)
Definition get_align_contact (tile1 tile2 nx1 ny1 nx2 ny2 : Z) (x1 y1 x2 y2 : list R) (periodx periody : R)
  : outcome (list contact) :=
  let try e1 e2 px py out := try_edges e1 e2 nx1 ny1 nx2 ny2 x1 y1 x2 y2 px py tile1 tile2 out in
  do out <- try East West periodx 0%R [] ;
  do out <- (if negb (tile1 =? tile2) then try East South 0%R 0%R out else Ok out) ;
  do out <- try South North 0%R periody out ;
  do out <- (if negb (tile1 =? tile2) then try South East 0%R 0%R out else Ok out) ;
  if negb (tile1 =? tile2) then
    do out <- try West East periodx 0%R out ;
    do out <- try West North 0%R 0%R out ;
    do out <- try North South 0%R periody out ;
    try North West 0%R 0%R out
  else
    do xb1 <- north_bound x1 nx1 ny1 ; do yb1 <- north_bound y1 nx1 ny1 ;
    do folded <- folded_north xb1 yb1 nx1 ;
    if (folded : bool) then
      Ok (out ++ [{| k_tile1 := tile1; k_tile2 := tile2; k_is1 := 1; k_ie1 := nx1 / 2; k_js1 := ny1 - 1; k_je1 := ny1 - 1;
                     k_is2 := nx1 - 1; k_ie2 := nx1 / 2 + 1; k_js2 := ny1 - 1; k_je2 := ny1 - 1 |}])
    else Ok out.
