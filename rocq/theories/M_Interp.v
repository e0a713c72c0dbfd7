(** * lib/libfrencutils/interp.c and nearest_index of mosaic_util.c, over exact reals

    Doubles are modelled by real numbers (rounding, overflow and NaN are not modelled).
    Reading or writing outside an array, and returning an uninitialised variable, is [UB].
    Memory management (malloc/free) is not modelled. *)
From Coq Require Export Reals.
From Verif Require Import Base.
Local Open Scope Z_scope.

(** C comparisons of doubles. *)
Definition rlt (a b : R) : bool := if Rlt_dec a b then true else false.
Definition rle (a b : R) : bool := if Rle_dec a b then true else false.

(** mosaic_util.c 81-109.  The scan of lines 97-105: [i] is incremented before the element is
    read; the loop condition i < ia still holds for i = ia-1, so element [ia] can be read.  If
    the loop ends without a hit, [index] is uninitialised. *)
Fixpoint ni_scan (fuel : nat) (value : R) (array : list R) (ia i : Z) : outcome Z :=
  match fuel with
  | O => UB
  | S f =>
    if negb (i <? ia) then UB
    else
      let i := i + 1 in
      do a <- oget array i ;
      if rle value a then
        do b <- oget array (i - 1) ;
        Ok (if rlt (value - b) (a - value) then i - 1 else i)
      else ni_scan f value array ia i
  end.

(** mosaic_util.c 81-109.  [Err 1] is the call of error_handler. *)
Definition nearest_index (value : R) (array : list R) (ia : Z) : outcome Z :=
  do _ <- ofor 1 (ia - 1) (fun _ i =>
            do a <- oget array i ; do b <- oget array (i - 1) ;
            if rlt a b then Err 1 else Ok tt) tt ;
  do a0 <- oget array 0 ;
  if rlt value a0 then Ok 0
  else
    do al <- oget array (ia - 1) ;
    if rlt al value then Ok (ia - 1)
    else ni_scan (S (Z.to_nat ia)) value array ia 0.

(** The check for a strictly increasing grid: interp.c 57-59, 183-185, 366-371. *)
Definition check_increasing (g : list R) (n : Z) : outcome unit :=
  ofor 1 (n - 1) (fun _ i =>
    do a <- oget g i ; do b <- oget g (i - 1) ;
    if rle a b then Err 1 else Ok tt) tt.

(** interp.c 61-63 and 187-189. *)
Definition check_inside (grid1 grid2 : list R) (size1 size2 : Z) : outcome unit :=
  ofor 0 size2 (fun _ i =>
    do z <- oget grid2 i ; do a <- oget grid1 0 ;
    if rlt z a then Err 2
    else do b <- oget grid1 (size1 - 1) ; if rlt b z then Err 2 else Ok tt) tt.

(** interp.c 130-141 (also 230-241): the interval used for a target value. *)
Definition find_klo (z : R) (grid1 : list R) (size1 : Z) : outcome Z :=
  do n <- nearest_index z grid1 size1 ;
  do g <- oget grid1 n ;
  Ok (if rlt g z then n else if n =? 0 then n else n - 1).

(** interp.c 66-70 (also 192-196). *)
Definition interp_two (size2 : Z) (grid1 grid2 data1 data2 : list R) : outcome (list R) :=
  do d1 <- oget data1 1 ; do d0 <- oget data1 0 ; do g1 <- oget grid1 1 ; do g0 <- oget grid1 0 ;
  let p := ((d1 - d0) / (g1 - g0))%R in
  ofor 0 size2 (fun data2 i =>
    do z <- oget grid2 i ; oset data2 i (p * (z - g0) + d0)%R) data2.

(** interp.c 97-106 and 108-116: a one-sided slope at an end. [h0] and [delta0] belong to the end
    interval, [h1] and [delta1] to its neighbour. *)
Definition end_slope (h0 h1 delta0 delta1 : R) : R :=
  let d := (((2 * h0 + h1) * delta0 - h0 * delta1) / (h0 + h1))%R in
  if rlt (d * delta0) 0 then 0%R
  else if rlt (delta0 * delta1) 0 && rlt (Rabs (3 * delta0)) (Rabs d) then (3 * delta0)%R
  else d.

(** interp.c 81-90. *)
Definition interior_slope (h0 h1 delta0 delta1 : R) : R :=
  if rlt 0 (delta1 * delta0) then
    let w1 := (2 * h1 + h0)%R in
    let w2 := (h1 + 2 * h0)%R in
    ((w1 + w2) / (w1 / delta0 + w2 / delta1))%R
  else 0%R.

(** Memory returned by malloc is not initialised; the model uses zeros, and every element is
    written before it is read. *)
Definition alloc (n : Z) : list R := repeat 0%R (Z.to_nat n).

(** interp.c 49-149. *)
Definition cubic_spline_sp (size1 size2 : Z) (grid1 grid2 data1 data2 : list R) : outcome (list R) :=
  do _ <- check_increasing grid1 size1 ;
  do _ <- check_inside grid1 grid2 size1 size2 ;
  if size1 <? 2 then Err 3
  else if size1 =? 2 then interp_two size2 grid1 grid2 data1 data2
  else
    (* 74-77 *)
    do '(dh, delta) <- ofor 0 (size1 - 1) (fun '(dh, delta) k =>
        do g1 <- oget grid1 (k + 1) ; do g0 <- oget grid1 k ;
        do dh <- oset dh k (g1 - g0)%R ;
        do d1 <- oget data1 (k + 1) ; do d0 <- oget data1 k ; do h <- oget dh k ;
        do delta <- oset delta k ((d1 - d0) / h)%R ;
        Ok (dh, delta)) (alloc (size1 - 1), alloc (size1 - 1)) ;
    (* 81-90 *)
    do d <- ofor 1 (size1 - 2) (fun d k =>
        do e1 <- oget delta k ; do e0 <- oget delta (k - 1) ;
        do h1 <- oget dh k ; do h0 <- oget dh (k - 1) ;
        oset d k (interior_slope h0 h1 e0 e1)) (alloc size1) ;
    (* 94-116 *)
    let kmax := size1 - 1 in
    do h0 <- oget dh 0 ; do h1 <- oget dh 1 ; do e0 <- oget delta 0 ; do e1 <- oget delta 1 ;
    do d <- oset d 0 (end_slope h0 h1 e0 e1) ;
    do h0 <- oget dh (kmax - 1) ; do h1 <- oget dh (kmax - 2) ;
    do e0 <- oget delta (kmax - 1) ; do e1 <- oget delta (kmax - 2) ;
    do d <- oset d kmax (end_slope h0 h1 e0 e1) ;
    (* 119-126 *)
    do '(b, c) <- ofor 0 (size1 - 1) (fun '(b, c) k =>
        do h <- oget dh k ; do e <- oget delta k ; do d0 <- oget d k ; do d1 <- oget d (k + 1) ;
        do c <- oset c k ((3 * e - 2 * d0 - d1) / h)%R ;
        do b <- oset b k ((d0 - 2 * e + d1) / (h * h))%R ;
        Ok (b, c)) (alloc (size1 - 1), alloc (size1 - 1)) ;
    (* 128-141 *)
    ofor 0 size2 (fun data2 k =>
        do z <- oget grid2 k ;
        do klo <- find_klo z grid1 size1 ;
        do g <- oget grid1 klo ;
        let s := (z - g)%R in
        do y <- oget data1 klo ; do dk <- oget d klo ; do ck <- oget c klo ; do bk <- oget b klo ;
        oset data2 k (y + s * (dk + s * (ck + s * bk)))%R) data2.

(** interp.c 176-254.  pow(a,3.0) is a*a*a. *)
Definition cubic_spline (size1 size2 : Z) (grid1 grid2 data1 data2 : list R) (yp1 ypn big : R) : outcome (list R) :=
  do _ <- check_increasing grid1 size1 ;
  do _ <- check_inside grid1 grid2 size1 size2 ;
  if size1 <? 2 then Err 3
  else if size1 =? 2 then interp_two size2 grid1 grid2 data1 data2
  else
    do g0 <- oget grid1 0 ; do g1 <- oget grid1 1 ; do d0 <- oget data1 0 ; do d1 <- oget data1 1 ;
    (* 199-206; [big] is .99e30 *)
    do y2 <- oset (alloc size1) 0 (if rlt big yp1 then 0 else - (1 / 2))%R ;
    do u <- oset (alloc size1) 0 (if rlt big yp1 then 0 else (3 / (g1 - g0)) * ((d1 - d0) / (g1 - g0) - yp1))%R ;
    (* 208-215 *)
    do '(y2, u) <- ofor 1 (size1 - 2) (fun '(y2, u) i =>
        do gi <- oget grid1 i ; do gm <- oget grid1 (i - 1) ; do gp <- oget grid1 (i + 1) ;
        do di <- oget data1 i ; do dm <- oget data1 (i - 1) ; do dp <- oget data1 (i + 1) ;
        do ym <- oget y2 (i - 1) ; do um <- oget u (i - 1) ;
        let sig := ((gi - gm) / (gp - gm))%R in
        let p := (sig * ym + 2)%R in
        do y2 <- oset y2 i ((sig - 1) / p)%R ;
        do u <- oset u i ((6 * ((dp - di) / (gp - gi) - (di - dm) / (gi - gm)) / (gp - gm) - sig * um) / p)%R ;
        Ok (y2, u)) (y2, u) ;
    (* 217-226 *)
    do gl <- oget grid1 (size1 - 1) ; do gm <- oget grid1 (size1 - 2) ;
    do dl <- oget data1 (size1 - 1) ; do dm <- oget data1 (size1 - 2) ;
    let qn := (if rlt big ypn then 0 else 1 / 2)%R in
    let un := (if rlt big ypn then 0 else (3 / (gl - gm)) * (ypn - (dl - dm) / (gl - gm)))%R in
    do um <- oget u (size1 - 2) ; do ym <- oget y2 (size1 - 2) ;
    do y2 <- oset y2 (size1 - 1) ((un - qn * um) / (qn * ym + 1))%R ;
    (* 228: k = size1-2-j *)
    do y2 <- ofor 0 (size1 - 1) (fun y2 j =>
        let k := size1 - 2 - j in
        do yk <- oget y2 k ; do yp <- oget y2 (k + 1) ; do uk <- oget u k ;
        oset y2 k (yk * yp + uk)%R) y2 ;
    (* 230-249 *)
    ofor 0 size2 (fun data2 k =>
        do z <- oget grid2 k ;
        do klo <- find_klo z grid1 size1 ;
        let khi := klo + 1 in
        do gh <- oget grid1 khi ; do gl <- oget grid1 klo ;
        let h := (gh - gl)%R in
        let a := ((gh - z) / h)%R in
        let b := ((z - gl) / h)%R in
        do dl <- oget data1 klo ; do dh <- oget data1 khi ; do yl <- oget y2 klo ; do yh <- oget y2 khi ;
        oset data2 k (a * dl + b * dh + ((a * a * a - a) * yl + (b * b * b - b) * yh) * (h * h) / 6)%R) data2.

(** interp.c 262-304 (312-356 is the same after the exchange grid has been made).  [xg] lists the
    exchange cells (i1, j1, i2, j2, area) found by create_xgrid. *)
Record xcell := MkX { x_i1 : Z ; x_j1 : Z ; x_i2 : Z ; x_j2 : Z ; x_area : R }.

Definition conserve_interp (nx_src ny_src nx_dst ny_dst : Z) (xg : list xcell) (data_src data_dst : list R) : outcome (list R) :=
  (* 285-286 *)
  do dst_area <- ofold (fun a c =>
       let n := x_j2 c * nx_dst + x_i2 c in
       do v <- oget a n ; oset a n (v + x_area c)%R) xg (alloc (nx_dst * ny_dst)) ;
  (* 289 *)
  do area_frac <- ofold (fun l c =>
       do v <- oget dst_area (x_j2 c * nx_dst + x_i2 c) ; Ok (l ++ [x_area c / v])%R) xg [] ;
  (* 291-293 *)
  do data_dst <- ofor 0 (nx_dst * ny_dst) (fun d n => oset d n 0%R) data_dst ;
  (* 294-296 *)
  ofold (fun d '(c, f) =>
       let n := x_j2 c * nx_dst + x_i2 c in
       do v <- oget d n ; do s <- oget data_src (x_j1 c * nx_src + x_i1 c) ;
       oset d n (v + s * f)%R) (combine xg area_frac) data_dst.

(** interp.c 360-396. *)
Definition linear_vertical_interp (nx ny nk1 nk2 : Z) (grid1 grid2 data1 data2 : list R) : outcome (list R) :=
  do _ <- check_increasing grid1 nk1 ;
  do _ <- check_increasing grid2 nk2 ;
  do a <- oget grid1 0 ; do z <- oget grid2 0 ;
  if rlt z a then Err 2
  else
    do a <- oget grid1 (nk1 - 1) ; do z <- oget grid2 (nk2 - 1) ;
    if rlt a z then Err 2
    else
      ofor 0 nk2 (fun data2 k =>
        do z <- oget grid2 k ;
        do n <- nearest_index z grid1 nk1 ;
        do gn <- oget grid1 n ;
        if rlt gn z then
          do gp <- oget grid1 (n + 1) ;
          let w := ((z - gn) / (gp - gn))%R in
          ofor 0 (nx * ny) (fun data2 l =>
            do p <- oget data1 (n * nx * ny + l) ; do q <- oget data1 ((n + 1) * nx * ny + l) ;
            oset data2 (k * nx * ny + l) ((1 - w) * p + w * q)%R) data2
        else if n =? 0 then
          ofor 0 (nx * ny) (fun data2 l =>
            do p <- oget data1 (n * nx * ny + l) ;
            oset data2 (k * nx * ny + l) p) data2
        else
          do gm <- oget grid1 (n - 1) ;
          let w := ((z - gm) / (gn - gm))%R in
          ofor 0 (nx * ny) (fun data2 l =>
            do p <- oget data1 ((n - 1) * nx * ny + l) ; do q <- oget data1 (n * nx * ny + l) ;
            oset data2 (k * nx * ny + l) ((1 - w) * p + w * q)%R) data2) data2.
