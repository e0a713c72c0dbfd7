(** * Model of mppncscatter's per-file extents
    src/mpp-ncscatter/mppncscatter.c *)
From Verif Require Import Base M_Extent.

(** ** Single precision
    A positive rational a/b rounded to a 24-bit significand, ties to even
    (IEEE-754 single, exponent range ignored).  The result is m * 2^(-s),
    returned as (m, s). *)
Definition round_half_even (a b : Z) : Z :=
  let q := a / b in
  let r := a mod b in
  if 2 * r <? b then q else if b <? 2 * r then q + 1 else if Z.even q then q else q + 1.

Definition rn24 (a b : Z) : Z * Z :=
  let e0 := Z.log2 a - Z.log2 b in
  (* 2^e <= a/b < 2^(e+1) *)
  let e := if (if 0 <=? e0 then b * 2 ^ e0 <=? a else b <=? a * 2 ^ (- e0)) then e0 else e0 - 1 in
  let s := 23 - e in
  (if 0 <=? s then round_half_even (a * 2 ^ s) b else round_half_even a (b * 2 ^ (- s)), s).

(** ceil of m * 2^(-s) *)
Definition ceil_pow (ms : Z * Z) : Z :=
  let '(m, s) := ms in if 0 <=? s then cdiv m (2 ^ s) else m * 2 ^ (- s).

(** [(float) n] for an integer n > 0, as an integer (the value is an integer
    because n is). *)
Definition fl24 (n : Z) : Z := ceil_pow (rn24 n 1).

(** [ceil( ((float)(num))/(den) )] with [num] a double and [den] a size_t
    (mppncscatter.c:1231,1244): both are converted to float, divided in float
    and the quotient is rounded up. *)
Definition fceil (num den : Z) : Z := ceil_pow (rn24 (fl24 num) (fl24 den)).

(** size_t arithmetic: 64-bit wrap around. *)
Definition w64 (x : Z) : Z := x mod 2 ^ 64.

(** mppncscatter.c:1211-1257, the loop body of [mpp_compute_extent].  The two
    [fprintf] diagnostics do not stop the loop; they are counted in the last
    component.  [ie = iss + ceil(..) - 1] is computed in double and converted to
    size_t (undefined when not below 2^64; the rounding of the double addition is
    not modelled).  [isg] is 0, as in the only call (line 426). *)
Definition sc_extent_step (ieg ndivs : Z) (st : ext_state * Z) (ndiv : Z) : outcome (ext_state * Z) :=
  let '(x, errs) := st in
  let sym := symmetrize (ieg + 1) ndivs in
  let imax := if ndiv =? 0 then ieg else x_imax x in
  let ndmax := if ndiv =? 0 then ndivs else x_ndmax x in
  let iss := x_is x in
  let ie_ceil :=
    let v := iss + fceil (w64 (imax - iss) + 1) (w64 (ndmax - ndiv)) - 1 in
    if (0 <=? v) && (v <? 2 ^ 64) then Ok v else UB in
  do '(iss, ie, imax, ndmax, ib, en) <-
    (if ndiv <? (ndivs - 1) / 2 + 1 then
       (* mppncscatter.c:1230-1239 *)
       do ie <- ie_ceil ;
       let ndmirror := (ndivs - 1) - ndiv in
       if (ndiv <? ndmirror) && sym then
         do ib <- oset (x_ibegin x) ndmirror (Z.max (w64 (ieg - ie)) (w64 (ie + 1))) ;
         do en <- oset (x_iend x) ndmirror (Z.max (w64 (ieg - iss)) (w64 (ie + 1))) ;
         do b <- oget ib ndmirror ;
         Ok (iss, ie, w64 (b - 1), w64 (ndmax - 1), ib, en)
       else Ok (iss, ie, imax, ndmax, x_ibegin x, x_iend x)
     else if sym then
       do iss <- oget (x_ibegin x) ndiv ;
       do ie <- oget (x_iend x) ndiv ;
       Ok (iss, ie, imax, ndmax, x_ibegin x, x_iend x)
     else
       do ie <- ie_ceil ;
       Ok (iss, ie, imax, ndmax, x_ibegin x, x_iend x)) ;
  do ib <- oset ib ndiv iss ;
  do en <- oset en ndiv ie ;
  let errs := if ie <? iss then errs + 1 else errs in
  let errs := if (ndiv =? ndivs - 1) && negb (ie =? ieg) then errs + 1 else errs in
  Ok (ExtSt (w64 (ie + 1)) imax ndmax ib en, errs).

(** mppncscatter.c:1211-1257 [mpp_compute_extent(0, ieg, ndivs, start, end)];
    third component: number of diagnostics printed. *)
Definition sc_compute_extent (ieg ndivs : Z) (start0 end0 : list Z) : outcome (list Z * list Z * Z) :=
  do '(x, errs) <- ofor 0 ndivs (sc_extent_step ieg ndivs) (ExtSt 0 0 0 start0 end0, 0) ;
  Ok (x_ibegin x, x_iend x, errs).

(** scatterdim.h / scatterdim.c:22-38: the per-dimension result. *)
Record scatterdim := ScDim { sd_ndiv : Z; sd_start : list Z; sd_end : list Z; sd_len : list Z }.

(** mppncscatter.c:417-433 [get_scatter_extents], for one scattered dimension of
    length [len] over [ndiv] divisions.  Fresh arrays are modelled by zeros. *)
Definition get_scatter_extents (len ndiv : Z) : outcome scatterdim :=
  let fresh := repeat 0 (Z.to_nat ndiv) in
  do '(st, en, _) <- sc_compute_extent (len - 1) ndiv fresh fresh ;
  do ln <- ofor 0 ndiv (fun ln j =>
      do e <- oget en j ; do s <- oget st j ; oset ln j (e - s + 1)) fresh ;
  Ok (ScDim ndiv st en ln).

(** mppncscatter.c:466-475: the while loop grouping [step] divisions per file.
    [fuel] bounds the number of iterations (the loop does not end when
    [step] = 0, i.e. ndivio > ndiv). *)
Fixpoint io_group (fuel : nat) (ndiv step i k : Z) (st en : list Z) (res : list Z * list Z * list Z)
  : outcome (list Z * list Z * list Z) :=
  if i <? ndiv then
    match fuel with
    | O => Err (-1)
    | S fuel' =>
        let '(sio, eio, lio) := res in
        do s <- oget st i ; do sio <- oset sio k s ;
        do e <- oget en (i + step - 1) ; do eio <- oset eio k e ;
        do lio <- oset lio k (e - s + 1) ;
        io_group fuel' ndiv step (i + step) (k + 1) st en (sio, eio, lio)
    end
  else Ok res.

(** mppncscatter.c:439-493 [get_scatter_extents_iolayout], one dimension with
    [ndivio] files. *)
Definition get_scatter_extents_iolayout (d : scatterdim) (ndivio : Z) : outcome scatterdim :=
  if ndivio =? 0 then UB else
  let step := sd_ndiv d / ndivio in
  let fresh := repeat 0 (Z.to_nat ndivio) in
  do '(sio, eio, lio) <- io_group (Z.to_nat (sd_ndiv d) + 1) (sd_ndiv d) step 0 0 (sd_start d) (sd_end d) (fresh, fresh, fresh) ;
  Ok (ScDim ndivio sio eio lio).

(** mppncscatter.c:1172-1197 [scatter_dims], one scattered dimension: [nio] = 0
    when no I/O layout is given. *)
Definition E_io_layout : Z := 1.   (* exit(1), lines 1182-1190 *)
Definition scatter_dim (len ndiv nio : Z) : outcome scatterdim :=
  do d <- get_scatter_extents len ndiv ;
  if nio =? 0 then Ok d
  else if ndiv mod nio =? 0 then get_scatter_extents_iolayout d nio
  else Err E_io_layout.
