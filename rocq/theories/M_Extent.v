(** * Model of the 1-D and default 2-D domain decomposition
    lib/libfrencutils/mpp_domain.c *)
From Verif Require Import Base.

(** Error codes of [mpp_compute_extent] (mpp_domain.c:108-110,154-157). *)
Definition E_more_divs : Z := 1.   (* "more divisions requested than rows available" *)
Definition E_not_positive : Z := 2. (* "domain extents must be positive definite" *)
Definition E_not_span : Z := 3.     (* "domain extents do not span space completely" *)

(** mpp_domain.c:112-117: the [symmetrize] flag.  C integer division of the
    non-negative [npts] by 2 is [Z.div]. *)
Definition symmetrize (npts ndivs : Z) : bool :=
  let ndivs_is_odd := Z.odd ndivs in
  let npts_is_odd := Z.odd npts in
  (ndivs_is_odd && npts_is_odd)
  || (negb ndivs_is_odd && negb npts_is_odd)
  || (ndivs_is_odd && negb npts_is_odd && (ndivs <? npts / 2)).

(** Loop state of mpp_domain.c:122-158: the local variables that survive an
    iteration and the two output arrays. *)
Record ext_state := ExtSt {
  x_is : Z; x_imax : Z; x_ndmax : Z; x_ibegin : list Z; x_iend : list Z }.

(** mpp_domain.c:122-158, one iteration of [for(ndiv=0; ndiv<ndivs; ndiv++)].
    [ceil((imax-is+1.0)/(ndmax-ndiv))] on doubles is modelled by the exact
    integer ceiling [cdiv]: both operands are ints, hence exact doubles, and the
    rounded quotient of two integers below 2^31 has the same ceiling.
    [isg] is 0. *)
Definition extent_step (npts ndivs : Z) (st : ext_state) (ndiv : Z) : outcome ext_state :=
  let sym := symmetrize npts ndivs in
  let isg := 0 in
  let ieg := npts - 1 in
  (* mpp_domain.c:124-127 *)
  let imax := if ndiv =? 0 then ieg else x_imax st in
  let ndmax := if ndiv =? 0 then ndivs else x_ndmax st in
  let is := x_is st in
  do '(is, ie, imax, ndmax, ib, ie_arr) <-
    (if ndiv <? (ndivs - 1) / 2 + 1 then
       (* mpp_domain.c:129-140 *)
       let ie := is + cdiv (imax - is + 1) (ndmax - ndiv) - 1 in
       let ndmirror := (ndivs - 1) - ndiv in
       if (ndiv <? ndmirror) && sym then
         do ib <- oset (x_ibegin st) ndmirror (Z.max (isg + ieg - ie) (ie + 1)) ;
         do en <- oset (x_iend st) ndmirror (Z.max (isg + ieg - is) (ie + 1)) ;
         do b <- oget ib ndmirror ;
         Ok (is, ie, b - 1, ndmax - 1, ib, en)
       else Ok (is, ie, imax, ndmax, x_ibegin st, x_iend st)
     else if sym then
       (* mpp_domain.c:142-146 *)
       do is <- oget (x_ibegin st) ndiv ;
       do ie <- oget (x_iend st) ndiv ;
       Ok (is, ie, imax, ndmax, x_ibegin st, x_iend st)
     else
       (* mpp_domain.c:147-149 *)
       Ok (is, is + cdiv (imax - is + 1) (ndmax - ndiv) - 1, imax, ndmax, x_ibegin st, x_iend st)) ;
  (* mpp_domain.c:152-157 *)
  do ib <- oset ib ndiv is ;
  do en <- oset ie_arr ndiv ie ;
  if ie <? is then Err E_not_positive
  else if (ndiv =? ndivs - 1) && negb (ie =? ieg) then Err E_not_span
  else Ok (ExtSt (ie + 1) imax ndmax ib en).

(** mpp_domain.c:101-160, [mpp_compute_extent].  [ibegin0]/[iend0] are the
    caller's (uninitialised) output arrays; their contents are arbitrary. *)
Definition mpp_compute_extent (npts ndivs : Z) (ibegin0 iend0 : list Z)
  : outcome (list Z * list Z) :=
  if npts <? ndivs then Err E_more_divs
  else
    do st <- ofor 0 ndivs (extent_step npts ndivs) (ExtSt 0 0 0 ibegin0 iend0) ;
    Ok (x_ibegin st, x_iend st).

(** mpp_domain.c:76-82: the search for the largest divisor not above the start
    value.  The C loop is [while(ndivs%idiv != 0) idiv = idiv-1]; [idiv = 0]
    would be a division by zero. *)
Fixpoint layout_search (ndivs : Z) (fuel : nat) (idiv : Z) : outcome Z :=
  if idiv =? 0 then UB
  else if ndivs mod idiv =? 0 then Ok idiv
  else match fuel with
       | O => Err (-1)  (* out of fuel: not a behaviour of the code *)
       | S fuel' => layout_search ndivs fuel' (idiv - 1)
       end.

(** mpp_domain.c:68-85, [mpp_define_layout].  The integer value of
    [floor(fdiv)], rounded up when the fraction exceeds one half, depends on
    the floating-point square root of the aspect ratio: it is the parameter
    [idiv0], over which the theorems quantify. *)
Definition mpp_define_layout (ndivs idiv0 : Z) : outcome (Z * Z) :=
  let idiv := if 1 <? idiv0 then idiv0 else 1 in
  do idiv <- layout_search ndivs (Z.to_nat idiv) idiv ;
  Ok (idiv, ndivs / idiv).
