(** * Model of src/plevel: interpolation from model levels to pressure levels

    run_pressure_interp.F90, pressure_interp.F90, moisture_convert.F90 and
    plev_constants.F90.  Reals are real numbers (no rounding, overflow or NaN).  The array
    operations of the code treat every horizontal point alike: the model has one column
    (a list over the levels, top level first) where they do not mix columns, and the list
    of all columns where they do (set_up_input_mask, the flag for zero top pressure, the
    sea level pressure).  One time level.  Levels are counted from 1 as in the code.  The
    logarithm of a number that is not positive, a division by zero and an index outside
    an array are undefined.  Files are not modelled: attributes and data are arguments. *)
From Coq Require Import Reals.
From Verif Require Import Base M_Interp M_Runoff.
Open Scope Z_scope.

(** a(k) *)
Definition at_ {A} (l : list A) (k : Z) : outcome A := oget l (k - 1).
(** log(x) and x/y *)
Definition flog (x : R) : outcome R := if rlt 0 x then Ok (ln x) else UB.
Definition fdiv (x y : R) : outcome R := if reqb y 0 then UB else Ok (x / y)%R.
(** x**y of two reals: defined for x > 0 (as exp(y log x)) *)
Definition fpow (x y : R) : outcome R := if rlt 0 x then Ok (Rpower x y) else UB.

(** plev_constants.F90:28-31 *)
Definition GRAV : R := 9.80.
Definition RDGAS : R := 287.04.
Definition RVGAS : R := 461.50.
Definition TFREEZE : R := 273.16.
(** run_pressure_interp.F90:267-274 *)
Definition tlapse : R := 0.0065.
Definition tref : R := 288.
Definition gorg : R := (GRAV / (RDGAS * tlapse))%R.
Definition mrgog : R := (-1 / gorg)%R.
Definition d608 : R := ((RVGAS - RDGAS) / RDGAS)%R.
Definition pref : R := 101325.
Definition rgog : R := (RDGAS * tlapse / GRAV)%R.

(** The number of output levels, run_pressure_interp.F90:292-295: nlev_out is not set when the first
    level is below 1.e-6. *)
Fixpoint count_levels (pout : list R) : Z :=
  match pout with [] => 0 | p :: t => if rlt p 0.000001 then 0 else 1 + count_levels t end.

(** phalf, run_pressure_interp.F90:833-835: one column *)
Definition half_levels (pk bk : list R) (ps : R) : list R := map (fun '(a, b) => (a + b * ps)%R) (combine pk bk).

(** compute_pres_full, run_pressure_interp.F90:1662-1685: one column.  [lph] is p*log(p). *)
Definition plogp (first : bool) (p : R) : outcome R :=
  if first && negb (rlt 0 p) then Ok 0%R else do l <- flog p ; Ok (p * l)%R.
Definition compute_pres_full (nlev : Z) (ph : list R) : outcome (list R) :=
  ofor 1 nlev (fun pf k =>
    do a <- at_ ph k ; do b <- at_ ph (k + 1) ;
    do la <- plogp (k =? 1) a ; do lb <- plogp false b ;
    do q <- fdiv (lb - la) (b - a) ;
    Ok (pf ++ [exp (q - 1)])) [].

(** log_pfull, log_pout: pressure_interp.F90:169-170 *)
Definition flogs (l : list R) : outcome (list R) := ofold (fun acc x => do y <- flog x ; Ok (acc ++ [y])) l [].

(** The search for the level just below, pressure_interp.F90:194-203 (the same in wind_interp,
    86-94, which is not called): k runs from 2 to kbot. *)
Fixpoint search (fuel : nat) (k kbot : Z) (lpf : list R) (lp : R) : outcome (Z * bool) :=
  match fuel with
  | O => Ok (kbot, true)
  | S fuel =>
      do v <- at_ lpf k ;
      if rle lp v then Ok (k, false) else search fuel (k + 1) kbot lpf lp
  end.

(** index, factr and mask of one column and one output level, pressure_interp.F90:187-220 *)
Record control := Control { c_index : Z; c_factr : R; c_mask : bool }.
Definition control_of (lpf : list R) (kbot : Z) (lp : R) : outcome control :=
  do '(k, m) <- search (Z.to_nat (kbot - 1)) 2 kbot lpf lp ;
  do a <- at_ lpf k ; do b <- at_ lpf (k - 1) ;
  do f <- fdiv (lp - a) (b - a) ;
  Ok (Control k (Rmax (-0.5) (Rmin 1.5 f)) m).

(** pres_interp, pressure_interp.F90:120-140 *)
Definition pres_interp (c : control) (data : list R) : outcome R :=
  do a <- at_ data (c_index c) ; do b <- at_ data (c_index c - 1) ;
  Ok (a + c_factr c * (b - a))%R.

(** temp_extrap, pressure_interp.F90:266-290 *)
Definition temp_extrap (c : control) (tin : list R) (lp : R) (lpf : list R) (tout : R) : outcome R :=
  if c_mask c then
    let k := c_index c - 1 in
    do v <- at_ lpf k ; do t <- at_ tin k ;
    let rrlaps := (1 / 0.0065)%R in
    let rglp21 := (0.5 * (RDGAS / GRAV) * (lp - v))%R in
    fdiv (t * (rrlaps + rglp21)) (rrlaps - rglp21)
  else Ok tout.

(** compute_es, moisture_convert.F90:361-411: one temperature *)
Definition log10 (x : R) : outcome R := do l <- flog x ; Ok (l / ln 10)%R.
Definition TBASW : R := (TFREEZE + 100)%R.
Definition compute_es (t : R) : outcome R :=
  do esice <-
    (if rlt t TFREEZE then
       do r <- fdiv TFREEZE t ; do l <- log10 r ; do e <- log10 610.71 ;
       Ok (Rpower 10 (-9.09718 * (r - 1) - 3.56654 * l + 0.876793 * (1 - t / TFREEZE) + e))
     else Ok 0%R) ;
  do esh2o <-
    (if rlt (-20 + TFREEZE) t then
       do r <- fdiv TBASW t ; do l <- log10 r ; do e <- log10 101324.60 ;
       Ok (Rpower 10 (-7.90298 * (r - 1) + 5.02808 * l
            - 1.3816 / 10000000 * (Rpower 10 ((1 - t / TBASW) * 11.344) - 1)
            + 8.1328 / 1000 * (Rpower 10 ((r - 1) * (-3.49149)) - 1) + e))
     else Ok 0%R) ;
  if rle t (-20 + TFREEZE) then Ok esice
  else if rle TFREEZE t then Ok esh2o
  else Ok (0.05 * ((TFREEZE - t) * esice + (t - TFREEZE + 20) * esh2o))%R.

(** sat_vapor_pres_init, moisture_convert.F90:415-467: the elements of TABLE, DTABLE, D2TABLE;
    a subscript outside 1..nsize is undefined *)
Definition nsize : Z := (100 - (-160)) * 10 + 1.
Definition tmin : R := (-160 + TFREEZE)%R.
Definition tem1 (i : Z) : R := (tmin + 1 / 10 * IZR (i - 1))%R.
Definition in_table (i : Z) : bool := (1 <=? i) && (i <=? nsize).
Definition table (i : Z) : outcome R := if in_table i then compute_es (tem1 i) else UB.
Definition dtable (i : Z) : outcome R :=
  if in_table i then
    do a <- compute_es (tem1 i - 0.01) ; do b <- compute_es (tem1 i + 0.01) ; Ok ((b - a) * (1 / (2 * 0.01)))%R
  else UB.
Definition d2table (i : Z) : outcome R :=
  if in_table i then
    if i =? 1 then do a <- dtable 1 ; do b <- dtable 2 ; Ok (0.50 * 10 * (b - a))%R
    else if i =? nsize then do a <- dtable (nsize - 1) ; do b <- dtable nsize ; Ok (0.50 * 10 * (b - a))%R
    else do a <- dtable (i - 1) ; do b <- dtable (i + 1) ; Ok (0.25 * 10 * (b - a))%R
  else UB.
(** int(x): towards zero *)
Definition fint (x : R) : Z := if rlt x 0 then - Int_part (- x) else Int_part x.
(** lookup_es, moisture_convert.F90:301-319: the table is read before the index is checked *)
Definition lookup_es (temp : R) : outcome R :=
  let tmp := (temp - tmin)%R in
  let ind := fint (10 * (tmp + 1 / 20)) in
  let del := (tmp - 1 / 10 * IZR ind)%R in
  do a <- table (ind + 1) ; do b <- dtable (ind + 1) ; do c <- d2table (ind + 1) ;
  if (ind <? 0) || (nsize - 1 <? ind) then Err 111 else Ok (a + del * (b + del * c))%R.

(** The conversions, moisture_convert.F90:102-295 *)
Definition sphum_to_mixrat (q : R) : outcome R := fdiv q (1 - q).
Definition mixrat_to_sphum (r : R) : outcome R := fdiv r (1 + r).
Definition e_to_mixrat (e p : R) : outcome R := fdiv (RDGAS / RVGAS * e) (p - e).
Definition mixrat_to_rh (r t p : R) : outcome R := do es <- lookup_es t ; do s <- e_to_mixrat es p ; fdiv r s.
Definition sphum_to_rh (q t p : R) : outcome R := do r <- sphum_to_mixrat q ; mixrat_to_rh r t p.
Definition rh_to_mixrat (rh t p : R) : outcome R := do es <- lookup_es t ; do s <- e_to_mixrat es p ; Ok (s * rh)%R.
Definition rh_to_sphum (rh t p : R) : outcome R := do r <- rh_to_mixrat rh t p ; mixrat_to_sphum r.

(** q_extrap, pressure_interp.F90:294-317 *)
Definition q_extrap (c : control) (pf tin qin : list R) (p tout qout : R) : outcome R :=
  if c_mask c then
    let kb := c_index c - 1 in
    do q <- at_ qin kb ; do t <- at_ tin kb ; do pb <- at_ pf kb ;
    do rh <- sphum_to_rh q t pb ;
    rh_to_sphum rh tout p
  else Ok qout.

(** zout, pressure_interp.F90:233-258, with moisture *)
Definition height_out (c : control) (lpf tin zin qin : list R) (lp tout qout : R) : outcome R :=
  let virtc := ((RVGAS - RDGAS) / RDGAS)%R in
  let k := c_index c in
  do l <- at_ lpf k ; do t <- at_ tin k ; do q <- at_ qin k ; do z <- at_ zin k ;
  let tvin := (t * (1 + virtc * q))%R in
  let tvout := (tout * (1 + virtc * qout))%R in
  Ok ((l - lp) * (tvout + tvin) * (0.5 * RDGAS / GRAV) + z)%R.

(** compute_height, run_pressure_interp.F90:1689-1728: one column.  [flag] says whether a column of the
    grid has no positive pressure at the top.  [lpt] is kept where it is not computed: lpb is then
    not used any more. *)
Definition compute_height (nlev : Z) (flag : bool) (zsurf : R) (temp sphum pfull phalf : list R) (mask : list R) : outcome (list R) :=
  do lps <- (do p <- at_ phalf (nlev + 1) ; flog p) ;
  do '(_, _, zfull) <- ofor 0 nlev (fun st n =>
    let '(zb, lpb, zfull) := st in
    let k := nlev - n in
    do pf <- at_ pfull k ;
    do lpf <- flog pf ;
    let wtb := (lpb - lpf)%R in
    do '(wta, lpt) <-
      (if (k =? 1) && flag then Ok (wtb, lpb)
       else do p <- at_ phalf k ; do lpt <- flog p ; Ok ((lpf - lpt)%R, lpt)) ;
    do t <- at_ temp k ; do q <- at_ sphum k ; do m <- at_ mask k ;
    let vt := (t * (1 + d608 * q) * RDGAS)%R in
    let zt := (zb + vt * (wta + wtb))%R in
    let z := ((zb + vt * wtb) / GRAV)%R in
    do '(zt, z) <-
      (if rlt m 0.01 then
         do r <- fpow (pf / pref) rgog ;
         let zt := (GRAV * tref * (1 - r) / tlapse)%R in
         Ok (zt, (0.5 * (zt + zb) / GRAV)%R)
       else Ok (zt, z)) ;
    Ok (zt, lpt, z :: zfull)) ((zsurf * GRAV)%R, lps, []) ;
  Ok zfull.

(** The flag: run_pressure_interp.F90:1700 *)
Definition zero_top (phalf : list (list R)) : bool := existsb (fun ph => match ph with p :: _ => rle p 0 | [] => false end) phalf.

(** set_up_input_mask, run_pressure_interp.F90:1467-1494, all columns.  [miss] is the unpacked missing
    value, if there is one.  The state is kbot and whether the loop has been left. *)
Definition set_up_input_mask (nlev : Z) (miss : option R) (data : list (list R)) : outcome (list (list R) * list Z) :=
  match miss with
  | None => Ok (map (map (fun _ => 1%R)) data, map (fun _ => nlev) data)
  | Some mv =>
      let mask := map (map (fun v => if reqb v mv then 0%R else 1%R)) data in
      do '(_, kbot) <- ofor 0 nlev (fun st n =>
        let '(done, kbot) := st in
        if (done : bool) then Ok st else
        let k := nlev - n in
        do lev <- ofold (fun acc col => do m <- at_ col k ; Ok (acc ++ [rlt m 0.5])) mask [] ;
        if negb (existsb (fun b => b) lev) then Ok (true, kbot) else
        Ok (false, map (fun '(b, kb) => if (b : bool) then k - 1 else kb) (combine lev kbot)))
        (false, map (fun _ => nlev) data) ;
      Ok (mask, kbot)
  end.

(** The field information, run_pressure_interp.F90:1295-1324 and 1348-1364: scale_factor and add_offset
    (used when both are present), missing_value and _FillValue of the input *)
Record attrs := Attrs { a_scale : option R; a_offset : option R; a_missing : option R; a_fill : option R }.
Record field := Field { f_do_pack : bool; f_scale : R; f_offset : R;
  f_do_miss_in : bool; f_missval_in : R; f_unpkd_in : R;
  f_do_miss_out : bool; f_missval_out : R; f_unpkd_out : R }.
Definition field_info (a : attrs) (use_default : option R) : field :=
  let '(do_pack, s, o) := match a_scale a, a_offset a with Some s, Some o => (true, s, o) | _, _ => (false, 1%R, 0%R) end in
  let '(do_miss, mv) := match a_missing a, a_fill a with Some m, _ => (true, m) | None, Some f => (true, f) | None, None => (false, 0%R) end in
  let unpk v := if do_miss && do_pack then (v * s + o)%R else v in
  let mout := match use_default with Some d => d | None => mv end in
  Field do_pack s o do_miss mv (unpk mv) do_miss mout (unpk mout).
(** The missing_value attribute of the output field: copy_variable_information, run_pressure_interp.F90:
    1380-1425, and copy_variable, pinterp_utilities.F90:280-313.  [threed]: the field is interpolated. *)
Definition missing_out (a : attrs) (use_default : option R) (threed : bool) : option R :=
  let f := field_info a use_default in
  if threed || f_do_miss_in f then Some (f_missval_out f) else a_missing a.

(** read_variable, run_pressure_interp.F90:1596-1606: one value *)
Definition unpack (f : field) (v : R) : R :=
  if f_do_pack f then
    if f_do_miss_in f && reqb v (f_missval_in f) then f_unpkd_in f
    else (v * f_scale f + f_offset f)%R
  else v.
(** nint(x): halves away from zero *)
Definition nint (x : R) : Z := if rlt x 0 then - Int_part (- x + 1 / 2) else Int_part (x + 1 / 2).
(** write_variable, run_pressure_interp.F90:1620-1631: one value *)
Definition pack (f : field) (v : R) : outcome R :=
  if f_do_pack f then
    if f_do_miss_out f && reqb v (f_unpkd_out f) then Ok (f_missval_out f)
    else do q <- fdiv (v - f_offset f) (f_scale f) ; Ok (IZR (nint q))
  else Ok v.
(** mask_data and its calls, run_pressure_interp.F90:914-926, 1008-1009, 1022-1029: one value *)
Definition mask_data (mask_extrap : bool) (f : field) (c : control) (v : R) : R :=
  if f_do_miss_out f && mask_extrap && c_mask c then f_unpkd_out f else v.

(** interp_field, run_pressure_interp.F90:975-1018: one column of a field on full levels (or on half
    levels, with the control of these), one output level; 2-d fields are read and written *)
Definition interp_field (mask_extrap : bool) (f : field) (c : control) (data : list R) : outcome R :=
  do v <- pres_interp c (map (unpack f) data) ;
  pack f (mask_data mask_extrap f c v).
Definition copy_field (f : field) (v : R) : outcome R := pack f (unpack f v).

(** The sea level pressure, run_pressure_interp.F90:939-964, all columns.  The state is kr, which is
    not set before the first column that sets it and keeps its value from one column to the next,
    sig likewise, and the results. *)
Record column := Column { k_bot : Z; k_zsurf : R; k_phalf : list R; k_pfull : list R; k_temp : list R }.
Fixpoint ref_level (fuel : nat) (k kb : Z) (pfull : list R) (pbot : R) (st : option Z * option R) : outcome (option Z * option R) :=
  match fuel with
  | O => Ok st
  | S fuel =>
      do p <- at_ pfull k ;
      do sig <- fdiv p pbot ;
      if rlt 0.8 sig then Ok (Some k, Some sig) else ref_level fuel (k + 1) kb pfull pbot (fst st, Some sig)
  end.
Definition defined {A} (x : option A) : outcome A := match x with Some v => Ok v | None => UB end.
Definition slp_column (st : option Z * option R * list R) (c : column) : outcome (option Z * option R * list R) :=
  let '(kr, sig, out) := st in
  do pbot <- at_ (k_phalf c) (k_bot c + 1) ;
  if rlt 0.0001 (Rabs (k_zsurf c)) then
    do '(kr, sig) <- ref_level (Z.to_nat (k_bot c)) 1 (k_bot c) (k_pfull c) pbot (kr, sig) ;
    do k <- defined kr ; do s <- defined sig ;
    do t <- at_ (k_temp c) k ;
    do w <- fpow s mrgog ;
    do q <- fdiv (tlapse * k_zsurf c) (t * w) ;
    do f <- fpow (1 + q) gorg ;
    Ok (kr, sig, out ++ [(0.01 * pbot * f)%R])
  else Ok (kr, sig, out ++ [(pbot * 0.01)%R]).
Definition sea_level_pressure (cols : list column) : outcome (list R) :=
  do '(_, _, out) <- ofold slp_column cols (None, None, []) ;
  Ok out.

(** A whole column for one output pressure with temperature, humidity and height,
    run_pressure_interp.F90:833-871 and pressure_interp.F90:144-262: the values before masking.
    [extrap] is not mask_extrap. *)
Record levels := Levels { v_pfull : list R; v_lpf : list R; v_height : list R }.
Definition levels_of (nlev : Z) (flag : bool) (zsurf : R) (temp sphum mask ph : list R) : outcome levels :=
  do pf <- compute_pres_full nlev ph ;
  do z <- compute_height nlev flag zsurf temp sphum pf ph mask ;
  do lpf <- flogs pf ;
  Ok (Levels pf lpf z).
Definition column_out (extrap : bool) (kbot : Z) (v : levels) (temp sphum : list R) (p : R) : outcome (control * R * R * R) :=
  do lp <- flog p ;
  do c <- control_of (v_lpf v) kbot lp ;
  do t <- pres_interp c temp ;
  do t <- (if extrap then temp_extrap c temp lp (v_lpf v) t else Ok t) ;
  do q <- pres_interp c sphum ;
  do q <- (if extrap then q_extrap c (v_pfull v) temp sphum p t q else Ok q) ;
  do z <- height_out c (v_lpf v) temp (v_height v) sphum lp t q ;
  Ok (c, t, q, z).

(** One column of a field on full levels, one output pressure: run_pressure_interp.F90:833-836,
    pressure_interp.F90:169-220 and 120-140; the value before masking, and the mask *)
Definition interp_column (nlev : Z) (ph : list R) (kbot : Z) (data : list R) (p : R) : outcome (R * bool) :=
  do pf <- compute_pres_full nlev ph ;
  do lpf <- flogs pf ;
  do lp <- flog p ;
  do c <- control_of lpf kbot lp ;
  do v <- pres_interp c data ;
  Ok (v, c_mask c).
(** One column of a field on half levels: run_pressure_interp.F90:905-907; the number of levels with
    data is the one of the full levels *)
Definition interp_half (ph : list R) (kbot : Z) (data : list R) (p : R) : outcome (R * bool) :=
  do lph <- flogs ph ;
  do lp <- flog p ;
  do c <- control_of lph kbot lp ;
  do v <- pres_interp c data ;
  Ok (v, c_mask c).
