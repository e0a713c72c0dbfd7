(** * Model of src/timeavg/time_average.f90: averaging one variable over several files

    One variable of the input files (the loop over variables treats them independently,
    apart from the comparison of averaging periods in lines 735-757, which is not modelled).
    Numbers are exact reals, also time values and sums.  Array sections are lists, with one
    element per grid point.  Attributes, names, compression, the climatological time and
    other metadata of the output are not modelled. *)
From Coq Require Import Reals.
From Verif Require Import Base M_Interp M_Runoff.
Open Scope Z_scope.

(** What the tool reads from an input file.  [f_missing], [f_fill]: attributes of the variable;
    [f_float]: its type is float or double; [f_static]: it has no record dimension, and
    [f_fixed] is then its value.  [f_bounds]: the file has time bounds. *)
Record trec := { r_time : R; r_lo : R; r_hi : R; r_data : list R }.
Record tfile := { f_missing : option R; f_fill : option R; f_float : bool; f_static : bool; f_bounds : bool;
                  f_fixed : list R; f_recs : list trec }.

(** The fields of Vars(ivar) that live from file to file, time_average.f90:59-68 *)
Record tvar := { v_static : bool; v_do_missval : bool; v_missval : R; v_use_wt : bool; v_float : bool; v_size : Z;
                 v_sum : list R; v_wt : list R; v_wt_max : R; v_tavg : R * R * R }.

Definition map2 {A B C} (f : A -> B -> C) (a : list A) (b : list B) : list C := map (fun x => f (fst x) (snd x)) (combine a b).

(** init_variable_type (missing value, lines 1041-1053) and alloc_variable_type (1176-1199); only
    for the first file *)
Definition init_var (f : tfile) : tvar :=
  let '(dm, mv) := match f_missing f, f_fill f with Some m, _ => (true, m) | None, Some m => (true, m) | None, None => (false, 0%R) end in
  let data := if f_static f then f_fixed f else match f_recs f with r :: _ => r_data r | [] => [] end in
  {| v_static := f_static f; v_do_missval := dm; v_missval := mv;
     v_use_wt := (1 <? zlen (f_recs f)) && dm && negb (f_static f); v_float := f_float f; v_size := zlen data;
     v_sum := map (fun _ => 0%R) data; v_wt := map (fun _ => 0%R) data; v_wt_max := 0%R; v_tavg := (0, 0, 0)%R |}.

(** Zeroing of the sums at the start of every file, lines 572-582 *)
Definition zero_var (v : tvar) : tvar :=
  {| v_static := v_static v; v_do_missval := v_do_missval v; v_missval := v_missval v; v_use_wt := v_use_wt v; v_float := v_float v; v_size := v_size v;
     v_sum := map (fun _ => 0%R) (v_sum v); v_wt := if v_use_wt v then map (fun _ => 0%R) (v_wt v) else v_wt v; v_wt_max := 0%R;
     v_tavg := (fst (v_tavg v), 0%R) |}.

(** Summing one record of weight [w] (tavg(3)), lines 699-719; [n] is numtime.  The shape check is
    that of lines 645-647. *)
Definition add_data (n : Z) (w : R) (data : list R) (v : tvar) : outcome tvar :=
  if negb (zlen data =? v_size v) then Err 1 else
  let valid d := if v_do_missval v then negb (reqb d (v_missval v)) else true in
  let '(sum, wt, wt_max) :=
    if v_use_wt v then
      (map2 (fun s d => if valid d then s + w * d else s)%R (v_sum v) data,
       map2 (fun t d => if valid d then t + w else t)%R (v_wt v) data, (v_wt_max v + w)%R)
    else if n =? 1 then (data, v_wt v, v_wt_max v)
    else (map2 (fun s d => s + w * d)%R (v_sum v) data, v_wt v, (v_wt_max v + w)%R) in
  Ok {| v_static := v_static v; v_do_missval := v_do_missval v; v_missval := v_missval v; v_use_wt := v_use_wt v; v_float := v_float v; v_size := v_size v;
        v_sum := sum; v_wt := wt; v_wt_max := wt_max; v_tavg := v_tavg v |}.

(** tavg(1:3) of a record, lines 598-608: the time bounds and their distance, or all ones if
    the file has no time bounds *)
Definition rec_tavg (f : tfile) (r : trec) : R * R * R := if f_bounds f then (r_lo r, r_hi r, r_hi r - r_lo r)%R else (1, 1, 1)%R.

(** Bookkeeping of the averaging period, lines 678-697; [it] is itime, [n] is numtime.  Only the
    first branch is modelled: Var%do_avg is true for every variable with a record dimension
    (lines 1055-1059). *)
Definition track_time (n it : Z) (tavg t : R * R * R) : R * R * R :=
  let '(t1, t2, t3) := t in let '(a1, a2, a3) := tavg in
  (if it =? 1 then a1 else t1, if it =? n then a2 else t2, (t3 + a3)%R).
Definition set_tavg (v : tvar) t : tvar :=
  {| v_static := v_static v; v_do_missval := v_do_missval v; v_missval := v_missval v; v_use_wt := v_use_wt v; v_float := v_float v; v_size := v_size v;
     v_sum := v_sum v; v_wt := v_wt v; v_wt_max := v_wt_max v; v_tavg := t |}.

(** The time loop, lines 596-721: pass 0 reads a variable without record dimension, passes
    1..numtime read the records of the others. *)
Definition add_records (f : tfile) (v : tvar) : outcome tvar :=
  let n := zlen (f_recs f) in
  if v_static v then add_data n 1%R (f_fixed f) v else
  ofor 0 n (fun v it0 =>
    do r <- oget (f_recs f) it0 ;
    add_data n (snd (rec_tavg f r)) (r_data r) (set_tavg v (track_time n (it0 + 1) (rec_tavg f r) (v_tavg v)))) v.

(** Averages, lines 823-845, and the half added to data of integer types, 847-855 (NetCDF drops
    the fraction when it stores the value).  [frac]: the namelist variable frac_valid_data; small
    is the constant of line 72.  use_data_wt is only set together with do_missval. *)
Definition small : R := (1 / 1000000)%R.
Definition truncate (x : R) : R := if rle 0 x then IZR (Int_part x) else (- IZR (Int_part (- x)))%R.
Definition half_sign (x : R) : R := if rle 0 x then (x + 1/2)%R else (x - 1/2)%R.
Definition store (v : tvar) (x : R) : R :=
  if v_float v then x else
  truncate (if v_do_missval v && reqb x (v_missval v) then x else half_sign x).
Definition average (frac : R) (n : Z) (v : tvar) : list R :=
  if v_use_wt v then
    let wt_min := (Rmax (Rmin frac (1 - small)) 0 * v_wt_max v)%R in
    map2 (fun s t => store v (if rlt wt_min t then s / t else v_missval v)%R) (v_sum v) (v_wt v)
  else if n =? 1 then map (store v) (v_sum v)
  else map (fun s => store v (s / v_wt_max v)%R) (v_sum v).

(** Output for one file: for a variable without record dimension the value written from the
    first file only (lines 768-797, without rounding); otherwise the average, the bounds of
    the averaging period and the time value (lines 799-809, 857-871; not the climatological
    time).  [use_end]: the namelist variable use_end_time. *)
Inductive tout := Fixed (x : list R) | Averaged (x : list R) (lo hi time : R) | Nothing.
Definition do_file (frac : R) (use_end first : bool) (f : tfile) (v : tvar) : outcome (tvar * tout) :=
  do v <- add_records f (zero_var v) ;
  let '(lo, hi, _) := v_tavg v in
  let last_time := last (map r_time (f_recs f)) 0%R in
  Ok (v, if v_static v then (if first then Fixed (v_sum v) else Nothing)
         else Averaged (average frac (zlen (f_recs f)) v) lo hi (if use_end then last_time else 1/2 * (lo + hi))%R).

(** The loop over files, lines 160-930 *)
Definition time_average (frac : R) (use_end : bool) (files : list tfile) : outcome (list tout) :=
  match files with
  | [] => Ok []
  | f0 :: _ =>
    do '(_, outs) <- ofor 0 (zlen files) (fun st k =>
      let '(v, outs) := st in
      do f <- oget files k ;
      do '(v, o) <- do_file frac use_end (k =? 0) f v ;
      Ok (v, outs ++ [o])) (init_var f0, []) ;
    Ok outs
  end.
