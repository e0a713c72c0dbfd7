(** * File names: mppncscatter's output names and the names mppnccombine looks for

    [sprintf] is a small interpreter of format strings with the conversions %s, %d,
    %0Nd, %0*d and %%; every other conversion, and an argument of the wrong kind, is
    [UB] here (the C library defines more conversions; none occurs in the formats
    below unless the user's prefix brings it in). *)
From Coq Require Import String.
Open Scope list_scope.
From Verif Require Import Base Str.

Inductive farg := AStr (s : str) | AInt (n : Z).
Inductive fmode := PLit | PPct | PWid (zero : bool) (w : Z).

Definition conv_d (zero : bool) (w : Z) (args : list farg) : outcome (str * list farg) :=
  match args with
  | AInt n :: rest => if zero || (w =? 0) then Ok (print_int w n, rest) else UB
  | _ => UB
  end.
Definition conv_s (w : Z) (args : list farg) : outcome (str * list farg) :=
  match args with AStr s :: rest => if w =? 0 then Ok (s, rest) else UB | _ => UB end.

Fixpoint spr (m : fmode) (fmt : str) (args : list farg) : outcome str :=
  match fmt with
  | [] => match m with PLit => Ok [] | _ => UB end
  | c :: fmt =>
    match m with
    | PLit => if c =? 37 then spr PPct fmt args else do r <- spr PLit fmt args ; Ok (c :: r)
    | PPct => if c =? 37 then do r <- spr PLit fmt args ; Ok (37 :: r)
              else if c =? 115 then do '(s, args) <- conv_s 0 args ; do r <- spr PLit fmt args ; Ok (s ++ r)
              else if c =? 100 then do '(s, args) <- conv_d false 0 args ; do r <- spr PLit fmt args ; Ok (s ++ r)
              else if c =? 48 then spr (PWid true 0) fmt args
              else if is_digit c then spr (PWid false (c - 48)) fmt args
              else UB
    | PWid z w =>
              if c =? 115 then do '(s, args) <- conv_s w args ; do r <- spr PLit fmt args ; Ok (s ++ r)
              else if c =? 100 then do '(s, args) <- conv_d z w args ; do r <- spr PLit fmt args ; Ok (s ++ r)
              else if is_digit c then spr (PWid z (10 * w + (c - 48))) fmt args
              else if (c =? 42) && (w =? 0) then
                match args with AInt n :: args => if n <? 0 then UB else spr (PWid z n) fmt args | _ => UB end
              else UB
    end
  end.

(** sprintf into a buffer of [cap] bytes (one for the terminating NUL) *)
Definition sprintf (cap : Z) (fmt : str) (args : list farg) : outcome str :=
  do r <- spr PLit fmt args ; if zlen r + 1 <=? cap then Ok r else UB.

(** Stripping the path of the input file, mppncscatter.c:1281-1287 *)
Fixpoint strip_path (best s : str) : str :=
  match s with [] => best | c :: t => if c =? 47 then strip_path t t else strip_path best t end.

(** The format of the output names, mppncscatter.c:1325-1330 *)
Definition outnameformat (prefix : option str) (width : Z) : outcome str :=
  let p := match prefix with Some p => p | None => [] end in
  let i := zlen p in
  sprintf 256 (chars "%s%s%%s.%%0%dd") [AStr (if i >? 0 then p else []); AStr (if i >? 0 then chars "/" else []); AInt width].

(** The output names, mppncscatter.c:1338-1342 (the error exit when the name is empty
    does not arise: a name has at least a dot) *)
Definition scatter_names (prefix : option str) (width start : Z) (filein : str) (nfiles : Z) : outcome (list str) :=
  do fmt <- outnameformat prefix width ;
  ofor 0 nfiles (fun names i => do nm <- sprintf 256 fmt [AStr (strip_path filein filein); AInt (i + start)] ; Ok (names ++ [nm])) [].

(** The names mppnccombine looks for, mppnccombine.c:483-517 (one block, -e mode or a
    known number of files, without -f); [ex] tells which files exist.  [w] is peWidth.
    The result is the list of files processed. *)
Definition combine_names (ex : str -> bool) (base : str) (nstart n : Z) : outcome (list str) :=
  do '(_, names) <- ofor nstart n (fun '(w, names) a =>
    do w' <- (if w <? 0 then
        do n4 <- sprintf 2048 (chars "%s.%04d") [AStr base; AInt a] ;
        if ex n4 then Ok 4 else
        do n6 <- sprintf 2048 (chars "%s.%06d") [AStr base; AInt a] ;
        if ex n6 then Ok 6 else Ok (-1)
      else Ok w) ;
    if w' <? 0 then Ok (w', names) else
    do nm <- sprintf 2048 (chars "%s.%0*d") [AStr base; AInt w'; AInt a] ;
    if ex nm then Ok (w', names ++ [nm]) else Err 9) (-1, []) ;
  Ok names.
