(** * Model of mppnccombine, src/mpp-nccombine/mppnccombine.c

    What is modelled: the decomposition metadata (process_file), the per-record
    read/place/buffer logic (process_vars), the flush (flush_decomp) and the
    driver of main with its three ways of naming the inputs, the blocking factor,
    the error bookkeeping and the removal of inputs.
    Simplifications: file contents are values of an abstract element type [A]
    (the five copies of the placement loop differ only in the C type); netCDF
    library calls are read/write operations on that content, which can fail
    ([v_data] is [None], [wfail], [closefail]); attributes other than
    NumFilesInSet, domain_decomposition and missing_value, messages, the memory
    dry run (-x) and the output format are not modelled; integers are unbounded
    except for the [unsigned char] error counters. *)
From Verif Require Import Base.

(** MAX_BF, mppnccombine.c (definition of the largest blocking factor). *)
Definition MAX_BF : Z := 100.

(** A dimension of an input file as stored there: its length and the
    domain_decomposition attribute of its coordinate variable, if any. *)
Record rawdim := { rd_len : Z; rd_decomp : option (Z * Z * Z * Z) }.

(** struct fileinfo, dimsize/dimfullsize/dimstart/dimend of one dimension. *)
Record dimi := { dm_size : Z; dm_full : Z; dm_start : Z; dm_end : Z }.

(** mppnccombine.c:981-983 and 1008-1027: metadata of one dimension. *)
Definition dim_info (rd : rawdim) : dimi :=
  match rd_decomp rd with
  | Some (d0, d1, d2, d3) =>
      {| dm_size := rd_len rd; dm_full := d1 - d0 + 1; dm_start := d2 - (d0 - 1); dm_end := d3 - (d0 - 1) |}
  | None => {| dm_size := rd_len rd; dm_full := rd_len rd; dm_start := 1; dm_end := -1 |}
  end.

Section Combine.
  Context {A : Type} (zero : A).

  (** A variable of an input file: dimension ids (outermost first), the id of the
      dimension of the same name (-1 if none, ncdimid), the missing_value
      attribute and the content of record r ([None]: ncvarget fails). *)
  Record ivar := { v_dims : list Z; v_coord : Z; v_miss : option A; v_data : Z -> option (list A) }.

  (** An input file: the NumFilesInSet attribute, dimensions, id of the record
      dimension (-1 if none) and variables. *)
  Record infile := { in_nfiles : option Z; in_dims : list rawdim; in_rec : Z; in_vars : list ivar }.

  (** struct fileinfo of the output: what process_file saves from the first file
      (mppnccombine.c:989-991 and 1050-1062, 1168-1176). *)
  Record ovar := { ov_dims : list Z; ov_decomp : bool; ov_miss : option A }.
  Record oinfo := { oi_nvars : Z; oi_rec : Z; oi_full : list Z; oi_vars : list ovar }.

  (** One ncvarput to the output file. *)
  Record wr := { w_var : Z; w_start : list Z; w_count : list Z; w_vals : list A }.

  (** State shared by process_file/process_vars/flush_decomp.  [c_slots] is the
      number of record slots of varbuf (allocated once, mppnccombine.c:1355-1393);
      [c_buf k v] is varbuf[k][v] ([None] = NULL). *)
  Record cst := {
    c_nfiles : Z; c_nrecs : Z; c_nblocks : Z; c_bf : Z;
    c_slots : option Z; c_buf : Z -> Z -> option (list A);
    c_oi : option oinfo; c_log : list wr }.

  Definition set_rec (st : cst) nrecs nblocks bf : cst :=
    {| c_nfiles := c_nfiles st; c_nrecs := nrecs; c_nblocks := nblocks; c_bf := bf;
       c_slots := c_slots st; c_buf := c_buf st; c_oi := c_oi st; c_log := c_log st |}.
  Definition set_slots (st : cst) s : cst :=
    {| c_nfiles := c_nfiles st; c_nrecs := c_nrecs st; c_nblocks := c_nblocks st; c_bf := c_bf st;
       c_slots := s; c_buf := c_buf st; c_oi := c_oi st; c_log := c_log st |}.
  Definition set_buf (st : cst) b : cst :=
    {| c_nfiles := c_nfiles st; c_nrecs := c_nrecs st; c_nblocks := c_nblocks st; c_bf := c_bf st;
       c_slots := c_slots st; c_buf := b; c_oi := c_oi st; c_log := c_log st |}.
  Definition add_log (st : cst) w : cst :=
    {| c_nfiles := c_nfiles st; c_nrecs := c_nrecs st; c_nblocks := c_nblocks st; c_bf := c_bf st;
       c_slots := c_slots st; c_buf := c_buf st; c_oi := c_oi st; c_log := c_log st ++ [w] |}.
  Definition set_oi (st : cst) n oi : cst :=
    {| c_nfiles := n; c_nrecs := c_nrecs st; c_nblocks := c_nblocks st; c_bf := c_bf st;
       c_slots := c_slots st; c_buf := c_buf st; c_oi := oi; c_log := c_log st |}.

  Definition upd2 {B} (f : Z -> Z -> B) (a b : Z) (x : B) : Z -> Z -> B :=
    fun a' b' => if (a' =? a) && (b' =? b) then x else f a' b'.

  (** The dimensions of a variable with the flag "is the record dimension". *)
  Definition vdims (fi : infile) (ids : list Z) : outcome (list (bool * dimi)) :=
    ofold (fun (acc : list (bool * dimi)) (id : Z) => do rd <- oget (in_dims fi) id ; Ok (acc ++ [(id =? in_rec fi, dim_info rd)])) ids [].

  (** mppnccombine.c:1031-1048: has the variable a decomposed dimension? *)
  Definition vdecomp (ds : list (bool * dimi)) : bool :=
    existsb (fun d => negb (dm_end (snd d) =? -1)) ds.

  (** mppnccombine.c:1411-1431: count, recsize, recfullsize, varrecdim. *)
  Definition v_count (ds : list (bool * dimi)) : list Z :=
    map (fun d : bool * dimi => if fst d then 1 else dm_size (snd d)) ds.
  Definition v_recfull (ds : list (bool * dimi)) : Z :=
    fold_left (fun (p : Z) (d : bool * dimi) => if fst d then p else p * dm_full (snd d)) ds 1.
  Definition v_hasrec (ds : list (bool * dimi)) : bool := existsb (@fst bool dimi) ds.
  (** outstart, mppnccombine.c:1407-1410, 1424 and 1476 *)
  Definition v_outstart (ds : list (bool * dimi)) (r : Z) : list Z :=
    map (fun d : bool * dimi => if fst d then r else dm_start (snd d) - 1) ds.

  (** mppnccombine.c:1568-1730: copy the tile [vals] of a variable with dimensions
      [ds] into the full-domain buffer.  [dm d] is the dimension d places from the
      innermost one. *)
  Definition place_tile (ds : list (bool * dimi)) (r : Z) (vals buf : list A) : outcome (list A) :=
    let n := zlen ds in
    let out := v_outstart ds r in
    let dm d := oget ds (n - 1 - d) in
    (* 1568-1597 *)
    do di <- dm 0 ;
    let imax := dm_size (snd di) in
    let lim d := if n >? d then (do x <- dm d ; Ok (if (fst x : bool) then 1 else dm_size (snd x))) else Ok 1 in
    do jmax <- lim 1 ; do kmax <- lim 2 ; do lmax <- lim 3 ;
    (* 1602-1628 *)
    let imaxfull := dm_full (snd di) in
    let full d := if n >? d then (do x <- dm d ; Ok (dm_full (snd x))) else Ok 1 in
    do jmaxfull <- full 1 ; do kmaxfull <- full 2 ;
    let imaxjmaxfull := imaxfull * jmaxfull in
    let imaxjmaxkmaxfull := imaxfull * jmaxfull * kmaxfull in
    (* 1638-1667 *)
    let off d := if n >? d then (do s <- oget out (n - 1 - d) ; Ok (if v_hasrec ds && (n =? d + 1) then 0 else s)) else Ok 0 in
    do ioffset <- off 0 ; do joffset <- off 1 ; do koffset <- off 2 ; do loffset <- off 3 ;
    (* 1672-1760 *)
    do '(buf, _) <- ofor 0 lmax (fun st l => ofor 0 kmax (fun st k => ofor 0 jmax (fun st j => ofor 0 imax (fun '(buf, b) i =>
        let offset := (i + ioffset) + (j + joffset) * imaxfull + (k + koffset) * imaxjmaxfull
                      + (l + loffset) * imaxjmaxkmaxfull in
        do x <- oget vals b ;
        do buf <- oset buf offset x ;
        Ok (buf, b + 1)) st) st) st) (buf, 0) ;
    Ok buf.

  (** Does ncvarput of variable v at record r fail? (disk full, ...) *)
  Context (wfail : Z -> Z -> bool).

  (** mppnccombine.c:1295-1348 and 1355-1393: number of records, blocking factor,
      number of blocks, allocation of varbuf.  [None] is "return 1". *)
  Definition pv_records (recdimsize : Z) (st : cst) : outcome (option cst) :=
    do st <- (if c_nrecs st =? 1 then
        let nrecs := recdimsize in
        let bf := if 1 <=? c_bf st then (if c_bf st >? nrecs then nrecs else c_bf st) else Z.min MAX_BF nrecs in
        if bf =? 0 then UB (* nrecs % 0 *)
        else Ok (Some (set_rec st nrecs (if negb (nrecs mod bf =? 0) then nrecs / bf + 1 else nrecs / bf) bf))
      else if negb (recdimsize =? c_nrecs st) then Ok None
      else Ok (Some st)) ;
    match st with
    | None => Ok None
    | Some st => Ok (Some (match c_slots st with None => set_slots st (Some (c_bf st)) | Some _ => st end))
    end.

  (** mppnccombine.c:1433-1463: is the variable skipped for this record/file? *)
  Definition pv_skip (fi : infile) (app : bool) (r f : Z) (v : ivar) (ds : list (bool * dimi)) : bool :=
    if r >? 0 then
      if negb (v_coord v =? -1) then
        if in_rec fi =? v_coord v then negb (f =? 0) else true
      else if negb (v_hasrec ds) then true
      else negb (vdecomp ds) && (f >? 0)
    else negb (vdecomp ds) && app.

  (** mppnccombine.c:1397-1770: one variable; the code 1 stops process_vars. *)
  Definition pv_var (missing : bool) (fi : infile) (app : bool) (r f : Z) (cs : Z * cst) (vn : Z)
    : outcome (Z * cst) :=
    let '(code, st) := cs in
    if negb (code =? 0) then Ok (code, st) else
    do v <- oget (in_vars fi) vn ;
    do ds <- vdims fi (v_dims v) ;
    if pv_skip fi app r f v ds then Ok (0, st) else
    match v_data v r with
    | None => Ok (1, st)                                  (* 1477-1483 *)
    | Some vals =>
      if negb (vdecomp ds) then                           (* 1485-1498 *)
        if wfail vn r then Ok (1, st)
        else Ok (0, add_log st {| w_var := vn; w_start := v_outstart ds r; w_count := v_count ds; w_vals := vals |})
      else                                                (* 1499-1770 *)
        let slot := r mod c_bf st in
        do nslots <- (match c_slots st with Some n => Ok n | None => UB end) ;
        if negb (slot <? nslots) then UB else
        do b <- (match c_buf st slot vn with
                 | Some b => Ok (Some b)
                 | None =>
                   if v_recfull ds <? 0 then Ok None else
                   do fill <- (if missing then
                                 do oi <- (match c_oi st with Some oi => Ok oi | None => UB end) ;
                                 do ov <- oget (oi_vars oi) vn ;
                                 Ok (match ov_miss ov with Some m => m | None => zero end)
                               else Ok zero) ;
                   Ok (Some (repeat fill (Z.to_nat (v_recfull ds))))
                 end) ;
        match b with
        | None => Ok (1, st)
        | Some b => do b <- place_tile ds r vals b ; Ok (0, set_buf st (upd2 (c_buf st) slot vn (Some b)))
        end
    end.

  (** process_vars, mppnccombine.c:1275-1775. *)
  Definition process_vars (missing : bool) (fi : infile) (app : bool) (r f : Z) (st : cst) : outcome (Z * cst) :=
    do recdimsize <- (if in_rec fi <? 0 then Ok 1 else do rd <- oget (in_dims fi) (in_rec fi) ; Ok (rd_len rd)) ;
    do o <- pv_records recdimsize st ;
    match o with
    | None => Ok (1, st)
    | Some st => ofor 0 (zlen (in_vars fi)) (pv_var missing fi app r f) (0, st)
    end.

  (** mppnccombine.c:989-991, 1029-1062, 1168-1176: what is saved for the output. *)
  Definition save_ovar (missing : bool) (fi : infile) (v : ivar) : outcome ovar :=
    do ds <- vdims fi (v_dims v) ;
    Ok {| ov_dims := v_dims v; ov_decomp := vdecomp ds; ov_miss := if missing then v_miss v else None |}.
  Definition save_oinfo (missing : bool) (fi : infile) : outcome oinfo :=
    do ovs <- ofold (fun acc v => do o <- save_ovar missing fi v ; Ok (acc ++ [o])) (in_vars fi) [] ;
    Ok {| oi_nvars := zlen (in_vars fi); oi_rec := in_rec fi;
          oi_full := map (fun rd => dm_full (dim_info rd)) (in_dims fi); oi_vars := ovs |}.

  (** The record loop of process_file, mppnccombine.c:1240-1266: a do-while whose
      first iteration fixes nrecs and bf (see process_vars), so the number of the
      following iterations is known after it.  The error count is an unsigned
      char. *)
  Definition rec_loop (missing : bool) (fi : infile) (app : bool) (block f : Z) (st : cst) : outcome (Z * cst) :=
    let r0 := block * c_bf st in
    do '(e, st) <- process_vars missing fi app r0 f st ;
    let last := Z.min ((block + 1) * c_bf st) (c_nrecs st) in
    ofor (r0 + 1) (last - (r0 + 1)) (fun '(e, st) r =>
      do '(e1, st) <- process_vars missing fi true r f st ; Ok ((e + e1) mod 256, st)) (e mod 256, st).

  (** process_file, mppnccombine.c:913-1270; [None]: the file cannot be opened. *)
  Definition process_file (missing : bool) (file : option infile) (app : bool) (block f : Z) (st : cst)
    : outcome (Z * cst) :=
    match file with
    | None => Ok (1, st)                                                       (* 943-948 *)
    | Some fi =>
      match in_nfiles fi with
      | None => if c_nfiles st =? 1 then Ok (1, st) else UB                    (* 950-966: nfiles2 is not set *)
      | Some n =>
        do oi <- (if app then
                    Ok (match c_oi st with
                        | Some oi => if block =? 0 then
                            Some {| oi_nvars := zlen (in_vars fi); oi_rec := in_rec fi; oi_full := oi_full oi; oi_vars := oi_vars oi |}
                            else Some oi
                        | None => None end)
                  else do oi <- save_oinfo missing fi ; Ok (Some oi)) ;
        rec_loop missing fi app block f (set_oi st n oi)
      end
    end.

  (** flush_decomp, mppnccombine.c:1778-1831: returns 1 at the first failing write. *)
  Definition flush_var (r : Z) (oi : oinfo) (cs : Z * cst) (vn : Z) : outcome (Z * cst) :=
    let '(code, st) := cs in
    if negb (code =? 0) then Ok (code, st) else
    do ov <- oget (oi_vars oi) vn ;
    if negb (ov_decomp ov) then Ok (0, st) else
    let hasrec := existsb (fun id => id =? oi_rec oi) (ov_dims ov) in
    if negb hasrec && (r >? 0) then Ok (0, st) else
    do count <- ofold (fun acc id => if id =? oi_rec oi then Ok (acc ++ [1])
                                      else do x <- oget (oi_full oi) id ; Ok (acc ++ [x])) (ov_dims ov) [] ;
    let start := map (fun id => if id =? oi_rec oi then r else 0) (ov_dims ov) in
    match c_buf st (r mod c_bf st) vn with
    | None => UB                                       (* ncvarput from a null pointer *)
    | Some b => if wfail vn r then Ok (1, st)
                else Ok (0, add_log st {| w_var := vn; w_start := start; w_count := count; w_vals := b |})
    end.
  Definition flush_decomp (r : Z) (st : cst) : outcome (Z * cst) :=
    do oi <- (match c_oi st with Some oi => Ok oi | None => UB end) ;
    if c_bf st =? 0 then UB else
    ofor 0 (oi_nvars oi) (flush_var r oi) (0, st).

  (** The flush of a block, e.g. mppnccombine.c:718-724: outfileerrors is an
      unsigned char. *)
  Definition flush_block (block : Z) (oerr : Z) (st : cst) : outcome (Z * cst) :=
    let lo := block * c_bf st in
    let hi := Z.min ((block + 1) * c_bf st) (c_nrecs st) in
    ofor lo (hi - lo) (fun '(e, st) r => do '(e1, st) <- flush_decomp r st ; Ok ((e + e1) mod 256, st)) (oerr, st).

  (** End of a block, e.g. mppnccombine.c:725-733: all buffers are freed. *)
  Definition free_bufs (st : cst) : cst := set_buf st (fun _ _ => None).

  (** Names of input files: the i-th argument, or number [a] written with the
      given width ("%s.%04d" / "%s.%06d"). *)
  Inductive fname := NArg (i : Z) | NNum (w a : Z).

  (** The directory: [None]: no such file; [Some None]: not a readable netCDF file. *)
  Definition fsys := fname -> option (option infile).

  Record copts := { o_start : Z; o_end : option Z; o_force : bool; o_remove : bool; o_append : bool;
                    o_k : Z; o_missing : bool }.

  (** State of main's loops.  [d_stop]: the program has ended with this status
      after removing the output; [d_break]: the file loop was left by break. *)
  Record dst := { d_st : cst; d_app : bool; d_f : Z; d_pe : Z; d_inerr : bool; d_outerr : Z;
                  d_used : Z; d_nend : Z; d_break : bool; d_stop : option Z }.

  Definition with_stop (d : dst) c : dst :=
    {| d_st := d_st d; d_app := d_app d; d_f := d_f d; d_pe := d_pe d; d_inerr := d_inerr d; d_outerr := d_outerr d;
       d_used := d_used d; d_nend := d_nend d; d_break := d_break d; d_stop := Some c |}.
  Definition with_pe (d : dst) p : dst :=
    {| d_st := d_st d; d_app := d_app d; d_f := d_f d; d_pe := p; d_inerr := d_inerr d; d_outerr := d_outerr d;
       d_used := d_used d; d_nend := d_nend d; d_break := d_break d; d_stop := d_stop d |}.
  Definition start_block (d : dst) : dst :=
    {| d_st := d_st d; d_app := d_app d; d_f := 0; d_pe := d_pe d; d_inerr := d_inerr d; d_outerr := d_outerr d;
       d_used := d_used d; d_nend := d_nend d; d_break := false; d_stop := d_stop d |}.
  Definition end_block (d : dst) : dst :=
    {| d_st := free_bufs (d_st d); d_app := d_app d; d_f := d_f d; d_pe := d_pe d; d_inerr := d_inerr d; d_outerr := d_outerr d;
       d_used := d_used d; d_nend := d_nend d; d_break := d_break d; d_stop := d_stop d |}.

  (** One file: the existence test, process_file and the flush when the set is
      complete.  [first]: this is file number nstart in the mode without -e;
      [last d]: is this the last candidate?  [mode_e]: the -e mode leaves the loop
      after the flush, the other modes reset f.
      mppnccombine.c:505-553 (-e), 597-648 (no -e), 683-722 (explicit names). *)
  Definition do_file (o : copts) (fs : fsys) (nm : fname) (block : Z) (mode_e first : bool)
      (last : dst -> bool) (d : dst) : outcome dst :=
    let missing_file := match fs nm with None => true | _ => false end in
    if missing_file && negb (o_force o) then Ok (with_stop d 9) else
    do '(e, st) <- process_file (o_missing o) (match fs nm with Some x => x | None => None end) (d_app d) block (d_f d) (d_st d) ;
    let nend := if first && (c_nfiles st >? 0) then o_start o + c_nfiles st else d_nend d in
    let d1 := {| d_st := st; d_app := true; d_f := d_f d + 1; d_pe := d_pe d;
                 d_inerr := d_inerr d || missing_file || negb (e =? 0); d_outerr := d_outerr d;
                 d_used := d_used d; d_nend := nend; d_break := false; d_stop := None |} in
    if (d_f d1 =? c_nfiles st) || last d1 then
      do '(oe, st) <- flush_block block (d_outerr d1) st ;
      Ok {| d_st := st; d_app := true; d_f := if mode_e then d_f d1 else 0; d_pe := d_pe d1;
            d_inerr := d_inerr d1; d_outerr := oe; d_used := if mode_e then d_f d1 else d_used d1;
            d_nend := d_nend d1; d_break := mode_e; d_stop := None |}
    else Ok d1.

  Definition running (d : dst) : bool := match d_stop d with None => negb (d_break d) | Some _ => false end.
  Definition exists_ (fs : fsys) (nm : fname) : bool := match fs nm with None => false | Some _ => true end.

  (** Width detection, mppnccombine.c:486-504, 580-597, 750-769: [None] is
      "continue" with the next number. *)
  Definition detect (fs : fsys) (pe a : Z) : option Z :=
    if pe <? 0 then
      if exists_ fs (NNum 4 a) then Some 4 else if exists_ fs (NNum 6 a) then Some 6 else None
    else Some pe.

  (** A numbered candidate. *)
  Definition do_num (o : copts) (fs : fsys) (block : Z) (mode_e first : bool) (last : Z -> dst -> bool) (d : dst) (a : Z)
    : outcome dst :=
    if negb (running d) then Ok d else
    match detect fs (d_pe d) a with
    | None => Ok d
    | Some w => do_file o fs (NNum w a) block mode_e first (last a) (with_pe d w)
    end.

  (** One block in each mode. *)
  Definition block_args (o : copts) (fs : fsys) (nargs block : Z) (d : dst) : outcome dst :=
    do d <- ofor 0 nargs (fun d a => if negb (running d) then Ok d else
        do_file o fs (NArg a) block false false (fun _ => a =? nargs - 1) d) (start_block d) ;
    Ok (end_block d).
  Definition block_range (o : copts) (fs : fsys) (nend block : Z) (d : dst) : outcome dst :=
    do d <- ofor (o_start o) (nend - o_start o + 1)
              (do_num o fs block true false (fun a _ => a =? nend)) (start_block d) ;
    (* 555-560 *)
    if match d_stop d with None => d_used d =? 0 | Some _ => false end then Ok (with_stop d 1) else Ok (end_block d).
  (** mppnccombine.c:571-663: nend = nstart+1 until the file number nstart has told
      the number of files; the bound of the loop changes only there. *)
  Definition block_auto (o : copts) (fs : fsys) (block : Z) (d : dst) : outcome dst :=
    let last a d := a =? d_nend d - 1 in
    do d <- do_num o fs block false true last (start_block d) (o_start o) ;
    do d <- ofor (o_start o + 1) (d_nend d - (o_start o + 1)) (do_num o fs block false false last) d ;
    Ok (end_block d).

  (** The loop over the blocks: process_vars can change nblocks only while
      nrecs = 1, hence only during block 0; after it the number of blocks is fixed. *)
  Definition all_blocks (one : Z -> dst -> outcome dst) (d : dst) : outcome dst :=
    let step d b := match d_stop d with Some _ => Ok d | None => one b d end in
    do d <- step d 0 ;
    ofor 1 (c_nblocks (d_st d) - 1) step d.

  (** Result of a run: exit status, whether the output file is left, what was
      written to it, which inputs were removed. *)
  Record cres := { res_code : Z; res_output : bool; res_log : list wr; res_removed : list fname }.

  (** mppnccombine.c:744-790 *)
  Definition remove_nums (fs : fsys) (pe start nend : Z) : list fname :=
    snd (fold_left (fun '(pe, acc) a =>
           match detect fs pe a with
           | None => (pe, acc)
           | Some w => (w, if exists_ fs (NNum w a) then acc ++ [NNum w a] else acc)
           end) (zseq start (nend - start + 1)) (pe, [])).
  Definition remove_args (fs : fsys) (nargs : Z) : list fname :=
    filter (exists_ fs) (map NArg (zseq 0 nargs)).

  (** Errors counted by ncsync and ncclose (mppnccombine.c:736-739). *)
  Context (closefail : Z).

  (** main, mppnccombine.c:237-800.  [nargs] explicit inputs (0: none given);
      [out_exists]: the output is already there.  -k above MAX_BF is replaced by
      MAX_BF (330-338).  [o_end = None] is nend = -1; a negative -e is the same. *)
  Definition main (o : copts) (fs : fsys) (nargs : Z) (out_exists : bool) : outcome cres :=
    if negb (o_append o) && out_exists then
      Ok {| res_code := 1; res_output := true; res_log := []; res_removed := [] |} else
    if o_append o && negb out_exists then
      Ok {| res_code := 1; res_output := false; res_log := []; res_removed := [] |} else
    let st := {| c_nfiles := -1; c_nrecs := 1; c_nblocks := 1; c_bf := Z.min MAX_BF (o_k o); c_slots := None;
                 c_buf := fun _ _ => None; c_oi := None; c_log := [] |} in
    let d := {| d_st := st; d_app := o_append o; d_f := 0; d_pe := -1; d_inerr := false; d_outerr := 0; d_used := 0;
                d_nend := o_start o + 1; d_break := false; d_stop := None |} in
    do d <- (if nargs >? 0 then all_blocks (block_args o fs nargs) d
             else match o_end o with
                  | Some e => if e >? -1 then all_blocks (block_range o fs e) d else all_blocks (block_auto o fs) d
                  | None => all_blocks (block_auto o fs) d
                  end) ;
    match d_stop d with
    | Some c => Ok {| res_code := c; res_output := false; res_log := c_log (d_st d); res_removed := [] |}
    | None =>
      let oerr := (d_outerr d + closefail) mod 256 in
      if negb (d_inerr d) && (oerr =? 0) then
        let removed :=
          if o_remove o then
            if nargs >? 0 then remove_args fs nargs
            else remove_nums fs (d_pe d) (o_start o)
                   (match o_end o with Some e => if e >? -1 then e else d_nend d | None => d_nend d end)
          else [] in
        Ok {| res_code := 0; res_output := true; res_log := c_log (d_st d); res_removed := removed |}
      else Ok {| res_code := 1; res_output := true; res_log := c_log (d_st d); res_removed := [] |}
    end.
End Combine.
