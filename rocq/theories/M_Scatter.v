(** * Model of mppncscatter's output files, src/mpp-ncscatter/mppncscatter.c

    The input and output files are described as for the combiner ([infile] of
    M_Combine): dimension lengths and domain_decomposition attributes, record
    dimension, variables with their data per record, NumFilesInSet.
    Simplifications: all variables have one netCDF type (the program keeps one
    pair of buffers per type and they do not interact); attributes other than
    missing_value, domain_decomposition and NumFilesInSet are not modelled; writes
    do not fail; a failing read ([v_data] is [None]) ends the program with -1. *)
From Verif Require Import Base M_ScatterExt M_Hyperslab M_Combine.

(** scatterdim.h: scatter_t *)
Inductive sct := NoSc | ScX | ScY.

(** opt.h: layout and I/O layout *)
Record sopts := { sx_nx : Z; sx_ny : Z; sx_nxio : Z; sx_nyio : Z }.

Definition sx_io (o : sopts) : bool := negb (sx_nxio o =? 0) && negb (sx_nyio o =? 0).
(** get_num_divs, mppncscatter.c:59-71 *)
Definition num_divs (o : sopts) : Z * Z := if sx_io o then (sx_nxio o, sx_nyio o) else (sx_nx o, sx_ny o).

(** A dimension after scatter_dims: type, length (0 for the record dimension,
    NC_UNLIMITED, mppncscatter.c:307-309) and extents. *)
Record sdim := { sm_type : sct; sm_len : Z; sm_ext : scatterdim }.

(** scatter_dims, mppncscatter.c:1172-1197, for one dimension; the types come from
    get_scatter_dims (280-412). *)
Definition one_dim (o : sopts) (isrec : bool) (t : sct) (len : Z) : outcome sdim :=
  let io n := if sx_io o then n else 0 in
  let mk e := {| sm_type := t; sm_len := if isrec then 0 else len; sm_ext := e |} in
  match t with
  | NoSc => Ok (mk (ScDim 0 [] [] []))
  | ScX => do e <- scatter_dim len (sx_nx o) (io (sx_nxio o)) ; Ok (mk e)
  | ScY => do e <- scatter_dim len (sx_ny o) (io (sx_nyio o)) ; Ok (mk e)
  end.

(** Start and length of the part of a dimension that goes to file (xi,yi),
    mppncscatter.c:877-893 = 1084-1100; the length is also that of def_dim (539-577). *)
Definition dim_part (d : sdim) (xi yi : Z) : outcome (Z * Z) :=
  match sm_type d with
  | NoSc => Ok (0, sm_len d)
  | ScX => do s <- oget (sd_start (sm_ext d)) xi ; do c <- oget (sd_len (sm_ext d)) xi ; Ok (s, c)
  | ScY => do s <- oget (sd_start (sm_ext d)) yi ; do c <- oget (sd_len (sm_ext d)) yi ; Ok (s, c)
  end.

Section Scatter.
  Context {A : Type} (zero : A).
  Notation infile := (@infile A).
  Notation ivar := (@ivar A).

  (** State of put_var: input and output buffer, what has been written (file,
      variable, record), and dimids[0] of the last variable that has dimensions:
      nc_inq_var leaves dimids alone for a scalar. *)
  Record pst := { q_tp : list A; q_otp : list A; q_data : Z -> Z -> Z -> option (list A); q_d0 : option Z }.

  Definition put (st : pst) (otp : list A) (f v r : Z) (vals : list A) : pst :=
    {| q_tp := q_tp st; q_otp := otp;
       q_data := fun f' v' r' => if (f' =? f) && (v' =? v) && (r' =? r) then Some vals else q_data st f' v' r';
       q_d0 := q_d0 st |}.

  (** nc_get_var / nc_get_vara into the input buffer *)
  Definition load (vals buf : list A) : outcome (list A) :=
    if zlen vals <=? zlen buf then Ok (vals ++ skipn (length vals) buf) else UB.
  Definition load_var (iv : ivar) (r : Z) (st : pst) : outcome pst :=
    match v_data iv r with
    | None => Err (-1)
    | Some vals => do tp <- load vals (q_tp st) ;
                   Ok {| q_tp := tp; q_otp := q_otp st; q_data := q_data st; q_d0 := q_d0 st |}
    end.
  Definition inq_dims (iv : ivar) (st : pst) : pst :=
    {| q_tp := q_tp st; q_otp := q_otp st; q_data := q_data st;
       q_d0 := match v_dims iv with [] => q_d0 st | d :: _ => Some d end |}.

  Context (dims : list sdim) (dimlen : list Z) (rec nrec nx ny : Z).

  (** for(yi..) for(xi..) with i = yi*nx + xi *)
  Definition each_file (f : pst -> Z -> Z -> outcome pst) (st : pst) : outcome pst :=
    ofor 0 ny (fun st yi => ofor 0 nx (fun st xi => f st xi yi) st) st.

  Definition parts (ids : list Z) (xi yi : Z) : outcome (list (Z * Z)) :=
    ofold (fun acc id => do d <- oget dims id ; do p <- dim_part d xi yi ; Ok (acc ++ [p])) ids [].
  Definition lens (ids : list Z) : outcome (list Z) :=
    ofold (fun acc id => do l <- oget dimlen id ; Ok (acc ++ [l])) ids [].

  (** hyperslabcopy and nc_put_vara of [prod count] elements from the output buffer *)
  Definition copy_put (ids : list Z) (vn r : Z) (st : pst) (xi yi : Z) : outcome pst :=
    do ps <- parts ids xi yi ;
    do ls <- lens ids ;
    let count := map snd ps in
    do otp <- hyperslabcopy ls (map fst ps) count (zlen ids) (q_tp st) (q_otp st) ;
    let n := fold_right Z.mul 1 count in
    if zlen otp <? n then UB else Ok (put st otp (yi * nx + xi) vn r (firstn (Z.to_nat n) otp)).

  (** "Process nonrec vars", mppncscatter.c:810-988; instart and count have four
      elements. *)
  Definition put_nonrec (vars : list ivar) (st : pst) (vn : Z) : outcome pst :=
    do iv <- oget vars vn ;
    let st := inq_dims iv st in
    let ids := v_dims iv in
    if negb (rec =? -1) && match ids with d :: _ => d =? rec | [] => false end then Ok st else
    do st <- load_var iv 0 st ;
    match ids with
    | [] => each_file (fun st xi yi => do v <- oget (q_tp st) 0 ; Ok (put st (q_otp st) (yi * nx + xi) vn 0 [v])) st
    | _ => if zlen ids >? 4 then UB else each_file (copy_put ids vn 0) st
    end.

  (** "Process recvars", mppncscatter.c:990-1153.  A variable is skipped when
      dimids[0] != recid; for a scalar that is the value left by an earlier
      nc_inq_var.  A scalar that is not skipped has ndimvar2 = -1: hyperslabcopy
      does nothing and one element of the output buffer is written. *)
  Definition put_rec (vars : list ivar) (r : Z) (st : pst) (vn : Z) : outcome pst :=
    do iv <- oget vars vn ;
    let st := inq_dims iv st in
    match q_d0 st with
    | None => UB
    | Some d0 =>
      if negb (d0 =? rec) then Ok st else
      match v_dims iv with
      | [] => do st <- load_var iv 0 st ;
              each_file (fun st xi yi => do v <- oget (q_otp st) 0 ; Ok (put st (q_otp st) (yi * nx + xi) vn 0 [v])) st
      | _ :: ids => if zlen ids >? 3 then UB else
              do st <- load_var iv r st ; each_file (copy_put ids vn r) st
      end
    end.

  (** put_var, mppncscatter.c:706-1170; the buffers have the size of the largest
      variable (record dimension not counted). *)
  Definition var_size (iv : ivar) : outcome Z :=
    ofold (fun s id => if id =? rec then Ok s else do l <- oget dimlen id ; Ok (s * l)) (v_dims iv) 1.
  Definition put_var (vars : list ivar) : outcome (Z -> Z -> Z -> option (list A)) :=
    do maxsize <- ofold (fun m iv => do s <- var_size iv ; Ok (Z.max m s)) vars 0 ;
    let buf := repeat zero (Z.to_nat maxsize) in
    let st := {| q_tp := buf; q_otp := buf; q_data := fun _ _ _ => None; q_d0 := None |} in
    do st <- ofor 0 (zlen vars) (put_nonrec vars) st ;
    do st <- ofor 0 nrec (fun st r => ofor 0 (zlen vars) (put_rec vars r) st) st ;
    Ok (q_data st).

  (** def_dim (521-581) and the attribute of def_var (654-700): dimension [id] of
      file (xi,yi).  The attribute goes to the variable named like the scattered
      dimension if that is its only dimension; other attributes are copied. *)
  Definition def_dim (fi : infile) (xi yi id : Z) : outcome rawdim :=
    do d <- oget dims id ;
    do rd <- oget (in_dims fi) id ;
    do '(s, c) <- dim_part d xi yi ;
    let coord := existsb (fun iv => (v_coord iv =? id) && match v_dims iv with [i] => i =? id | _ => false end) (in_vars fi) in
    Ok {| rd_len := if id =? rec then rd_len rd else c;
          rd_decomp := match sm_type d with
                       | NoSc => rd_decomp rd
                       | _ => if coord then Some (1, sm_len d, s + 1, s + c) else rd_decomp rd
                       end |}.
End Scatter.

Section Run.
  Context {A : Type} (zero : A).

  (** mppncscatter, mppncscatter.c:1259-1442: the list of output files, in the
      order of their numbers.  NumFilesInSet is set first and then overwritten by
      the input's own attribute, if it has one (1354-1385). *)
  Definition scatter (o : sopts) (types : list sct) (fi : @infile A) : outcome (list (@infile A)) :=
    let '(nx, ny) := num_divs o in
    do _ <- (if sx_io o && (negb (sx_nx o mod sx_nxio o =? 0) || negb (sx_ny o mod sx_nyio o =? 0)) then Err 1 else Ok tt) ;
    let nd := zlen (in_dims fi) in
    let rec := in_rec fi in
    do dims <- ofor 0 nd (fun acc id =>
        do t <- oget types id ; do rd <- oget (in_dims fi) id ;
        do d <- one_dim o (id =? rec) t (rd_len rd) ; Ok (acc ++ [d])) [] ;
    let dimlen := map rd_len (in_dims fi) in
    do nrec <- (if rec =? -1 then Ok 0 else oget dimlen rec) ;
    do data <- put_var zero dims dimlen rec nrec nx ny (in_vars fi) ;
    ofor 0 ny (fun acc yi => ofor 0 nx (fun acc xi =>
        do ds <- ofor 0 nd (fun acc id => do d <- def_dim dims rec fi xi yi id ; Ok (acc ++ [d])) [] ;
        let out := {| in_nfiles := match in_nfiles fi with Some m => Some m | None => Some (nx * ny) end;
                      in_dims := ds; in_rec := rec;
                      in_vars := map (fun p => let '(vn, iv) := p in
                          {| v_dims := v_dims iv; v_coord := v_coord iv; v_miss := v_miss iv;
                             v_data := data (yi * nx + xi) vn |})
                        (combine (zseq 0 (zlen (in_vars fi))) (in_vars fi)) |} in
        Ok (acc ++ [out])) acc) [].
End Run.
