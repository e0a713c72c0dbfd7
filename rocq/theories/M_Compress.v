(** * Model of reading and writing variables compressed by gathering

    lib/libnfu/nfu_compress.F90.  Array positions are 0-based here (the Fortran ones are
    1-based).  [A] is the type of data values.  The NetCDF calls succeed. *)
From Verif Require Import Base.

(** One dimension of a variable: its length in the file, the compression index if it
    is a compressed dimension, and the number of grid points it unpacks to (the product
    of the dimensions named in the "compress" attribute, or the length itself);
    nfu_compress.F90:126-149. *)
Record cdim := MkCdim { cd_len : Z; cd_idx : option (list Z); cd_full : Z }.

(** The strides, nfu_compress.F90:127,147-148 *)
Fixpoint strides (ds : list cdim) (stride : Z) : list Z :=
  match ds with [] => [] | d :: ds => stride :: strides ds (stride * cd_full d) end.

(** The destination of a point, nfu_compress.F90:169-182: [None] when a compression
    index is negative. *)
Fixpoint dest (ds : list cdim) (st idx : list Z) (ii : Z) : outcome (option Z) :=
  match ds, st, idx with
  | d :: ds, s :: st, c :: idx =>
    match cd_idx d with
    | Some l => do x <- oget l c ; if x >=? 0 then dest ds st idx (ii + x * s) else Ok None
    | None => dest ds st idx (ii + c * s)
    end
  | _, _, _ => Ok (Some ii)
  end.

(** The increment of the indices, nfu_compress.F90:193-198 *)
Fixpoint incr (ds : list cdim) (idx : list Z) : list Z :=
  match ds, idx with
  | d :: ds, c :: idx => if c + 1 <? cd_len d then (c + 1) :: idx else 0 :: incr ds idx
  | _, _ => idx
  end.

(** nfu_get_compressed_var_r8, nfu_compress.F90:90-217, without start and count:
    [buffer] is the variable in the file, [ocean] the ocean value if requested. *)
Definition get_compressed {A} (ds : list cdim) (buffer data : list A) (mask : list bool) (ocean : option A)
  : outcome (list A * list bool) :=
  do '(data, mask, oc, _) <- ofor 0 (zlen buffer) (fun '(data, mask, oc, idx) i =>
      do t <- dest ds (strides ds 1) idx 0 ;
      do v <- oget buffer i ;
      match t with
      | Some p => do data <- oset data p v ; do mask <- oset mask p true ; do oc <- oset oc p true ;
                  Ok (data, mask, oc, incr ds idx)
      | None => Ok (data, mask, oc, incr ds idx)
      end) (data, mask, repeat false (length data), map (fun _ => 0) ds) ;
  match ocean with
  | None => Ok (data, mask)
  | Some v => do data <- ofor 0 (zlen oc) (fun data i => do b <- oget oc i ; if (b : bool) then Ok data else oset data i v) data ;
              Ok (data, mask)
  end.

(** nfu_get_compressed_var_int, nfu_compress.F90:221-309: the same without ocean *)
Definition get_compressed_int (ds : list cdim) (buffer data : list Z) (mask : list bool) := get_compressed ds buffer data mask None.

(** The source position in nfu_put_compressed_var_r8, nfu_compress.F90:376-384: no test
    for negative indices. *)
Fixpoint psrc (ds : list cdim) (st idx : list Z) (ii : Z) : outcome Z :=
  match ds, st, idx with
  | d :: ds, s :: st, c :: idx =>
    match cd_idx d with
    | Some l => do x <- oget l c ; psrc ds st idx (ii + x * s)
    | None => psrc ds st idx (ii + c * s)
    end
  | _, _, _ => Ok ii
  end.

(** The number of values of the variable in the file *)
Definition varsize (ds : list cdim) : Z := fold_right (fun d n => cd_len d * n) 1 ds.

(** nfu_put_compressed_var_r8, nfu_compress.F90:325-404: the new contents of the
    variable in the file *)
Definition put_compressed {A} (ds : list cdim) (src : list A) : outcome (list A) :=
  do '(buffer, _) <- ofor 0 (varsize ds) (fun '(buffer, idx) i =>
      do p <- psrc ds (strides ds 1) idx 0 ;
      do v <- oget src p ;
      Ok (buffer ++ [v], incr ds idx)) ([], map (fun _ => 0) ds) ;
  Ok buffer.

(** nfu_put_compressed_var_int, nfu_compress.F90:408-485: the indices are incremented
    before the first value, and the final call READS the variable into the buffer; the
    variable in the file ([old]) keeps its contents. *)
Definition put_compressed_int (ds : list cdim) (src old : list Z) : outcome (list Z) :=
  do '(_, _) <- ofor 0 (varsize ds) (fun '(buffer, idx) i =>
      let idx := incr ds idx in
      do p <- psrc ds (strides ds 1) idx 0 ;
      do v <- oget src p ;
      Ok (buffer ++ [v], idx)) ([], map (fun _ => 0) ds) ;
  Ok old.

(** decompress-ncc.F90:172-211, one variable: the buffer is filled with the missing
    value and every file is read into it. *)
Definition decompress {A} (missing : A) (ocean : option A) (n : Z) (files : list (list cdim * list A)) : outcome (list A) :=
  do '(data, _) <- ofold (fun '(data, mask) '(ds, buffer) => get_compressed ds buffer data mask ocean) files
                     (repeat missing (Z.to_nat n), repeat false (Z.to_nat n)) ;
  Ok data.
