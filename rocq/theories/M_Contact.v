(** * Model of the contact strings of a mosaic

    lib/libfrencutils/mosaic_util.c (tokenize), lib/libfrencutils/read_mosaic.c
    (transfer_to_model_index, read_mosaic_contact) and the part of
    src/make-solo-mosaic/make_solo_mosaic.c that writes the contacts.

    The two-dimensional character buffer pstring is one contiguous list of character
    codes; a store outside of it is [UB].  An int is an unbounded [Z]. *)
From Coq Require Import String.
Open Scope list_scope.
From Verif Require Import Base Str M_ScatterName.

(** One turn of the loop over the characters of the string, mosaic_util.c:125-143.
    The state is nvar, j and the buffer. *)
Definition tok_char (tokens : str) (varlen maxvar : Z) (st : Z * Z * list Z) (c : Z)
  : outcome (Z * Z * list Z) :=
  let '(nvar, j, p) := st in
  if negb (c =? 32) && negb (c =? 9) then
    if existsb (Z.eqb c) tokens then
      if negb (j =? 0) then
        do p <- oset p (nvar * varlen + j) 0 ;
        let nvar := nvar + 1 in
        if nvar >=? maxvar then Err 2 else Ok (nvar, 0, p)
      else Ok (nvar, j, p)
    else
      do p <- oset p (nvar * varlen + j) c ;
      let j := j + 1 in
      if j >=? varlen then Err 3 else Ok (nvar, j, p)
  else Ok (nvar, j, p).

(** tokenize, mosaic_util.c:113-151: the buffer afterwards and *nstr *)
Definition tokenize (string tokens : str) (varlen maxvar : Z) (p : list Z) : outcome (list Z * Z) :=
  match string with
  | [] => Err 1
  | _ =>
    do '(nvar, j, p) <- ofold (tok_char tokens varlen maxvar) string (0, 0, p) ;
    do p <- oset p (nvar * varlen + j) 0 ;
    Ok (p, nvar + 1)
  end.

(** The C string that starts at the beginning of a piece of memory *)
Fixpoint cstr (l : list Z) : outcome str :=
  match l with
  | [] => UB
  | c :: l => if c =? 0 then Ok [] else do s <- cstr l ; Ok (c :: s)
  end.
(** pstring[r] *)
Definition row (varlen : Z) (p : list Z) (r : Z) : outcome str := cstr (skipn (Z.to_nat (r * varlen)) p).

(** transfer_to_model_index, read_mosaic.c:657-686: the type and the two indices
    ([Z.quot] and [Z.rem] are / and % of C) *)
Definition transfer_to_model_index (istart_in iend_in ratio : Z) : outcome (Z * Z * Z) :=
  if istart_in =? iend_in then
    let i := Z.quot (istart_in + 1) ratio - 1 in Ok (0, i, i)
  else
    let '(istart, iend) :=
      if iend_in >? istart_in then (istart_in - 1, iend_in - ratio)
      else (istart_in - ratio, iend_in - 1) in
    if negb (Z.rem istart ratio =? 0) || negb (Z.rem iend ratio =? 0) then Err 10
    else Ok (1, Z.quot istart ratio, Z.quot iend ratio).

(** STRING (constant.h:25) and MAXVAR (read_mosaic.c:694) *)
Definition STRING := 255.
Definition MAXVAR := 40.

(** The search loops for the tile name, read_mosaic.c:715-736: the first tile with
    that name, counted from one *)
Fixpoint find_tile (name : str) (tiles : list str) (m : Z) : outcome Z :=
  match tiles with
  | [] => Err 5
  | t :: tiles => if str_eqb t name then Ok (m + 1) else find_tile name tiles (m + 1)
  end.

(** The check of the characters and atoi, read_mosaic.c:741-756 *)
Definition number (varlen : Z) (p : list Z) (m : Z) : outcome Z :=
  do s <- row varlen p m ; if forallb is_digit s then Ok (atoi s) else Err 7.

Record contact := { k_tile1 : Z; k_tile2 : Z;
                    k_is1 : Z; k_ie1 : Z; k_js1 : Z; k_je1 : Z;
                    k_is2 : Z; k_ie2 : Z; k_js2 : Z; k_je2 : Z }.

(** Parsing of one contact, read_mosaic.c:709-756.  [p] is what the buffer pstring
    holds before (garbage, or the strings of the previous contact). *)
Definition parse_contact (tiles : list str) (p : list Z) (s_contact s_index : str) : outcome (list Z * contact) :=
  do '(p, nstr) <- tokenize s_contact (chars ":") STRING MAXVAR p ;
  if negb (nstr =? 4) then Err 4 else
  do n1 <- row STRING p 1 ;
  do t1 <- find_tile n1 tiles 0 ;
  do n2 <- row STRING p 3 ;
  do t2 <- find_tile n2 tiles 0 ;
  do '(p, nstr) <- tokenize s_index (chars ":,") STRING MAXVAR p ;
  if negb (nstr =? 8) then Err 6 else
  do a0 <- number STRING p 0 ; do a1 <- number STRING p 1 ; do a2 <- number STRING p 2 ;
  do a3 <- number STRING p 3 ; do a4 <- number STRING p 4 ; do a5 <- number STRING p 5 ;
  do a6 <- number STRING p 6 ; do a7 <- number STRING p 7 ;
  Ok (p, {| k_tile1 := t1; k_tile2 := t2; k_is1 := a0; k_ie1 := a1; k_js1 := a2; k_je1 := a3;
            k_is2 := a4; k_ie2 := a5; k_js2 := a6; k_je2 := a7 |}).

(** Conversion of one contact to model indices, read_mosaic.c:757-767 *)
Definition to_model (k : contact) : outcome contact :=
  do '(ti1, is1, ie1) <- transfer_to_model_index (k_is1 k) (k_ie1 k) 2 ;
  do '(tj1, js1, je1) <- transfer_to_model_index (k_js1 k) (k_je1 k) 2 ;
  do '(ti2, is2, ie2) <- transfer_to_model_index (k_is2 k) (k_ie2 k) 2 ;
  do '(tj2, js2, je2) <- transfer_to_model_index (k_js2 k) (k_je2 k) 2 ;
  if (ti1 =? 0) && (tj1 =? 0) then Err 11 else
  if (ti2 =? 0) && (tj2 =? 0) then Err 12 else
  if negb (ti1 + tj1 =? ti2 + tj2) then Err 13 else
  Ok {| k_tile1 := k_tile1 k; k_tile2 := k_tile2 k; k_is1 := is1; k_ie1 := ie1; k_js1 := js1; k_je1 := je1;
        k_is2 := is2; k_ie2 := ie2; k_js2 := js2; k_je2 := je2 |}.

(** read_mosaic_contact, read_mosaic.c:689-775, on the strings stored in the file *)
Definition read_mosaic_contact (tiles : list str) (p : list Z) (strs : list (str * str)) : outcome (list contact) :=
  do '(_, ks) <- ofold (fun '(p, ks) '(s, x) =>
     do '(p, k) <- parse_contact tiles p s x ;
     do k <- to_model k ;
     Ok (p, ks ++ [k])) strs (p, []) ;
  Ok ks.

(** The two strings of a contact, make_solo_mosaic.c:326-338; here the tiles are
    counted from zero *)
Definition write_contact (mosaic : str) (tiles : list str) (k : contact) : outcome (str * str) :=
  do n1 <- oget tiles (k_tile1 k) ;
  do n2 <- oget tiles (k_tile2 k) ;
  do s <- sprintf STRING (chars "%s:%s::%s:%s") [AStr mosaic; AStr n1; AStr mosaic; AStr n2] ;
  do x <- sprintf STRING (chars "%d:%d,%d:%d::%d:%d,%d:%d")
     [AInt (k_is1 k); AInt (k_ie1 k); AInt (k_js1 k); AInt (k_je1 k);
      AInt (k_is2 k); AInt (k_ie2 k); AInt (k_js2 k); AInt (k_je2 k)] ;
  Ok (s, x).
Definition write_contacts (mosaic : str) (tiles : list str) (ks : list contact) : outcome (list (str * str)) :=
  ofold (fun out k => do sx <- write_contact mosaic tiles k ; Ok (out ++ [sx])) ks [].
