(** * Model of the string lists of mppncscatter, src/mpp-ncscatter/strlist.c

    A list of [n] slots is a Coq list of [option str] ([None] is a NULL pointer).
    Memory allocation does not fail.  Reading or writing beyond the allocated slots
    is undefined behaviour. *)
From Verif Require Import Base Str.

Definition slist := list (option str).

(** newstringlist, strlist.c:22-36 *)
Definition newstringlist (size : Z) : slist := repeat None (Z.to_nat size).

(** clearstringlist, strlist.c:37-52: status and new list *)
Definition clearstringlist (l : slist) (n : Z) : outcome (Z * slist) :=
  if n <=? 0 then Ok (1, l)
  else do l <- ofor 0 n (fun l i => oset l (n - 1 - i) None) l ; Ok (0, l).

(** instringlist, strlist.c:106-131; [str] is not NULL or the answer is 0 *)
Definition instringlist (l : slist) (s : option str) (n : Z) : outcome bool :=
  match s with
  | None => Ok false
  | Some s =>
    ofor 0 n (fun (found : bool) i => if found then Ok true else
      do x <- oget l i ;
      match x with None => Ok false | Some t => Ok (str_eqb t s) end) false
  end.

(** addstringtolist, strlist.c:132-156: the first empty slot is filled; the status
    is 0, or 1 (EXIT_FAILED) if there was none. *)
Definition addstringtolist (l : slist) (s : option str) (n : Z) : outcome (Z * slist) :=
  match s with
  | None => Ok (1, l)
  | Some s =>
    ofor 0 n (fun '(st, l) i => if st =? 0 then Ok (0, l) else
      do x <- oget l i ;
      match x with None => do l <- oset l i (Some s) ; Ok (0, l) | Some _ => Ok (1, l) end) (1, l)
  end.

(** copystrlist, strlist.c:240-259; the sizes are those of the lists *)
Definition copystrlist (src dst : slist) : outcome (Z * slist) :=
  if zlen src >? zlen dst then Ok (1, dst) else
  let dst := repeat None (length dst) in
  do dst <- ofor 0 (zlen src) (fun d i => do x <- oget src i ;
       match x with None => Ok d | Some s => oset d i (Some s) end) dst ;
  Ok (0, dst).

(** appendstringtolist, strlist.c:158-176 *)
Definition appendstringtolist (l : slist) (s : str) : outcome slist :=
  let new := newstringlist (zlen l + 1) in
  do '(_, new) <- copystrlist l new ;
  oset new (zlen l) (Some s).

(** strlistu, strlist.c:177-204: the results of addstringtolist are ignored *)
Definition add_new (n : Z) (u : slist) (x : option str) : outcome slist :=
  match x with
  | None => Ok u
  | Some s => do b <- instringlist u (Some s) n ;
              if (b : bool) then Ok u else do '(_, u) <- addstringtolist u (Some s) n ; Ok u
  end.
Definition strlistu (l1 l2 u : slist) (n1 n2 nu : Z) : outcome slist :=
  do u <- ofor 0 n1 (fun u i => do x <- oget l1 i ; add_new nu u x) u ;
  ofor 0 n2 (fun u i => do x <- oget l2 i ; add_new nu u x) u.

(** strlistsd, strlist.c:205-239 *)
Definition strlistsd (l1 l2 d : slist) (n1 n2 nd : Z) : outcome slist :=
  if n1 =? 0 then Ok d
  else if n2 =? 0 then
    ofor 0 n1 (fun d i => do x <- oget l1 i ; do '(_, d) <- addstringtolist d x nd ; Ok d) d
  else
    ofor 0 n1 (fun d i => do x <- oget l1 i ; do b <- instringlist l2 x n2 ;
      if (b : bool) then Ok d else do '(_, d) <- addstringtolist d x nd ; Ok d) d.

(** getnumstrlist, strlist.c:260-271 *)
Definition getnumstrlist (l : slist) (n : Z) : outcome Z :=
  ofor 0 n (fun c i => do x <- oget l i ;
    match x with Some s => Ok (if zlen s >? 0 then c + 1 else c) | None => Ok c end) 0.

(** ** getstringlist, strlist.c:53-87: splitting at commas *)

(** [*nitems]: the commas after the first character, plus one; the loop tests the
    character after the current one. *)
Definition count_items (s : str) : Z :=
  match s with [] => 1 | _ :: s' => 1 + zlen (filter (Z.eqb 44) s') end.

(** strtok: the maximal runs of characters other than the comma *)
Fixpoint tokens_aux (cur s : str) : list str :=
  match s with
  | [] => match cur with [] => [] | _ => [cur] end
  | c :: s' => if c =? 44 then (match cur with [] => tokens_aux [] s' | _ => cur :: tokens_aux [] s' end)
               else tokens_aux (cur ++ [c]) s'
  end.
Definition tokens (s : str) : list str := tokens_aux [] s.

Definition getstringlist (s : str) (l : slist) : outcome (slist * Z) :=
  do '(l, _) <- ofold (fun '(l, i) t => do l <- oset l i (Some t) ; Ok (l, i + 1)) (tokens s) (l, 0) ;
  Ok (l, count_items s).
