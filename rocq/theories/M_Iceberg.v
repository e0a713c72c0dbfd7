(** * Model of src/iceberg-comb/iceberg_comb.sh.in

    A file is described by what the script reads with ncdump and by its list of icebergs (the
    records).  Arguments contain no blanks.  Options -h, -v, -V, messages and the search for
    the NetCDF utilities are not modelled.  ncrcat, cp and ncatted write only the output;
    whether they succeed is a parameter. *)
From Verif Require Import Base Str M_Restarts.

Section Iceberg.
Context {B : Type}.
(** [i_nc]: ncdump can read it.  [i_major], [i_minor], [i_set]: the global attributes
    file_format_major_version, file_format_minor_version and NumFilesInSet if they are
    non-negative integers. *)
Record ifile := { i_nc : bool; i_major : option Z; i_minor : option Z; i_set : option Z; i_bergs : list B }.
Record utils := { ncrcat_ok : bool; cp_ok : bool; ncatted_ok : bool }.
Notation idir := (@dir ifile).

Definition or_minus1 (x : option Z) : Z := match x with Some v => v | None => -1 end.
(** get_NumFilesInSet, iceberg_comb.sh.in:76-89 *)
Definition num_files (c : ifile) : Z := or_minus1 (i_set c).
(** checkValidFileVersion, lines 91-115 (-a binds tighter than -o) *)
Definition valid_version (c : ifile) : bool :=
  i_nc c && ((or_minus1 (i_major c) >? 0) || ((or_minus1 (i_major c) =? 0) && (or_minus1 (i_minor c) >=? 1))).
(** checkIfIcebergs, lines 117-139 *)
Definition check_icebergs (c : ifile) : bool := i_nc c && valid_version c && (num_files c >? 0).
(** has_icebergs, lines 141-160 *)
Definition has_icebergs (c : ifile) : bool := match i_bergs c with [] => false | _ => true end.

(** ncrcat: the records of all files in order; attributes of the first *)
Definition cat (cs : list ifile) : option ifile :=
  match cs with
  | [] => None
  | c :: _ => Some {| i_nc := i_nc c; i_major := i_major c; i_minor := i_minor c; i_set := i_set c; i_bergs := flat_map i_bergs cs |}
  end.
Definition no_set (c : ifile) : ifile := {| i_nc := i_nc c; i_major := i_major c; i_minor := i_minor c; i_set := None; i_bergs := i_bergs c |}.

(** iceberg_comb.sh -c FILE, lines 243-257 *)
Definition check_option (d : idir) (f : str) : bool := match look d f with Some c => check_icebergs c | None => false end.

(** Combining, lines 259-385.  The result is the directory and whether the exit status is 0.
    [contents] reads all inputs; it fails if one does not exist (lines 282-297). *)
Fixpoint contents (d : idir) (fs : list str) : option (list ifile) :=
  match fs with
  | [] => Some []
  | f :: fs => match look d f, contents d fs with Some c, Some cs => Some (c :: cs) | _, _ => None end
  end.
Definition iceberg_comb (U : utils) (d : idir) (args : list str) : idir * bool :=
  if zlen args <? 3 then (d, false) else
  let out := last args [] in
  let ins := removelast args in
  match contents d ins with
  | None => (d, false)
  | Some cs =>
    if negb (forallb check_icebergs cs) then (d, false) else
    match cs with
    | [] => (d, false)
    | c0 :: rest =>
      if negb (forallb (fun c => num_files c0 =? num_files c) rest) then (d, false) else
      if negb (num_files c0 =? zlen ins) then (d, false) else
      match look d out with
      | Some _ => (d, false)
      | None =>
        let made := match cat (filter has_icebergs cs) with
          | Some c => if ncrcat_ok U then Some c else None
          | None => if cp_ok U then Some c0 else None
          end in
        match made with
        | None => (d, false)
        | Some c => if ncatted_ok U then ((out, no_set c) :: d, true) else ((out, c) :: d, false)
        end
      end
    end
  end.
End Iceberg.
