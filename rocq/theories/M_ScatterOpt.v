(** * Model of the option handling of mppncscatter, src/mpp-ncscatter/opt.c

    getopt_long itself is not modelled: the command line is the sequence of options it
    delivers, each with its argument string.  [OBad] stands for the results '?' and
    ':' (unknown option, missing argument).  Integers are unbounded ([atoi] of a number
    that does not fit an [int] is not modelled). *)
From Verif Require Import Base Str M_StrList.

Inductive copt : Type :=
| Oi (a : str) | Oj (a : str) | On | Op (a : str) | Os (a : str) | Ox (a : str) | Oy (a : str)
| Ov | OV | Ow (a : str) | OBad | Oh | OX (a : str) | OY (a : str).

(** netCDF's constant of this name, the number of slots of the dimension lists *)
Definition NC_MAX_DIMS : Z := 1024.

(** struct mnsopts, opt.h:32-52 *)
Record mnsopts := MkOpts {
  nxio : Z; nyio : Z; dryrun : Z; prefix : option str; start : Z; nx : Z; ny : Z;
  version : Z; verbose : Z; width : Z; help : Z;
  xdims : slist; xdims_len : Z; ydims : slist; ydims_len : Z }.

(** initmnsopts, opt.c:24-45, followed by the two newstringlist calls of opt.c:97-105 *)
Definition initmnsopts : mnsopts :=
  MkOpts 0 0 0 None 0 0 0 0 0 4 0 (newstringlist NC_MAX_DIMS) 0 (newstringlist NC_MAX_DIMS) 0.

Definition set_nxio v (o : mnsopts) := MkOpts v (nyio o) (dryrun o) (prefix o) (start o) (nx o) (ny o) (version o) (verbose o) (width o) (help o) (xdims o) (xdims_len o) (ydims o) (ydims_len o).
Definition set_nyio v (o : mnsopts) := MkOpts (nxio o) v (dryrun o) (prefix o) (start o) (nx o) (ny o) (version o) (verbose o) (width o) (help o) (xdims o) (xdims_len o) (ydims o) (ydims_len o).
Definition set_dryrun v (o : mnsopts) := MkOpts (nxio o) (nyio o) v (prefix o) (start o) (nx o) (ny o) (version o) (verbose o) (width o) (help o) (xdims o) (xdims_len o) (ydims o) (ydims_len o).
Definition set_prefix v (o : mnsopts) := MkOpts (nxio o) (nyio o) (dryrun o) v (start o) (nx o) (ny o) (version o) (verbose o) (width o) (help o) (xdims o) (xdims_len o) (ydims o) (ydims_len o).
Definition set_start v (o : mnsopts) := MkOpts (nxio o) (nyio o) (dryrun o) (prefix o) v (nx o) (ny o) (version o) (verbose o) (width o) (help o) (xdims o) (xdims_len o) (ydims o) (ydims_len o).
Definition set_nx v (o : mnsopts) := MkOpts (nxio o) (nyio o) (dryrun o) (prefix o) (start o) v (ny o) (version o) (verbose o) (width o) (help o) (xdims o) (xdims_len o) (ydims o) (ydims_len o).
Definition set_ny v (o : mnsopts) := MkOpts (nxio o) (nyio o) (dryrun o) (prefix o) (start o) (nx o) v (version o) (verbose o) (width o) (help o) (xdims o) (xdims_len o) (ydims o) (ydims_len o).
Definition set_version v (o : mnsopts) := MkOpts (nxio o) (nyio o) (dryrun o) (prefix o) (start o) (nx o) (ny o) v (verbose o) (width o) (help o) (xdims o) (xdims_len o) (ydims o) (ydims_len o).
Definition set_verbose v (o : mnsopts) := MkOpts (nxio o) (nyio o) (dryrun o) (prefix o) (start o) (nx o) (ny o) (version o) v (width o) (help o) (xdims o) (xdims_len o) (ydims o) (ydims_len o).
Definition set_width v (o : mnsopts) := MkOpts (nxio o) (nyio o) (dryrun o) (prefix o) (start o) (nx o) (ny o) (version o) (verbose o) v (help o) (xdims o) (xdims_len o) (ydims o) (ydims_len o).
Definition set_help v (o : mnsopts) := MkOpts (nxio o) (nyio o) (dryrun o) (prefix o) (start o) (nx o) (ny o) (version o) (verbose o) (width o) v (xdims o) (xdims_len o) (ydims o) (ydims_len o).
Definition set_xdims l n (o : mnsopts) := MkOpts (nxio o) (nyio o) (dryrun o) (prefix o) (start o) (nx o) (ny o) (version o) (verbose o) (width o) (help o) l n (ydims o) (ydims_len o).
Definition set_ydims l n (o : mnsopts) := MkOpts (nxio o) (nyio o) (dryrun o) (prefix o) (start o) (nx o) (ny o) (version o) (verbose o) (width o) (help o) (xdims o) (xdims_len o) l n.

(** One pass of the switch, opt.c:107-176.  There is no [break] after case 'p'
    (opt.c:122-125): control falls through to case 's'. *)
Definition opt_step (o : mnsopts) (c : copt) : outcome mnsopts :=
  match c with
  | Oi a => Ok (set_nxio (atoi a) o)
  | Oj a => Ok (set_nyio (atoi a) o)
  | On => Ok (set_dryrun 1 o)
  | Op a => Ok (set_start (atoi a) (set_prefix (Some a) o))
  | Os a => Ok (set_start (atoi a) o)
  | Ox a => Ok (set_nx (atoi a) o)
  | Oy a => Ok (set_ny (atoi a) o)
  | Ov => Ok (set_version 1 o)
  | OV => Ok (set_verbose 1 o)
  | Ow a => Ok (set_width (atoi a) o)
  | OBad => Ok (set_help 1 o)
  | Oh => Ok (set_help 1 o)
  | OX a => do '(l, n) <- getstringlist a (xdims o) ; Ok (set_xdims l n o)
  | OY a => do '(l, n) <- getstringlist a (ydims o) ; Ok (set_ydims l n o)
  end.

(** getmnsopts, opt.c:89-206: the settings after all options, and whether the program
    goes on (no help or version request; [operand]: there is a file argument). *)
Definition getmnsopts (cs : list copt) (operand : bool) : outcome (mnsopts * bool) :=
  do o <- ofold opt_step cs initmnsopts ;
  Ok (o, (help o =? 0) && (version o =? 0) && operand).
