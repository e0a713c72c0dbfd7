(** * Vocabulary for C48, C49 *)
From Coq Require Import Reals.
From Verif Require Import Base M_Interp Spec_Interp M_TimeAvg.
Open Scope R_scope.

(** The missing value of a file's variable: missing_value, else _FillValue *)
Definition miss_of (f : tfile) : option R := match f_missing f with Some m => Some m | None => f_fill f end.
(** Weight of a record: the length of its interval, or 1 if the file has no intervals *)
Definition weight (f : tfile) (r : trec) : R := if f_bounds f then r_hi r - r_lo r else 1.
Definition is_valid (f : tfile) (p : Z) (r : trec) : bool :=
  match miss_of f with Some m => if Req_EM_T (at_ (r_data r) p) m then false else true | None => true end.
(** The records whose value at point [p] is not missing *)
Definition valid (f : tfile) (p : Z) : list trec := filter (is_valid f p) (f_recs f).
Definition total_weight (f : tfile) : R := rsum (weight f) (f_recs f).
Definition valid_weight (f : tfile) (p : Z) : R := rsum (weight f) (valid f p).
Definition mean (f : tfile) (p : Z) : R := rsum (fun r => weight f r * at_ (r_data r) p) (valid f p) / valid_weight f p.
(** The requested fraction, brought into the range from 0 to just below 1 *)
Definition fraction (frac : R) : R := Rmax (Rmin frac (1 - 1 / 1000000)) 0.

(** [y] is how [x] is stored in a variable of a real or integer type. *)
Definition stored (float : bool) (x y : R) : Prop :=
  if float then y = x else exists z : Z, y = IZR z /\ Rabs (y - x) <= 1 / 2.
(** [y] is the right average at point [p]. *)
Definition averaged_at (frac : R) (f : tfile) (p : Z) (y : R) : Prop :=
  match miss_of f with
  | Some m => (fraction frac * total_weight f < valid_weight f p -> stored (f_float f) (mean f p) y) /\
              (valid_weight f p <= fraction frac * total_weight f -> y = m)
  | None => stored (f_float f) (mean f p) y
  end.
(** A file the tool can average: at least one record, all of [sz] points, intervals of positive
    length; the missing value can be stored in the variable's type. *)
Definition usable (f : tfile) (sz : Z) : Prop :=
  f_static f = false /\ f_recs f <> [] /\
  (forall r, In r (f_recs f) -> zlen (r_data r) = sz /\ (f_bounds f = true -> r_lo r < r_hi r)) /\
  (forall m, miss_of f = Some m -> f_float f = false -> exists z : Z, m = IZR z).
