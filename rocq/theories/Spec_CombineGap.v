(** * Specification vocabulary: a set of pieces some of which are not there *)
From Verif Require Import Base M_Combine.

(** The files that exist, in order. *)
Definition present {X : Type} (places : list (option X)) : list X :=
  flat_map (fun p => match p with Some x => [x] | None => [] end) places.

(** The combiner looks at the places of the set in order: [None] is a place without
    file.  As named files (at most as many as the set has pieces), as numbered files
    from the start number on, or as numbered files up to the option -e.  [n] is the
    number of pieces that the files announce. *)
Definition supplied_partly {A : Type} (o : copts) (fs : @fsys A) (nargs n : Z) (places : list (option (@infile A))) : Prop :=
  let numbered := exists w,
    (forall i p, zget places i = Some p -> fs (NNum w (o_start o + i)) = option_map Some p)
    /\ (w = 4 \/ (w = 6 /\ fs (NNum 4 (o_start o)) = None)) in
  (nargs = zlen places /\ forall i p, zget places i = Some p -> fs (NArg i) = option_map Some p)
  \/ (nargs = 0 /\ o_end o = None /\ zlen places = n /\ numbered)
  \/ (nargs = 0 /\ numbered /\ exists e, o_end o = Some e /\ 0 <= e /\ zlen places = Z.min n (e - o_start o + 1)).
