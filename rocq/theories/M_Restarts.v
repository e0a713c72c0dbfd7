(** * Model of src/combine-restarts/combine_restarts.in

    A directory is a list of names with contents.  The called programs (is-compressed,
    iceberg_comb.sh, combine-ncc, mppnccombine) are parameters.  Names contain no blanks,
    do not start with a dot, and contain no character with a meaning in regular
    expressions other than the dot.  Messages and the check for the programs' existence
    (lines 93-108) are not modelled. *)
From Coq Require Import String.
From Verif Require Import Base Str.
Open Scope string_scope. Open Scope list_scope. Open Scope Z_scope.

Section Restarts.
Context {C : Type}.
Definition dir := list (str * C).
Definition names (d : dir) : list str := map fst d.
Fixpoint look (d : dir) (n : str) : option C :=
  match d with [] => None | (m, c) :: d => if str_eqb m n then Some c else look d n end.
Definition rm (d : dir) (n : str) : dir := filter (fun x => negb (str_eqb (fst x) n)) d.

Inductive kind := Ncc | Ice | Mpp.
Record tools := {
  is_compressed : dir -> str -> bool;             (* is-compressed FILE exits with 0 *)
  is_iceberg : dir -> str -> bool;                (* iceberg_comb.sh -c FILE exits with 0 *)
  run_tool : kind -> dir -> list str -> str -> dir * bool;  (* inputs, output; true: exit status 0 *)
  sort_u : list str -> list str                   (* sort -u *)
}.

(** patternGrepTail, combine_restarts.in:111: a dot and four digits at the end *)
Definition is_tail (s : str) : bool :=
  match rev s with a :: b :: c :: d :: e :: _ => is_digit a && is_digit b && is_digit c && is_digit d && (e =? 46) | _ => false end.
Definition strip_tail (s : str) : str := if is_tail s then firstn (List.length s - 5) s else s.
(** \<w\> of patternGrepRestartsOrNC, line 112 *)
Definition word_char (c : Z) : bool := is_digit c || ((65 <=? c) && (c <=? 90)) || ((97 <=? c) && (c <=? 122)) || (c =? 95).
Fixpoint starts_with (w s : str) : option str :=
  match w, s with [], _ => Some s | a :: w, b :: s => if a =? b then starts_with w s else None | _, [] => None end.
Definition no_word (s : str) : bool := match s with c :: _ => negb (word_char c) | [] => true end.
(** some occurrence of the word [w] whose rest satisfies [p]; [prev]: the characters before, last first *)
Fixpoint has_word (w : str) (p : str -> bool) (prev s : str) : bool :=
  match starts_with w s with
  | Some rest => (no_word prev && no_word rest && p rest) || match s with c :: s => has_word w p (c :: prev) s | [] => false end
  | None => match s with c :: s => has_word w p (c :: prev) s | [] => false end
  end.
(** The pattern of line 114; the bar binds weaker than what follows it. *)
Definition candidate (s : str) : bool := has_word (chars "res") (fun _ => true) [] s || has_word (chars "nc") is_tail [] s.
(** restartFiles, line 114 *)
Definition restart_files (T : tools) (d : dir) : list str := sort_u T (map strip_tail (filter candidate (names d))).
(** The pattern of line 122, in which a dot of the name stands for any character *)
Fixpoint like (f s : str) : bool :=
  match f, s with [], [] => true | a :: f, b :: s => ((a =? 46) || (a =? b)) && like f s | _, _ => false end.
Definition matches (f s : str) : bool := is_tail s && like f (firstn (List.length s - 5) s).
Definition input_files (d : dir) (f : str) : list str := filter (matches f) (names d).

Inductive event :=
| Ran (k : kind) (ins : list str) (out : str) (ok : bool)   (* a combine program was run *)
| Removed (ins : list str)                                  (* rm -f of the inputs *)
| Deleted (out : str)                                       (* rm -f of an existing output *)
| Printed (k : kind) (ins : list str) (out : str)           (* command shown, not run *)
| PrintedRm (ins : list str).

(** Running or printing the command, and removing the inputs if it succeeded: lines 130-155,
    158-184, 191-217 *)
Definition finish (T : tools) (dry remove : bool) (k : kind) (d : dir) (ins : list str) (f : str) : dir * list event * bool :=
  let '(d, e, ok) := if dry then (d, Printed k ins f, true) else let '(d, ok) := run_tool T k d ins f in (d, Ran k ins f ok, ok) in
  if negb ok then (d, [e], false) else
  if remove then if dry then (d, [e; PrintedRm ins], true) else (fold_left rm ins d, [e; Removed ins], true)
  else (d, [e], true).
(** The body of the loop, lines 116-221 *)
Definition one_set (T : tools) (dry remove : bool) (d : dir) (f : str) : dir * list event * bool :=
  match input_files d f with
  | [] => (d, [], true)
  | (first :: _) as ins =>
    if is_compressed T d first then finish T dry remove Ncc d ins f
    else if is_iceberg T d first then finish T dry remove Ice d ins f
    else
      let '(d, e1) := match look d f with Some _ => (rm d f, [Deleted f]) | None => (d, []) end in
      let '(d, e2, ok) := finish T dry remove Mpp d ins f in
      (d, e1 ++ e2, ok)
  end.
Fixpoint all_sets (T : tools) (dry remove : bool) (d : dir) (fs : list str) : dir * list event * bool :=
  match fs with
  | [] => (d, [], true)
  | f :: fs =>
    let '(d, e1, ok) := one_set T dry remove d f in
    if ok then let '(d, e2, ok) := all_sets T dry remove d fs in (d, e1 ++ e2, ok) else (d, e1, false)
  end.
(** The directory left, the commands, and whether the exit status is 0 *)
Definition combine_restarts (T : tools) (dry remove : bool) (d : dir) : dir * list event * bool :=
  all_sets T dry remove d (restart_files T d).
End Restarts.
