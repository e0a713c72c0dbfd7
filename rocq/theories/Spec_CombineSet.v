(** * Specification vocabulary: a complete set of decomposed files

    Independent description of "the pieces of one decomposed dataset", used in the
    statements about mppnccombine. *)
From Verif Require Import Base Spec_Hyperslab Spec_Combine M_Combine.

(** A variable of the dataset: is it a record variable, its other dimensions
    (outermost first) and the dimension it is the coordinate variable of (-1: none). *)
Record svar := { sv_rec : bool; sv_nd : list Z; sv_coord : Z }.

(** The dataset: id of the record dimension (-1: none), number of records, global
    length of every dimension, which dimensions are decomposed, the variables. *)
Record cset := { s_rec : Z; s_nrecs : Z; s_full : list Z; s_dec : list bool; s_vars : list svar }.

Definition sv_ids (S : cset) (v : svar) : list Z := (if sv_rec v then [s_rec S] else []) ++ sv_nd v.

Definition full_of (S : cset) (id : Z) : Z := match zget (s_full S) id with Some x => x | None => 0 end.
Definition dec_of (S : cset) (id : Z) : bool := match zget (s_dec S) id with Some b => b | None => false end.

(** Has the variable a decomposed dimension? *)
Definition sv_dec (S : cset) (v : svar) : bool := existsb (dec_of S) (sv_nd v).

(** The variable has a record r. *)
Definition has_record (S : cset) (v : svar) (r : Z) : Prop :=
  0 <= r /\ if sv_rec v then r < s_nrecs S else r = 0.

(** Well-formed dataset.  The last four conditions are what the combiner needs:
    at most four dimensions beside the record dimension for a decomposed variable;
    a record variable that has the name of a dimension is the undecomposed
    coordinate variable of the record dimension; a variable with the name of the
    record dimension is a record variable. *)
Record set_ok (S : cset) : Prop := {
  so_rec : (s_rec S = -1 /\ s_nrecs S = 1) \/ (0 <= s_rec S < zlen (s_full S) /\ full_of S (s_rec S) = s_nrecs S
             /\ dec_of S (s_rec S) = false);
  so_nrecs : 1 <= s_nrecs S;
  so_full : Forall (fun x => 0 <= x) (s_full S);
  so_deccount : length (s_dec S) = length (s_full S);
  so_ids : forall v id, In v (s_vars S) -> In id (sv_nd v) -> 0 <= id < zlen (s_full S) /\ id <> s_rec S;
  so_norec : forall v, In v (s_vars S) -> sv_rec v = true -> s_rec S <> -1;
  so_rank : forall v, In v (s_vars S) -> sv_dec S v = true -> (length (sv_nd v) <= 4)%nat;
  so_coord : forall v, In v (s_vars S) -> sv_rec v = true -> sv_coord v <> -1 ->
               sv_coord v = s_rec S /\ sv_dec S v = false;
  so_time : forall v, In v (s_vars S) -> s_rec S <> -1 -> sv_coord v = s_rec S -> sv_rec v = true }.

Section Pieces.
  Context {A : Type}.

  (** Where the piece [fi] lies along dimension [id], and how long it is there. *)
  Definition start_in (fi : @infile A) (id : Z) : Z :=
    match zget (in_dims fi) id with
    | Some {| rd_decomp := Some (d0, _, d2, _) |} => d2 - d0
    | _ => 0
    end.
  Definition len_in (fi : @infile A) (id : Z) : Z :=
    match zget (in_dims fi) id with Some rd => rd_len rd | None => 0 end.

  (** The part of variable [v], record [r], held by the piece. *)
  Definition piece_tile (v : svar) (fi : @infile A) (vals : list A) : tile :=
    {| t_start := map (start_in fi) (sv_nd v); t_count := map (len_in fi) (sv_nd v); t_data := vals |}.

  (** [fi] is one of [n] pieces of the dataset: an undecomposed dimension has its
      global length, a decomposed one a sub-range described by the attribute
      domain_decomposition = first, last, first of the piece, last of the piece;
      every variable has its data, of the length the dimensions require. *)
  Definition dim_piece (S : cset) (id : Z) (rd : rawdim) : Prop :=
    match rd_decomp rd with
    | None => dec_of S id = false /\ rd_len rd = full_of S id
    | Some (d0, d1, d2, d3) => dec_of S id = true /\ d1 = d0 + full_of S id - 1 /\ d0 <= d2
        /\ 0 <= rd_len rd /\ d3 = d2 + rd_len rd - 1 /\ d3 <= d1
    end.
  Definition var_piece (S : cset) (fi : @infile A) (v : svar) (iv : @ivar A) : Prop :=
    v_dims iv = sv_ids S v /\ v_coord iv = sv_coord v
    /\ forall r, has_record S v r -> exists vals, v_data iv r = Some vals /\ zlen vals = size (map (len_in fi) (sv_nd v)).
  Record piece (S : cset) (n : Z) (fi : @infile A) : Prop := {
    pc_n : in_nfiles fi = Some n;
    pc_rec : in_rec fi = s_rec S;
    pc_dims : zlen (in_dims fi) = zlen (s_full S)
              /\ forall id rd, zget (in_dims fi) id = Some rd -> dim_piece S id rd;
    pc_vars : Forall2 (var_piece S fi) (s_vars S) (in_vars fi) }.

  (** Record r of variable number vn in a piece. *)
  Definition data_of (fi : @infile A) (vn r : Z) : list A :=
    match zget (in_vars fi) vn with
    | Some iv => match v_data iv r with Some l => l | None => [] end
    | None => []
    end.

  (** The value of uncovered elements: missing_value of the first file if -m was
      given and the variable has one, else zero. *)
  Definition fill_of (zero : A) (missing : bool) (first : @infile A) (vn : Z) : A :=
    match missing, zget (in_vars first) vn with
    | true, Some {| v_miss := Some m |} => m
    | _, _ => zero
    end.

  (** [w] is the write of record r of variable number vn: the whole record, at its
      place, with the right content.  The content of a variable without decomposed
      dimension is that of the first file. *)
  Definition right_write (zero : A) (missing : bool) (S : cset) (files : list (@infile A))
      (vn : Z) (v : svar) (r : Z) (w : @wr A) : Prop :=
    w_var w = vn
    /\ w_start w = (if sv_rec v then [r] else []) ++ map (fun _ => 0) (sv_nd v)
    /\ w_count w = (if sv_rec v then [1] else []) ++ map (full_of S) (sv_nd v)
    /\ exists first rest, files = first :: rest /\
       if sv_dec S v
       then assembled (map (full_of S) (sv_nd v)) (map (fun fi => piece_tile v fi (data_of fi vn r)) files)
              (fill_of zero missing first vn) (w_vals w)
       else w_vals w = data_of first vn r.

  (** All (variable number, variable, record) triples of the dataset. *)
  Definition svnums (S : cset) : list (Z * svar) := combine (zseq 0 (zlen (s_vars S))) (s_vars S).
  Definition slots (S : cset) : list (Z * svar * Z) :=
    flat_map (fun r => map (fun nv => (nv, r)) (filter (fun nv => sv_rec (snd nv) || (r =? 0)) (svnums S)))
             (zseq 0 (s_nrecs S)).

  (** Up to order, the writes are exactly one right write per variable and record. *)
  Definition complete_output (zero : A) (missing : bool) (S : cset) (files : list (@infile A)) (log : list (@wr A)) : Prop :=
    exists l, Permutation log l
      /\ Forall2 (fun '(vn, v, r) w => right_write zero missing S files vn v r w) (slots S) l.
End Pieces.

(** How the files of the set are given to the combiner: as arguments, or as
    numbered files output.NNNN (4 or 6 digits) from the start number on, with or
    without the option -e. *)
Definition supplied {A : Type} (o : copts) (fs : @fsys A) (nargs : Z) (files : list (@infile A)) : Prop :=
  let numbered := exists w,
    (forall i fi, zget files i = Some fi -> fs (NNum w (o_start o + i)) = Some (Some fi))
    /\ (w = 4 \/ (w = 6 /\ fs (NNum 4 (o_start o)) = None)) in
  (nargs = zlen files /\ forall i fi, zget files i = Some fi -> fs (NArg i) = Some (Some fi))
  \/ (nargs = 0 /\ o_end o = None /\ numbered)
  \/ (nargs = 0 /\ numbered /\ exists e, o_end o = Some e /\ 0 <= e /\ o_start o + zlen files - 1 <= e).
