(** * Model of the exchange grid search of libfrencutils/create_xgrid.c: the blocks, the
    threads and the storing of the exchange cells.
    The geometric test of one pair of cells (screening, fix_lon, clip_2dx2d, poly_area,
    area ratio; create_xgrid.c:775-830) only reads data that no thread writes, so it is an
    arbitrary function [overlap]: source cell -> target cell -> the area if they
    form an exchange cell. *)
From Verif Require Import Base.

Section Xgrid.
Variable V : Type.                       (* areas (and centroids) *)
Record cell := MkCell { c_in : Z; c_out : Z; c_area : V }.   (* j1*nx1+i1, j2*nx2+i2, xgrid_area *)
Variable mask : Z -> bool.               (* mask_in[j1*nx1+i1] > MASK_THRESH *)
Variable overlap : Z -> Z -> option V.

(** istart2, iend2: create_xgrid.c:699-709. *)
Fixpoint blocks (nblks : nat) (npts_left pos : Z) : list (Z * Z) :=
  match nblks with
  | O => []
  | S k => let npts_my := npts_left / Z.of_nat nblks in (pos, pos + npts_my - 1) :: blocks k (npts_left - npts_my) (pos + npts_my)
  end.

(** The exchange cells in the order in which the loops of one block meet them,
    create_xgrid.c:758-779 (the two loops over j1,i1 are one loop over j1*nx1+i1). *)
Definition cell_of (n1 ij : Z) : list cell := match overlap n1 ij with Some a => [MkCell n1 ij a] | None => [] end.
Definition found (n1 : Z) (b : Z * Z) : list cell := if mask n1 then flat_map (cell_of n1) (zseq (fst b) (snd b - fst b + 1)) else [].
Definition hits (ncells1 : Z) (b : Z * Z) : list cell := flat_map (fun n1 => found n1 b) (zseq 0 ncells1).

(** What a thread does for one exchange cell, create_xgrid.c:818-830, as separate steps:
    pnxgrid[m]++; the test; the store at pstart[m]+pnxgrid[m]-1. *)
Inductive op := Inc | Test | Store (c : cell).
Definition ops_of (c : cell) : list op := [Inc; Test; Store c].
Record mem := MkMem { pnxgrid : list Z; pxgrid : list (option cell) }.
(** Error 1: error_handler. *)
Definition exec_op (limit nmax m : Z) (o : op) (s : mem) : outcome mem :=
  match o with
  | Inc => do n <- oget (pnxgrid s) m; do p <- oset (pnxgrid s) m (n + 1); Ok (MkMem p (pxgrid s))
  | Test => do n <- oget (pnxgrid s) m; if n >=? limit then Err 1 else Ok s
  | Store c => do n <- oget (pnxgrid s) m; do p <- oset (pxgrid s) (m * nmax + n - 1) (Some c); Ok (MkMem (pnxgrid s) p)
  end.
(** One step of thread [m], interleaved at the level of single steps.  Scheduling a
    finished thread does nothing. *)
Definition sched_step (limit nmax : Z) (s : list (list op) * mem) (m : Z) : outcome (list (list op) * mem) :=
  do t <- oget (fst s) m;
  match t with
  | [] => Ok s
  | o :: t => do mm <- exec_op limit nmax m o (snd s); do ts <- oset (fst s) m t; Ok (ts, mm)
  end.
Definition run (limit nmax : Z) (ts : list (list op)) (s : mem) (sched : list Z) : outcome (list (list op) * mem) :=
  ofold (sched_step limit nmax) sched (ts, s).

(** The copy, create_xgrid.c:850-862, into the caller's arrays of [maxx] elements; with
    one block the threads' array is the caller's array, create_xgrid.c:680-686. *)
Definition copy_out (nblocks nmax maxx : Z) (s : mem) : outcome (list (option cell)) :=
  do r <- ofor 0 nblocks (fun r m =>
    do n <- oget (pnxgrid s) m;
    ofor 0 n (fun '(out, k) i => do c <- oget (pxgrid s) (m * nmax + i); do out <- oset out k c; Ok (out, k + 1)) r) (repeat None (Z.to_nat maxx), 0);
  Ok (firstn (Z.to_nat (snd r)) (fst r)).

(** create_xgrid_2dx2d_order1, create_xgrid.c:637-885, with [nblocks] threads and a
    schedule; [None] if the schedule leaves a thread unfinished.  The result is the
    contents of the first nxgrid elements of the output arrays. *)
Definition finished (ts : list (list op)) : bool := forallb (fun t => match t with [] => true | _ => false end) ts.
Definition create_2dx2d (maxx nblocks ncells1 ncells2 : Z) (sched : list Z) : outcome (option (list (option cell))) :=
  let nmax := maxx / nblocks in
  let bs := blocks (Z.to_nat nblocks) ncells2 0 in
  let prog := map (fun b => flat_map ops_of (hits ncells1 b)) bs in
  do '(ts, s) <- run nmax nmax prog (MkMem (repeat 0 (Z.to_nat nblocks)) (repeat None (Z.to_nat maxx))) sched;
  if negb (finished ts) then Ok None else
  if nblocks =? 1 then do n <- oget (pnxgrid s) 0; Ok (Some (firstn (Z.to_nat n) (pxgrid s)))
  else do out <- copy_out nblocks nmax maxx s; Ok (Some out).

(** create_xgrid_1dx2d_order1 (and its variants), create_xgrid.c:262-300: the cell is
    stored, then the count is tested. *)
Definition create_1dx2d (maxx ncells1 ncells2 : Z) : outcome (list (option cell)) :=
  do r <- ofold (fun '(out, n) c => do out <- oset out n (Some c); if n + 1 >? maxx then Err 1 else Ok (out, n + 1))
    (hits ncells1 (0, ncells2 - 1)) (repeat None (Z.to_nat maxx), 0);
  Ok (firstn (Z.to_nat (snd r)) (fst r)).
End Xgrid.
