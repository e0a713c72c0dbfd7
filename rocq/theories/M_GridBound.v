(** * 1-D grid generation: compute_grid_bound of lib/libfrencutils/tool_util.c, over exact reals

    Overflow of int is not modelled. *)
From Verif Require Import Base M_Interp.
Local Open Scope Z_scope.

(** The three accepted values of [center], compared with strcmp in tool_util.c 485-490, and any
    other string. *)
Inductive center := C_none | C_t_cell | C_c_cell | C_other.

Definition refine_of (c : center) : outcome Z :=
  match c with C_none => Ok 1 | C_t_cell | C_c_cell => Ok 2 | C_other => Err 5 end.

(** tool_util.c 479-536.  The result is grid_size and the grid.  Integer / and % of C truncate. *)
Definition compute_grid_bound (nb : Z) (bnds : list R) (npts : list Z) (c : center) : outcome (Z * list R) :=
  do refine <- refine_of c ;
  (* 492-499 *)
  do grid1 <- oset (alloc nb) 0 1%R ;
  do '(n, grid1) <- ofor 1 (nb - 1) (fun '(n, grid1) i =>
      do p <- oget npts (i - 1) ;
      if negb (Z.rem p refine =? 0) then Err 4
      else
        let n := n + Z.quot p refine in
        do grid1 <- oset grid1 i (IZR (n + 1)) ;
        Ok (n, grid1)) (0, grid1) ;
  (* 500-505 *)
  let np := n + 1 in
  let grid_size := n * refine in
  do grid2 <- ofor 0 np (fun g i => oset g i (IZR i + 1)%R) (alloc np) ;
  do tmp <- cubic_spline_sp nb np grid1 grid2 bnds (alloc np) ;
  let grid := alloc (grid_size + 1) in
  let mid := fun grid i => do a <- oget tmp i ; do b <- oget tmp (i + 1) ; oset grid (2 * i + 1) (1 / 2 * (a + b))%R in
  do grid <-
    match c with
    | C_none => ofor 0 np (fun grid i => do a <- oget tmp i ; oset grid i a) grid
    | C_t_cell =>
      do grid <- ofor 0 np (fun grid i => do a <- oget tmp i ; oset grid (2 * i) a) grid ;
      ofor 0 n mid grid
    | _ =>
      do grid <- ofor 0 n mid grid ;
      do a <- oget tmp 0 ; do grid <- oset grid 0 a ;
      do grid <- ofor 1 (n - 1) (fun grid i =>
          do a <- oget grid (2 * i - 1) ; do b <- oget grid (2 * i + 1) ;
          oset grid (2 * i) (1 / 2 * (a + b))%R) grid ;
      do a <- oget tmp n ; oset grid (2 * n) a
    end ;
  Ok (grid_size, grid).
