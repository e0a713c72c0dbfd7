(** * Model of hyperslabcopy, src/mpp-ncscatter/mppncscatter.c:84-266 *)
From Verif Require Import Base.

Section H.
  Context {A : Type}.

  (** memcpy(dst+off, src+base, n*sizeof(..)): every element must lie inside
      both buffers. *)
  Definition mcpy (dst : list A) (off : Z) (src : list A) (base n : Z) : outcome (list A) :=
    ofor 0 n (fun dst i => do v <- oget src (base + i) ; oset dst (off + i) v) dst.

  (** mppncscatter.c:84-266.  The five copies of the code (one per netCDF type)
      differ only in the element type, here [A].  [L] lists dimlen[dimids[0]],
      dimlen[dimids[1]], ...; [dst]/[src] are the buffers of the type in use.
      A number of dimensions above 4 does nothing (no [default] case). *)
  Definition hyperslabcopy (L start count : list Z) (ndim : Z) (src dst : list A) : outcome (list A) :=
    if ndim =? 0 then
      (* 92-110 *)
      do v <- oget src 0 ; oset dst 0 v
    else if ndim =? 1 then
      (* 112-130 *)
      do s0 <- oget start 0 ; do c0 <- oget count 0 ; mcpy dst 0 src s0 c0
    else if ndim =? 2 then
      (* 132-168 *)
      do s0 <- oget start 0 ; do s1 <- oget start 1 ;
      do c0 <- oget count 0 ; do c1 <- oget count 1 ; do l1 <- oget L 1 ;
      let i0 := s0 * l1 in
      let stridek := l1 in
      do '(dst, _) <- ofor 0 c0 (fun '(dst, offset) k =>
          do dst <- mcpy dst offset src (i0 + k * stridek + s1) c1 ;
          Ok (dst, offset + c1)) (dst, 0) ;
      Ok dst
    else if ndim =? 3 then
      (* 169-217 *)
      do s0 <- oget start 0 ; do s1 <- oget start 1 ; do s2 <- oget start 2 ;
      do c0 <- oget count 0 ; do c1 <- oget count 1 ; do c2 <- oget count 2 ;
      do l1 <- oget L 1 ; do l2 <- oget L 2 ;
      let i0 := s0 * l1 * l2 + s1 * l2 + s2 in
      let stridek := l1 * l2 in
      let stridej := l2 in
      do '(dst, _) <- ofor 0 c0 (fun st k => ofor 0 c1 (fun '(dst, offset) j =>
          do dst <- mcpy dst offset src (i0 + k * stridek + j * stridej) c2 ;
          Ok (dst, offset + c2)) st) (dst, 0) ;
      Ok dst
    else if ndim =? 4 then
      (* 218-265: start[0] and count[0] are not used *)
      do s1 <- oget start 1 ; do s2 <- oget start 2 ; do s3 <- oget start 3 ;
      do c1 <- oget count 1 ; do c2 <- oget count 2 ; do c3 <- oget count 3 ;
      do l2 <- oget L 2 ; do l3 <- oget L 3 ;
      let i0 := s1 * l2 * l3 + s2 * l3 + s3 in
      let stridek := l2 * l3 in
      let stridej := l3 in
      do '(dst, _) <- ofor 0 c1 (fun st k => ofor 0 c2 (fun '(dst, offset) j =>
          do dst <- mcpy dst offset src (i0 + k * stridek + j * stridej) c3 ;
          Ok (dst, offset + c3)) st) (dst, 0) ;
      Ok dst
    else Ok dst.
End H.
