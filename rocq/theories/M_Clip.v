(** * Model of the polygon clipping of libfrencutils
    Numbers are an arbitrary structure with the operations the code uses, so that what is
    proved for every structure holds for IEEE doubles too; the geometric theorems
    instantiate it with the real numbers (exact arithmetic).
    Simplification: a polygon is one list of (longitude, latitude) pairs instead of two
    parallel arrays. *)
From Verif Require Import Base.

(** The operations on "double" used below. *)
Record arith := MkArith {
  num : Type;
  nadd : num -> num -> num; nsub : num -> num -> num; nmul : num -> num -> num; ndiv : num -> num -> num;
  nle : num -> num -> bool;            (* a <= b *)
  neq : num -> num -> bool;            (* a == b *)
  nabs : num -> num;                   (* fabs *)
  nhpi : num; npi : num; ntpi : num; ntol : num; nsmall : num; nzero : num; (* HPI, M_PI, TPI, TOLORENCE, SMALL_VALUE, 0.0 *)
  nofint : Z -> num                    (* conversion of an int *)
}.

(** MV, create_xgrid.h:30-31. *)
Definition MV : Z := 50.

Section Clip.
Variable A : arith.
Definition pt : Type := (num A * num A)%type.
Notation "a + b" := (nadd A a b). Notation "a - b" := (nsub A a b). Notation "a * b" := (nmul A a b). Notation "a / b" := (ndiv A a b).

(** Storing one more vertex in an array of [cap] elements. *)
Definition push (cap : Z) (l : list pt) (v : pt) : outcome (list pt) := if zlen l <? cap then Ok (l ++ [v]) else UB.

(** One of the four passes (create_xgrid.c:1182-1203, 1205-1226, 1228-1248, 1250-1270):
    the state is (x_last,y_last), inside_last and the vertices stored so far. *)
Definition stage_step (inside : pt -> bool) (cross : pt -> pt -> pt) (cap : Z) (s : pt * bool * list pt) (p : pt) : outcome (pt * bool * list pt) :=
  let '(last, ins_last, out) := s in
  let ins := inside p in
  do out <- (if negb (Bool.eqb ins ins_last) then push cap out (cross last p) else Ok out);
  do out <- (if ins then push cap out p else Ok out);
  Ok (p, ins, out).
Definition stage (inside : pt -> bool) (cross : pt -> pt -> pt) (cap : Z) (poly : list pt) : outcome (list pt) :=
  do last <- oget poly (zlen poly - 1)%Z;
  do s <- ofold (stage_step inside cross cap) poly (last, inside last, []);
  Ok (snd s).

(** The crossing points: create_xgrid.c:1189-1190, 1213-1215, 1236-1237, 1258-1259. *)
Definition cross_x (c : num A) (l p : pt) : pt := (c, snd l + (c - fst l) * (snd p - snd l) / (fst p - fst l)).
Definition cross_y (c : num A) (l p : pt) : pt := (fst l + (c - snd l) * (fst p - fst l) / (snd p - snd l), c).
(** The sides: create_xgrid.c:1188, 1212, 1235, 1257. *)
Definition in_left (c : num A) (p : pt) : bool := nle A c (fst p).
Definition in_right (c : num A) (p : pt) : bool := nle A (fst p) c.
Definition in_bottom (c : num A) (p : pt) : bool := nle A c (snd p).
Definition in_top (c : num A) (p : pt) : bool := nle A (snd p) c.

(** clip, create_xgrid.c:1175-1272; [capt] is the size of the scratch arrays x_tmp,y_tmp
    (MV) and [capo] the size of the caller's lon_out,lat_out.  The result is the list of
    the returned number of vertices. *)
Definition clip (capt capo : Z) (poly : list pt) (ll_lon ll_lat ur_lon ur_lat : num A) : outcome (list pt) :=
  do p1 <- stage (in_left ll_lon) (cross_x ll_lon) capt poly;
  if (zlen p1 =? 0)%Z then Ok [] else
  do p2 <- stage (in_right ur_lon) (cross_x ur_lon) capo p1;
  if (zlen p2 =? 0)%Z then Ok [] else
  do p3 <- stage (in_bottom ll_lat) (cross_y ll_lat) capt p2;
  if (zlen p3 =? 0)%Z then Ok [] else
  stage (in_top ur_lat) (cross_y ur_lat) capo p3.

(** delete_vtx, mosaic_util.c:636-644. *)
Definition delete_vtx (l : list pt) (k : Z) : list pt := firstn (Z.to_nat k) l ++ skipn (S (Z.to_nat k)) l.
(** insert_vtx, mosaic_util.c:646-658, in an array of [cap] elements. *)
Definition insert_vtx (cap : Z) (l : list pt) (k : Z) (v : pt) : outcome (list pt) :=
  if zlen l <? cap then Ok (firstn (Z.to_nat k) l ++ v :: skipn (Z.to_nat k) l) else UB.

(** fabs(y) >= HPI-TOLORENCE, mosaic_util.c:672, 682. *)
Definition at_pole (p : pt) : bool := nle A (nhpi A - ntol A) (nabs A (snd p)).

(** The pairing of the pole points, mosaic_util.c:682-692; [fuel] bounds the number of
    turns (every turn brings i closer to nn). *)
Fixpoint pair_poles (fuel : nat) (cap : Z) (l : list pt) (i : Z) : outcome (list pt) :=
  if negb (i <? zlen l) then Ok l else
  match fuel with
  | O => Err 99
  | S fuel =>
      do p <- oget l i;
      if at_pole p then
        do m <- oget l ((i + zlen l - 1) mod zlen l)%Z;
        do n <- oget l ((i + 1) mod zlen l)%Z;
        if neq A (snd m) (snd p) && neq A (snd n) (snd p) then pair_poles fuel cap (delete_vtx l i) i
        else if negb (neq A (snd m) (snd p)) && negb (neq A (snd n) (snd p)) then
          do l <- insert_vtx cap l i p; pair_poles fuel cap l (i + 2)%Z
        else pair_poles fuel cap l (i + 1)%Z
      else pair_poles fuel cap l (i + 1)%Z
  end.

(** The longitudes of the pole pairs, mosaic_util.c:695-700. *)
Definition pole_lon (l : list pt) (i : Z) : outcome (list pt) :=
  do p <- oget l i;
  if at_pole p then
    do m <- oget l ((i + zlen l - 1) mod zlen l)%Z;
    do n <- oget l ((i + 1) mod zlen l)%Z;
    let p := if negb (neq A (snd m) (snd p)) then (fst m, snd p) else p in
    do l <- oset l i p;
    let p := if negb (neq A (snd n) (snd p)) then (fst n, snd p) else p in
    oset l i p
  else Ok l.

(** The twin vertices for a side through the pole, mosaic_util.c:704-718. *)
Definition nlt (a b : num A) : bool := negb (nle A b a).
Fixpoint twin_poles (cap : Z) (l : list pt) (is : list Z) : outcome (list pt) :=
  match is with
  | [] => Ok l
  | i :: is =>
      do p <- oget l i;
      do m <- oget l ((i + zlen l - 1) mod zlen l)%Z;
      let dx := fst p - fst m in
      if nlt (nabs A (dx + npi A)) (nsmall A) || nlt (nabs A (dx - npi A)) (nsmall A) then
        let ypole := if nlt (snd p) (nzero A) then nzero A - nhpi A else nhpi A in
        do l <- insert_vtx cap l i (fst p, ypole);
        insert_vtx cap l i (fst m, ypole)
      else twin_poles cap l is
  end.

(** The unwrapping of the longitudes, mosaic_util.c:719-731. *)
Definition unwrap (l : list pt) (tlon : num A) : outcome (list pt) :=
  match l with
  | [] => Ok []
  | p0 :: _ =>
      do '(l, x_sum) <- ofor (S := (list pt * num A)%type) 1 (zlen l - 1)%Z (fun '(l, x_sum) i =>
        do p <- oget l i; do m <- oget l (i - 1)%Z;
        let dx := fst p - fst m in
        let dx := if nlt dx (nzero A - npi A) then dx + ntpi A else if nlt (npi A) dx then dx - ntpi A else dx in
        let x := fst m + dx in
        do l <- oset l i (x, snd p);
        Ok (l, x_sum + x)) (l, fst p0);
      let dx := x_sum / nofint A (zlen l) - tlon in
      if nlt dx (nzero A - npi A) then Ok (map (fun p => (fst p + ntpi A, snd p)) l)
      else if nlt (npi A) dx then Ok (map (fun p => (fst p - ntpi A, snd p)) l) else Ok l
  end.

(** fix_lon, mosaic_util.c:667-738, on arrays of [cap] elements. *)
Definition fix_lon (cap : Z) (l : list pt) (tlon : num A) : outcome (list pt) :=
  do l <- pair_poles (2 * length l + 2) cap l 0;
  do l <- ofor 0 (zlen l) pole_lon l;
  do l <- twin_poles cap l (zseq 0 (zlen l));
  unwrap l tlon.
End Clip.
