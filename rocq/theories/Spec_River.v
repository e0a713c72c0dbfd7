(** * Vocabulary for the river network properties (C43 - C47) *)
From Coq Require Import Reals Relations.
From Verif Require Import Base M_River.
Open Scope Z_scope.

(** A cell: tile, row, column.  Rows and columns 1..ny, 1..nx are the tile itself; 0 and
    ny+1, nx+1 are its halo. *)
Definition cell : Type := (Z * Z * Z)%type.
Definition own (nt nx ny : Z) (c : cell) : Prop := let '(n, j, i) := c in 0 <= n < nt /\ 1 <= j <= ny /\ 1 <= i <= nx.
Definition in_frame (nt nx ny : Z) (c : cell) : Prop := let '(n, j, i) := c in 0 <= n < nt /\ 0 <= j < ny + 2 /\ 0 <= i < nx + 2.

(** A field with halo: [F c] is stored at row j, column i of tile n. *)
Definition haloed {A} (nt nx ny : Z) (data : list (list A)) (F : cell -> A) : Prop :=
  zlen data = nt /\ forall n, 0 <= n < nt -> exists t, zget data n = Some t /\ zlen t = (nx + 2) * (ny + 2) /\
    forall j i, 0 <= j < ny + 2 -> 0 <= i < nx + 2 -> zget t (j * (nx + 2) + i) = Some (F (n, j, i)).
(** A field without halo. *)
Definition plain_field {A} (nt nx ny : Z) (data : list (list A)) (F : cell -> A) : Prop :=
  zlen data = nt /\ forall n, 0 <= n < nt -> exists t, zget data n = Some t /\ zlen t = nx * ny /\
    forall j i, 1 <= j <= ny -> 1 <= i <= nx -> zget t ((j - 1) * nx + (i - 1)) = Some (F (n, j, i)).

(** Number [i] brought into 1..m by adding a multiple of m *)
Definition around (m i : Z) : Z := (i - 1) mod m + 1.
(** The cell a halo cell stands for (itself if the boundary is solid there; the corners of a
    cube tile stand for nothing).  On the cube, going out of an odd-numbered tile (n even)
    to the west or north, and of an even-numbered one to the east or south, turns the axes. *)
Definition wrap (op : opcode) (nx ny : Z) (c : cell) : cell :=
  let '(n, j, i) := c in
  if cubic op then
    if (1 <=? j) && (j <=? ny) && (i =? 0) then
      if n mod 2 =? 0 then ((n + 4) mod 6, ny, nx + 1 - j) else ((n + 5) mod 6, j, nx)
    else if (1 <=? j) && (j <=? ny) && (i =? nx + 1) then
      if n mod 2 =? 0 then ((n + 1) mod 6, j, 1) else ((n + 2) mod 6, 1, nx + 1 - j)
    else if (1 <=? i) && (i <=? nx) && (j =? 0) then
      if n mod 2 =? 0 then ((n + 5) mod 6, ny, i) else ((n + 4) mod 6, ny + 1 - i, nx)
    else if (1 <=? i) && (i <=? nx) && (j =? ny + 1) then
      if n mod 2 =? 0 then ((n + 2) mod 6, ny + 1 - i, 1) else ((n + 1) mod 6, 1, i)
    else c
  else
    match x_cyclic op, y_cyclic op with
    | true, true => (n, around ny j, around nx i)
    | true, false => if (1 <=? j) && (j <=? ny) then (n, j, around nx i) else c
    | false, true => if (1 <=? i) && (i <=? nx) then (n, around ny j, i) else c
    | false, false => c
    end.
(** The boundary conditions the tool knows: one tile (solid, cyclic in x and/or y) or the
    six square tiles of a cube.  For a y-cyclic tile we also ask nx = ny; see
    C47_y_cyclic_refuted. *)
Definition op_ok (op : opcode) (nt nx ny : Z) : Prop :=
  1 <= nx /\ 1 <= ny /\ 1 <= nt /\
  (cubic op = true -> nt = 6 /\ nx = ny /\ x_cyclic op = false /\ y_cyclic op = false) /\
  (x_cyclic op = true -> nt = 1) /\ (y_cyclic op = true -> nt = 1 /\ nx = ny).

(** ** Flow directions: 0 = east, then clockwise as printed with rows increasing northwards *)
Definition compass (d : Z) : Z * Z := (* (rows, columns) *)
  match d with
  | 0 => (0, 1) | 1 => (-1, 1) | 2 => (-1, 0) | 3 => (-1, -1)
  | 4 => (0, -1) | 5 => (1, -1) | 6 => (1, 0) | _ => (1, 1)
  end.
(** The position next to [c] in direction [d]; it may be in the halo. *)
Definition step (c : cell) (d : Z) : cell := let '(n, j, i) := c in (n, j + fst (compass d), i + snd (compass d)).
(** The cell of the grid that [c] flows to when its direction is [d] *)
Definition dest (op : opcode) (nx ny : Z) (c : cell) (d : Z) : cell := wrap op nx ny (step c d).
(** One step of the flow: [D] is the direction field, negative where there is none. *)
Definition flows (op : opcode) (nt nx ny : Z) (D : cell -> Z) (c c' : cell) : Prop :=
  own nt nx ny c /\ 0 <= D c /\ c' = dest op nx ny c (D c).

(** ** Choosing a direction *)
Section Choice.
  Context (large cutoff missing : R) (S : cell -> R).
  (** [d] is a good direction for the full land cell [c]: strictly uphill in source drainage
      area.  From a small area, the largest value that is not missing; from a large one, the
      largest value below [large] if there is one. *)
  Definition drains_to (c : cell) (d : Z) : Prop :=
    0 <= d <= 7 /\ (S c < S (step c d))%R /\
    ((S c <= cutoff)%R -> S (step c d) <> missing /\
       forall d', 0 <= d' <= 7 -> S (step c d') <> missing -> (S (step c d') <= S (step c d))%R) /\
    ((cutoff < S c)%R -> forall d', 0 <= d' <= 7 -> (S c < S (step c d') < large)%R -> (S (step c d') <= S (step c d) < large)%R).
  (** No direction leads uphill.  (-999 is the tool's own "nothing found" value.) *)
  Definition no_drain (c : cell) : Prop :=
    forall d, 0 <= d <= 7 -> (S (step c d) <= S c)%R \/
      ((S c <= cutoff)%R /\ (S (step c d) = missing \/ (S (step c d) < -999)%R)).
  (** The outcome for a cell of land fraction [lf], whose code and direction were [t0], [d0]. *)
  Definition directed (c : cell) (lf : R) (t0 d0 t d : Z) : Prop :=
    (lf = 0%R /\ t = t0 /\ d = d0) \/
    (lf <> 0%R /\ (lf < 1)%R /\ t = 0 /\ d = d0) \/
    ((1 <= lf)%R /\ ((t = 0 /\ d = d0 /\ no_drain c) \/ (t = 2 ^ d /\ drains_to c d))).
End Choice.

(** ** Basins.  [B] numbers basins from 1, [bm] marks cells without one; [P] is non-zero at
    outlets.  Every number up to the largest one has exactly one outlet, with a drainage
    area that is not missing. *)
Definition basins_ok (nt nx ny bm : Z) (miss : R) (B P : cell -> Z) (S : cell -> R) : Prop :=
  bm < 1 /\
  (forall c, own nt nx ny c -> B c = bm \/ 1 <= B c) /\
  (forall c b, own nt nx ny c -> 1 <= b <= B c -> exists o, own nt nx ny o /\ P o <> 0 /\ B o = b) /\
  (forall o, own nt nx ny o -> P o <> 0 -> 1 <= B o /\ S o <> miss) /\
  (forall o o', own nt nx ny o -> own nt nx ny o' -> P o <> 0 -> P o' <> 0 -> B o = B o' -> o = o').

(** ** River networks.  [T] is the code of the cell (missing, 0 = sink, > 0 = flows), [D] its
    direction. *)
Section Network.
  Context (op : opcode) (nt nx ny tcm : Z) (T D : cell -> Z).
  Definition next (c : cell) : cell := dest op nx ny c (D c).
  (** An outlet: a sink (count 0), or a cell that flows out of the land (count 1). *)
  Definition outlet (c : cell) (k : Z) : Prop :=
    own nt nx ny c /\ ((T c = 0 /\ k = 0) \/ (0 < T c /\ T (next c) = tcm /\ k = 1)).
  (** The flow path from [c] ends in outlet [o]; [k] counts its steps, including the last one
      out of the land if [o] is not a sink. *)
  Inductive drains : cell -> cell -> Z -> Prop :=
  | drains_here c k : outlet c k -> drains c c k
  | drains_next c o k : own nt nx ny c -> 0 < T c -> T (next c) <> tcm -> drains (next c) o k -> drains c o (k + 1).
  (** Codes and directions as calc_tocell leaves them; halo values agree with the cells they
      stand for; a cell flows to a cell of the grid or out of the land. *)
  Definition net_ok : Prop :=
    tcm < 0 /\
    (forall c, own nt nx ny c -> (T c = tcm /\ D c < 0) \/ (T c = 0 /\ D c < 0) \/
       (0 < T c /\ 0 <= D c <= 7 /\ (own nt nx ny (next c) \/ T (next c) = tcm))) /\
    (forall h, in_frame nt nx ny h -> T (wrap op nx ny h) = T h).
  (** No flow path returns to its start. *)
  Definition acyclic : Prop := forall c, ~ clos_trans cell (flows op nt nx ny D) c c.
End Network.
(** [L] lists, each once, the cells whose flow path passes through [p] ([p] included). *)
Definition upstream (op : opcode) (nt nx ny : Z) (D : cell -> Z) (p : cell) (L : list cell) : Prop :=
  NoDup L /\ forall q, In q L <-> own nt nx ny q /\ clos_refl_trans cell (flows op nt nx ny D) q p.
