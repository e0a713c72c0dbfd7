(** * Vocabulary for fields of a string and for contacts *)
From Verif Require Import Base.

(** The pieces of a string between separators (one more than there are separators). *)
Fixpoint pieces (sep : Z -> bool) (s : list Z) : list (list Z) :=
  match s with
  | [] => [[]]
  | c :: s =>
    if sep c then [] :: pieces sep s
    else match pieces sep s with [] => [[c]] | h :: t => (c :: h) :: t end
  end.

Definition blank (c : Z) : bool := (c =? 32) || (c =? 9).
Definition is_one_of (l : list Z) (c : Z) : bool := existsb (Z.eqb c) l.
Definition nonempty (l : list Z) : bool := match l with [] => false | _ => true end.

(** The fields: blanks count for nothing, the non-empty pieces in order, and the last
    piece even if it is empty (the string ends with a separator). *)
Definition fields_of (seps : list Z) (s : list Z) : list (list Z) :=
  let ps := pieces (is_one_of seps) (filter (fun c => negb (blank c)) s) in
  filter nonempty (removelast ps) ++ [last ps []].

(** The memory holds the C string [s] at offset [off]. *)
Definition string_at (p : list Z) (off : Z) (s : list Z) : Prop :=
  (forall k, 0 <= k < zlen s -> zget p (off + k) = zget s k) /\ zget p (off + zlen s) = Some 0 /\ ~ In 0 s.

(** A name that can be a field: not empty, no separator, no blank, no NUL. *)
Definition plain (seps : list Z) (s : list Z) : Prop :=
  s <> [] /\ forall c, In c s -> is_one_of seps c = false /\ blank c = false /\ c <> 0.

(** Model cell [m] (from zero) consists of the supergrid cells 2m+1 and 2m+2 (from one). *)
Definition in_cell (m i : Z) : Prop := i = 2 * m + 1 \/ i = 2 * m + 2.
(** Number of cells of a range that may run in either direction *)
Definition range_len (a b : Z) : Z := Z.abs (b - a) + 1.
Definition same_direction (a b a' b' : Z) : Prop := (a < b -> a' <= b') /\ (b < a -> b' <= a') /\ (a = b -> a' = b').
(** The range (a,b) consists of whole model cells *)
Definition whole_cells (a b : Z) : Prop := Z.odd (Z.min a b) = true /\ Z.even (Z.max a b) = true.

(** ** Contacts between tiles
    [nx t] and [ny t] are the numbers of model cells of tile [t]. *)
From Verif Require Import M_Contact.

(** A supergrid range of a contact: inside the tile, and either a single line of
    supergrid cells or whole model cells. *)
Definition range_ok (n a b : Z) : Prop :=
  1 <= a <= 2 * n /\ 1 <= b <= 2 * n /\ (a = b \/ whole_cells a b).
Definition one_if_long (a b : Z) : Z := if a =? b then 0 else 1.
(** A contact is a line on both tiles, or an overlap on both. *)
Definition contact_ok (ntiles : Z) (nx ny : Z -> Z) (k : contact) : Prop :=
  0 <= k_tile1 k < ntiles /\ 0 <= k_tile2 k < ntiles /\
  range_ok (nx (k_tile1 k)) (k_is1 k) (k_ie1 k) /\ range_ok (ny (k_tile1 k)) (k_js1 k) (k_je1 k) /\
  range_ok (nx (k_tile2 k)) (k_is2 k) (k_ie2 k) /\ range_ok (ny (k_tile2 k)) (k_js2 k) (k_je2 k) /\
  one_if_long (k_is1 k) (k_ie1 k) + one_if_long (k_js1 k) (k_je1 k)
    = one_if_long (k_is2 k) (k_ie2 k) + one_if_long (k_js2 k) (k_je2 k) /\
  0 < one_if_long (k_is1 k) (k_ie1 k) + one_if_long (k_js1 k) (k_je1 k).

(** The model range (a',b') is the one that the supergrid range (a,b) covers. *)
Definition range_converted (n a b a' b' : Z) : Prop :=
  in_cell a' a /\ in_cell b' b /\ 0 <= a' < n /\ 0 <= b' < n /\ same_direction a b a' b' /\
  (a <> b -> 2 * range_len a' b' = range_len a b).
(** What is read back: tiles counted from one, model indices counted from zero. *)
Definition contact_converted (nx ny : Z -> Z) (k k' : contact) : Prop :=
  k_tile1 k' = k_tile1 k + 1 /\ k_tile2 k' = k_tile2 k + 1 /\
  range_converted (nx (k_tile1 k)) (k_is1 k) (k_ie1 k) (k_is1 k') (k_ie1 k') /\
  range_converted (ny (k_tile1 k)) (k_js1 k) (k_je1 k) (k_js1 k') (k_je1 k') /\
  range_converted (nx (k_tile2 k)) (k_is2 k) (k_ie2 k) (k_is2 k') (k_ie2 k') /\
  range_converted (ny (k_tile2 k)) (k_js2 k) (k_je2 k) (k_js2 k') (k_je2 k').
(** The eight indices of a contact are ints and not negative. *)
Definition index_ok (i : Z) : Prop := 0 <= i < 2147483648.
Definition indices_ok (k : contact) : Prop :=
  index_ok (k_is1 k) /\ index_ok (k_ie1 k) /\ index_ok (k_js1 k) /\ index_ok (k_je1 k) /\
  index_ok (k_is2 k) /\ index_ok (k_ie2 k) /\ index_ok (k_js2 k) /\ index_ok (k_je2 k).
