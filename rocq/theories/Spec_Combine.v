(** * Specification vocabulary: assembling a global array from tiles *)
From Verif Require Import Base Spec_Hyperslab Shape.

Section S.
  Context {A : Type}.

  (** A tile: where it starts in the global array (0-based), its shape, and its
      elements in row-major order. *)
  Record tile := { t_start : list Z; t_count : list Z; t_data : list A }.

  (** Global index [g] lies in the tile, at the tile's own index [idx]. *)
  Definition at_tile (t : tile) (g idx : list Z) : Prop :=
    valid (t_count t) idx /\ g = vadd (t_start t) idx.
  Definition covers (t : tile) (g : list Z) : Prop := exists idx, at_tile t g idx.

  (** The tile lies in the global array and has as many elements as its shape says. *)
  Definition tile_ok (full : list Z) (t : tile) : Prop :=
    block_in full (t_start t) (t_count t) /\ zlen (t_data t) = size (t_count t).

  (** [out] is the global array of shape [full] assembled from [tiles]: an element
      in some tile comes from the last tile that covers it, the others are [fill]. *)
  Definition assembled (full : list Z) (tiles : list tile) (fill : A) (out : list A) : Prop :=
    zlen out = size full
    /\ (forall t1 t t2 g idx, tiles = t1 ++ t :: t2 -> at_tile t g idx -> (forall t', In t' t2 -> ~ covers t' g) ->
          zget out (pos full g) = zget (t_data t) (pos (t_count t) idx))
    /\ (forall g, valid full g -> (forall t, In t tiles -> ~ covers t g) -> zget out (pos full g) = Some fill).

  (** No global index lies in two tiles. *)
  Definition disjoint_tiles (tiles : list tile) : Prop :=
    forall t1 t t2 t' t3 g, tiles = t1 ++ t :: t2 ++ t' :: t3 -> covers t g -> ~ covers t' g.
End S.
