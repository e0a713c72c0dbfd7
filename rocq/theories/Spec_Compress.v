(** * Specification vocabulary for compressed variables (C18, C19, C22) *)
From Verif Require Import Base M_Compress.

(** Coordinates of a value in the file. *)
Inductive coords_ok : list cdim -> list Z -> Prop :=
| co_nil : coords_ok [] []
| co_cons d ds c cs : 0 <= c < cd_len d -> coords_ok ds cs -> coords_ok (d :: ds) (c :: cs).

(** Its position in the file: the first coordinate varies fastest. *)
Fixpoint file_pos (ds : list cdim) (cs : list Z) : Z :=
  match ds, cs with d :: ds, c :: cs => c + cd_len d * file_pos ds cs | _, _ => 0 end.

(** The grid point it belongs to: along a compressed dimension the coordinate is
    replaced by the index; there is none if an index is negative. *)
Fixpoint grid_point (ds : list cdim) (cs : list Z) : option Z :=
  match ds, cs with
  | d :: ds, c :: cs =>
    match grid_point ds cs, (match cd_idx d with Some l => zget l c | None => Some c end) with
    | Some q, Some u => if u <? 0 then None else Some (u + cd_full d * q)
    | _, _ => None
    end
  | _, _ => Some 0
  end.
Definition grid_size (ds : list cdim) : Z := fold_right (fun d n => cd_full d * n) 1 ds.
Definition file_size (ds : list cdim) : Z := fold_right (fun d n => cd_len d * n) 1 ds.

(** The value at coordinates [cs] belongs to the grid point [p]. *)
Definition listed (ds : list cdim) (cs : list Z) (p : Z) : Prop := coords_ok ds cs /\ grid_point ds cs = Some p.

(** Well-formed dimensions: positive lengths, an index for every position, no index
    beyond the grid (negative ones are allowed). *)
Definition dim_ok (d : cdim) : Prop :=
  1 <= cd_len d /\ match cd_idx d with
                   | Some l => zlen l = cd_len d /\ forall x, In x l -> x < cd_full d
                   | None => cd_full d = cd_len d
                   end.
