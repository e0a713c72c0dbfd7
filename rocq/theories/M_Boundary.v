(** Model of get_boundary_type, lib/libfrencutils/tool_util.c:686-764, for mosaic grids (VERSION_2),
    as check_mask and make_topog call it; the branch VERSION_1 and the notes printed are left out. *)
From Verif Require Import Base Str M_Contact M_CheckMask.

(** tool_util.c:722-741: one contact *)
Definition boundary_step (b : bctype) (k : contact) : outcome bctype :=
  if k_is1 k =? k_ie1 k then
    if negb (k_is2 k =? k_ie2 k) then Err 24
    else Ok {| cyclic_x := true; cyclic_y := cyclic_y b; tripolar := tripolar b |}
  else if k_js1 k =? k_je1 k then
    if negb (k_js2 k =? k_je2 k) then Err 25
    else if k_js1 k =? k_js2 k then Ok {| cyclic_x := cyclic_x b; cyclic_y := cyclic_y b; tripolar := true |}
    else Ok {| cyclic_x := cyclic_x b; cyclic_y := true; tripolar := tripolar b |}
  else Err 26.

(** tool_util.c:696-743.  [tiles]: the names of the tiles, [contacts]: the strings of the fields
    contacts and contact_index, if the file has them; [p]: the buffer of read_mosaic_contact. *)
Definition get_boundary_type (tiles : list str) (p : list Z) (contacts : option (list (str * str))) : outcome bctype :=
  let none := {| cyclic_x := false; cyclic_y := false; tripolar := false |} in
  if negb (zlen tiles =? 1) then Err 21 else
  match contacts with
  | None => Ok none
  | Some strs =>
    if zlen strs <? 1 then Err 22 else
    if zlen strs >? 2 then Err 23 else
    do ks <- read_mosaic_contact tiles p strs ;
    ofold boundary_step ks none
  end.
