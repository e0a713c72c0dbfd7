(** * Specification vocabulary: scattering a whole dataset and combining it again *)
From Verif Require Import Base Spec_Hyperslab Spec_Combine M_Combine Spec_CombineSet M_Scatter.

Definition type_of (types : list sct) (id : Z) : sct := match zget types id with Some t => t | None => NoSc end.

(** What can be scattered and combined again.  [types] says for every dimension
    whether it is divided along x, along y or not at all.
    - divided dimensions are not shorter than the number of divisions and at most
      2^24 long, and have a coordinate variable;
    - an I/O layout, if given, divides the layout;
    - no variable has two dimensions divided along the same axis;
    - a variable has at most three dimensions beside the record dimension;
    - with a record dimension: going back (cyclically) from a scalar variable, the
      first variable that has dimensions is not a record variable. *)
Record scatterable (o : sopts) (types : list sct) (S : cset) : Prop := {
  sc_types : zlen types = zlen (s_full S);
  sc_dec : forall id, 0 <= id < zlen (s_full S) ->
             dec_of S id = match type_of types id with NoSc => false | _ => true end;
  sc_pos : 1 <= sx_nx o /\ 1 <= sx_ny o;
  sc_x : forall id, type_of types id = ScX -> sx_nx o <= full_of S id <= 2 ^ 24;
  sc_y : forall id, type_of types id = ScY -> sx_ny o <= full_of S id <= 2 ^ 24;
  sc_io : (sx_nxio o = 0 \/ sx_nyio o = 0)
          \/ (1 <= sx_nxio o /\ (sx_nxio o | sx_nx o) /\ 1 <= sx_nyio o /\ (sx_nyio o | sx_ny o));
  sc_coordvar : forall id, type_of types id <> NoSc ->
             exists v, In v (s_vars S) /\ sv_rec v = false /\ sv_nd v = [id] /\ sv_coord v = id;
  sc_axes : forall v l1 i l2 j l3, In v (s_vars S) -> sv_nd v = l1 ++ i :: l2 ++ j :: l3 ->
             type_of types i = type_of types j -> type_of types i = NoSc;
  sc_rank : forall v, In v (s_vars S) -> (length (sv_nd v) <= 3)%nat;
  sc_scalar : forall l1 v l2, s_rec S <> -1 -> s_vars S = l1 ++ v :: l2 -> sv_ids S v = [] ->
             exists u1 w u2, l2 ++ l1 = u1 ++ w :: u2 /\ sv_rec w = false /\ sv_nd w <> []
                             /\ Forall (fun x => sv_ids S x = []) u2 }.

(** Number of files written. *)
Definition file_count (o : sopts) : Z :=
  if (sx_nxio o =? 0) || (sx_nyio o =? 0) then sx_nx o * sx_ny o else sx_nxio o * sx_nyio o.

Section W.
  Context {A : Type}.

  (** [fi] holds the whole dataset [S], undecomposed. *)
  Record whole (S : cset) (fi : @infile A) : Prop := {
    wh_n : in_nfiles fi = None;
    wh_rec : in_rec fi = s_rec S;
    wh_dims : zlen (in_dims fi) = zlen (s_full S)
              /\ forall id rd, zget (in_dims fi) id = Some rd -> rd_decomp rd = None /\ rd_len rd = full_of S id;
    wh_vars : Forall2 (fun v iv => v_dims iv = sv_ids S v /\ v_coord iv = sv_coord v
        /\ forall r, has_record S v r -> exists vals, v_data iv r = Some vals /\ zlen vals = size (map (full_of S) (sv_nd v)))
        (s_vars S) (in_vars fi) }.

  (** The writes are, up to order, one per variable and record, each the whole
      record with exactly the data of [fi]. *)
  Definition restores (S : cset) (fi : @infile A) (log : list (@wr A)) : Prop :=
    exists l, Permutation log l
      /\ Forall2 (fun '(vn, v, r) w =>
           w_var w = vn
           /\ w_start w = (if sv_rec v then [r] else []) ++ map (fun _ => 0) (sv_nd v)
           /\ w_count w = (if sv_rec v then [1] else []) ++ map (full_of S) (sv_nd v)
           /\ exists iv, zget (in_vars fi) vn = Some iv /\ v_data iv r = Some (w_vals w)) (slots S) l.
End W.
