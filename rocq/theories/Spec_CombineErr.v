(** * Specification vocabulary: files some of whose data cannot be read *)
From Verif Require Import Base M_Combine.

Section S.
  Context {A : Type}.

  (** [fi] is [fi'] except that some of its data cannot be read. *)
  Definition damaged_var (v v' : @ivar A) : Prop :=
    v_dims v = v_dims v' /\ v_coord v = v_coord v' /\ v_miss v = v_miss v'
    /\ forall r, v_data v r = None \/ v_data v r = v_data v' r.
  Definition damaged_file (fi fi' : @infile A) : Prop :=
    in_nfiles fi = in_nfiles fi' /\ in_dims fi = in_dims fi' /\ in_rec fi = in_rec fi'
    /\ Forall2 damaged_var (in_vars fi) (in_vars fi').

  (** The same directory, but some files cannot be opened and some data cannot be
      read. *)
  Definition damaged (fs fs' : @fsys A) : Prop :=
    forall nm, match fs nm, fs' nm with
    | None, None => True
    | Some None, Some _ => True
    | Some (Some fi), Some (Some fi') => damaged_file fi fi'
    | _, _ => False
    end.

  (** Lengths of dimensions are not negative. *)
  Definition sane (fs : @fsys A) : Prop :=
    forall nm fi, fs nm = Some (Some fi) -> Forall (fun rd => 0 <= rd_len rd) (in_dims fi).
End S.
