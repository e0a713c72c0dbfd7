(** * Model of src/nc-exists/ncexists.c *)
From Verif Require Import Base Str.

(** What nc_inq_att and nc_inq_varid answer from: names of global attributes, and of variables
    with the names of their attributes *)
Record ncnames := { g_atts : list str; g_vars : list (str * list str) }.
(** Options as getopt_long delivers them *)
Inductive opt := OFile (s : str) | OGlobal (s : str) | OVar (s : str) | OAtt (s : str) | OHelp | OVersion | OBad.
Inductive answer := Printed (one : bool) | Exits (success : bool).

Definition mem (s : str) (l : list str) : bool := existsb (str_eqb s) l.
Fixpoint var_atts (v : str) (l : list (str * list str)) : option (list str) :=
  match l with [] => None | (n, a) :: l => if str_eqb n v then Some a else var_atts v l end.

(** The option loop, ncexists.c:97-137: variables filename, gattr, var_name, attr *)
Definition opts_state := (option str * option str * option str * option str)%type.
Fixpoint parse (st : opts_state) (l : list opt) : opts_state + bool :=
  let '(f, g, v, a) := st in
  match l with
  | [] => inl st
  | OFile s :: l => parse (Some s, g, v, a) l
  | OGlobal s :: l => parse (f, Some s, v, a) l
  | OVar s :: l => parse (f, g, Some s, a) l
  | OAtt s :: l => parse (f, g, v, Some s) l
  | OHelp :: _ => inr true
  | OVersion :: _ => inr true
  | OBad :: _ => inr false
  end.
(** main, ncexists.c:66-205.  [open]: the file if it can be read and opened.  (The flag
    global is set exactly when gattr is.) *)
Definition ncexists (open : str -> option ncnames) (l : list opt) : answer :=
  match l with [] => Exits false | _ =>
  match parse (None, None, None, None) l with
  | inr b => Exits b
  | inl (None, _, _, _) => Exits false
  | inl (Some _, None, None, _) => Exits false
  | inl (Some f, g, v, a) =>
    match open f with
    | None => Exits false
    | Some c =>
      match g, v with
      | Some g, _ => Printed (mem g (g_atts c))
      | None, Some v =>
        match var_atts v (g_vars c) with
        | None => Printed false
        | Some atts => match a with None => Printed true | Some a => Printed (mem a atts) end
        end
      | None, None => Exits false
      end
    end
  end end.
