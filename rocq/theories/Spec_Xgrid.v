(** * Vocabulary for the exchange grid properties *)
From Verif Require Import Base M_Xgrid.

(** [l] lists exactly the exchange cells of two grids with [n1] and [n2] cells, each once. *)
Definition exchange_cells {V} (mask : Z -> bool) (overlap : Z -> Z -> option V) (n1 n2 : Z) (l : list (cell V)) : Prop :=
  NoDup (map (fun c => (c_in V c, c_out V c)) l)
  /\ forall c, In c l <-> 0 <= c_in V c < n1 /\ 0 <= c_out V c < n2 /\ mask (c_in V c) = true /\ overlap (c_in V c) (c_out V c) = Some (c_area V c).
(** A schedule of [n] threads. *)
Definition schedule (n : Z) (s : list Z) : Prop := Forall (fun m => 0 <= m < n) s.
