(** C91: the boundaries of an ocean grid *)
From Coq Require Import ZArith List Bool Lia String.
From Verif Require Import Base Str M_Contact Spec_Contact T_Contact M_CheckMask M_Boundary Spec_Boundary.
Import ListNotations.
Open Scope list_scope. Open Scope Z_scope.

Lemma even_2 m : Z.even (2 * m) = true.
Proof. rewrite Z.even_mul. reflexivity. Qed.
Lemma odd_2 m : Z.odd (2 * m + 1) = true.
Proof. rewrite Z.odd_add, Z.odd_mul. reflexivity. Qed.
Lemma whole1 m : 1 <= m -> whole_cells 1 (2 * m).
Proof. intros H. unfold whole_cells. rewrite Z.min_l, Z.max_r by lia. split; [reflexivity|apply even_2]. Qed.

Lemma contact_of_ok nx ny b k : 2 <= nx -> 2 <= ny -> (b = FoldedNorth -> Z.even nx = true) -> contact_of nx ny b k -> contact_ok 1 (fun _ => nx) (fun _ => ny) k.
Proof.
  intros Hx Hy He (T1 & T2 & C). unfold contact_ok. rewrite T1, T2. split; [lia|]. split; [lia|].
  destruct k as [t1 t2 is1 ie1 js1 je1 is2 ie2 js2 je2]. cbn [k_tile1 k_tile2 k_is1 k_ie1 k_js1 k_je1 k_is2 k_ie2 k_js2 k_je2] in *.
  pose proof (whole1 nx ltac:(lia)) as WX. pose proof (whole1 ny ltac:(lia)) as WY. unfold range_ok, one_if_long. destruct b.
  - destruct C as (<- & <- & C & -> & -> & -> & ->). rewrite !Z.eqb_refl, (proj2 (Z.eqb_neq 1 (2 * ny))) by lia. repeat split; auto; lia.
  - destruct C as (<- & <- & C & -> & -> & -> & ->). rewrite !Z.eqb_refl, (proj2 (Z.eqb_neq 1 (2 * nx))) by lia. repeat split; auto; lia.
  - destruct C as (-> & -> & -> & -> & -> & -> & -> & ->). specialize (He eq_refl). rewrite !Z.eqb_refl, (proj2 (Z.eqb_neq 1 nx)), (proj2 (Z.eqb_neq (2 * nx) (nx + 1))) by lia.
    assert (W1 : whole_cells 1 nx) by (unfold whole_cells; rewrite Z.min_l, Z.max_r by lia; auto).
    assert (W2 : whole_cells (2 * nx) (nx + 1)) by (unfold whole_cells; rewrite Z.min_r, Z.max_l by lia; split; [rewrite Z.odd_add, <- Z.negb_even, He; reflexivity|apply even_2]).
    repeat split; auto; lia.
Qed.

(** What the model cells tell about the boundary. *)
Lemma step_ok nx ny b k k' f : 2 <= nx -> 2 <= ny -> (b = FoldedNorth -> Z.even nx = true /\ 4 <= nx) -> contact_of nx ny b k -> contact_converted (fun _ => nx) (fun _ => ny) k k' ->
  boundary_step f k' = Ok {| cyclic_x := cyclic_x f || boundary_eqb b CyclicX; cyclic_y := cyclic_y f || boundary_eqb b CyclicY; tripolar := tripolar f || boundary_eqb b FoldedNorth |}.
Proof.
  intros Hx Hy He (_ & _ & C) (_ & _ & I1 & J1 & I2 & J2). unfold boundary_step.
  destruct k as [t1 t2 is1 ie1 js1 je1 is2 ie2 js2 je2]. destruct k' as [t1' t2' is1' ie1' js1' je1' is2' ie2' js2' je2'].
  cbn [k_tile1 k_tile2 k_is1 k_ie1 k_js1 k_je1 k_is2 k_ie2 k_js2 k_je2] in *.
  destruct I1 as (A1 & A2 & A3 & A4 & (_ & _ & A5) & _). destruct J1 as (B1 & B2 & B3 & B4 & (_ & _ & B5) & _).
  destruct I2 as (C1 & C2 & C3 & C4 & (_ & _ & C5) & _). destruct J2 as (D1 & D2 & D3 & D4 & (_ & _ & D5) & _). unfold in_cell in *.
  destruct b; cbn [boundary_eqb]; rewrite ?orb_false_r, ?orb_true_r.
  - destruct C as (E1 & E2 & _). rewrite (proj2 (Z.eqb_eq is1' ie1') (A5 E1)), (proj2 (Z.eqb_eq is2' ie2') (C5 E2)). reflexivity.
  - destruct C as (E1 & E2 & C & -> & -> & _). assert (N1 : is1' <> ie1') by (clear -A1 A2 Hx; lia). assert (N2 : js1' <> js2') by (clear -B1 D1 C Hy; lia).
    rewrite (proj2 (Z.eqb_neq is1' ie1') N1), (proj2 (Z.eqb_eq js1' je1') (B5 E1)), (proj2 (Z.eqb_eq js2' je2') (D5 E2)), (proj2 (Z.eqb_neq js1' js2') N2). reflexivity.
  - specialize (He eq_refl). destruct C as (-> & -> & -> & -> & -> & -> & _). assert (N1 : is1' <> ie1') by (destruct He as [_ He]; clear -A1 A2 He; lia). assert (N2 : js1' = js2') by (clear -B1 D1; lia).
    rewrite (proj2 (Z.eqb_neq is1' ie1') N1), (proj2 (Z.eqb_eq js1' je1') (B5 eq_refl)), (proj2 (Z.eqb_eq js2' je2') (D5 eq_refl)), (proj2 (Z.eqb_eq js1' js2') N2). reflexivity.
Qed.

(** The contacts written to the mosaic file are read back as the boundaries they stand for. *)
Theorem C91_boundaries_partial : forall mosaic tile nx ny bs ks p,
  2 <= nx < 1073741824 -> 2 <= ny < 1073741824 -> (In FoldedNorth bs -> Z.even nx = true /\ 4 <= nx) ->
  1 <= zlen bs <= 2 -> Forall2 (contact_of nx ny) bs ks -> names_ok mosaic [tile] -> names_fit mosaic tile tile -> zlen p = 255 * 40 ->
  exists strs, write_contacts mosaic [tile] ks = Ok strs
  /\ exists b, get_boundary_type [tile] p (Some strs) = Ok b
  /\ (cyclic_x b = true <-> In CyclicX bs) /\ (cyclic_y b = true <-> In CyclicY bs) /\ (tripolar b = true <-> In FoldedNorth bs).
Proof.
  intros mosaic tile nx ny bs ks p Hx Hy He Hb HC HN HF HP.
  destruct (C35_roundtrip mosaic [tile] (fun _ => nx) (fun _ => ny) ks p HN) as (strs & ks' & E1 & EL & E2 & F2).
  - intros _. lia.
  - clear -HC Hx Hy He. induction HC as [|b k bs ks C _ IH]; [contradiction|]. intros k0 [<-|Hk].
    + apply (contact_of_ok nx ny b); auto; try lia. intros ->. apply He. now left.
    + apply IH; auto. intros I. apply He. now right.
  - intros n1 n2 [<-|[]] [<-|[]]. exact HF.
  - exact HP.
  - exists strs. split; [exact E1|]. unfold get_boundary_type. change (zlen [tile] =? 1) with true. cbn [negb].
    assert (L : zlen strs = zlen bs). { rewrite EL. clear -HC. induction HC; auto. rewrite !zlen_cons. lia. }
    rewrite (proj2 (Z.ltb_ge (zlen strs) 1)) by lia. destruct (Z.gtb_spec (zlen strs) 2); [lia|]. rewrite E2. cbn [bind].
    assert (G : forall f, ofold boundary_step ks' f = Ok {| cyclic_x := cyclic_x f || existsb (fun b => boundary_eqb b CyclicX) bs; cyclic_y := cyclic_y f || existsb (fun b => boundary_eqb b CyclicY) bs; tripolar := tripolar f || existsb (fun b => boundary_eqb b FoldedNorth) bs |}).
    { clear -HC F2 Hx Hy He. revert ks' F2. induction HC as [|b k bs ks C _ IH]; intros ks' F2 f; inversion F2 as [|? k' ? ks'' K F2']; subst; cbn [ofold existsb].
      - rewrite !orb_false_r. destruct f. reflexivity.
      - rewrite (step_ok nx ny b k k' f); auto; try lia. 2:{ intros ->. apply He. now left. }
        cbn [bind]. rewrite IH; auto. 2:{ intros I. apply He. now right. }
        cbn [cyclic_x cyclic_y tripolar]. now rewrite !orb_assoc. }
    rewrite G. eexists. split; [reflexivity|]. cbn [cyclic_x cyclic_y tripolar orb]. rewrite !existsb_exists.
    split; [|split]; (split; [intros (b & I & Q); destruct b; try discriminate; exact I|intros I; eexists; split; [exact I|reflexivity]]).
Qed.
(** Without contacts all boundaries are closed. *)
Theorem C91_closed : forall tile p b, get_boundary_type [tile] p None = Ok b -> cyclic_x b = false /\ cyclic_y b = false /\ tripolar b = false.
Proof. intros tile p b E. cbn in E. injection E as <-. auto. Qed.

(** Finding: on a grid of one column the contact of south and north is taken for the one of west
    and east, on a grid of one row for a folded north side. *)
Definition y_contact (nx ny : Z) : contact := {| k_tile1 := 0; k_tile2 := 0; k_is1 := 1; k_ie1 := 2 * nx; k_js1 := 1; k_je1 := 1; k_is2 := 1; k_ie2 := 2 * nx; k_js2 := 2 * ny; k_je2 := 2 * ny |}.
Definition fold_contact (nx ny : Z) : contact := {| k_tile1 := 0; k_tile2 := 0; k_is1 := 1; k_ie1 := nx; k_js1 := 2 * ny; k_je1 := 2 * ny; k_is2 := 2 * nx; k_ie2 := nx + 1; k_js2 := 2 * ny; k_je2 := 2 * ny |}.
Definition read_back (k : contact) : outcome bctype :=
  do strs <- write_contacts (chars "ocean_mosaic") [chars "tile1"] [k] ; get_boundary_type [chars "tile1"] (repeat 7 (Z.to_nat 10200)) (Some strs).
Theorem C91_narrow_refuted :
  (contact_of 1 5 CyclicY (y_contact 1 5) /\ read_back (y_contact 1 5) = Ok {| cyclic_x := true; cyclic_y := false; tripolar := false |})
  /\ (contact_of 5 1 CyclicY (y_contact 5 1) /\ read_back (y_contact 5 1) = Ok {| cyclic_x := false; cyclic_y := false; tripolar := true |})
  /\ (contact_of 2 5 FoldedNorth (fold_contact 2 5) /\ read_back (fold_contact 2 5) = Ok {| cyclic_x := true; cyclic_y := false; tripolar := false |}).
Proof.
  split; [|split]; (split; [unfold contact_of; cbn; lia|vm_compute; reflexivity]).
Qed.
(** Finding: with an odd number of columns the two halves of the north side are no whole cells,
    and the mosaic cannot be read. *)
Theorem C91_odd_fold_refuted : contact_of 5 5 FoldedNorth (fold_contact 5 5) /\ exists e, read_back (fold_contact 5 5) = Err e.
Proof. split; [unfold contact_of; cbn; lia|]. eexists. vm_compute. reflexivity. Qed.

(** A tripolar ocean grid *)
Example C91_example : let ks := [{| k_tile1 := 0; k_tile2 := 0; k_is1 := 720; k_ie1 := 720; k_js1 := 1; k_je1 := 400; k_is2 := 1; k_ie2 := 1; k_js2 := 1; k_je2 := 400 |}; fold_contact 360 200] in
  Forall2 (contact_of 360 200) [CyclicX; FoldedNorth] ks
  /\ (do strs <- write_contacts (chars "ocean_mosaic") [chars "tile1"] ks ; get_boundary_type [chars "tile1"] (repeat 7 (Z.to_nat 10200)) (Some strs)) = Ok {| cyclic_x := true; cyclic_y := false; tripolar := true |}.
Proof.
  cbv zeta. split; [|vm_compute; reflexivity]. constructor; [unfold contact_of; cbn; lia|]. constructor; [unfold contact_of; cbn; lia|]. constructor.
Qed.
