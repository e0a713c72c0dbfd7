(** * Proofs about the tripolar grid: rows and the whole grid *)
From Verif Require Import Base Loops Vec M_Interp M_GridBound M_Longitude M_Runoff M_Matrix M_Hgrid Spec_Hgrid P_Interp P_Interp2 P_Longitude P_Matrix P_Plevel3 P_Hgrid P_Tripolar P_Tripolar2.
From Coq Require Import Lra Reals.
Local Open Scope R_scope.

Section rows.
  Context (S LJ : R) (HJ : -90 < LJ < 90) (HS : -360 <= S) (fuel : nat) (HF : Rabs S <= 360 * INR fuel).
  Context (nx h : Z) (xs : list R) (HX : lines xs nx S (S + 360)) (Hh : (0 <= h <= nx)%Z) (Eh : at_ xs h = S + 180).
  Notation bpeq := (S + 90). Notation bpnp := S. Notation bpsp := (S + 180).
  Notation lam0 := (fmod (bpeq * D2R + 2 * PI) (2 * PI)).
  Notation rp := (tan ((1 / 2 * PI - LJ * D2R) / 2)).
  Notation trans x y ref := (tp_trans (2 + fuel) x y ref S lam0 bpeq bpsp bpnp rp).

  Lemma xs_range i : (0 <= i <= nx)%Z -> 0 <= at_ xs i - S <= 360.
  Proof. intros Hi. pose proof (line_mono _ _ _ _ i HX Hi). lra. Qed.
  Lemma xs_mono i j : (0 <= i <= j)%Z -> (j <= nx)%Z -> at_ xs i <= at_ xs j.
  Proof. intros H1 H2. destruct HX as (L & I & _). destruct (Z.eq_dec i j) as [->|]; [lra|]. left. apply I; lia. Qed.

  (** The results of a row, from west to east. *)
  Fixpoint west (y : R) (n : nat) : R * R :=
    let ref := match n with O => at_ xs 0 | Datatypes.S m => fst (west y m) end in
    match trans (at_ xs (Z.of_nat n)) y ref with Ok p => p | _ => (0, 0) end.
  Definition row (y : R) (i : Z) : R * R := west y (Z.to_nat i).
  Definition refer (y : R) (i : Z) : R := if (i =? 0)%Z then at_ xs 0 else fst (row y (i - 1)).
  Lemma row_eq y i : (0 <= i)%Z -> row y i = match trans (at_ xs i) y (refer y i) with Ok p => p | _ => (0, 0) end.
  Proof.
    intros Hi. unfold row, refer. destruct (Z.eqb_spec i 0) as [->|N]; [reflexivity|]. replace (Z.to_nat i) with (Datatypes.S (Z.to_nat (i - 1))) by lia. cbn [west].
    unfold row. replace (Z.of_nat (Datatypes.S (Z.to_nat (i - 1)))) with i by lia. reflexivity.
  Qed.

  Definition row_ok (y : R) (i : Z) : Prop :=
    trans (at_ xs i) y (refer y i) = Ok (row y i) /\ S <= fst (row y i) <= lon_of S LJ (at_ xs i) y /\ refer y i <= fst (row y i)
    /\ ((h <= i)%Z -> S + 180 - SMALL < fst (row y i))
    /\ (near S LJ (at_ xs i) y -> row y i = (refer y i, 90))
    /\ (~ near S LJ (at_ xs i) y -> snd (row y i) = lat_of S LJ (at_ xs i) y /\ lon_of S LJ (at_ xs i) y - fst (row y i) < SMALL
         /\ (SMALL <= lon_of S LJ (at_ xs i) y - refer y i -> fst (row y i) = lon_of S LJ (at_ xs i) y)).

  Lemma row_run_ok y : LJ <= y <= 90 - SMALL -> forall i, (0 <= i <= nx)%Z -> row_ok y i.
  Proof.
    intros Hy. assert (SM : 0 < SMALL < 1) by (unfold SMALL; lra). intros i Hi. assert (Hi' : (i <= nx)%Z) by lia. destruct Hi as [Hi _]. revert i Hi Hi'. apply (natlike_ind (fun i => (i <= nx)%Z -> row_ok y i)).
    - intros _. assert (E0 : at_ xs 0 = S) by apply HX. assert (LO : lon_of S LJ (at_ xs 0) y = S). { unfold lon_of. rewrite E0. replace (S - S) with 0 by lra. rewrite lon_0 by lra. lra. }
      assert (ER : refer y 0 = at_ xs 0) by reflexivity.
      destruct (tp_point S LJ HJ HS fuel (at_ xs 0) y (at_ xs 0)) as [(N & E)|(N & r & E & A & B & C)]; try lra.
      + assert (RW : row y 0 = (at_ xs 0, 90)) by (rewrite (row_eq y 0), ER by lia; now rewrite E).
        unfold row_ok. rewrite RW, ER. cbn [fst snd]. split; auto. rewrite LO. split; [lra|]. split; [lra|]. split; [|split; [auto|contradiction]].
        intros L. exfalso. assert (h = 0%Z) by lia. subst h. lra.
      + assert (RW : row y 0 = (r, lat_of S LJ (at_ xs 0) y)) by (rewrite (row_eq y 0), ER by lia; now rewrite E).
        unfold row_ok. rewrite RW, ER. cbn [fst snd]. split; auto. rewrite LO in *. split; [lra|]. split; [lra|]. split; [intros L; exfalso; assert (h = 0%Z) by lia; subst h; lra|]. split; [contradiction|]. intros _. auto.
    - intros i Hi IH Hi'. unfold Z.succ in *. specialize (IH ltac:(lia)). destruct IH as (_ & I1 & _ & I2 & _ & _).
      assert (ER : refer y (i + 1) = fst (row y i)). { unfold refer. destruct (Z.eqb_spec (i + 1) 0); [lia|]. now replace (i + 1 - 1)%Z with i by lia. }
      pose proof (xs_range i ltac:(lia)) as R0. pose proof (xs_range (i + 1) ltac:(lia)) as R1. pose proof (xs_mono i (i + 1) ltac:(lia) ltac:(lia)) as M.
      assert (LM : lon_of S LJ (at_ xs i) y <= lon_of S LJ (at_ xs (i + 1)) y). { unfold lon_of. pose proof (lon_mono LJ HJ y (at_ xs i - S) (at_ xs (i + 1) - S) ltac:(lra) ltac:(lra) ltac:(lra) ltac:(lra)). lra. }
      destruct (lon_range LJ HJ y (at_ xs (i + 1) - S) ltac:(lra) R1) as (G1 & G2 & G3).
      assert (UP : lon_of S LJ (at_ xs (i + 1)) y <= fst (row y i) + 360 - SMALL).
      { unfold lon_of. destruct (Z_le_gt_dec (i + 1) h) as [L|L]. - pose proof (xs_mono (i + 1) h ltac:(lia) ltac:(lia)). rewrite Eh in H. specialize (G2 ltac:(lra)). lra. - specialize (I2 ltac:(lia)). lra. }
      destruct (tp_point S LJ HJ HS fuel (at_ xs (i + 1)) y (fst (row y i))) as [(N & E)|(N & r & E & A & B & C)]; auto; try lra.
      + assert (RW : row y (i + 1) = (fst (row y i), 90)) by (rewrite (row_eq y (i + 1)), ER by lia; now rewrite E).
        unfold row_ok. rewrite RW, ER. cbn [fst snd]. split; auto. split; [lra|]. split; [lra|]. split; [|split; [auto|contradiction]].
        intros L. destruct (Z.eq_dec h (i + 1)) as [->|]; [|apply I2; lia]. exfalso. destruct N as [_ N]. rewrite Eh in N. rewrite phi_west in N by lra. pose proof PI_RGT_0. pose proof PI2_1. unfold D2R in N.
        replace ((90 - (S + 180 - S)) * (PI / 180)) with (- (PI / 2)) in N by field. rewrite Rabs_Ropp, Rabs_pos_eq in N by lra. lra.
      + assert (RW : row y (i + 1) = (r, lat_of S LJ (at_ xs (i + 1)) y)) by (rewrite (row_eq y (i + 1)), ER by lia; now rewrite E).
        unfold row_ok. rewrite RW, ER. cbn [fst snd]. split; auto. split; [lra|]. split; [lra|]. split; [|split; [contradiction|auto]].
        intros L. destruct (Z.eq_dec h (i + 1)) as [->|]; [|specialize (I2 ltac:(lia)); lra]. unfold lon_of in *. rewrite Eh in *. replace (S + 180 - S) with 180 in * by lra. rewrite lon_180 in B by lra. lra.
  Qed.

  (** The row at the pole. *)
  Definition seam (x : R) : R := if Rlt_dec (x - S) 90 then S else if Rle_dec (x - S) 270 then S + 180 else S + 360.
  Lemma top_run_ok : forall i, (0 <= i <= nx)%Z -> trans (at_ xs i) 90 (refer 90 i) = Ok (row 90 i) /\ row 90 i = (seam (at_ xs i), lat_of S LJ (at_ xs i) 90).
  Proof.
    assert (SM : 0 < SMALL < 1) by (unfold SMALL; lra). intros i Hi. assert (Hi' : (i <= nx)%Z) by lia. destruct Hi as [Hi _]. pose proof PI_RGT_0 as HP.
    assert (G : forall i, (0 <= i <= nx)%Z -> (i = 0%Z -> refer 90 i = S) -> ((0 < i)%Z -> refer 90 i = seam (at_ xs (i - 1))) -> trans (at_ xs i) 90 (refer 90 i) = Ok (seam (at_ xs i), lat_of S LJ (at_ xs i) 90)).
    { clear i Hi Hi'. intros i Hi H0 H1. pose proof (xs_range i Hi) as R. rewrite tp_top by auto. unfold seam at 1. destruct (Rlt_dec (at_ xs i - S) 90) as [L|L].
      - rewrite phi_west by lra. rewrite rlt_t by (unfold D2R; nra). assert (ER : refer 90 i = S).
        { destruct (Z.eq_dec i 0) as [->|N]; [auto|]. rewrite H1 by lia. unfold seam. pose proof (xs_mono (i - 1) i ltac:(lia) ltac:(lia)). destruct (Rlt_dec (at_ xs (i - 1) - S) 90); lra. }
        rewrite ER. unfold lon_in_range. rewrite rlt_t by (replace (S - S) with 0 by lra; rewrite Rabs_R0; lra). reflexivity.
      - destruct (Rle_dec (at_ xs i - S) 270) as [L2|L2].
        + rewrite (rlt_f 0). 2:{ destruct (Rle_dec (at_ xs i - S) 180); [rewrite phi_west by lra|rewrite phi_east by lra]; unfold D2R; nra. } reflexivity.
        + rewrite phi_east by lra. rewrite rlt_t by (unfold D2R; nra).
          assert (PI_ : (h < i)%Z). { destruct (Z_lt_le_dec h i); auto. pose proof (xs_mono i h ltac:(lia) ltac:(lia)). lra. }
          rewrite H1 by lia. pose proof (xs_mono h (i - 1) ltac:(lia) ltac:(lia)) as M. rewrite Eh in M. unfold lon_in_range, seam. destruct (Rlt_dec (at_ xs (i - 1) - S) 90); [lra|].
          destruct (Rle_dec (at_ xs (i - 1) - S) 270).
          * rewrite (rlt_f (Rabs _)) by (rewrite Rabs_left1; lra). rewrite (rlt_f (Rabs _)) by (rewrite Rabs_left1; lra). cbn [lir_loop Nat.add]. rewrite rlt_t by lra. rewrite rlt_f by lra. rewrite rlt_f by lra. reflexivity.
          * rewrite (rlt_f (Rabs _)) by (rewrite Rabs_left1; lra). rewrite (rlt_f (Rabs _)) by (rewrite Rabs_left1; lra). cbn [lir_loop Nat.add]. rewrite rlt_t by lra. rewrite rlt_f by lra. rewrite rlt_f by lra. reflexivity. }
    revert i Hi Hi'. apply (natlike_ind (fun i => (i <= nx)%Z -> trans (at_ xs i) 90 (refer 90 i) = Ok (row 90 i) /\ row 90 i = (seam (at_ xs i), lat_of S LJ (at_ xs i) 90))).
    - intros _. rewrite (row_eq 90 0) by lia. rewrite (G 0%Z); [auto|lia| |lia]. intros _. unfold refer. cbn [Z.eqb]. apply HX.
    - intros i Hi IH Hi'. unfold Z.succ in *. destruct (IH ltac:(lia)) as [_ R].
      rewrite (row_eq 90 (i + 1)) by lia. rewrite (G (i + 1)%Z); [auto|lia|lia|]. intros _. unfold refer. destruct (Z.eqb_spec (i + 1) 0); [lia|]. replace (i + 1 - 1)%Z with i by lia. now rewrite R.
  Qed.

  (** ** The loops *)
  Context (ny J : Z) (ys : list R) (Ly : zlen ys = (ny + 1)%Z) (HJJ : (0 <= J <= ny)%Z)
    (HY : forall j, (J <= j <= ny)%Z -> LJ <= at_ ys j <= 90 - SMALL \/ at_ ys j = 90).
  Definition steps : Prop := forall j i, (J <= j <= ny)%Z -> (0 <= i <= nx)%Z -> trans (at_ xs i) (at_ ys j) (refer (at_ ys j) i) = Ok (row (at_ ys j) i).
  Lemma row_step : steps.
  Proof. intros j i Hj Hi. destruct (HY j Hj) as [Y|Y]; [apply (row_run_ok _ Y i Hi)|rewrite Y; apply (top_run_ok i Hi)]. Qed.

  Definition body (j : Z) : list R * list R -> Z -> outcome (list R * list R) := fun '(x, y) i =>
    do lon_last <- oget x (j * (nx + 1) + Z.max (i - 1) 0) ;
    do lon <- oget x (j * (nx + 1) + i) ; do lat <- oget y (j * (nx + 1) + i) ;
    do '(lon, lat) <- trans lon lat lon_last ;
    do x <- oset x (j * (nx + 1) + i) lon ; do y <- oset y (j * (nx + 1) + i) lat ;
    Ok (x, y).

  Lemma table_set a nj ni v w j i e : table a nj ni v -> (0 <= j < nj)%Z -> (0 <= i < ni)%Z ->
    (forall j' i', (0 <= j' < nj)%Z -> (0 <= i' < ni)%Z -> w j' i' = if ((j' =? j) && (i' =? i))%Z then e else v j' i') ->
    exists a', oset a (j * ni + i) e = Ok a' /\ table a' nj ni w.
  Proof.
    intros [L H] Hj Hi W. destruct (vec_set a (nj * ni) (at_ a) (fun n => if (n =? j * ni + i)%Z then e else at_ a n) (j * ni + i) e) as (a' & E & V); [rewrite <- L; now apply vec_self|nia|auto|].
    exists a'. split; auto. split; [apply V|]. intros j' i' Hj' Hi'. rewrite (vec_at_ _ _ _ _ V) by nia. cbv beta. rewrite W by auto.
    destruct (Z.eqb_spec (j' * ni + i') (j * ni + i)) as [E1|N].
    - destruct (rowmajor_inj ni j' i' j i Hi' Hi E1) as [-> ->]. now rewrite !Z.eqb_refl.
    - destruct (Z.eqb_spec j' j), (Z.eqb_spec i' i); cbn [andb]; auto. subst. congruence.
  Qed.

  (** What the arrays hold when row j has been done up to column i. *)
  Definition done (j i : Z) (f : R * R -> R) (old : Z -> Z -> R) (j' i' : Z) : R :=
    if ((J <=? j') && ((j' <? j) || ((j' =? j) && (i' <? i))))%Z then f (row (at_ ys j') i') else old j' i'.
  Lemma done_row j f old j' i' : (0 <= i' < nx + 1)%Z -> done j (nx + 1) f old j' i' = done (j + 1) 0 f old j' i'.
  Proof. intros Hi. unfold done. destruct (Z.leb_spec J j'), (Z.ltb_spec j' j), (Z.eqb_spec j' j), (Z.ltb_spec i' (nx + 1)), (Z.ltb_spec j' (j + 1)), (Z.eqb_spec j' (j + 1)), (Z.ltb_spec i' 0); cbn [andb orb]; auto; lia. Qed.

  Lemma rows_run_gen x y : (0 <= nx)%Z -> steps -> table x (ny + 1) (nx + 1) (fun _ i => at_ xs i) -> table y (ny + 1) (nx + 1) (fun j _ => at_ ys j) ->
    exists x' y', bipolar_rows (2 + fuel) (nx + 1) (ny + 1) J S lam0 bpeq bpsp bpnp rp (x, y) = Ok (x', y')
      /\ table x' (ny + 1) (nx + 1) (fun j i => if (J <=? j)%Z then fst (row (at_ ys j) i) else at_ xs i)
      /\ table y' (ny + 1) (nx + 1) (fun j i => if (J <=? j)%Z then snd (row (at_ ys j) i) else at_ ys j).
  Proof.
    intros Hnx row_step Tx Ty. unfold bipolar_rows. change (fun (s : list R * list R) (j : Z) => ofor 0 (nx + 1) _ s) with (fun s j => ofor 0 (nx + 1) (body j) s).
    set (ox := fun _ i : Z => at_ xs i) in *. set (oy := fun j _ : Z => at_ ys j) in *.
    destruct (ofor_inv (fun j (s : list R * list R) => table (fst s) (ny + 1) (nx + 1) (done j 0 fst ox) /\ table (snd s) (ny + 1) (nx + 1) (done j 0 snd oy)) (fun s j => ofor 0 (nx + 1) (body j) s) J (ny + 1 - J) (x, y)) as ((x' & y') & E & T1 & T2); [lia| | |].
    - cbn [fst snd]. split; [revert Tx|revert Ty]; apply table_ext; intros j i Hj Hi; unfold done; destruct (Z.leb_spec J j), (Z.ltb_spec j J), (Z.eqb_spec j J), (Z.ltb_spec i 0); cbn [andb orb]; auto; lia.
    - intros j s Hj (A & B).
      destruct (ofor_inv (fun i (s : list R * list R) => table (fst s) (ny + 1) (nx + 1) (done j i fst ox) /\ table (snd s) (ny + 1) (nx + 1) (done j i snd oy)) (body j) 0 (nx + 1) s) as (s' & E & A' & B'); [lia|auto| |].
      2:{ exists s'. split; auto. cbn [Z.add] in A', B'. split; [revert A'|revert B']; apply table_ext; intros; now apply done_row. }
      clear s A B. intros i (x1, y1) Hi (A & B). cbn [fst snd] in A, B. cbn [Z.add] in Hi. unfold body.
      assert (LAST : oget x1 (j * (nx + 1) + Z.max (i - 1) 0) = Ok (refer (at_ ys j) i)).
      { rewrite (table_get x1 _ _ _ j (Z.max (i - 1) 0) A) by lia. f_equal. unfold refer, done, ox. destruct (Z.eqb_spec i 0) as [->|N].
        - change (Z.max (0 - 1) 0) with 0%Z. destruct (Z.leb_spec J j), (Z.ltb_spec j j), (Z.eqb_spec j j); cbn [andb orb Z.ltb Z.compare]; auto; lia.
        - replace (Z.max (i - 1) 0) with (i - 1)%Z by lia. destruct (Z.leb_spec J j), (Z.ltb_spec j j), (Z.eqb_spec j j), (Z.ltb_spec (i - 1) i); cbn [andb orb]; auto; lia. }
      assert (LON : oget x1 (j * (nx + 1) + i) = Ok (at_ xs i)). { rewrite (table_get x1 _ _ _ j i A) by lia. f_equal. unfold done, ox. destruct (Z.leb_spec J j), (Z.ltb_spec j j), (Z.eqb_spec j j), (Z.ltb_spec i i); cbn [andb orb]; auto; lia. }
      assert (LAT : oget y1 (j * (nx + 1) + i) = Ok (at_ ys j)). { rewrite (table_get y1 _ _ _ j i B) by lia. f_equal. unfold done, oy. destruct (Z.leb_spec J j), (Z.ltb_spec j j), (Z.eqb_spec j j), (Z.ltb_spec i i); cbn [andb orb]; auto; lia. }
      rewrite LAST, LON, LAT. cbn [bind]. rewrite (row_step j i) by lia. cbn [bind]. destruct (row (at_ ys j) i) as [lon lat] eqn:ER.
      assert (W : forall f old j' i', (0 <= j' < ny + 1)%Z -> (0 <= i' < nx + 1)%Z -> done j (i + 1) f old j' i' = if ((j' =? j) && (i' =? i))%Z then f (row (at_ ys j) i) else done j i f old j' i').
      { intros f old j' i' Hj' Hi'. unfold done. destruct (Z.leb_spec J j'), (Z.ltb_spec j' j), (Z.eqb_spec j' j), (Z.ltb_spec i' (i + 1)), (Z.ltb_spec i' i), (Z.eqb_spec i' i); cbn [andb orb]; subst; auto; lia. }
      destruct (table_set x1 (ny + 1) (nx + 1) _ (done j (i + 1) fst ox) j i lon A) as (x2 & E2 & T2); [lia|lia|intros; rewrite W by auto; now rewrite ER|].
      destruct (table_set y1 (ny + 1) (nx + 1) _ (done j (i + 1) snd oy) j i lat B) as (y2 & E3 & T3); [lia|lia|intros; rewrite W by auto; now rewrite ER|].
      rewrite E2. cbn [bind]. rewrite E3. cbn [bind]. exists (x2, y2). split; auto.
    - rewrite E. exists x', y'. split; auto. cbn [fst snd] in T1, T2. replace (J + (ny + 1 - J))%Z with (ny + 1)%Z in * by lia.
      split; [revert T1|revert T2]; apply table_ext; intros j i Hj Hi; unfold done; destruct (Z.leb_spec J j), (Z.ltb_spec j (ny + 1)); cbn [andb orb]; auto; lia.
  Qed.
  Lemma rows_run x y : table x (ny + 1) (nx + 1) (fun _ i => at_ xs i) -> table y (ny + 1) (nx + 1) (fun j _ => at_ ys j) ->
    exists x' y', bipolar_rows (2 + fuel) (nx + 1) (ny + 1) J S lam0 bpeq bpsp bpnp rp (x, y) = Ok (x', y')
      /\ table x' (ny + 1) (nx + 1) (fun j i => if (J <=? j)%Z then fst (row (at_ ys j) i) else at_ xs i)
      /\ table y' (ny + 1) (nx + 1) (fun j i => if (J <=? j)%Z then snd (row (at_ ys j) i) else at_ ys j).
  Proof. apply rows_run_gen; [|exact row_step]. destruct HX. pose proof (zlen_nonneg xs). lia. Qed.
End rows.
