(** * Proofs about the rectangular grids of make_hgrid *)
From Verif Require Import Base Loops Vec M_Interp M_GridBound M_Longitude M_Runoff M_Hgrid Spec_GridBound Spec_Hgrid P_Interp P_Interp2 P_Longitude P_Plevel3 T_GridBound.
From Coq Require Import Lra.
Local Open Scope Z_scope.

(** ** Arrays filled in order *)
Lemma fill2_run nj ni f (F : Z -> Z -> R) : 0 <= nj -> 0 <= ni -> (forall j i, 0 <= j < nj -> 0 <= i < ni -> f j i = Ok (F j i)) ->
  exists a, fill2 nj ni f = Ok a /\ table a nj ni F.
Proof.
  intros Hj Hi H. unfold fill2.
  assert (E : ofor 0 nj (fun out j => ofor 0 ni (fun out i => do v <- f j i ; Ok (out ++ [v])) out) [] = Ok (map (fun n => F (n / ni) (n mod ni)) (zseq 0 (nj * ni)))).
  { rewrite (ofor_nest2 0 nj 0 ni (fun j out i => do v <- f j i ; Ok (out ++ [v]))) by auto. rewrite (ofor_grow (nj * ni) _ (fun n => F (n / ni) (n mod ni))); [reflexivity|nia|].
    intros b n Hn. destruct (divmod_range nj ni n Hi Hn) as (A & B & C & D). change (0 + n / ni) with (n / ni). change (0 + n mod ni) with (n mod ni). rewrite H by auto. reflexivity. }
  eexists. split; [exact E|]. split. { rewrite zlen_map, zlen_zseq; nia. }
  intros j i Hj' Hi'. rewrite (vec_at_ _ (nj * ni) (fun n => F (n / ni) (n mod ni))); [|apply vec_map; nia|nia]. cbv beta. now rewrite rowmajor_div, rowmajor_mod by auto.
Qed.
Lemma table_get a nj ni v j i : table a nj ni v -> 0 <= j < nj -> 0 <= i < ni -> oget a (j * ni + i) = Ok (v j i).
Proof. intros [L H] Hj Hi. rewrite get_at by nia. now rewrite H. Qed.
Lemma table_ext a nj ni v w : (forall j i, 0 <= j < nj -> 0 <= i < ni -> v j i = w j i) -> table a nj ni v -> table a nj ni w.
Proof. intros E [L H]. split; auto. intros j i Hj Hi. rewrite <- E by auto. auto. Qed.

Lemma points_run nxp nyp xb yb : 0 <= nxp -> 0 <= nyp -> zlen xb = nxp -> zlen yb = nyp ->
  exists x y, points nxp nyp xb yb = Ok (x, y) /\ table x nyp nxp (fun _ i => at_ xb i) /\ table y nyp nxp (fun j _ => at_ yb j).
Proof.
  intros Hx Hy Lx Ly. unfold points.
  destruct (fill2_run nyp nxp (fun _ i => oget xb i) (fun _ i => at_ xb i)) as (x & -> & Tx); auto. { intros. apply get_at. lia. }
  destruct (fill2_run nyp nxp (fun j _ => oget yb j) (fun j _ => at_ yb j)) as (y & -> & Ty); auto. { intros. apply get_at. lia. }
  cbn [bind]. eauto.
Qed.

(** Lengths and areas when the distance is given. *)
Section cells.
  Context (nx ny : Z) (x y : list R) (X Y : Z -> Z -> R).
  Context (Hnx : 0 <= nx) (Hny : 0 <= ny) (Tx : table x (ny + 1) (nx + 1) X) (Ty : table y (ny + 1) (nx + 1) Y).
  Lemma gx j i : 0 <= j <= ny -> 0 <= i <= nx -> oget x (j * (nx + 1) + i) = Ok (X j i).
  Proof. intros. apply (table_get x (ny + 1)); auto; lia. Qed.
  Lemma gy j i : 0 <= j <= ny -> 0 <= i <= nx -> oget y (j * (nx + 1) + i) = Ok (Y j i).
  Proof. intros. apply (table_get y (ny + 1)); auto; lia. Qed.
  Lemma row_run dist D : (forall j i, 0 <= j <= ny -> 0 <= i < nx -> dist j (X j i) (Y j i) (X j (i + 1)) (Y j (i + 1)) = Ok (D j i)) ->
    exists a, row_lengths nx ny (nx + 1) x y dist = Ok a /\ table a (ny + 1) nx D.
  Proof.
    intros H. apply fill2_run; try lia. intros j i Hj Hi. replace (j * (nx + 1) + i + 1) with (j * (nx + 1) + (i + 1)) by lia.
    rewrite (gx j i), (gy j i), (gx j (i + 1)), (gy j (i + 1)) by lia. cbn [bind]. apply H; lia.
  Qed.
  Lemma col_run dist D : (forall j i, 0 <= j < ny -> 0 <= i <= nx -> dist j (X j i) (Y j i) (X (j + 1) i) (Y (j + 1) i) = Ok (D j i)) ->
    exists a, col_lengths nx ny (nx + 1) x y dist = Ok a /\ table a ny (nx + 1) D.
  Proof.
    intros H. apply fill2_run; try lia. intros j i Hj Hi. rewrite (gx j i), (gy j i), (gx (j + 1) i), (gy (j + 1) i) by lia. cbn [bind]. apply H; lia.
  Qed.
  Lemma area_run f : exists a, box_areas nx ny (nx + 1) x y f = Ok a /\ table a ny nx (fun j i => f (X j i) (Y j i) (X (j + 1) (i + 1)) (Y (j + 1) (i + 1))).
  Proof.
    apply fill2_run; try lia. intros j i Hj Hi. replace ((j + 1) * (nx + 1) + i + 1) with ((j + 1) * (nx + 1) + (i + 1)) by lia.
    rewrite (gx j i), (gy j i), (gx (j + 1) (i + 1)), (gy (j + 1) (i + 1)) by lia. reflexivity.
  Qed.
End cells.
Lemma angle_run nx ny : 0 <= nx -> 0 <= ny -> exists a, no_angle nx ny = Ok a /\ table a (ny + 1) (nx + 1) (fun _ _ => 0%R).
Proof. intros Hx Hy. apply fill2_run; auto; lia. Qed.

Local Open Scope R_scope.
Lemma reqb_t a b : a = b -> reqb a b = true.
Proof. intros H. destruct (reqb_spec a b); auto; contradiction. Qed.
Lemma reqb_f a b : a <> b -> reqb a b = false.
Proof. intros H. destruct (reqb_spec a b); auto; contradiction. Qed.
Lemma D2R_rad d : d * D2R = rad d.
Proof. unfold D2R, rad. field. Qed.
Lemma D2R_pos : 0 < D2R.
Proof. unfold D2R. pose proof PI_RGT_0. lra. Qed.

Lemma sdist_col x y1 y2 : y1 <= y2 -> spherical_dist x y1 x y2 = Ok (earth * (rad y2 - rad y1)).
Proof. intros H. unfold spherical_dist. rewrite reqb_t by auto. unfold distant. rewrite Rabs_minus_sym, Rabs_pos_eq by lra. unfold rad, earth, RADIUS, D2R. f_equal. field. Qed.
Lemma sdist_row x1 x2 y : x1 < x2 -> spherical_dist x1 y x2 y = Ok (earth * cos (rad y) * (rad x2 - rad x1)).
Proof. intros H. unfold spherical_dist. rewrite reqb_f, reqb_t by (auto; lra). unfold distant. rewrite Rabs_minus_sym, Rabs_pos_eq by lra. rewrite (D2R_rad y). generalize (cos (rad y)). intros c. unfold rad, earth, RADIUS, D2R. f_equal. field. Qed.
Lemma cdist_col flat x y1 y2 : y1 <= y2 -> cartesian_dist flat x y1 x y2 = Ok (earth * (rad y2 - rad y1)).
Proof. intros H. unfold cartesian_dist. rewrite reqb_t by auto. rewrite Rabs_pos_eq by lra. unfold rad, earth, RADIUS, D2R. f_equal. field. Qed.
Lemma cdist_row flat x1 x2 y : x1 < x2 -> cartesian_dist flat x1 y x2 y = Ok (earth * cos (rad flat) * (rad x2 - rad x1)).
Proof. intros H. unfold cartesian_dist. rewrite reqb_f, reqb_t by (auto; lra). rewrite Rabs_pos_eq by lra. rewrite (D2R_rad flat). generalize (cos (rad flat)). intros c. unfold rad, earth, RADIUS, D2R. f_equal. field. Qed.
Lemma box_area_eq x1 y1 x2 y2 : 0 <= x2 - x1 <= 180 -> box_area (x1 * D2R) (y1 * D2R) (x2 * D2R) (y2 * D2R) = earth * earth * (rad x2 - rad x1) * (sin (rad y2) - sin (rad y1)).
Proof.
  intros H. unfold box_area. rewrite !D2R_rad. pose proof PI_RGT_0 as HP. assert (Q : 0 <= rad x2 - rad x1 <= PI).
  { unfold rad. replace (x2 * PI / 180 - x1 * PI / 180) with ((x2 - x1) / 180 * PI) by field. set (t := (x2 - x1) / 180). assert (0 <= t <= 1) by (unfold t; lra). clearbody t. nra. }
  rewrite (rlt_f PI) by lra. rewrite rlt_f by lra. unfold earth, RADIUS. ring.
Qed.

(** ** Sums of tables *)
Lemma total_rsum l : total l = rsum (fun v => v) l.
Proof. reflexivity. Qed.
Lemma total_vec l n F : vec l n F -> total l = rsum F (zseq 0 n).
Proof.
  intros V. pose proof (vec_len _ _ _ V). rewrite total_rsum. rewrite (vec_eq l (map F (zseq 0 n)) n F V) by (now apply vec_map). now rewrite rsum_map.
Qed.
Lemma zseq_from lo n : zseq lo n = map (fun i => lo + i)%Z (zseq 0 n).
Proof.
  unfold zseq. generalize (Z.to_nat n) as k. intros k. replace lo with (lo + 0)%Z at 1 by lia. generalize 0%Z as z. induction k as [|k IH]; intros z; cbn [zseq_nat map]; auto. f_equal. rewrite <- IH. f_equal. lia.
Qed.
Lemma rsum_nest nj ni (f : Z -> R) : (0 <= nj)%Z -> (0 <= ni)%Z -> rsum f (zseq 0 (nj * ni)) = rsum (fun j => rsum (fun i => f (j * ni + i)%Z) (zseq 0 ni)) (zseq 0 nj).
Proof.
  intros Hj Hi. revert nj Hj. apply natlike_ind. { reflexivity. }
  intros nj Hj IH. replace (Z.succ nj * ni)%Z with (nj * ni + ni)%Z by lia. rewrite zseq_app by nia. rewrite rsum_app, IH.
  unfold Z.succ. rewrite zseq_snoc by lia. rewrite rsum_app, rsum_cons, rsum_nil. cbn [Z.add]. rewrite Rplus_0_r. f_equal.
  rewrite zseq_from, rsum_map. reflexivity.
Qed.
Lemma total_table a nj ni v : (0 <= nj)%Z -> (0 <= ni)%Z -> table a nj ni v -> total a = rsum (fun j => rsum (v j) (zseq 0 ni)) (zseq 0 nj).
Proof.
  intros Hj Hi [L H]. rewrite (total_vec a (nj * ni) (at_ a)). 2:{ rewrite <- L. now apply vec_self. }
  rewrite rsum_nest by auto. apply rsum_ext. intros j Hj'. apply In_zseq in Hj'. apply rsum_ext. intros i Hi'. apply In_zseq in Hi'. apply H; lia.
Qed.
(** A telescoping sum. *)
Lemma rsum_tele (f : Z -> R) n : (0 <= n)%Z -> rsum (fun i => f (i + 1)%Z - f i) (zseq 0 n) = f n - f 0%Z.
Proof.
  intros Hn. revert n Hn. apply natlike_ind. { cbn. ring. }
  intros n Hn IH. unfold Z.succ. rewrite zseq_snoc by auto. rewrite rsum_app, IH, rsum_cons, rsum_nil. cbn [Z.add]. lra.
Qed.
Lemma table_product a nj ni c (u w : Z -> R) : (0 <= nj)%Z -> (0 <= ni)%Z ->
  table a nj ni (fun j i => c * (u (i + 1)%Z - u i) * (w (j + 1)%Z - w j)) -> total a = c * (u ni - u 0%Z) * (w nj - w 0%Z).
Proof.
  intros Hj Hi T. rewrite (total_table _ _ _ _ Hj Hi T).
  rewrite (rsum_ext _ (fun j => c * (u ni - u 0%Z) * (w (j + 1)%Z - w j))).
  - rewrite rsum_scal, rsum_tele by auto. reflexivity.
  - intros j _. rewrite (rsum_ext _ (fun i => (c * (w (j + 1)%Z - w j)) * (u (i + 1)%Z - u i))) by (intros; ring). rewrite rsum_scal, rsum_tele by auto. ring.
Qed.

(** ** The grid lines *)
Lemma axis_run nb bnds npts c : axis_ok nb bnds npts c ->
  exists g, compute_grid_bound nb bnds npts c = Ok (zsum npts, g) /\ lines g (zsum npts) (at_ bnds 0) (at_ bnds (nb - 1)) /\ (0 < zsum npts)%Z.
Proof.
  intros (H1 & H2 & H3 & H4 & H5 & H6 & H7). destruct (C34_grid_partial nb bnds npts c) as (g & E & L & I & A & B & _); auto.
  exists g. split; auto. split; [repeat split; auto|]. destruct npts as [|p l]; [cbn in H3; lia|]. clear - H5. unfold zsum. cbn [fold_right]. pose proof (H5 p (or_introl eq_refl)).
  assert (Q : (0 <= fold_right Z.add 0 l)%Z); [|lia]. assert (H5' : forall q, In q l -> (0 < q)%Z) by (intros; apply H5; now right). clear - H5'. induction l as [|q l IH]; cbn; [lia|]. pose proof (H5' q (or_introl eq_refl)). assert (0 <= fold_right Z.add 0 l)%Z by (apply IH; intros; apply H5'; now right). lia.
Qed.
Lemma line_step g n f l i : lines g n f l -> (0 <= i < n)%Z -> at_ g i < at_ g (i + 1).
Proof. intros (L & I & _) Hi. apply I; lia. Qed.
Lemma line_mono g n f l i : lines g n f l -> (0 <= i <= n)%Z -> f <= at_ g i <= l.
Proof.
  intros (L & I & F & T) Hi. rewrite <- F, <- T. split.
  - destruct (Z.eq_dec i 0) as [->|]; [lra|]. left. apply I; lia.
  - destruct (Z.eq_dec i n) as [->|]; [lra|]. left. apply I; lia.
Qed.
Lemma cos_lat_pos y : -90 < y < 90 -> 0 < cos (rad y).
Proof. intros H. pose proof PI_RGT_0. apply cos_gt_0; unfold rad; nra. Qed.
Lemma sin_lat_inc a b : -90 <= a -> a < b -> b <= 90 -> sin (rad a) < sin (rad b).
Proof. intros. pose proof PI_RGT_0. apply sin_increasing_1; unfold rad; nra. Qed.
