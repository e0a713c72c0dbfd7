(** * C38: model-resolution fields of a supergrid, and the regional mosaic *)
From Coq Require Import String.
Open Scope list_scope.
From Verif Require Import Base Str M_ScatterName Loops Grid2 M_Supergrid Spec_Supergrid P_Supergrid P_Contact2.

(** The field read for cell location (ioff,joff) has at (j,i) the supergrid value at
    (2j+joff, 2i+ioff); every read and write is inside the arrays. *)
Theorem C38_read : forall {V} nx ny ioff joff (tmp data : list V),
  0 <= nx -> 0 <= ny -> 0 <= ioff <= 1 -> 0 <= joff <= 1 ->
  zlen tmp = (2 * nx + 1) * (2 * ny + 1) -> zlen data = (nx + 1 - ioff) * (ny + 1 - joff) ->
  exists data', read_mosaic_grid_data (2 * nx) (2 * ny) tmp nx ny ioff joff data = Ok data' /\
    zlen data' = zlen data /\
    forall j i, 0 <= j < ny + 1 - joff -> 0 <= i < nx + 1 - ioff ->
      exists v, entry data' (nx + 1 - ioff) j i = Some v /\ entry tmp (2 * nx + 1) (2 * j + joff) (2 * i + ioff) = Some v.
Proof.
  intros V nx ny ioff joff tmp data Hx Hy Hi Hj Lt Ld. unfold read_mosaic_grid_data.
  replace (2 * nx =? nx * 2) with true by lia. replace (2 * ny =? ny * 2) with true by lia. cbn [negb orb].
  assert (Hr : forall x y, 0 <= x < nx + 1 - ioff -> 0 <= y < ny + 1 - joff ->
     0 <= (2 * y + joff) * (2 * nx + 1) + 2 * x + ioff < zlen tmp).
  { intros x y Hxx Hyy. pose proof (rowmajor_range (2 * ny + 1) (2 * nx + 1) (2 * y + joff) (2 * x + ioff)). lia. }
  destruct (Z.eq_dec (zlen tmp) 0) as [E0|E0]; [nia|].
  destruct (zget_in_range tmp 0) as [d Ed]; [pose proof (zlen_nonneg tmp); lia|].
  set (W := fun k => match zget tmp k with Some v => v | None => d end).
  destruct (fill2 (nx + 1 - ioff) (ny + 1 - joff)
    (fun data j i => do v <- oget tmp ((2 * j + joff) * (2 * nx + 1) + 2 * i + ioff) ; oset data (j * (nx + 1 - ioff) + i) v)
    (fun x y => W ((2 * y + joff) * (2 * nx + 1) + 2 * x + ioff)) data) as (data' & E & L & H); try lia.
  - intros g x y Hxx Hyy. specialize (Hr x y Hxx Hyy). destruct (zget_in_range tmp _ Hr) as [v Ev].
    rewrite (proj2 (oget_Ok _ _ _) Ev). cbn [bind]. unfold W. now rewrite Ev.
  - exists data'. split; [exact E|]. split; [lia|]. intros j i Hjj Hii. unfold entry. rewrite H by auto.
    specialize (Hr i j Hii Hjj). destruct (zget_in_range tmp _ Hr) as [v Ev]. exists v. unfold W. rewrite Ev. split; auto.
    rewrite <- Ev. f_equal. lia.
Qed.
(** A supergrid of another size is refused. *)
Theorem C38_refused : forall {V} ni nj nx ny ioff joff (tmp data : list V),
  ni <> 2 * nx \/ nj <> 2 * ny -> read_mosaic_grid_data ni nj tmp nx ny ioff joff data = Err 1.
Proof.
  intros. unfold read_mosaic_grid_data. destruct (Z.eqb_spec ni (nx * 2)), (Z.eqb_spec nj (ny * 2)); cbn [negb orb]; auto. lia.
Qed.

(** The region is the part of the parent tile (NX by NY model cells) whose model cells
    are i_min .. i_min+nx-1 by j_min .. j_min+ny-1, counted from one.  The file of the
    region is the exact window of the parent's supergrid. *)
Theorem C38_regional : forall {V} (indx indy : list Z) NX NY (f : list V) i_min j_min,
  zget indx 0 = Some i_min -> zget indx (zlen indx - 1) = Some (i_min + zlen indx - 1) ->
  zget indy 0 = Some j_min -> zget indy (zlen indy - 1) = Some (j_min + zlen indy - 1) ->
  1 <= i_min -> i_min + zlen indx - 1 <= NX -> 1 <= j_min -> j_min + zlen indy - 1 <= NY ->
  zlen f = (2 * NX + 1) * (2 * NY + 1) ->
  exists b, regional_grid indx indy (2 * NY + 1) (2 * NX + 1) f = Ok (zlen indx, zlen indy, b) /\
    zlen b = (2 * zlen indx + 1) * (2 * zlen indy + 1) /\
    forall j i, 0 <= j < 2 * zlen indy + 1 -> 0 <= i < 2 * zlen indx + 1 ->
      entry b (2 * zlen indx + 1) j i = entry f (2 * NX + 1) (2 * (j_min - 1) + j) (2 * (i_min - 1) + i).
Proof.
  intros V indx indy NX NY f i_min j_min I0 I1 J0 J1 A1 A2 B1 B2 L. unfold regional_grid.
  rewrite (proj2 (oget_Ok _ _ _) I0), (proj2 (oget_Ok _ _ _) I1), (proj2 (oget_Ok _ _ _) J0), (proj2 (oget_Ok _ _ _) J1). cbn [bind].
  replace (i_min + zlen indx - 1 - i_min + 1 =? zlen indx) with true by lia.
  replace (j_min + zlen indy - 1 - j_min + 1 =? zlen indy) with true by lia. cbn [negb].
  pose proof (zlen_nonneg indx). pose proof (zlen_nonneg indy).
  destruct (get_block_run (2 * NY + 1) (2 * NX + 1) f (2 * j_min - 2) (2 * i_min - 2) (2 * zlen indy + 1) (2 * zlen indx + 1)) as (b & E & Lb & H1); try lia.
  rewrite E. cbn [bind]. exists b. split; auto. split; [lia|]. intros j i Hj Hi. unfold entry. rewrite H1 by lia. f_equal. lia.
Qed.

(** A region that is not inside the parent tile, or whose axes have gaps at the ends,
    is refused. *)
Theorem C38_regional_refused : forall {V} (indx indy : list Z) NX NY (f : list V) i_min i_max j_min j_max,
  zget indx 0 = Some i_min -> zget indx (zlen indx - 1) = Some i_max ->
  zget indy 0 = Some j_min -> zget indy (zlen indy - 1) = Some j_max ->
  i_max - i_min + 1 <> zlen indx \/ j_max - j_min + 1 <> zlen indy \/ i_min < 1 \/ j_min < 1 \/ NX < i_max \/ NY < j_max ->
  exists e, regional_grid indx indy (2 * NY + 1) (2 * NX + 1) f = Err e.
Proof.
  intros V indx indy NX NY f i_min i_max j_min j_max I0 I1 J0 J1 H. unfold regional_grid.
  rewrite (proj2 (oget_Ok _ _ _) I0), (proj2 (oget_Ok _ _ _) I1), (proj2 (oget_Ok _ _ _) J0), (proj2 (oget_Ok _ _ _) J1). cbn [bind].
  destruct (Z.eqb_spec (i_max - i_min + 1) (zlen indx)) as [E1|]; cbn [negb]; [|eauto].
  destruct (Z.eqb_spec (j_max - j_min + 1) (zlen indy)) as [E2|]; cbn [negb]; [|eauto].
  unfold get_block. destruct (_ || _) eqn:E; [cbn [bind]; eauto|]. exfalso. repeat rewrite orb_false_iff in E. lia.
Qed.

(** Cells of the region are cells of the parent: whatever the cell location, the
    region's model cell (j,i) is the parent's model cell (j_min-1+j, i_min-1+i). *)
Theorem C38_regional_cells : forall {V} (indx indy : list Z) NX NY (f d1 d2 : list V) i_min j_min ioff joff,
  zget indx 0 = Some i_min -> zget indx (zlen indx - 1) = Some (i_min + zlen indx - 1) ->
  zget indy 0 = Some j_min -> zget indy (zlen indy - 1) = Some (j_min + zlen indy - 1) ->
  1 <= i_min -> i_min + zlen indx - 1 <= NX -> 1 <= j_min -> j_min + zlen indy - 1 <= NY ->
  zlen f = (2 * NX + 1) * (2 * NY + 1) -> 0 <= ioff <= 1 -> 0 <= joff <= 1 ->
  zlen d1 = (zlen indx + 1 - ioff) * (zlen indy + 1 - joff) -> zlen d2 = (NX + 1 - ioff) * (NY + 1 - joff) ->
  exists b r g, regional_grid indx indy (2 * NY + 1) (2 * NX + 1) f = Ok (zlen indx, zlen indy, b) /\
    read_mosaic_grid_data (2 * zlen indx) (2 * zlen indy) b (zlen indx) (zlen indy) ioff joff d1 = Ok r /\
    read_mosaic_grid_data (2 * NX) (2 * NY) f NX NY ioff joff d2 = Ok g /\
    forall j i, 0 <= j < zlen indy + 1 - joff -> 0 <= i < zlen indx + 1 - ioff ->
      entry r (zlen indx + 1 - ioff) j i = entry g (NX + 1 - ioff) (j_min - 1 + j) (i_min - 1 + i).
Proof.
  intros V indx indy NX NY f d1 d2 i_min j_min ioff joff I0 I1 J0 J1 A1 A2 B1 B2 L Hi Hj L1 L2.
  pose proof (zlen_nonneg indx). pose proof (zlen_nonneg indy).
  destruct (C38_regional indx indy NX NY f i_min j_min) as (b & E & Lb & Hb); auto.
  destruct (C38_read (zlen indx) (zlen indy) ioff joff b d1) as (r & Er & Lr & Hr); auto.
  destruct (C38_read NX NY ioff joff f d2) as (g & Eg & Lg & Hg); auto; try lia.
  exists b, r, g. repeat split; auto. intros j i Hjj Hii.
  destruct (Hr j i Hjj Hii) as (v & V1 & V2). destruct (Hg (j_min - 1 + j) (i_min - 1 + i)) as (u & U1 & U2); [lia|lia|].
  rewrite V1, U1, <- V2, <- U2. rewrite Hb by lia. f_equal; lia.
Qed.

(** The tile number is taken from the name: base.tileN.nc is tile N (here counted from
    zero), if ".tile" does not occur in the base name. *)
Theorem C38_tile_number : forall base N ntiles,
  1 <= N <= ntiles -> ntiles < 1000000000 -> ~ occurs (chars ".tile") base ->
  tile_number (base ++ chars ".tile" ++ print_int 0 N ++ chars ".nc") ntiles = Ok (N - 1).
Proof.
  intros base N ntiles HN Hb Ho. unfold tile_number. fold (pat N). set (nm := base ++ pat N).
  set (P := fun (n tile : Z) => tile = if n >=? N then N - 1 else -1).
  match goal with |- context [ofor 0 ?M ?g ?x] => destruct (ofor_inv P g 0 M x) as (t & E & H) end.
  - lia.
  - unfold P. destruct (0 >=? N) eqn:Q; lia.
  - intros n t Hn Ht. unfold P in *. subst t. destruct (n >=? N) eqn:Q; cbn [negb].
    + destruct (Z.eqb_spec (N - 1) (-1)); [lia|]. cbn [negb]. eexists. split; [reflexivity|]. destruct (n + 1 >=? N) eqn:Q2; lia.
    + change (negb (-1 =? -1)) with false. cbv iota. unfold sprintf. rewrite spr_pat. cbn [bind].
      assert (Lp : zlen (pat (n + 1)) + 1 <= 32).
      { unfold pat. rewrite !zlen_app. pose proof (print_len (n + 1)). change (zlen (chars ".tile")) with 5. change (zlen (chars ".nc")) with 3. lia. }
      destruct (Z.leb_spec (zlen (pat (n + 1)) + 1) 32); [|lia]. cbn [bind]. eexists. split; [reflexivity|].
      destruct (strstr nm (pat (n + 1))) eqn:S.
      * apply strstr_spec in S. apply pat_occurs in S; auto; try lia. destruct (n + 1 >=? N) eqn:Q2; lia.
      * destruct (n + 1 >=? N) eqn:Q2; auto. exfalso. assert (n + 1 = N) by lia.
        assert (X : strstr nm (pat (n + 1)) = true); [|congruence]. apply strstr_spec. exists base, []. unfold nm. rewrite app_nil_r. congruence.
  - rewrite E. cbn [bind]. unfold P in H. destruct (ntiles >=? N) eqn:Q; [|lia]. change (0 + ntiles) with ntiles in H. rewrite Q in H. subst t. destruct (Z.eqb_spec (N - 1) (-1)); [lia|]. auto.
Qed.
Print Assumptions C38_read.
Print Assumptions C38_regional_cells.
Print Assumptions C38_regional_refused.
Print Assumptions C38_tile_number.

(** Examples: a 2x1 region of a 3x3 tile, and a name. *)
Example C38_example :
  exists b, regional_grid [2; 3] [3] 7 7 (zseq 0 49) = Ok (2, 1, b) /\
    b = [30; 31; 32; 33; 34; 37; 38; 39; 40; 41; 44; 45; 46; 47; 48] /\
    read_mosaic_grid_data 4 2 b 2 1 1 1 [0; 0] = Ok [38; 40] /\
    tile_number (chars "19800101.rregionatmos.tile12.nc") 12 = Ok 11.
Proof. eexists. split; [reflexivity|]. split; [reflexivity|]. split; [reflexivity|]. vm_compute. reflexivity. Qed.
