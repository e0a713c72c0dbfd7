(** * C40, C41: runoff is moved to the nearest ocean point *)
From Coq Require Import Reals Lra.
From Verif Require Import Base Loops Vec M_Interp Spec_Interp P_Interp P_Interp2 M_Runoff Spec_Runoff P_Runoff.
Open Scope Z_scope.

(** ** C41 *)
(** If some ocean point is not exactly antipodal to the given point, the search returns the
    nearest ocean point, the first in scan order among equally near ones. *)
Theorem C41_nearest : forall nlon nlat mask lon lat plon plat i0 j0,
  0 <= nlon -> 0 <= nlat -> zlen mask = nlon * nlat -> zlen lon = nlon * nlat -> zlen lat = nlon * nlat ->
  (exists m, 0 <= m < nlon * nlat /\ ocean mask m /\ (chord plon plat (at_ lon m) (at_ lat m) < 2)%R) ->
  exists i j, nearest nlon nlat mask lon lat plon plat i0 j0 = Ok (i, j) /\ 0 <= i < nlon /\ 0 <= j < nlat /\
    nearest_ocean (nlon * nlat) mask lon lat plon plat (j * nlon + i).
Proof.
  intros nlon nlat mask lon lat plon plat i0 j0 H1 H2 L1 L2 L3 (m & Hm & Ho & Hd).
  destruct (nearest_run nlon nlat mask lon lat plon plat i0 j0) as (i & j & E & H); auto.
  exists i, j. split; auto. destruct H as [(_ & _ & H) | (Hi & Hj & Hb & _)]; [|auto].
  specialize (H m Hm Ho). lra.
Qed.
(** Otherwise the result variables keep their old values: with -1 stored there before, as
    the caller does, no ocean point is returned although there may be one. *)
Theorem C41_none : forall nlon nlat mask lon lat plon plat i0 j0,
  0 <= nlon -> 0 <= nlat -> zlen mask = nlon * nlat -> zlen lon = nlon * nlat -> zlen lat = nlon * nlat ->
  (forall m, 0 <= m < nlon * nlat -> ocean mask m -> (2 <= chord plon plat (at_ lon m) (at_ lat m))%R) ->
  nearest nlon nlat mask lon lat plon plat i0 j0 = Ok (i0, j0).
Proof.
  intros nlon nlat mask lon lat plon plat i0 j0 H1 H2 L1 L2 L3 Hn.
  destruct (nearest_run nlon nlat mask lon lat plon plat i0 j0) as (i & j & E & H); auto.
  rewrite E. destruct H as [(-> & -> & H) | (Hi & Hj & (Hr & Ho & _) & Hd)]; auto.
  specialize (Hn _ Hr Ho). lra.
Qed.
(** The unrestricted claim "returns an ocean point whenever there is one" is false: an ocean
    point at the south pole is not found from the north pole. *)
Lemma chord_poles : chord 0 (PI / 2) 0 (- (PI / 2)) = 2%R.
Proof. rewrite <- distance_chord. apply r_start. Qed.
Theorem C41_antipode_refuted :
  ~ (forall nlon nlat mask lon lat plon plat, 0 <= nlon -> 0 <= nlat -> zlen mask = nlon * nlat -> zlen lon = nlon * nlat -> zlen lat = nlon * nlat ->
     (exists m, 0 <= m < nlon * nlat /\ ocean mask m) ->
     exists i j, nearest nlon nlat mask lon lat plon plat (-1) (-1) = Ok (i, j) /\ 0 <= j * nlon + i < nlon * nlat /\ ocean mask (j * nlon + i)).
Proof.
  intros H. destruct (H 1 1 [1%R] [0%R] [(- (PI / 2))%R] 0%R (PI / 2)%R) as (i & j & E & Hr & _); try lia; auto.
  { exists 0. split; [lia|]. unfold ocean, at_. cbn. lra. }
  rewrite C41_none in E; try lia; auto.
  - injection E as <- <-. lia.
  - intros m Hm _. assert (m = 0) by lia. subst m. change (at_ [0%R] 0) with 0%R. change (at_ [(- (PI / 2))%R] 0) with (- (PI / 2))%R. rewrite chord_poles. lra.
Qed.
Lemma chord_lt2 lon1 lat1 lon2 lat2 : (0 < cos lat1 * cos lon1 * (cos lat2 * cos lon2) + cos lat1 * sin lon1 * (cos lat2 * sin lon2) + sin lat1 * sin lat2 + 1)%R ->
  (chord lon1 lat1 lon2 lat2 < 2)%R.
Proof.
  intros H. unfold chord. rewrite <- (sqrt_square 2) by lra. apply sqrt_lt_1_alt.
  pose proof (sin2_cos2 lat1). pose proof (sin2_cos2 lon1). pose proof (sin2_cos2 lat2). pose proof (sin2_cos2 lon2). unfold Rsqr in *. split; [repeat apply Rplus_le_le_0_compat; apply pow2_ge_0|].
  assert (E1 : (cos lat1 * cos lon1 * (cos lat1 * cos lon1) + cos lat1 * sin lon1 * (cos lat1 * sin lon1) + sin lat1 * sin lat1 = 1)%R).
  { replace (_ + _ + _)%R with (cos lat1 * cos lat1 * (sin lon1 * sin lon1 + cos lon1 * cos lon1) + sin lat1 * sin lat1)%R by ring. rewrite H1. lra. }
  assert (E2 : (cos lat2 * cos lon2 * (cos lat2 * cos lon2) + cos lat2 * sin lon2 * (cos lat2 * sin lon2) + sin lat2 * sin lat2 = 1)%R).
  { replace (_ + _ + _)%R with (cos lat2 * cos lat2 * (sin lon2 * sin lon2 + cos lon2 * cos lon2) + sin lat2 * sin lat2)%R by ring. rewrite H3. lra. }
  nra.
Qed.
(** The hypotheses of C41_nearest are met: two land cells and one ocean cell on the equator. *)
Example C41_example : exists i j, nearest 3 1 [0%R; 0%R; 1%R] [0%R; (PI / 4)%R; (PI / 2)%R] [0%R; 0%R; 0%R] 0 0 (-1) (-1) = Ok (i, j) /\ 0 <= i < 3 /\ 0 <= j < 1 /\
  nearest_ocean 3 [0%R; 0%R; 1%R] [0%R; (PI / 4)%R; (PI / 2)%R] [0%R; 0%R; 0%R] 0 0 (j * 3 + i).
Proof.
  apply C41_nearest; try lia; auto. exists 2. split; [lia|]. split; [unfold ocean, at_; simpl; lra|].
  change (at_ [0%R; (PI / 4)%R; (PI / 2)%R] 2) with (PI / 2)%R. change (at_ [0%R; 0%R; 0%R] 2) with 0%R.
  apply chord_lt2. rewrite cos_PI2, sin_PI2, cos_0, sin_0. lra.
Qed.

(** ** C40 *)
(** The maps built for a grid in which every land cell has an ocean cell that is not its
    antipode: every land cell gets its nearest ocean cell as target. *)
Theorem C40_targets : forall nx ny mask xt yt, 0 <= nx -> 0 <= ny ->
  zlen mask = nx * ny -> zlen xt = nx * ny -> zlen yt = nx * ny ->
  (forall l, 0 <= l < nx * ny -> land mask l -> exists m, 0 <= m < nx * ny /\ ocean mask m /\ (chord (at_ xt l) (at_ yt l) (at_ xt m) (at_ yt m) < 2)%R) ->
  exists imap jmap, setup_maps nx ny mask xt yt = Ok (imap, jmap) /\ targets_ok nx ny mask imap jmap /\
   forall l i j, 0 <= l < nx * ny -> land mask l -> zget imap l = Some i -> zget jmap l = Some j ->
     nearest_ocean (nx * ny) mask xt yt (at_ xt l) (at_ yt l) (j * nx + i).
Proof.
  intros nx ny mask xt yt Hx Hy Lm Lx Ly Hoc.
  destruct (setup_run nx ny mask xt yt) as (im & jm & E & L1 & L2 & H); auto. exists im, jm. split; auto.
  assert (G : forall l, 0 <= l < nx * ny -> land mask l -> exists i j, zget im l = Some i /\ zget jm l = Some j /\ 0 <= i < nx /\ 0 <= j < ny /\ nearest_ocean (nx * ny) mask xt yt (at_ xt l) (at_ yt l) (j * nx + i)).
  { intros l Hl Hla. destruct (H l Hl) as (i & j & Ei & Ej & _ & HN). specialize (HN Hla).
    destruct (C41_nearest nx ny mask xt yt (at_ xt l) (at_ yt l) (-1) (-1)) as (i' & j' & E' & Hi & Hj & Hn); auto.
    rewrite E' in HN. injection HN as -> ->. exists i, j. auto. }
  split.
  - intros l Hl Hla. destruct (G l Hl Hla) as (i & j & Ei & Ej & Hi & Hj & Hn). exists i, j. repeat split; auto; try lia. apply Hn.
  - intros l i j Hl Hla Ei Ej. destruct (G l Hl Hla) as (i' & j' & Ei' & Ej' & _ & _ & Hn).
    rewrite Ei in Ei'. rewrite Ej in Ej'. injection Ei' as <-. injection Ej' as <-. auto.
Qed.

Lemma rsum_zseq_split f a b : 0 <= a -> 0 <= b -> rsum f (zseq 0 (a + b)) = (rsum f (zseq 0 a) + rsum (fun l => f (l + a)%Z) (zseq 0 b))%R.
Proof.
  intros Ha Hb. rewrite zseq_app by lia. rewrite rsum_app. f_equal. rewrite Z.add_0_l.
  unfold zseq. generalize (Z.to_nat b). intros n. clear. change a with (0 + a)%Z at 1. generalize 0.
  induction n as [|n IH]; intros lo; [reflexivity|]. cbn [zseq_nat]. rewrite !rsum_cons. f_equal. rewrite <- IH. do 2 f_equal. lia.
Qed.

(** Conservation, for every exchange grid and every non-negative runoff field.  [n_ext] is
    the number of extension rows added south of the grid, which are land. *)
Theorem C40_conserved : forall nx_in ny_in nx ny n_ext xg src mask imap jmap area,
  0 <= nx -> 0 <= n_ext <= ny -> zlen src = nx_in * ny_in -> zlen mask = nx * ny -> zlen area = nx * ny ->
  xg_inside nx_in ny_in nx ny xg -> targets_ok nx ny mask imap jmap ->
  (forall l, 0 <= l < nx * ny -> at_ area l <> 0%R) ->
  (forall l, 0 <= l < n_ext * nx -> land mask l) ->
  (forall n, 0 <= n < nx_in * ny_in -> (0 <= at_ src n)%R) -> (forall c, In c xg -> (0 <= x_area c)%R) ->
  exists out, process_data nx_in nx ny n_ext xg src mask imap jmap area = Ok out /\ zlen out = nx * (ny - n_ext) /\
   rsum (fun l => at_ out l * at_ area (l + n_ext * nx))%R (zseq 0 (nx * (ny - n_ext))) = rsum (fun c => at_ src (source nx_in c) * x_area c)%R xg /\
   (forall l, 0 <= l < nx * (ny - n_ext) -> land mask (l + n_ext * nx) -> at_ out l = 0%R) /\
   (forall l, 0 <= l < nx * (ny - n_ext) -> ocean mask (l + n_ext * nx) ->
      (arriving nx_in nx xg src (l + n_ext * nx) <= at_ out l * at_ area (l + n_ext * nx))%R).
Proof.
  intros nx_in ny_in nx ny n_ext xg src mask imap jmap area Hx Hy Ls Lm La Hin HT Ha Hext Hpos Hxa.
  destruct (process_run nx_in ny_in nx ny n_ext xg src mask imap jmap area) as (d & out & E & L & Hout & Hs & Hla & Hoc); auto.
  assert (Harr : forall l, (0 <= arriving nx_in nx xg src l)%R).
  { intros l. apply rsum_nonneg. intros c Hc. apply filter_In in Hc. destruct Hc as [Hc _]. apply Rmult_le_pos; auto.
    destruct (Hin c Hc) as (? & ? & ? & ?). apply Hpos. unfold source. nia. }
  assert (Hz : forall l, 0 <= l < nx * ny -> land mask l -> at_ d l = 0%R). { intros l Hl H. rewrite Hla by auto. apply Rmin_left. auto. }
  exists out. repeat split; auto.
  - rewrite <- Hs. replace (nx * ny) with (n_ext * nx + nx * (ny - n_ext)) by ring.
    rewrite rsum_zseq_split by nia. rewrite (rsum_ext (at_ d) (fun _ => 0%R)), rsum_zero, Rplus_0_l.
    + apply rsum_ext. intros l Hl. apply In_zseq in Hl. rewrite Hout by lia. field. apply Ha. nia.
    + intros l Hl. apply In_zseq in Hl. apply Hz; [nia|]. apply Hext. lia.
  - intros l Hl H. rewrite Hout by auto. rewrite Hz by (auto; nia). unfold Rdiv. ring.
  - intros l Hl H. rewrite Hout by auto. unfold Rdiv. rewrite Rmult_assoc, Rinv_l by (apply Ha; nia). rewrite Rmult_1_r.
    rewrite Hoc by (auto; nia). match goal with |- (_ <= _ + ?r)%R => assert (0 <= r)%R end.
    { apply rsum_nonneg. intros. apply Rmax_l. } lra.
Qed.
(** If moreover the exchange cells of every input cell that counts add up to its area and
    the others have none, the output total is the input total that the tool itself compares
    it with (runoff_total_in). *)
Theorem C40_total : forall nx_in ny_in nx ny n_ext xg src mask_in area_in mask imap jmap area,
  0 <= nx_in -> 0 <= ny_in -> 0 <= nx -> 0 <= n_ext <= ny -> zlen src = nx_in * ny_in -> zlen mask = nx * ny -> zlen area = nx * ny ->
  xg_inside nx_in ny_in nx ny xg -> targets_ok nx ny mask imap jmap ->
  (forall l, 0 <= l < nx * ny -> at_ area l <> 0%R) ->
  (forall l, 0 <= l < n_ext * nx -> land mask l) ->
  (forall n, 0 <= n < nx_in * ny_in -> (0 <= at_ src n)%R) -> (forall c, In c xg -> (0 <= x_area c)%R) ->
  (forall n, 0 <= n < nx_in * ny_in -> rsum x_area (filter (fun c => source nx_in c =? n) xg) = if rlt 0 (at_ mask_in n) then at_ area_in n else 0%R) ->
  exists out, process_data nx_in nx ny n_ext xg src mask imap jmap area = Ok out /\
   rsum (fun l => at_ out l * at_ area (l + n_ext * nx))%R (zseq 0 (nx * (ny - n_ext)))
   = rsum (fun n => if rlt 0 (at_ mask_in n) then at_ src n * at_ area_in n else 0)%R (zseq 0 (nx_in * ny_in)).
Proof.
  intros nx_in ny_in nx ny n_ext xg src mask_in area_in mask imap jmap area Hxi Hyi Hx Hy Ls Lm La Hin HT Ha Hext Hpos Hxa Hcov.
  destruct (C40_conserved nx_in ny_in nx ny n_ext xg src mask imap jmap area) as (out & E & L & Ht & _); auto.
  exists out. split; auto. rewrite Ht. rewrite <- (rsum_group (source nx_in) (fun c => at_ src (source nx_in c) * x_area c)%R xg (nx_in * ny_in)); [|nia|].
  - apply rsum_ext. intros n Hn. apply In_zseq in Hn.
    rewrite (rsum_ext _ (fun c => at_ src n * x_area c)%R). 2:{ intros c Hc. apply filter_In in Hc. destruct Hc as [_ Hc]. apply Z.eqb_eq in Hc. now rewrite Hc. }
    rewrite rsum_scal, Hcov by lia. destruct (rlt 0 (at_ mask_in n)); ring.
  - intros c Hc. destruct (Hin c Hc) as (? & ? & ? & ?). unfold source. nia.
Qed.
(** Without the sign condition a land cell keeps exactly the negative part of what arrives
    there, and what is kept in an extension row is lost with the row. *)
Theorem C40_any_sign : forall nx_in ny_in nx ny n_ext xg src mask imap jmap area,
  0 <= nx -> 0 <= n_ext <= ny -> zlen src = nx_in * ny_in -> zlen mask = nx * ny -> zlen area = nx * ny ->
  xg_inside nx_in ny_in nx ny xg -> targets_ok nx ny mask imap jmap ->
  (forall l, 0 <= l < nx * ny -> at_ area l <> 0%R) ->
  (forall l, 0 <= l < n_ext * nx -> land mask l) ->
  exists out, process_data nx_in nx ny n_ext xg src mask imap jmap area = Ok out /\ zlen out = nx * (ny - n_ext) /\
   (forall l, 0 <= l < nx * (ny - n_ext) -> land mask (l + n_ext * nx) -> at_ out l = (Rmin 0 (arriving nx_in nx xg src (l + n_ext * nx)) / at_ area (l + n_ext * nx))%R) /\
   (rsum (fun l => at_ out l * at_ area (l + n_ext * nx)) (zseq 0 (nx * (ny - n_ext)))
     + rsum (fun l => Rmin 0 (arriving nx_in nx xg src l)) (zseq 0 (n_ext * nx)) = rsum (fun c => at_ src (source nx_in c) * x_area c) xg)%R.
Proof.
  intros nx_in ny_in nx ny n_ext xg src mask imap jmap area Hx Hy Ls Lm La Hin HT Ha Hext.
  destruct (process_run nx_in ny_in nx ny n_ext xg src mask imap jmap area) as (d & out & E & L & Hout & Hs & Hla & Hoc); auto.
  exists out. repeat split; auto.
  - intros l Hl H. rewrite Hout, Hla by (auto; nia). auto.
  - rewrite <- Hs. replace (nx * ny) with (n_ext * nx + nx * (ny - n_ext)) by ring.
    rewrite rsum_zseq_split by nia. rewrite Rplus_comm. f_equal.
    + apply rsum_ext. intros l Hl. apply In_zseq in Hl. rewrite Hla; [auto|nia|]. apply Hext. lia.
    + apply rsum_ext. intros l Hl. apply In_zseq in Hl. rewrite Hout by lia. field. apply Ha. nia.
Qed.
(** The hypotheses are met: one extension row (land) over one ocean row of two cells; all
    runoff of the single input cell arrives in the extension row and is moved. *)
Definition ex_xg : list xcell := [{| x_i1 := 0; x_j1 := 0; x_i2 := 1; x_j2 := 0; x_area := 3%R |}].
Example C40_example : exists out, process_data 1 2 2 1 ex_xg [5%R] [0;0;1;1]%R [0;1;-1;-1] [1;1;-1;-1] [1;1;2;2]%R = Ok out /\ zlen out = 2 /\
  rsum (fun l => at_ out l * at_ [1;1;2;2] (l + 2))%R (zseq 0 2) = 15%R.
Proof.
  destruct (C40_conserved 1 1 2 2 1 ex_xg [5%R] [0;0;1;1]%R [0;1;-1;-1] [1;1;-1;-1] [1;1;2;2]%R) as (out & E & L & Ht & _); try lia; auto.
  - intros c [<-|[]]. cbn. lia.
  - intros l Hl Hla. assert (l = 0 \/ l = 1) as [-> | ->].
    { assert (l = 0 \/ l = 1 \/ l = 2 \/ l = 3) as [-> | [-> | [-> | ->]]] by lia; auto; exfalso; revert Hla; unfold land, at_; simpl; lra. }
    + exists 0, 1. repeat split; try lia; auto. unfold ocean, at_; simpl; lra.
    + exists 1, 1. repeat split; try lia; auto. unfold ocean, at_; simpl; lra.
  - intros l Hl. assert (l = 0 \/ l = 1 \/ l = 2 \/ l = 3) as [-> | [-> | [-> | ->]]] by lia; unfold at_; simpl; lra.
  - intros l Hl. assert (l = 0 \/ l = 1) as [-> | ->] by lia; reflexivity.
  - intros n Hn. assert (n = 0) as -> by lia. unfold at_; simpl; lra.
  - intros c [<-|[]]. cbn. lra.
  - exists out. split; auto. split; auto. change (2 * (2 - 1)) with 2 in Ht. change (1 * 2) with 2 in Ht. rewrite Ht. unfold rsum, source, at_. cbn. lra.
Qed.
(** Without a reachable ocean point the map keeps -1 and the move writes outside the array. *)
Theorem C40_no_ocean_refuted :
  setup_maps 1 1 [0%R] [0%R] [0%R] = Ok ([-1], [-1]) /\
  process_data 1 1 1 0 [{| x_i1 := 0; x_j1 := 0; x_i2 := 0; x_j2 := 0; x_area := 1%R |}] [1%R] [0%R] [-1] [-1] [1%R] = UB.
Proof.
  split.
  - destruct (setup_run 1 1 [0%R] [0%R] [0%R]) as (im & jm & E & L1 & L2 & H); try lia; auto. rewrite E.
    destruct (H 0 ltac:(lia)) as (i & j & Ei & Ej & _ & HN). specialize (HN eq_refl). rewrite C41_none in HN; try lia; auto.
    + injection HN as <- <-. destruct im as [|a [|a2 im]]; rewrite ?zlen_cons, ?zlen_nil in L1; try lia; [|pose proof (zlen_nonneg im); lia].
      destruct jm as [|b [|b2 jm]]; rewrite ?zlen_cons, ?zlen_nil in L2; try lia; [|pose proof (zlen_nonneg jm); lia].
      cbn in Ei, Ej. injection Ei as ->. injection Ej as ->. reflexivity.
    + intros m Hm Ho. assert (m = 0) by lia. subst m. now elim Ho.
  - lazy -[rlt reqb Rplus Rmult Rdiv IZR]. destruct (rlt_spec 0 (0 + 1 * 1)) as [_|N]; [|lra]. destruct (reqb_spec 0 0) as [_|N]; [|lra]. reflexivity.
Qed.
Print Assumptions C41_nearest.
Print Assumptions C40_conserved.
