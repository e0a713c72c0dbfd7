(** * Extrapolation of missing data by fregrid (C62) *)
From Coq Require Import Reals Lra Lia.
From Verif Require Import Base Lst M_Interp Spec_Interp P_Interp P_Interp2 M_Vert M_Extrap Spec_Extrap P_Extrap P_Extrap2.
Local Open Scope R_scope.

(** Every run ends, with one line printed per level: after 4000 passes at the latest, or when the last pass changed no
    value by more than the stopping criterion. *)
Theorem C62_ends : forall lon lat nk data cyclic missing stop, lonlat_grid lon lat -> (0 <= nk)%Z -> zlen data = (nk * (zlen lon * zlen lat))%Z ->
  exists out rep, do_extrapolate (zlen lon) (zlen lat) nk lon lat data cyclic missing stop = Ok (out, rep) /\ zlen out = zlen data /\ zlen rep = nk
    /\ forall k n rm, (0 <= k < nk)%Z -> zget rep k = Some (n, rm) -> (0 <= n < 4000)%Z /\ (rm <= stop \/ n = 3999%Z).
Proof.
  intros lon lat nk data cyclic missing stop G Hk HD. destruct (extrapolate_run lon lat nk data cyclic missing stop G Hk HD) as (out & rep & E & L1 & L2 & H). exists out, rep. split; [exact E|]. split; [congruence|]. split; [exact L2|].
  intros k n rm Hk' HZ. destruct (H k n rm Hk' HZ) as (_ & A & B). auto.
Qed.
(** Values that are not missing are kept. *)
Theorem C62_valid_kept : forall lon lat nk data cyclic missing stop out rep, lonlat_grid lon lat -> (0 <= nk)%Z -> zlen data = (nk * (zlen lon * zlen lat))%Z ->
  do_extrapolate (zlen lon) (zlen lat) nk lon lat data cyclic missing stop = Ok (out, rep) ->
  forall k i j, (0 <= k < nk)%Z -> (0 <= i < zlen lon)%Z -> (0 <= j < zlen lat)%Z -> ~ is_missing missing (cell (zlen lon) (zlen lat) data k i j) ->
    cell (zlen lon) (zlen lat) out k i j = cell (zlen lon) (zlen lat) data k i j.
Proof.
  intros lon lat nk data cyclic missing stop out rep G Hk HD E k i j Hk' Hi Hj HM. destruct (extrapolate_run lon lat nk data cyclic missing stop G Hk HD) as (out' & rep' & E' & L1 & L2 & H). rewrite E in E'. injection E' as <- <-.
  destruct (zget_in_range rep k) as ((n, rm) & HZ); [lia|]. destruct (H k n rm Hk' HZ) as (A & _). apply (A i j Hi Hj). exact HM.
Qed.
(** All values lie between bounds of the valid values of this and the levels before and 0. *)
Theorem C62_bounds : forall lon lat nk data cyclic missing stop out rep, lonlat_grid lon lat -> (0 <= nk)%Z -> zlen data = (nk * (zlen lon * zlen lat))%Z ->
  do_extrapolate (zlen lon) (zlen lat) nk lon lat data cyclic missing stop = Ok (out, rep) ->
  forall k lo hi, (0 <= k < nk)%Z -> lo <= 0 <= hi ->
    (forall k' i j, (0 <= k' <= k)%Z -> (0 <= i < zlen lon)%Z -> (0 <= j < zlen lat)%Z -> ~ is_missing missing (cell (zlen lon) (zlen lat) data k' i j) -> lo <= cell (zlen lon) (zlen lat) data k' i j <= hi) ->
    forall i j, (0 <= i < zlen lon)%Z -> (0 <= j < zlen lat)%Z -> lo <= cell (zlen lon) (zlen lat) out k i j <= hi.
Proof.
  intros lon lat nk data cyclic missing stop out rep G Hk HD E k lo hi Hk' H0 HV i j Hi Hj. destruct (extrapolate_run lon lat nk data cyclic missing stop G Hk HD) as (out' & rep' & E' & L1 & L2 & H). rewrite E in E'. injection E' as <- <-.
  destruct (zget_in_range rep k) as ((n, rm) & HZ); [lia|]. destruct (H k n rm Hk' HZ) as (A & _). apply (A i j Hi Hj); auto.
Qed.
(** Every filled value is the weighted mean of its four neighbours, up to 10/9 of the largest change in the last pass,
    which is printed. *)
Theorem C62_balance : forall lon lat nk data cyclic missing stop out rep, lonlat_grid lon lat -> (0 <= nk)%Z -> zlen data = (nk * (zlen lon * zlen lat))%Z ->
  do_extrapolate (zlen lon) (zlen lat) nk lon lat data cyclic missing stop = Ok (out, rep) ->
  forall k n rm i j, (0 <= k < nk)%Z -> zget rep k = Some (n, rm) -> (0 <= i < zlen lon)%Z -> (0 <= j < zlen lat)%Z -> is_missing missing (cell (zlen lon) (zlen lat) data k i j) ->
    Rabs (neighbour_mean lon lat cyclic (cell (zlen lon) (zlen lat) out k) i j - cell (zlen lon) (zlen lat) out k i j) <= 10 / 9 * rm.
Proof.
  intros lon lat nk data cyclic missing stop out rep G Hk HD E k n rm i j Hk' HZ Hi Hj HM. destruct (extrapolate_run lon lat nk data cyclic missing stop G Hk HD) as (out' & rep' & E' & L1 & L2 & H). rewrite E in E'. injection E' as <- <-.
  destruct (H k n rm Hk' HZ) as (A & _). apply (A i j Hi Hj); auto.
Qed.

(** The range of the valid data is not kept: on every grid that is not cyclic, positive data leave a missing cell of the
    first column strictly below the largest value, even if all valid values are the same. *)
Theorem C62_range_refuted : forall lon lat j m v stop, lonlat_grid lon lat -> (0 <= j < zlen lat)%Z -> 0 < v -> 1 < m - v ->
  exists data out rep, zlen data = (zlen lon * zlen lat)%Z
    /\ (forall a b, (0 <= a < zlen lon)%Z -> (0 <= b < zlen lat)%Z -> cell (zlen lon) (zlen lat) data 0 a b = if ((a =? 0) && (b =? j))%Z%bool then m else v)
    /\ do_extrapolate (zlen lon) (zlen lat) 1 lon lat data false m stop = Ok (out, rep)
    /\ cell (zlen lon) (zlen lat) out 0 0 j < v.
Proof.
  intros lon lat j m v stop G Hj Hv Hm. set (ni := zlen lon). set (nj := zlen lat). assert (N : (2 <= ni)%Z /\ (2 <= nj)%Z) by (destruct G as (A & B & _); auto).
  set (F := fun p : Z => if (p =? j * ni)%Z then m else v). set (data := map F (zseq 0 (ni * nj))).
  assert (HL : zlen data = (1 * (ni * nj))%Z) by (unfold data; rewrite zlen_map, zlen_zseq by nia; lia).
  assert (HC : forall a b, (0 <= a < ni)%Z -> (0 <= b < nj)%Z -> cell ni nj data 0 a b = if ((a =? 0) && (b =? j))%Z%bool then m else v).
  { intros a b Ha Hb. unfold cell. apply at_zget. pose proof (Loops.rowmajor_range nj ni b a Hb Ha). unfold data. rewrite zget_map, zget_zseq by nia. cbn [option_map]. f_equal. unfold F.
    destruct (Z.eqb_spec (0 + (0 * (ni * nj) + (b * ni + a))) (j * ni)) as [E|E].
    - assert (E' : (b * ni + a = j * ni + 0)%Z) by lia. apply Loops.rowmajor_inj in E'; [|lia..]. destruct E' as (-> & ->). rewrite !Z.eqb_refl. reflexivity.
    - destruct (Z.eqb_spec a 0), (Z.eqb_spec b j); cbn; auto. subst. exfalso. apply E. lia. }
  assert (MM : forall a b, (0 <= a < ni)%Z -> (0 <= b < nj)%Z -> ~ is_missing m (cell ni nj data 0 a b) -> cell ni nj data 0 a b = v).
  { intros a b Ha Hb NM. rewrite HC in * by auto. destruct (_ && _); auto. exfalso. apply NM. unfold is_missing. rewrite Rminus_diag_eq, Rabs_R0 by reflexivity. lra. }
  destruct (extrapolate_run lon lat 1 data false m stop G ltac:(lia) HL) as (out & rep & E & L1 & L2 & H). exists data, out, rep. split; [lia|]. split; [exact HC|]. split; [exact E|].
  destruct (zget_in_range rep 0) as ((n, rm) & HZ); [lia|]. destruct (H 0%Z n rm ltac:(lia) HZ) as (A & _).
  apply (proj2 (proj2 (proj2 (A 0%Z j ltac:(fold ni; lia) Hj)))); auto.
  - fold ni nj. rewrite HC by lia. rewrite !Z.eqb_refl. unfold is_missing. rewrite Rminus_diag_eq, Rabs_R0 by reflexivity. lra.
  - intros k' i' j' Hk' Hi' Hj' NM. assert (k' = 0)%Z as -> by lia. pose proof (MM i' j' Hi' Hj' NM) as Q. unfold ni, nj in Q. rewrite Q. lra.
Qed.
(** Data no larger than the stopping criterion are not extrapolated at all beyond the next cell: a missing cell inside a
    gap gets 0. *)
Theorem C62_small_refuted : forall lon lat data cyclic missing stop, lonlat_grid lon lat -> zlen data = (1 * (zlen lon * zlen lat))%Z -> 0 <= stop ->
  (forall i j, (0 <= i < zlen lon)%Z -> (0 <= j < zlen lat)%Z -> ~ is_missing missing (cell (zlen lon) (zlen lat) data 0 i j) -> - stop <= cell (zlen lon) (zlen lat) data 0 i j <= stop) ->
  exists out rm, do_extrapolate (zlen lon) (zlen lat) 1 lon lat data cyclic missing stop = Ok (out, [(0%Z, rm)])
    /\ forall i j, (1 <= i < zlen lon - 1)%Z -> (1 <= j < zlen lat - 1)%Z ->
       is_missing missing (cell (zlen lon) (zlen lat) data 0 i j) -> is_missing missing (cell (zlen lon) (zlen lat) data 0 (i - 1) j) -> is_missing missing (cell (zlen lon) (zlen lat) data 0 (i + 1) j) ->
       is_missing missing (cell (zlen lon) (zlen lat) data 0 i (j - 1)) -> is_missing missing (cell (zlen lon) (zlen lat) data 0 i (j + 1)) -> cell (zlen lon) (zlen lat) out 0 i j = 0.
Proof. intros lon lat data cyclic missing stop G HL H0 HV. exact (small_run lon lat 1 data cyclic missing stop G HL eq_refl H0 HV). Qed.
(** A grid with a single column or row: memory before the array is read. *)
Theorem C62_single_refuted : forall lat data cyclic missing stop x, (2 <= zlen lat)%Z -> do_extrapolate 1 (zlen lat) 1 [x] lat data cyclic missing stop = UB.
Proof. intros lat data cyclic missing stop x H. unfold do_extrapolate, coefficients. destruct (spacing_run lat H) as (u & t & -> & _). reflexivity. Qed.

(** The grid [-1/2; 0; 1/2] in both directions meets the hypotheses. *)
Example C62_grid : lonlat_grid [-1/2; 0; 1/2] [-1/2; 0; 1/2].
Proof.
  assert (I : increasing [-1/2; 0; 1/2]). { apply steps_inc. intros i Hi. change (zlen [-1/2; 0; 1/2]) with 3%Z in Hi. assert (i = 1 \/ i = 2)%Z as [-> | ->] by lia; cbv -[IZR Rle Rdiv Rlt Ropp]; lra. }
  assert (P : 3 / 2 < PI / 2) by exact PI2_3_2. unfold lonlat_grid. change (zlen [-1/2; 0; 1/2]) with 3%Z.
  split; [lia|]. split; [lia|]. split; [exact I|]. split; [exact I|]. split.
  - intros j Hj. assert (j = 0 \/ j = 1 \/ j = 2)%Z as [-> | [-> | ->]] by lia; unfold at_; change (Z.to_nat 0) with 0%nat; change (Z.to_nat 1) with 1%nat; change (Z.to_nat 2) with 2%nat; cbn [nth]; lra.
  - unfold at_. change (3 - 1)%Z with 2%Z. change (3 - 2)%Z with 1%Z. change (Z.to_nat 0) with 0%nat. change (Z.to_nat 1) with 1%nat. change (Z.to_nat 2) with 2%nat. cbn [nth]. lra.
Qed.
(** Constant data 1 with a missing corner, not cyclic: the run ends, the other cells keep 1, the corner ends between 0 and 1. *)
Example C62_example : exists data out rep, do_extrapolate 3 3 1 [-1/2; 0; 1/2] [-1/2; 0; 1/2] data false 100 (1/1000) = Ok (out, rep)
  /\ cell 3 3 data 0 0 0 = 100 /\ cell 3 3 out 0 1 1 = 1 /\ 0 <= cell 3 3 out 0 0 0 < 1.
Proof.
  destruct (C62_range_refuted _ _ 0%Z 100 1 (1/1000) C62_grid ltac:(change (zlen [-1/2; 0; 1/2]) with 3%Z; lia) ltac:(lra) ltac:(lra)) as (data & out & rep & L & HC & E & HB).
  change (zlen [-1/2; 0; 1/2]) with 3%Z in *.
  assert (NM : ~ is_missing 100 1) by (unfold is_missing; rewrite Rabs_left by lra; lra).
  exists data, out, rep. split; [exact E|]. split; [rewrite HC by lia; reflexivity|]. split.
  - pose proof (C62_valid_kept _ _ 1%Z data false 100 (1/1000) out rep C62_grid ltac:(lia) L E 0%Z 1%Z 1%Z ltac:(lia) ltac:(change (zlen [-1/2; 0; 1/2]) with 3%Z; lia) ltac:(change (zlen [-1/2; 0; 1/2]) with 3%Z; lia)) as K.
    change (zlen [-1/2; 0; 1/2]) with 3%Z in K. rewrite HC in K by lia. cbn [Z.eqb andb] in K. apply K. exact NM.
  - split; [|exact HB].
    assert (B := C62_bounds _ _ 1%Z data false 100 (1/1000) out rep C62_grid ltac:(lia) L E 0%Z 0 1 ltac:(lia) ltac:(lra)). change (zlen [-1/2; 0; 1/2]) with 3%Z in B. apply B; try lia.
    intros k' i' j' Hk' Hi' Hj'. assert (k' = 0)%Z as -> by lia. rewrite HC by auto. destruct (_ && _); intros N; [|lra]. exfalso. apply N. unfold is_missing. rewrite Rminus_diag_eq, Rabs_R0 by reflexivity. lra.
Qed.
Print Assumptions C62_ends.
Print Assumptions C62_valid_kept.
Print Assumptions C62_bounds.
Print Assumptions C62_balance.
Print Assumptions C62_range_refuted.
Print Assumptions C62_small_refuted.
Print Assumptions C62_single_refuted.
