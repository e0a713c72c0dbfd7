(** * Properties C01-C04: domain decomposition *)
From Verif Require Import Base Spec_Extent M_Extent P_Extent.

(** Proof of the tiling from the characterisation (no other file needs it). *)
Lemma tiles_of_start npts ndivs ib ie :
  1 <= ndivs <= npts ->
  (forall j, 0 <= j < ndivs -> zget ib j = Some (start_of npts ndivs j)
                             /\ zget ie j = Some (start_of npts ndivs (j + 1) - 1)) ->
  tiles npts ndivs ib ie.
Proof.
  intros H Hs. unfold tiles, division.
  assert (Hdiv : forall j b e, 0 <= j < ndivs -> zget ib j = Some b -> zget ie j = Some e ->
            b = start_of npts ndivs j /\ e = start_of npts ndivs (j + 1) - 1).
  { intros j b e Hj Hb He. destruct (Hs j Hj) as [H1 H2]. split; congruence. }
  split; [|split; [|split; [|split]]].
  - intros j Hj. destruct (Hs j Hj) as [H1 H2]. do 2 eexists. split; [split; eauto|].
    pose proof (start_of_size npts ndivs j H Hj) as [_ Hp].
    pose proof (start_of_mono npts ndivs 0 j H ltac:(lia) ltac:(lia)) as M1.
    pose proof (start_of_mono npts ndivs (j + 1) ndivs H ltac:(lia) ltac:(lia)) as M2.
    rewrite start_of_0 in M1 by auto. rewrite start_of_d in M2 by auto. lia.
  - destruct (Hs 0 ltac:(lia)) as [H1 H2]. rewrite start_of_0 in H1 by auto. eauto.
  - destruct (Hs (ndivs - 1) ltac:(lia)) as [H1 H2].
    replace (ndivs - 1 + 1) with ndivs in H2 by lia. rewrite start_of_d in H2 by auto. eauto.
  - intros j b e b' e' Hj Hj1 [Hb He] [Hb' He'].
    destruct (Hdiv j b e ltac:(lia) Hb He) as [_ ->].
    destruct (Hdiv (j + 1) b' e' ltac:(lia) Hb' He') as [-> _]. lia.
  - intros x Hx. destruct (start_of_cover npts ndivs x H Hx) as (j & Hj & Hjx).
    exists j. split.
    + split; [auto|]. destruct (Hs j Hj) as [H1 H2]. do 2 eexists. split; [split; eauto|]. lia.
    + intros j' (Hj' & b & e & [Hb He] & Hbe).
      destruct (Hdiv j' b e Hj' Hb He) as [-> ->].
      apply (start_of_unique npts ndivs x); auto; lia.
Qed.

(** C01: no error, and the extents tile 0..npts-1. *)
Theorem C01_extents_tile : forall npts ndivs ibegin0 iend0,
  1 <= ndivs <= npts -> ndivs <= zlen ibegin0 -> ndivs <= zlen iend0 ->
  exists ib ie, mpp_compute_extent npts ndivs ibegin0 iend0 = Ok (ib, ie)
    /\ tiles npts ndivs ib ie.
Proof.
  intros npts ndivs ib0 ie0 H Lb Le.
  destruct (compute_extent_spec npts ndivs ib0 ie0 H Lb Le) as (ib & ie & E & Hs).
  exists ib, ie. split; auto. apply tiles_of_start; auto.
Qed.
Print Assumptions C01_extents_tile.

(** C01, refusal: asking for more divisions than points is an error. *)
Theorem C01_too_many_divisions_refused : forall npts ndivs ibegin0 iend0,
  npts < ndivs -> mpp_compute_extent npts ndivs ibegin0 iend0 = Err E_more_divs.
Proof.
  intros npts ndivs ib0 ie0 H. unfold mpp_compute_extent.
  destruct (Z.ltb_spec npts ndivs); [reflexivity|lia].
Qed.
Print Assumptions C01_too_many_divisions_refused.

Example C01_example :
  mpp_compute_extent 18 4 [9;9;9;9] [7;7;7;7] = Ok ([0;5;9;13], [4;8;12;17])
  /\ mpp_compute_extent 7 4 [9;9;9;9] [7;7;7;7] = Ok ([0;2;4;6], [1;3;5;6])
  /\ mpp_compute_extent 10 3 [9;9;9;9] [7;7;7] = Ok ([0;4;6;9], [3;5;9]).
Proof. vm_compute. repeat split. Qed.

(** C02: balance.  [size j] is the number of points of division [j]. *)
Theorem C02_extents_balanced : forall npts ndivs ibegin0 iend0 ib ie,
  1 <= ndivs <= npts -> ndivs <= zlen ibegin0 -> ndivs <= zlen iend0 ->
  mpp_compute_extent npts ndivs ibegin0 iend0 = Ok (ib, ie) ->
  (forall j b e, 0 <= j < ndivs -> division ib ie j b e ->
     npts / ndivs - 1 <= e - b + 1 /\ (e - b + 1 - 1) * ndivs < npts)
  /\ (forall j b e j' b' e', 0 <= j < ndivs -> 0 <= j' < ndivs ->
        division ib ie j b e -> division ib ie j' b' e' ->
        Z.abs ((e - b) - (e' - b')) <= 2
        /\ (~ mirror_class npts ndivs -> Z.abs ((e - b) - (e' - b')) <= 1)).
Proof.
  intros npts ndivs ib0 ie0 ib ie H Lb Le E.
  destruct (compute_extent_spec npts ndivs ib0 ie0 H Lb Le) as (ib' & ie' & E' & Hs).
  rewrite E in E'. inversion E'; subst ib' ie'. clear E'.
  pose proof (q_facts npts ndivs H) as (Hq1 & Hq2 & Hq3).
  assert (Hdiv : forall j b e, 0 <= j < ndivs -> division ib ie j b e ->
    qlo npts ndivs - (if symmetrize npts ndivs then 1 else 0) <= e - b + 1 <= qhi npts ndivs).
  { intros j b e Hj [Hb He]. destruct (Hs j Hj) as [H1 H2].
    pose proof (start_of_size npts ndivs j H Hj) as [Hsz _].
    assert (b = start_of npts ndivs j) by congruence.
    assert (e = start_of npts ndivs (j + 1) - 1) by congruence. subst. lia. }
  split.
  - intros j b e Hj Hd. specialize (Hdiv j b e Hj Hd). change (npts / ndivs) with (qlo npts ndivs).
    split; [destruct (symmetrize npts ndivs); lia|].
    pose proof (cdiv_spec npts ndivs ltac:(lia)) as Hc. unfold qhi in *. nia.
  - intros j b e j' b' e' Hj Hj' Hd Hd'.
    pose proof (Hdiv j b e Hj Hd). pose proof (Hdiv j' b' e' Hj' Hd').
    destruct (symmetrize npts ndivs) eqn:Hsy.
    + split; [lia|]. intros Hn. exfalso. apply Hn, symmetrize_cases, Hsy.
    + split; lia.
Qed.
Print Assumptions C02_extents_balanced.

(** The bound 2 of C02 is attained: 10 points over 3 divisions give 4, 2, 4. *)
Example C02_bound_attained :
  mpp_compute_extent 10 3 [0;0;0] [0;0;0] = Ok ([0;4;6], [3;5;9]).
Proof. vm_compute. reflexivity. Qed.

(** C03: mirror symmetry in the symmetric class. *)
Theorem C03_extents_mirror : forall npts ndivs ibegin0 iend0 ib ie j b e b' e',
  1 <= ndivs <= npts -> ndivs <= zlen ibegin0 -> ndivs <= zlen iend0 ->
  mirror_class npts ndivs ->
  mpp_compute_extent npts ndivs ibegin0 iend0 = Ok (ib, ie) ->
  0 <= j < ndivs -> division ib ie j b e -> division ib ie (ndivs - 1 - j) b' e' ->
  b + e' = npts - 1 /\ e + b' = npts - 1.
Proof.
  intros npts ndivs ib0 ie0 ib ie j b e b' e' H Lb Le Hc E Hj [Hb He] [Hb' He'].
  destruct (compute_extent_spec npts ndivs ib0 ie0 H Lb Le) as (ib1 & ie1 & E' & Hs).
  rewrite E in E'. inversion E'; subst ib1 ie1. clear E'.
  assert (Hsym : symmetrize npts ndivs = true).
  { unfold mirror_class in Hc. unfold symmetrize. rewrite !Zmod_odd in *.
    destruct (Z.odd npts), (Z.odd ndivs); simpl; auto; try (exfalso; lia).
    apply Z.ltb_lt. lia. }
  destruct (Hs j Hj) as [H1 H2]. destruct (Hs (ndivs - 1 - j) ltac:(lia)) as [H3 H4].
  pose proof (start_of_mirror npts ndivs j H Hsym ltac:(lia)) as M1.
  pose proof (start_of_mirror npts ndivs (j + 1) H Hsym ltac:(lia)) as M2.
  replace (ndivs - 1 - j + 1) with (ndivs - j) in H4 by lia.
  replace (ndivs - (j + 1)) with (ndivs - 1 - j) in M2 by lia.
  rewrite Hb in H1. rewrite He in H2. rewrite Hb' in H3. rewrite He' in H4.
  inversion H1; inversion H2; inversion H3; inversion H4; subst. lia.
Qed.
Print Assumptions C03_extents_mirror.

Example C03_example :
  mpp_compute_extent 14 5 [0;0;0;0;0] [0;0;0;0;0] = Ok ([0;3;6;8;11], [2;5;7;10;13]).
Proof. vm_compute. reflexivity. Qed.

(** C04: the default layout uses exactly [ndivs] processors, for any value
    [idiv0] of the rounded floating-point aspect ratio; it is the largest
    admissible divisor not above it. *)
Theorem C04_layout_uses_all : forall ndivs idiv0,
  1 <= ndivs ->
  exists i j, mpp_define_layout ndivs idiv0 = Ok (i, j)
    /\ 1 <= i /\ 1 <= j /\ i * j = ndivs
    /\ i <= Z.max 1 idiv0
    /\ forall k, i < k <= Z.max 1 idiv0 -> ~ (k | ndivs).
Proof. exact define_layout_spec. Qed.
Print Assumptions C04_layout_uses_all.

Example C04_example : mpp_define_layout 12 5 = Ok (4, 3) /\ mpp_define_layout 7 0 = Ok (1, 7)
  /\ mpp_define_layout 6 50 = Ok (6, 1).
Proof. vm_compute. repeat split. Qed.
