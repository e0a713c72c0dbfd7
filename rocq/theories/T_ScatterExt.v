(** * Property C06: the extents written by mppncscatter *)
From Verif Require Import Base Spec_Extent M_Extent P_Extent M_ScatterExt P_ScatterExt.

(** The recorded length of piece [j] is the number of points of its extent. *)
Definition lengths_match (n : Z) (st en ln : list Z) : Prop :=
  forall j, 0 <= j < n -> exists b e, division st en j b e /\ zget ln j = Some (e - b + 1).

(** C06: [d] divisions of a dimension of length [n] partition it; with an I/O
    layout [nio] dividing [d], piece [k] is the union of the d/nio consecutive
    divisions k*(d/nio) .. (k+1)*(d/nio)-1, and the pieces partition it again.
    (Lengths up to 2^24, the range in which single precision counts exactly.) *)
Theorem C06_scatter_extents_partial : forall n d,
  1 <= d <= n -> n <= 2 ^ 24 ->
  exists s, scatter_dim n d 0 = Ok s
    /\ tiles n d (sd_start s) (sd_end s) /\ lengths_match d (sd_start s) (sd_end s) (sd_len s)
    /\ forall nio, 1 <= nio -> (nio | d) ->
         exists s', scatter_dim n d nio = Ok s'
           /\ tiles n nio (sd_start s') (sd_end s') /\ lengths_match nio (sd_start s') (sd_end s') (sd_len s')
           /\ forall k, 0 <= k < nio ->
                zget (sd_start s') k = zget (sd_start s) (k * (d / nio))
                /\ zget (sd_end s') k = zget (sd_end s) ((k + 1) * (d / nio) - 1).
Proof.
  intros n d H Hn. destruct (get_scatter_extents_spec n d H Hn) as (s & E & Hd & Hs).
  exists s. unfold scatter_dim. rewrite E. cbn [bind]. split; [reflexivity|]. split; [|split].
  - apply (tiles_of_breaks (start_of n d)); try lia.
    + now apply start_of_0.
    + now apply start_of_d.
    + intros j Hj. pose proof (start_of_size n d j H Hj). lia.
    + intros j Hj. destruct (Hs j Hj) as (A & B & _). auto.
  - intros j Hj. destruct (Hs j Hj) as (A & B & C). do 2 eexists. split; [split; eauto|]. rewrite C. f_equal. lia.
  - intros nio Hio Hdv. destruct (Z.eqb_spec nio 0); [lia|].
    apply Z.mod_divide in Hdv; [|lia]. rewrite Hdv, Z.eqb_refl.
    unfold get_scatter_extents_iolayout. destruct (Z.eqb_spec nio 0); [lia|].
    rewrite Hd. set (step := d / nio).
    assert (Hst : d = nio * step) by (pose proof (Z.div_mod d nio ltac:(lia)); unfold step; lia).
    assert (1 <= step) by nia. assert (Hnio : nio <= d) by nia.
    destruct (io_group_spec (sd_start s) (sd_end s) (start_of n d) (fun j => start_of n d (j + 1) - 1) d step nio
       ltac:(lia) ltac:(lia) Hst) with (fuel := (Z.to_nat d + 1)%nat) (k := 0)
      (sio := repeat 0 (Z.to_nat nio)) (eio := repeat 0 (Z.to_nat nio)) (lio := repeat 0 (Z.to_nat nio))
      as (a & b & c & Er & _ & R); try (rewrite zlen_repeat); try lia.
    { intros j Hj. destruct (Hs j ltac:(lia)) as (A & B & _). auto. }
    rewrite Z.mul_0_l in Er. rewrite Er. cbn [bind]. eexists. split; [reflexivity|]. cbn [sd_start sd_end sd_len].
    assert (R' : forall k, 0 <= k < nio -> zget a k = Some (start_of n d (k * step))
      /\ zget b k = Some (start_of n d ((k + 1) * step) - 1)
      /\ zget c k = Some (start_of n d ((k + 1) * step) - 1 - start_of n d (k * step) + 1)).
    { intros k Hk. destruct (R k ltac:(lia)) as (A & B & C).
      replace ((k + 1) * step - 1 + 1) with ((k + 1) * step) in * by lia. auto. }
    split; [|split].
    + apply (tiles_of_breaks (fun k => start_of n d (k * step))); try lia.
      * rewrite Z.mul_0_l. now apply start_of_0.
      * rewrite <- Hst. now apply start_of_d.
      * intros k Hk. pose proof (start_of_mono n d (k * step) ((k + 1) * step) H ltac:(nia) ltac:(nia)). lia.
      * intros k Hk. destruct (R' k Hk) as (A & B & _). auto.
    + intros k Hk. destruct (R' k Hk) as (A & B & C). do 2 eexists. split; [split; eauto|]. exact C.
    + intros k Hk. destruct (R' k Hk) as (A & B & _).
      destruct (Hs (k * step) ltac:(nia)) as (A1 & _). destruct (Hs ((k + 1) * step - 1) ltac:(nia)) as (_ & B1 & _).
      replace ((k + 1) * step - 1 + 1) with ((k + 1) * step) in B1 by lia. split; congruence.
Qed.
Print Assumptions C06_scatter_extents_partial.

(** C06 (refusal): an I/O layout that does not divide the layout is an error. *)
Theorem C06_bad_io_layout_refused : forall n d nio,
  1 <= d <= n -> n <= 2 ^ 24 -> 1 <= nio -> ~ (nio | d) -> scatter_dim n d nio = Err E_io_layout.
Proof.
  intros n d nio H Hn Hio Hnd. destruct (get_scatter_extents_spec n d H Hn) as (s & E & _).
  unfold scatter_dim. rewrite E. cbn [bind]. destruct (Z.eqb_spec nio 0); [lia|].
  destruct (Z.eqb_spec (d mod nio) 0) as [Hm|]; [|reflexivity].
  exfalso. apply Hnd. apply Z.mod_divide; auto.
Qed.
Print Assumptions C06_bad_io_layout_refused.

(** What is missing is false: above 2^24 the single-precision quotient loses
    points.  A dimension of length 2^24+1 in one piece loses its last point (the
    program prints a message and goes on). *)
Theorem C06_long_dimension_refuted :
  exists st en, sc_compute_extent (2 ^ 24 + 1 - 1) 1 [0] [0] = Ok (st, en, 1)
    /\ ~ tiles (2 ^ 24 + 1) 1 st en.
Proof.
  eexists [0], [2 ^ 24 - 1]. split; [vm_compute; reflexivity|].
  intros (_ & _ & (b & [_ Hb]) & _). vm_compute in Hb. discriminate.
Qed.
Print Assumptions C06_long_dimension_refuted.

(** More divisions than points are not refused either: 2 points over 4 divisions
    give an extent of 2^63 points and no error stop. *)
Theorem C06_too_many_divisions_refuted :
  exists s j b e, get_scatter_extents 2 4 = Ok s /\ division (sd_start s) (sd_end s) j b e
    /\ 0 <= j < 4 /\ e - b + 1 = 2 ^ 63.
Proof. eexists _, 1, 1, (2 ^ 63). split; [vm_compute; reflexivity|]. vm_compute. repeat split; discriminate. Qed.
Print Assumptions C06_too_many_divisions_refuted.

Example C06_example : scatter_dim 18 6 3 = Ok (ScDim 3 [0;6;12] [5;11;17] [6;6;6])
  /\ scatter_dim 17 4 2 = Ok (ScDim 2 [0;9] [8;16] [9;8])
  /\ scatter_dim 18 6 4 = Err E_io_layout.
Proof. vm_compute. repeat split. Qed.
