(** * Property C07: sub-block extraction *)
From Verif Require Import Base Loops Spec_Hyperslab Shape M_Hyperslab.

Section P.
  Context {A : Type}.

  Lemma mcpy_spec (dst src : list A) off base n :
    0 <= n -> 0 <= base -> base + n <= zlen src -> 0 <= off -> off + n <= zlen dst ->
    exists dst', mcpy dst off src base n = Ok dst' /\ zlen dst' = zlen dst
      /\ (forall i, 0 <= i < n -> zget dst' (off + i) = zget src (base + i))
      /\ (forall p, p < off \/ off + n <= p -> zget dst' p = zget dst p).
  Proof.
    intros Hn Hb Hs Ho Hd. unfold mcpy.
    destruct (ofor_inv (fun k d => zlen d = zlen dst
        /\ (forall i, 0 <= i < k -> zget d (off + i) = zget src (base + i))
        /\ (forall p, p < off \/ off + k <= p -> zget d p = zget dst p))
      (fun dst i => do v <- oget src (base + i) ; oset dst (off + i) v) 0 n dst) as (d & E & L & H1 & H2); auto.
    - split; [auto|]. split; [intros; lia|auto].
    - intros k d Hk (L & H1 & H2). destruct (zget_in_range src (base + k) ltac:(lia)) as [v Hv].
      unfold oget. rewrite Hv. cbn [bind].
      destruct (zset_Some d (off + k) v ltac:(lia)) as [d' Ed]. exists d'. unfold oset. rewrite Ed.
      split; [auto|]. split; [rewrite (zset_len _ _ _ _ Ed); auto|]. split.
      + intros i Hi. destruct (Z.eq_dec i k) as [->|].
        * rewrite (zget_zset_eq _ _ _ _ Ed). auto.
        * rewrite (zget_zset_ne _ _ _ _ _ Ed) by lia. apply H1; lia.
      + intros p Hp. rewrite (zget_zset_ne _ _ _ _ _ Ed) by lia. apply H2; lia.
    - exists d. auto.
  Qed.

  (** R rows of c elements, row r copied from [base r]. *)
  Lemma copy_rows (dst src : list A) R c base (step : list A * Z -> Z -> outcome (list A * Z)) :
    0 <= R -> 0 <= c -> (forall r, 0 <= r < R -> 0 <= base r /\ base r + c <= zlen src) -> R * c <= zlen dst ->
    (forall d o r, 0 <= r < R -> step (d, o) r = (do d <- mcpy d o src (base r) c ; Ok (d, o + c))) ->
    exists dst', ofor 0 R step (dst, 0) = Ok (dst', R * c) /\ zlen dst' = zlen dst
      /\ (forall r i, 0 <= r < R -> 0 <= i < c -> zget dst' (r * c + i) = zget src (base r + i))
      /\ (forall p, R * c <= p -> zget dst' p = zget dst p).
  Proof.
    intros HR Hc Hb Hd Hs.
    destruct (ofor_inv (fun k st => exists d, st = (d, k * c) /\ zlen d = zlen dst
        /\ (forall r i, 0 <= r < k -> 0 <= i < c -> zget d (r * c + i) = zget src (base r + i))
        /\ (forall p, k * c <= p -> zget d p = zget dst p)) step 0 R (dst, 0))
      as (st & E & d & -> & L & H1 & H2); auto.
    - exists dst. split; [auto|]. split; [auto|]. split; [intros; lia|auto].
    - intros k st Hk (d & -> & L & H1 & H2). rewrite Hs by lia.
      destruct (Hb k ltac:(lia)) as [B1 B2].
      destruct (mcpy_spec d src (k * c) (base k) c) as (d' & -> & L' & K1 & K2); try nia.
      cbn [bind]. eexists. split; [reflexivity|]. exists d'. split; [f_equal; ring|]. split; [congruence|]. split.
      + intros r i Hr Hi. destruct (Z.eq_dec r k) as [->|].
        * apply K1; auto.
        * rewrite K2 by nia. apply H1; lia.
      + intros p Hp. rewrite K2 by nia. apply H2. nia.
    - exists d. replace (0 + R) with R in * by lia. auto.
  Qed.
End P.

(** C07: for rank 1, 2 and 3 the copy is exactly the requested block, whatever
    the shape, and touches nothing else. *)
Theorem C07_hyperslab_block : forall (A : Type) (dims start count : list Z) (src dst : list A),
  (length dims = 1 \/ length dims = 2 \/ length dims = 3)%nat ->
  block_in dims start count -> size dims <= zlen src -> size count <= zlen dst ->
  exists dst', hyperslabcopy dims start count (zlen dims) src dst = Ok dst'
    /\ is_block dims start count src dst dst'.
Proof.
  intros A dims start count src dst Hl HB Hs Hd.
  destruct Hl as [Hl|[Hl|Hl]].
  - destruct dims as [|d0 [|]]; try discriminate. apply block_cons in HB. destruct HB as (s & c & st & ct & -> & -> & P0 & P1 & P2 & HB).
    apply block_nil in HB. destruct HB as [-> ->]. cbn in Hs, Hd.
    unfold hyperslabcopy. unfold zlen. rewrite Hl. cbn -[mcpy oget zlen]. ogets.
    destruct (mcpy_spec dst src 0 s c) as (dst' & E & L & H1 & H2); try lia.
    exists dst'. split; [exact E|]. split; [auto|]. split.
    + intros idx Hv. apply valid_cons in Hv. destruct Hv as (y & i' & -> & Y & Hv).
      apply valid_nil in Hv. subst. cbn. rewrite <- (H1 y) by lia. reflexivity.
    + cbn. intros p Hp. apply H2. lia.
  - destruct dims as [|d0 [|d1 [|]]]; try discriminate. apply block_cons in HB. destruct HB as (s & c & st & ct & -> & -> & P0 & P1 & P2 & HB).
    apply block_cons in HB. destruct HB as (s0 & c0 & st0 & ct0 & -> & -> & P3 & P4 & P5 & HB).
    apply block_nil in HB. destruct HB as [-> ->]. cbn in Hs, Hd.
    unfold hyperslabcopy. unfold zlen. rewrite Hl. cbn -[mcpy oget zlen]. ogets.
    match goal with |- context [ofor 0 c ?f (dst, 0)] =>
      destruct (copy_rows dst src c c0 (fun k => s * d1 + k * d1 + s0) f) as (dst' & E & L & H1 & H2) end; try lia.
    { intros r Hr. nia. }
    { reflexivity. }
    rewrite E. cbn [bind]. exists dst'. split; [reflexivity|]. split; [auto|]. split.
    + intros idx Hv. apply valid_cons in Hv. destruct Hv as (y & i' & -> & Y & Hv).
      apply valid_cons in Hv. destruct Hv as (y0 & i0' & -> & Y0 & Hv). apply valid_nil in Hv. subst. cbn. rewrite (H1 y y0) by lia. f_equal. ring.
    + cbn. intros p Hp. apply H2. lia.
  - destruct dims as [|d0 [|d1 [|d2 [|]]]]; try discriminate. apply block_cons in HB. destruct HB as (s & c & st & ct & -> & -> & P0 & P1 & P2 & HB).
    apply block_cons in HB. destruct HB as (s0 & c0 & st0 & ct0 & -> & -> & P3 & P4 & P5 & HB).
    apply block_cons in HB. destruct HB as (s1 & c1 & st1 & ct1 & -> & -> & P6 & P7 & P8 & HB).
    apply block_nil in HB. destruct HB as [-> ->]. cbn in Hs, Hd.
    unfold hyperslabcopy. unfold zlen. rewrite Hl. cbn -[mcpy oget zlen]. ogets.
    rewrite ofor_nest2 by lia.
    match goal with |- context [ofor 0 (c * c0) ?f (dst, 0)] =>
      destruct (copy_rows dst src (c * c0) c1
        (fun r => s * d1 * d2 + s0 * d2 + s1 + (0 + r / c0) * (d1 * d2) + (0 + r mod c0) * d2) f) as (dst' & E & L & H1 & H2) end; try nia.
    { intros r Hr. destruct (divmod_range c c0 r ltac:(lia) Hr) as (_ & D1 & D2 & D3).
      set (k := r / c0) in *. set (j := r mod c0) in *. clearbody k j.
      assert (E1 : s * d1 * d2 + s0 * d2 + s1 + (0 + k) * (d1 * d2) + (0 + j) * d2
                 = ((s + k) * d1 + (s0 + j)) * d2 + s1) by ring. rewrite E1.
      assert (0 <= (s + k) * d1 + (s0 + j) <= d0 * d1 - 1) by nia. nia. }
    { reflexivity. }
    rewrite E. cbn [bind]. exists dst'. split; [reflexivity|]. split; [auto|]. split.
    + intros idx Hv. apply valid_cons in Hv. destruct Hv as (y & i' & -> & Y & Hv).
      apply valid_cons in Hv. destruct Hv as (y0 & i0' & -> & Y0 & Hv).
      apply valid_cons in Hv. destruct Hv as (y1 & i1' & -> & Y1 & Hv). apply valid_nil in Hv. subst. cbn.
      assert (0 <= y * c0 + y0 < c * c0) by (apply rowmajor_range; auto).
      replace ((0 + y) * c0 + y0) with (y * c0 + y0) by lia.
      rewrite (H1 (y * c0 + y0) y1) by auto. rewrite rowmajor_div, rowmajor_mod by lia. f_equal. ring.
    + cbn. intros p Hp. apply H2. lia.
Qed.
Print Assumptions C07_hyperslab_block.

(** Rank 0: the single element. *)
Theorem C07_hyperslab_scalar : forall (A : Type) (x y : A) src dst,
  hyperslabcopy [] [] [] 0 (x :: src) (y :: dst) = Ok (x :: dst).
Proof.
  intros. change (hyperslabcopy [] [] [] 0 (x :: src) (y :: dst)) with (oset (y :: dst) 0 x).
  unfold oset, zset. rewrite zlen_cons. pose proof (zlen_nonneg dst).
  destruct (Z.ltb_spec 0 (1 + zlen dst)); [reflexivity|lia].
Qed.
Print Assumptions C07_hyperslab_scalar.

(** Rank 4: correct only for a block of one element at position 0 of the first
    dimension. *)
Theorem C07_hyperslab_rank4_partial : forall (A : Type) d0 dims start count (src dst : list A),
  length dims = 3%nat -> 1 <= d0 ->
  block_in dims start count -> size dims <= zlen src -> size count <= zlen dst ->
  exists dst', hyperslabcopy (d0 :: dims) (0 :: start) (1 :: count) 4 src dst = Ok dst'
    /\ is_block (d0 :: dims) (0 :: start) (1 :: count) src dst dst'.
Proof.
  intros A d0 dims start count src dst Hl H0 HB Hs Hd.
  destruct (C07_hyperslab_block A dims start count src dst ltac:(auto) HB Hs Hd) as (dst' & E & B).
  exists dst'. split.
  - destruct dims as [|d1 [|d2 [|d3 [|]]]]; try discriminate. exact E.
  - destruct B as (B1 & B2 & B3). split; [auto|]. split.
    + intros idx Hv. apply valid_cons in Hv. destruct Hv as (y & l' & -> & Y & Hv).
      assert (y = 0) by lia. subst y. specialize (B2 l' Hv). exact B2.
    + intros p Hp. apply B3. change (size (1 :: count)) with (1 * size count) in Hp. lia.
Qed.
Print Assumptions C07_hyperslab_rank4_partial.

(** What is missing is false: a 4-D block of two elements along the first
    dimension copies only the first slab. *)
Theorem C07_hyperslab_rank4_refuted :
  block_in [2;1;1;2] [0;0;0;0] [2;1;1;2]
  /\ hyperslabcopy [2;1;1;2] [0;0;0;0] [2;1;1;2] 4 [10;11;12;13] [0;0;0;0] = Ok [10;11;0;0]
  /\ ~ is_block [2;1;1;2] [0;0;0;0] [2;1;1;2] [10;11;12;13] [0;0;0;0] [10;11;0;0].
Proof.
  split; [repeat constructor; lia|]. split; [vm_compute; reflexivity|].
  intros (_ & H & _). specialize (H [1;0;0;0] ltac:(repeat constructor; lia)).
  vm_compute in H. discriminate.
Qed.
Print Assumptions C07_hyperslab_rank4_refuted.

Example C07_example :
  hyperslabcopy [2;3;4] [1;1;2] [1;2;2] 3 (zseq 0 24) [-1;-1;-1;-1;-1] = Ok [18;19;22;23;-1].
Proof. vm_compute. reflexivity. Qed.
