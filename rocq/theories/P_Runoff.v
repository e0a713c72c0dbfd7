(** * Proofs about the nearest ocean point and runoff remapping *)
From Coq Require Import Reals Lra.
From Verif Require Import Base Loops Vec Grid2 M_Interp Spec_Interp P_Interp P_Interp2 M_Runoff Spec_Runoff.
Open Scope Z_scope.

Lemma reqb_spec a b : reflect (a = b) (reqb a b).
Proof. unfold reqb. destruct (Req_EM_T a b); constructor; auto. Qed.
Lemma distance_chord a b c d : distance a b c d = chord a b c d.
Proof. unfold distance, chord. cbv zeta. f_equal. ring. Qed.
Lemma r_start : distance 0 (PI / 2) 0 (- (PI / 2)) = 2%R.
Proof.
  unfold distance. cbv zeta. rewrite cos_neg, sin_neg, sin_PI2, cos_PI2, cos_0, sin_0.
  replace ((1 - - (1)) ^ 2 + (0 * 1 - 0 * 1) ^ 2 + (0 * 0 - 0 * 0) ^ 2)%R with (2 * 2)%R by ring. apply sqrt_square. lra.
Qed.

Lemma flat nx n : 0 < nx -> n / nx * nx + n mod nx = n.
Proof. intros. pose proof (Z.div_mod n nx). lia. Qed.

(** The scan: after [n] cells the state holds the first minimum below 2 among the ocean
    cells seen, if there is one. *)
Definition best (N : Z) (mask lon lat : list R) (plon plat : R) (n : Z) : Prop :=
  0 <= n < N /\ ocean mask n /\
  (forall m, 0 <= m < N -> ocean mask m -> (chord plon plat (at_ lon n) (at_ lat n) <= chord plon plat (at_ lon m) (at_ lat m))%R) /\
  (forall m, 0 <= m < n -> ocean mask m -> (chord plon plat (at_ lon n) (at_ lat n) < chord plon plat (at_ lon m) (at_ lat m))%R).
Lemma nearest_run nlon nlat mask lon lat plon plat i0 j0 : 0 <= nlon -> 0 <= nlat ->
  zlen mask = nlon * nlat -> zlen lon = nlon * nlat -> zlen lat = nlon * nlat ->
  exists i j, nearest nlon nlat mask lon lat plon plat i0 j0 = Ok (i, j) /\
   ((i = i0 /\ j = j0 /\ forall m, 0 <= m < nlon * nlat -> ocean mask m -> (2 <= chord plon plat (at_ lon m) (at_ lat m))%R) \/
    (0 <= i < nlon /\ 0 <= j < nlat /\ best (nlon * nlat) mask lon lat plon plat (j * nlon + i)
     /\ (chord plon plat (at_ lon (j * nlon + i)) (at_ lat (j * nlon + i)) < 2)%R)).
Proof.
  intros Hn1 Hn2 Lm Lx Ly. unfold nearest. rewrite r_start.
  match goal with |- context [ofor 0 nlat (fun st j => ofor 0 nlon (@?b j) st) ?s0] =>
    rewrite (ofor_nest nlat nlon (fun st j i => b j st i) s0 Hn2 Hn1) end.
  set (P := fun (n : Z) (st : R * Z * Z) => let '(r, i, j) := st in
    (r = 2%R /\ i = i0 /\ j = j0 /\ forall m, 0 <= m < n -> ocean mask m -> (2 <= chord plon plat (at_ lon m) (at_ lat m))%R) \/
    (0 <= i < nlon /\ 0 <= j < nlat /\ best n mask lon lat plon plat (j * nlon + i)
      /\ r = chord plon plat (at_ lon (j * nlon + i)) (at_ lat (j * nlon + i)) /\ (r < 2)%R)).
  match goal with |- context [ofor 0 ?N ?f ?s0] => destruct (ofor_inv P f 0 N s0) as (st & E & HP) end.
  - nia.
  - left. repeat split; auto. intros; lia.
  - intros n [[r i] j] Hn HP. assert (Hl : 0 < nlon) by nia. cbv beta iota zeta. rewrite flat by lia.
    rewrite (vec_get _ _ _ _ (vec_self _ _ Lm)) by nia. cbn [bind]. destruct (reqb_spec (at_ mask n) 0) as [Ez|Ez].
    + exists (r, i, j). split; auto. destruct HP as [(-> & -> & -> & H) | (Hi & Hj & (Hr & Ho & Hm & Hf) & -> & Hd)]; [left|right].
      * repeat split; auto. intros m Hm Hoc. destruct (Z.eq_dec m n) as [->|]; [now elim Hoc|]. apply H; auto. lia.
      * repeat split; auto; try lia. intros m Hm' Hoc. destruct (Z.eq_dec m n) as [->|]; [now elim Hoc|]. apply Hm; auto. lia.
    + rewrite (vec_get _ _ _ _ (vec_self _ _ Lx)) by nia. rewrite (vec_get _ _ _ _ (vec_self _ _ Ly)) by nia. cbn [bind].
      eexists. split; [reflexivity|]. rewrite distance_chord.
      pose proof (Z.mod_pos_bound n nlon Hl). assert (0 <= n / nlon < nlat) by (split; [apply Z.div_pos; lia|apply Z.div_lt_upper_bound; nia]).
      destruct (rlt_spec (chord plon plat (at_ lon n) (at_ lat n)) r) as [Hlt|Hge].
      * right. rewrite flat by lia. destruct HP as [(-> & -> & -> & H') | (Hi & Hj & (Hr & Ho & Hm & Hf) & -> & Hd)].
        -- repeat split; auto; try lia.
           ++ intros m Hm Hoc. destruct (Z.eq_dec m n) as [->|]; [lra|]. assert (2 <= chord plon plat (at_ lon m) (at_ lat m))%R by (apply H'; auto; lia). lra.
           ++ intros m Hm Hoc. assert (2 <= chord plon plat (at_ lon m) (at_ lat m))%R by (apply H'; auto; lia). lra.
        -- repeat split; auto; try lia; [| |lra].
           ++ intros m Hm' Hoc. destruct (Z.eq_dec m n) as [->|]; [lra|]. eapply Rle_trans; [apply Rlt_le, Hlt|]. apply Hm; auto. lia.
           ++ intros m Hm' Hoc. eapply Rlt_le_trans; [apply Hlt|]. apply Hm; auto.
      * destruct HP as [(-> & -> & -> & H') | (Hi & Hj & (Hr & Ho & Hm & Hf) & -> & Hd)]; [left|right].
        -- repeat split; auto. intros m Hm Hoc. destruct (Z.eq_dec m n) as [->|]; [lra|]. apply H'; auto. lia.
        -- repeat split; auto; try lia. intros m Hm' Hoc. destruct (Z.eq_dec m n) as [->|]; [lra|]. apply Hm; auto. lia.
  - destruct st as [[r i] j]. rewrite E. cbn [bind]. exists i, j. split; auto.
    replace (0 + nlat * nlon) with (nlon * nlat) in HP by ring.
    destruct HP as [(-> & -> & -> & H') | (Hi & Hj & Hb & -> & Hd)]; [left|right]; auto.
Qed.

(** ** The maps *)
Lemma setup_run nx ny mask xt yt : 0 <= nx -> 0 <= ny ->
  zlen mask = nx * ny -> zlen xt = nx * ny -> zlen yt = nx * ny ->
  exists imap jmap, setup_maps nx ny mask xt yt = Ok (imap, jmap) /\ zlen imap = nx * ny /\ zlen jmap = nx * ny /\
   forall l, 0 <= l < nx * ny -> exists i j, zget imap l = Some i /\ zget jmap l = Some j /\
    (ocean mask l -> i = -1 /\ j = -1) /\
    (land mask l -> nearest nx ny mask xt yt (at_ xt l) (at_ yt l) (-1) (-1) = Ok (i, j)).
Proof.
  intros Hx Hy Lm Lx Ly. unfold setup_maps.
  match goal with |- context [ofor 0 ny (fun st j => ofor 0 nx (@?b j) st) ?s0] =>
    rewrite (ofor_nest ny nx (fun st j i => b j st i) s0 Hy Hx) end.
  set (P := fun (n : Z) (st : list Z * list Z) => zlen (fst st) = nx * ny /\ zlen (snd st) = nx * ny /\
    (forall l, n <= l < nx * ny -> zget (fst st) l = Some (-1) /\ zget (snd st) l = Some (-1)) /\
    forall l, 0 <= l < n -> exists i j, zget (fst st) l = Some i /\ zget (snd st) l = Some j /\
    (ocean mask l -> i = -1 /\ j = -1) /\
    (land mask l -> nearest nx ny mask xt yt (at_ xt l) (at_ yt l) (-1) (-1) = Ok (i, j))).
  match goal with |- context [ofor 0 ?N ?f ?s0] => destruct (ofor_inv P f 0 N s0) as (st & E & HP) end.
  - nia.
  - unfold P. cbn [fst snd]. rewrite zlen_repeat. split; [nia|]. split; [nia|]. split; [|intros; lia].
    intros l Hl. split; apply zget_repeat; lia.
  - intros n [im jm] Hn (L1 & L2 & Hrest & Hdone). cbn [fst snd] in *. assert (Hl : 0 < nx) by nia. cbv beta iota zeta. rewrite flat by lia.
    rewrite (vec_get _ _ _ _ (vec_self _ _ Lm)) by nia. cbn [bind].
    destruct (Hrest n ltac:(nia)) as [E1 E2].
    destruct (reqb_spec (at_ mask n) 0) as [Ez|Ez].
    + rewrite (vec_get _ _ _ _ (vec_self _ _ Lx)) by nia. rewrite (vec_get _ _ _ _ (vec_self _ _ Ly)) by nia. cbn [bind].
      rewrite (proj2 (oget_Ok _ _ _) E1), (proj2 (oget_Ok _ _ _) E2). cbn [bind].
      destruct (nearest_run nx ny mask xt yt (at_ xt n) (at_ yt n) (-1) (-1)) as (i & j & EN & _); auto. rewrite EN. cbn [bind].
      destruct (zset_Some im n i) as (im' & S1); [nia|]. destruct (zset_Some jm n j) as (jm' & S2); [nia|].
      rewrite (proj2 (oset_Ok _ _ _ _) S1), (proj2 (oset_Ok _ _ _ _) S2). cbn [bind]. eexists; split; [reflexivity|].
      split; [|split; [|split]]; cbn [fst snd].
      * rewrite (zset_len _ _ _ _ S1). auto.
      * rewrite (zset_len _ _ _ _ S2). auto.
      * intros l Hll. rewrite (zget_zset_ne _ _ _ _ _ S1), (zget_zset_ne _ _ _ _ _ S2) by lia. apply Hrest. lia.
      * intros l Hll. destruct (Z.eq_dec l n) as [->|Hne].
        -- exists i, j. rewrite (zget_zset_eq _ _ _ _ S1), (zget_zset_eq _ _ _ _ S2). repeat split; auto; now elim H.
        -- rewrite (zget_zset_ne _ _ _ _ _ S1), (zget_zset_ne _ _ _ _ _ S2) by lia. apply Hdone. lia.
    + exists (im, jm). split; auto. split; [|split; [|split]]; cbn [fst snd]; auto.
      * intros l Hll. apply Hrest. lia.
      * intros l Hll. destruct (Z.eq_dec l n) as [->|Hne]; [|apply Hdone; lia].
        exists (-1), (-1). repeat split; auto. intros H. now elim Ez.
  - destruct st as [im jm]. destruct HP as (L1 & L2 & _ & H). rewrite E. exists im, jm. repeat split; auto. intros l Hl. apply H. nia.
Qed.

(** ** Remapping *)
Lemma remap_run nx_in ny_in nx ny xg src : 0 <= nx -> 0 <= ny -> zlen src = nx_in * ny_in -> xg_inside nx_in ny_in nx ny xg ->
  exists d, remap_step nx_in nx xg src (repeat 0%R (Z.to_nat (nx * ny))) = Ok d /\ vec d (nx * ny) (arriving nx_in nx xg src).
Proof.
  intros Hx Hy Ls Hin. unfold remap_step.
  destruct (accumulate (target nx) (fun c => at_ src (source nx_in c) * x_area c)%R (nx * ny) xg
    (fun d c => do v <- oget src (x_j1 c * nx_in + x_i1 c) ; do o <- oget d (x_j2 c * nx + x_i2 c) ; oset d (x_j2 c * nx + x_i2 c) (o + v * x_area c)%R)
    (repeat 0%R (Z.to_nat (nx * ny))) (fun _ => 0%R)) as (d & E & V).
  - apply vec_repeat. nia.
  - intros c Hc. destruct (Hin c Hc) as (A & B & C & D). unfold target. nia.
  - intros a c Hc. destruct (Hin c Hc) as (A & B & C & D). rewrite (vec_get _ _ _ _ (vec_self _ _ Ls)) by nia. reflexivity.
  - exists d. split; auto. eapply vec_ext; [|exact V]. intros i Hi. cbv beta. unfold arriving, covering. lra.
Qed.

(** ** Moving *)
Lemma rsum_set d d' n k v : zlen d = n -> 0 <= k < n -> zset d k v = Some d' ->
  rsum (at_ d') (zseq 0 n) = (rsum (at_ d) (zseq 0 n) + (v - at_ d k))%R.
Proof.
  intros L Hk S. rewrite <- (rsum_indic n k (v - at_ d k)) by lia. rewrite <- rsum_plus. apply rsum_ext.
  intros i Hi. apply In_zseq in Hi. destruct (Z.eqb_spec k i) as [<-|Hne].
  - rewrite (at_zget _ _ _ (zget_zset_eq _ _ _ _ S)). lra.
  - rewrite Rplus_0_r. destruct (zget_in_range d i) as [x Ex]; [lia|].
    rewrite (at_zget _ _ _ Ex). apply at_zget. rewrite (zget_zset_ne _ _ _ _ _ S) by lia. auto.
Qed.
Lemma at_set_eq d d' k v : zset d k v = Some d' -> at_ d' k = v.
Proof. intros S. apply at_zget. apply (zget_zset_eq _ _ _ _ S). Qed.
Lemma at_set_ne d d' k i v : zset d k v = Some d' -> 0 <= i < zlen d -> i <> k -> at_ d' i = at_ d i.
Proof.
  intros S Hi Hne. destruct (zget_in_range d i) as [x Ex]; [lia|].
  rewrite (at_zget _ _ _ Ex). apply at_zget. rewrite (zget_zset_ne _ _ _ _ _ S) by lia. auto.
Qed.
Lemma move_run nx ny mask imap jmap d : 0 <= nx -> 0 <= ny -> zlen mask = nx * ny -> zlen d = nx * ny ->
  targets_ok nx ny mask imap jmap ->
  exists d', move_step nx ny mask imap jmap d = Ok d' /\ zlen d' = nx * ny /\
   rsum (at_ d') (zseq 0 (nx * ny)) = rsum (at_ d) (zseq 0 (nx * ny)) /\
   (forall l, 0 <= l < nx * ny -> land mask l -> at_ d' l = Rmin 0 (at_ d l)) /\
   (forall l, 0 <= l < nx * ny -> ocean mask l -> at_ d' l =
     (at_ d l + rsum (fun m => Rmax 0 (at_ d m)) (filter (fun m => reqb (at_ mask m) 0 &&
        match zget imap m, zget jmap m with Some i, Some j => (j * nx + i =? l)%Z | _, _ => false end) (zseq 0 (nx * ny))))%R).
Proof.
  intros Hx Hy Lm Ld HT. unfold move_step.
  match goal with |- context [ofor 0 ny (fun st j => ofor 0 nx (@?b j) st) ?s0] =>
    rewrite (ofor_nest ny nx (fun st j i => b j st i) s0 Hy Hx) end.
  set (q := fun l m => reqb (at_ mask m) 0 &&
        match zget imap m, zget jmap m with Some i, Some j => (j * nx + i =? l)%Z | _, _ => false end).
  set (P := fun (n : Z) (e : list R) => zlen e = nx * ny /\ rsum (at_ e) (zseq 0 (nx * ny)) = rsum (at_ d) (zseq 0 (nx * ny)) /\
    (forall l, 0 <= l < n -> land mask l -> at_ e l = Rmin 0 (at_ d l)) /\
    (forall l, n <= l < nx * ny -> land mask l -> at_ e l = at_ d l) /\
    (forall l, 0 <= l < nx * ny -> ocean mask l -> at_ e l = (at_ d l + rsum (fun m => Rmax 0 (at_ d m)) (filter (q l) (zseq 0 n)))%R)).
  match goal with |- context [ofor 0 ?N ?f ?s0] => destruct (ofor_inv P f 0 N s0) as (e & E & HP) end.
  - nia.
  - repeat split; auto; try (intros; lia). intros. rewrite zseq_nonpos by lia. cbn. lra.
  - intros n e Hn (Le & Hs & Hd & Hr & Ho). assert (Hl : 0 < nx) by nia. cbv beta iota zeta. rewrite flat by lia.
    rewrite (vec_get _ _ _ _ (vec_self _ _ Le)) by nia. rewrite (vec_get _ _ _ _ (vec_self _ _ Lm)) by nia. cbn [bind].
    assert (Hsn : zseq 0 (n + 1) = zseq 0 n ++ [n]) by (rewrite zseq_snoc by lia; reflexivity).
    assert (Hstay : (land mask n -> (at_ d n <= 0)%R) -> P (n + 1) e).
    { intros Hz. repeat split; auto.
      - intros l Hll Hla. destruct (Z.eq_dec l n) as [->|]; [|apply Hd; auto; lia].
        rewrite Hr by (auto; nia). rewrite Rmin_right; auto.
      - intros l Hll Hla. apply Hr; auto. lia.
      - intros l Hll Hoc. rewrite Ho by auto. rewrite Hsn, filter_app, rsum_app. cbn [filter].
        destruct (q l n) eqn:Q; [|cbn; lra]. unfold q in Q. apply andb_prop in Q. destruct Q as [Q _]. destruct (reqb_spec (at_ mask n) 0) as [Ez|]; [|easy].
        rewrite rsum_cons, rsum_nil, Rmax_left by auto. lra. }
    destruct (reqb_spec (at_ mask n) 0) as [Ez|Ez].
    2:{ rewrite andb_false_r. exists e. split; auto. apply Hstay. intros. now elim Ez. }
    rewrite andb_true_r. destruct (rlt_spec 0 (at_ e n)) as [Hp|Hnp].
    2:{ exists e. split; auto. apply Hstay. intros _. rewrite <- Hr by (auto; nia). lra. }
    destruct (HT n ltac:(nia) Ez) as (i & j & Ei & Ej & Hi & Hj & Hoc).
    rewrite (proj2 (oget_Ok _ _ _) Ei), (proj2 (oget_Ok _ _ _) Ej). cbn [bind].
    set (t := j * nx + i) in *. assert (Ht : 0 <= t < nx * ny) by nia.
    assert (Hnt : n <> t) by (intros ->; now elim Hoc).
    rewrite (vec_get _ _ _ _ (vec_self _ _ Le)) by lia. cbn [bind].
    destruct (zset_Some e t (at_ e t + at_ e n)%R) as (e1 & S1); [lia|].
    rewrite (proj2 (oset_Ok _ _ _ _) S1). cbn [bind].
    assert (L1 : zlen e1 = nx * ny) by (rewrite (zset_len _ _ _ _ S1); auto).
    destruct (zset_Some e1 n 0%R) as (e2 & S2); [nia|].
    rewrite (proj2 (oset_Ok _ _ _ _) S2).
    assert (L2 : zlen e2 = nx * ny) by (rewrite (zset_len _ _ _ _ S2); auto).
    assert (Hv : at_ e n = at_ d n) by (apply Hr; auto; nia).
    exists e2. split; auto. repeat split; auto.
    + rewrite (rsum_set e1 e2 (nx * ny) n 0%R) by (auto; nia). rewrite (rsum_set e e1 (nx * ny) t _ Le Ht S1).
      rewrite (at_set_ne e e1 t n _ S1) by (auto; nia). rewrite Hs. lra.
    + intros l Hll Hla. destruct (Z.eq_dec l n) as [->|Hne].
      * rewrite (at_set_eq _ _ _ _ S2). rewrite Rmin_left by lra. auto.
      * rewrite (at_set_ne e1 e2 n l _ S2) by (auto; nia). rewrite (at_set_ne e e1 t l _ S1); [apply Hd; auto; lia|nia|].
        intros ->. now elim Hoc.
    + intros l Hll Hla. rewrite (at_set_ne e1 e2 n l _ S2) by (auto; nia). rewrite (at_set_ne e e1 t l _ S1); [apply Hr; auto; lia|nia|].
      intros ->. now elim Hoc.
    + intros l Hll Hlo. rewrite (at_set_ne e1 e2 n l _ S2) by (try lia; intros ->; now elim Hlo).
      rewrite Hsn, filter_app, rsum_app. cbn [filter].
      assert (Q : q l n = (t =? l)). { unfold q. rewrite Ei, Ej. destruct (reqb_spec (at_ mask n) 0); [reflexivity|now elim n0]. }
      rewrite Q. destruct (Z.eqb_spec t l) as [->|Hne].
      * rewrite (at_set_eq _ _ _ _ S1), Ho, Hv, rsum_cons, rsum_nil by auto. rewrite (Rmax_right 0 (at_ d n)) by lra. lra.
      * rewrite (at_set_ne e e1 t l _ S1) by lia. rewrite Ho by auto. rewrite rsum_nil. lra.
  - exists e. replace (0 + ny * nx) with (nx * ny) in HP by ring. destruct HP as (A & B & C & D & F). repeat split; auto.
Qed.

Lemma divide_run n area d : 0 <= n -> zlen area = n -> zlen d = n ->
  exists d', divide_step n area d = Ok d' /\ vec d' n (fun l => at_ d l / at_ area l)%R.
Proof.
  intros Hn La Ld. unfold divide_step.
  destruct (ofor_vec (fun d l => do v <- oget d l ; do a <- oget area l ; oset d l (v / a)%R) n 0 n
     (fun k l => if l <? k then (at_ d l / at_ area l)%R else at_ d l) d Hn) as (d' & E & V).
  - eapply vec_ext; [|apply vec_self, Ld]. intros i Hi. destruct (Z.ltb_spec i 0); [lia|auto].
  - intros i g Hi V. rewrite (vec_get _ _ _ _ V) by lia. rewrite (vec_get _ _ _ _ (vec_self _ _ La)) by lia. cbn [bind].
    apply (vec_set g n _ _ i _ V); [lia|]. intros k Hk. cbv beta. rewrite Z.ltb_irrefl.
    destruct (Z.eqb_spec k i) as [EK|]; destruct (Z.ltb_spec k (i + 1)), (Z.ltb_spec k i); try lia; subst; auto.
  - exists d'. split; auto. eapply vec_ext; [|exact V]. intros i Hi. cbv beta. destruct (Z.ltb_spec i (0 + n)); [auto|lia].
Qed.

Lemma process_run nx_in ny_in nx ny n_ext xg src mask imap jmap area :
  0 <= nx -> 0 <= n_ext <= ny -> zlen src = nx_in * ny_in -> zlen mask = nx * ny -> zlen area = nx * ny ->
  xg_inside nx_in ny_in nx ny xg -> targets_ok nx ny mask imap jmap ->
  exists d out, process_data nx_in nx ny n_ext xg src mask imap jmap area = Ok out /\ zlen out = nx * (ny - n_ext) /\
   (forall l, 0 <= l < nx * (ny - n_ext) -> at_ out l = (at_ d (l + n_ext * nx) / at_ area (l + n_ext * nx))%R) /\
   rsum (at_ d) (zseq 0 (nx * ny)) = rsum (fun c => at_ src (source nx_in c) * x_area c)%R xg /\
   (forall l, 0 <= l < nx * ny -> land mask l -> at_ d l = Rmin 0 (arriving nx_in nx xg src l)) /\
   (forall l, 0 <= l < nx * ny -> ocean mask l -> at_ d l =
     (arriving nx_in nx xg src l + rsum (fun m => Rmax 0 (arriving nx_in nx xg src m)) (filter (fun m => reqb (at_ mask m) 0 &&
        match zget imap m, zget jmap m with Some i, Some j => (j * nx + i =? l)%Z | _, _ => false end) (zseq 0 (nx * ny))))%R).
Proof.
  intros Hx Hy Ls Lm La Hin HT. unfold process_data.
  destruct (remap_run nx_in ny_in nx ny xg src) as (d0 & E0 & V0); auto; [lia|]. rewrite E0. cbn [bind].
  assert (A0 : forall l, 0 <= l < nx * ny -> at_ d0 l = arriving nx_in nx xg src l). { intros. apply (vec_at_ _ _ _ _ V0). auto. }
  destruct (move_run nx ny mask imap jmap d0) as (d & E1 & Ld & Hs & Hla & Hoc); auto; [lia|apply V0|]. rewrite E1. cbn [bind].
  destruct (divide_run (nx * ny) area d) as (d2 & E2 & V2); auto; [nia|]. rewrite E2. cbn [bind].
  assert (Hfin : exists out, (if n_ext >? 0 then
    ofor 0 (ny - n_ext) (fun t j => ofor 0 nx (fun t i =>
      do v <- oget d2 ((j + n_ext) * nx + i) ; oset t (j * nx + i) v) t)
      (repeat 0%R (Z.to_nat (nx * (ny - n_ext))))
     else Ok d2) = Ok out /\ zlen out = nx * (ny - n_ext) /\
   forall l, 0 <= l < nx * (ny - n_ext) -> at_ out l = (at_ d (l + n_ext * nx) / at_ area (l + n_ext * nx))%R).
  { destruct (Z.gtb_spec n_ext 0) as [Hg|Hg].
    - destruct (fill2 nx (ny - n_ext) (fun t j i => do v <- oget d2 ((j + n_ext) * nx + i) ; oset t (j * nx + i) v)
        (fun i j => at_ d ((j + n_ext) * nx + i) / at_ area ((j + n_ext) * nx + i))%R (repeat 0%R (Z.to_nat (nx * (ny - n_ext))))) as (out & E & L & H); auto; try lia.
      + rewrite zlen_repeat. nia.
      + intros g x y HX HY. rewrite (vec_get _ _ _ _ V2) by nia. reflexivity.
      + exists out. split; [exact E|]. split; [exact L|]. intros l Hl. assert (0 < nx) by nia.
        specialize (H (l mod nx) (l / nx)). pose proof (Z.mod_pos_bound l nx ltac:(lia)). pose proof (flat nx l ltac:(lia)).
        rewrite H2 in H. replace ((l / nx + n_ext) * nx + l mod nx) with (l + n_ext * nx) in H by lia.
        apply at_zget. apply H; auto. split; [apply Z.div_pos; lia|apply Z.div_lt_upper_bound; nia].
    - exists d2. split; auto. assert (n_ext = 0) by lia. subst n_ext. rewrite Z.sub_0_r. split; [apply V2|]. intros l Hl.
      rewrite Z.mul_0_l, Z.add_0_r. apply (vec_at_ _ _ _ _ V2). auto. }
  destruct Hfin as (out & E3 & L3 & H3). exists d, out. split; [exact E3|]. split; [auto|]. split; [auto|]. split; [|split].
  - rewrite Hs. rewrite (rsum_ext _ (arriving nx_in nx xg src)) by (intros l Hl; apply In_zseq in Hl; apply A0; lia).
    unfold arriving, covering. rewrite (rsum_group (target nx) (fun c => at_ src (source nx_in c) * x_area c)%R); auto; [nia|].
    intros c Hc. destruct (Hin c Hc) as (? & ? & ? & ?). unfold target. nia.
  - intros l Hl H. rewrite Hla, A0 by auto. auto.
  - intros l Hl H. rewrite Hoc, A0 by auto. f_equal. apply rsum_ext. intros m Hm. apply filter_In in Hm. destruct Hm as [Hm _]. apply In_zseq in Hm. rewrite A0 by lia. auto.
Qed.
