(** * Proofs about mppncscatter's extents *)
From Verif Require Import Base Loops Spec_Extent M_Extent P_Extent M_ScatterExt.

Lemma round_half_even_spec a b : 0 < b -> 0 <= a ->
  2 * Z.abs (round_half_even a b * b - a) <= b.
Proof.
  intros Hb Ha. unfold round_half_even.
  pose proof (Z.div_mod a b ltac:(lia)). pose proof (Z.mod_pos_bound a b Hb).
  destruct (Z.ltb_spec (2 * (a mod b)) b); [nia|].
  destruct (Z.ltb_spec b (2 * (a mod b))); [nia|].
  destruct (Z.even (a / b)); nia.
Qed.

Lemma round_half_even_exact a b : 0 < b -> 0 <= a -> a mod b = 0 -> round_half_even a b * b = a.
Proof.
  intros Hb Ha Hm. unfold round_half_even. rewrite Hm.
  pose proof (Z.div_mod a b ltac:(lia)). destruct (Z.ltb_spec (2 * 0) b); nia.
Qed.

Definition e_of (a b : Z) : Z :=
  let e0 := Z.log2 a - Z.log2 b in
  if (if 0 <=? e0 then b * 2 ^ e0 <=? a else b <=? a * 2 ^ (- e0)) then e0 else e0 - 1.

(** The binade: b * 2^23 <= a * 2^s. *)
Lemma binade a b s : 0 < a -> 0 < b -> s = 23 - e_of a b ->
  (0 <= s -> b * 2 ^ 23 <= a * 2 ^ s) /\ (s < 0 -> b * 2 ^ (23 - s) <= a).
Proof.
  intros Ha Hb ->. unfold e_of.
  pose proof (Z.log2_spec a Ha) as [A1 A2]. pose proof (Z.log2_spec b Hb) as [B1 B2].
  pose proof (Z.log2_nonneg a). pose proof (Z.log2_nonneg b).
  rewrite Z.pow_succ_r in A2, B2 by auto.
  set (la := Z.log2 a) in *. set (lb := Z.log2 b) in *. set (e0 := la - lb).
  assert (Pw : forall x y, 0 <= x -> 0 <= y -> 2 ^ (x + y) = 2 ^ x * 2 ^ y) by (intros; apply Z.pow_add_r; auto).
  assert (Pp : forall x, 0 <= x -> 0 < 2 ^ x) by (intros; apply Z.pow_pos_nonneg; lia).
  destruct (Z.leb_spec 0 e0) as [He|He].
  - destruct (Z.leb_spec (b * 2 ^ e0) a) as [H1|H1].
    + split; intros Hs.
      * replace 23 with (e0 + (23 - e0)) at 1 by lia. rewrite Pw by lia. pose proof (Pp (23 - e0) ltac:(lia)). nia.
      * replace (23 - (23 - e0)) with e0 by lia. auto.
    + (* e = e0 - 1 *)
      assert (b * 2 ^ e0 < 2 * a).
      { assert (2 ^ la = 2 ^ lb * 2 ^ e0) by (rewrite <- Pw by lia; f_equal; lia).
        pose proof (Pp e0 ltac:(lia)). nia. }
      split; intros Hs.
      * destruct (Z.eq_dec e0 0) as [->|].
        -- replace (23 - (0 - 1)) with (23 + 1) by lia. rewrite (Pw 23 1) by lia. lia.
        -- assert (2 ^ e0 = 2 * 2 ^ (e0 - 1)) by (rewrite <- Z.pow_succ_r by lia; f_equal; lia).
           replace 23 with ((e0 - 1) + (23 - (e0 - 1))) at 1 by lia. rewrite Pw by lia.
           pose proof (Pp (23 - (e0 - 1)) ltac:(lia)). nia.
      * replace (23 - (23 - (e0 - 1))) with (e0 - 1) by lia.
        assert (2 ^ e0 = 2 * 2 ^ (e0 - 1)) by (rewrite <- Z.pow_succ_r by lia; f_equal; lia). nia.
  - destruct (Z.leb_spec b (a * 2 ^ (- e0))) as [H1|H1]; (split; intros Hs; [|lia]).
    + replace (23 - e0) with (23 + - e0) by lia. rewrite Pw by lia. pose proof (Pp 23 ltac:(lia)). nia.
    + assert (b < 2 * (a * 2 ^ (- e0))).
      { assert (2 ^ lb = 2 ^ la * 2 ^ (- e0)) by (rewrite <- Pw by lia; f_equal; lia).
        pose proof (Pp (- e0) ltac:(lia)). nia. }
      replace (23 - (e0 - 1)) with (23 + (- e0 + 1)) by lia. rewrite Pw by lia.
      rewrite (Pw (- e0) 1) by lia. pose proof (Pp 23 ltac:(lia)). change (2 ^ 1) with 2. nia.
Qed.

(** For operands up to 2^24 the float quotient has the exact ceiling. *)
Lemma ceil_rn24_exact a b : 1 <= a <= 2 ^ 24 -> 1 <= b -> ceil_pow (rn24 a b) = cdiv a b.
Proof.
  intros Ha Hb. unfold rn24. fold (e_of a b). set (s := 23 - e_of a b).
  destruct (binade a b s ltac:(lia) ltac:(lia) eq_refl) as [B1 B2].
  unfold ceil_pow. destruct (Z.leb_spec 0 s) as [Hs|Hs].
  - specialize (B1 Hs). pose proof (Z.pow_pos_nonneg 2 s ltac:(lia) Hs) as Hp.
    set (P := 2 ^ s) in *. set (m := round_half_even (a * P) b).
    pose proof (cdiv_spec a b ltac:(lia)) as [C1 C2]. set (c := cdiv a b) in *.
    pose proof (round_half_even_spec (a * P) b ltac:(lia) ltac:(nia)) as R. fold m in R.
    apply cdiv_unique; auto.
    destruct (Z.eq_dec ((a * P) mod b) 0) as [Hx|Hx].
    + pose proof (round_half_even_exact (a * P) b ltac:(lia) ltac:(nia) Hx) as X. fold m in X. nia.
    + assert (b < 2 * P).
      { destruct (Z.lt_ge_cases b (2 * P)); auto. exfalso. apply Hx.
        change (2 ^ 24) with (2 * 2 ^ 23) in Ha.
        assert (b = 2 * P) by nia. assert (a = 2 * 2 ^ 23) by nia.
        replace (a * P) with (2 ^ 23 * b) by nia. apply Z.mod_mul. lia. }
      split.
      * assert (P * (c - 1) * b < m * b); [|nia]. nia.
      * assert (m * b < (P * c + 1) * b); [|nia]. nia.
  - specialize (B2 Hs). (* a/b >= 2^24: only a = 2^24, b = 1 *)
    assert (2 ^ (23 - s) >= 2 ^ 24) by (apply Z.le_ge, Z.pow_le_mono_r; lia).
    assert (b = 1) by nia. assert (Ea : a = 2 ^ 24) by nia. subst b.
    assert (Es : s = -1).
    { destruct (Z.lt_ge_cases s (-1)); [|lia]. exfalso.
      assert (2 ^ 25 <= 2 ^ (23 - s)) by (apply Z.pow_le_mono_r; lia). lia. }
    rewrite Es, Ea. reflexivity.
Qed.

Lemma fl24_exact n : 1 <= n <= 2 ^ 24 -> fl24 n = n.
Proof.
  intros H. unfold fl24. rewrite ceil_rn24_exact by lia. apply cdiv_unique; lia.
Qed.

Lemma fceil_exact a b : 1 <= a <= 2 ^ 24 -> 1 <= b <= 2 ^ 24 -> fceil a b = cdiv a b.
Proof. intros Ha Hb. unfold fceil. rewrite !fl24_exact by auto. apply ceil_rn24_exact; lia. Qed.

Lemma w64_id x : 0 <= x < 2 ^ 64 -> w64 x = x.
Proof. intros H. unfold w64. now apply Z.mod_small. Qed.

(** Bounds of the loop variables in every reachable state. *)
Lemma ext_bounds n d k st : 1 <= d <= n -> 0 <= k < d -> ext_ok n d k st ->
  0 <= x_is st < n /\
  let imax := if k =? 0 then n - 1 else x_imax st in
  let ndmax := if k =? 0 then d else x_ndmax st in
  (symmetrize n d = false \/ k < (d - 1) / 2 + 1 -> x_is st <= imax <= n - 1 /\ 1 <= ndmax - k /\ ndmax <= d)
  /\ (symmetrize n d = true -> (d - 1) / 2 + 1 <= k ->
        exists b e, zget (x_ibegin st) k = Some b /\ zget (x_iend st) k = Some e /\ 0 <= b /\ b <= e < n).
Proof.
  intros H Hk (Lb & Le & His & Hdone & Hrest). cbv zeta.
  pose proof (start_of_mono n d 0 k H ltac:(lia) ltac:(lia)) as M0. rewrite start_of_0 in M0 by auto.
  pose proof (start_of_mono n d k d H ltac:(lia) ltac:(lia)) as M1. rewrite start_of_d in M1 by auto.
  rewrite His. split; [lia|].
  pose proof (Z.div_mod (d - 1) 2 ltac:(lia)). pose proof (Z.mod_pos_bound (d - 1) 2 ltac:(lia)).
  destruct (symmetrize n d) eqn:Hs.
  - destruct Hrest as (Hmir & Hmax). split.
    + intros [|Hh]; [discriminate|]. assert (2 * k <= d - 1) by lia.
      pose proof (start_of_mirror n d k H Hs ltac:(lia)).
      pose proof (start_of_mono n d k (d - k) H ltac:(lia) ltac:(lia)).
      destruct (Z.eqb_spec k 0) as [->|]; [rewrite start_of_0 in * by auto; lia|].
      destruct (Hmax ltac:(lia) ltac:(lia)) as [-> ->]. lia.
    + intros _ Hh. destruct (Hmir (d - 1 - k) ltac:(lia) ltac:(lia)) as [B1 B2].
      replace (d - 1 - (d - 1 - k)) with k in * by lia.
      replace (d - (d - 1 - k)) with (k + 1) in B2 by lia.
      do 2 eexists. split; [exact B1|]. split; [exact B2|].
      pose proof (start_of_mono n d k (k + 1) H ltac:(lia) ltac:(lia)).
      pose proof (start_of_mono n d (k + 1) d H ltac:(lia) ltac:(lia)) as M2. rewrite start_of_d in M2 by auto. lia.
  - split; [|discriminate]. intros _.
    destruct (Z.eqb_spec k 0) as [->|]; [lia|]. destruct (Hrest ltac:(lia)) as [-> ->]. lia.
Qed.

Lemma sc_step_eq n d k st st' errs : 1 <= d <= n -> n <= 2 ^ 24 -> 0 <= k < d -> ext_ok n d k st ->
  extent_step n d st k = Ok st' -> sc_extent_step (n - 1) d (st, errs) k = Ok (st', errs).
Proof.
  intros H Hn Hk Hok. destruct (ext_bounds n d k st H Hk Hok) as (Hi & Hb). cbv zeta in Hb.
  destruct Hb as [Hb1 Hb2].
  unfold extent_step, sc_extent_step. replace (n - 1 + 1) with n by lia. cbn [x_is].
  set (imax := if k =? 0 then n - 1 else x_imax st) in *.
  set (ndmax := if k =? 0 then d else x_ndmax st) in *.
  assert (Hce : (symmetrize n d = false \/ k < (d - 1) / 2 + 1) ->
    fceil (w64 (imax - x_is st) + 1) (w64 (ndmax - k)) = cdiv (imax - x_is st + 1) (ndmax - k)
    /\ x_is st <= x_is st + cdiv (imax - x_is st + 1) (ndmax - k) - 1 <= n - 1).
  { intros Hc. destruct (Hb1 Hc) as (B1 & B2 & B3).
    rewrite !w64_id by lia. rewrite fceil_exact by lia. split; auto.
    pose proof (cdiv_spec (imax - x_is st + 1) (ndmax - k) ltac:(lia)). nia. }
  assert (Fin : forall ib0 en0 iss ie im nd, 0 <= ie < n ->
    (do ib <- oset ib0 k iss; do en <- oset en0 k ie;
     (if ie <? iss then Err E_not_positive else if (k =? d - 1) && negb (ie =? n - 1) then Err E_not_span
      else Ok (ExtSt (ie + 1) im nd ib en))) = Ok st' ->
    (do ib <- oset ib0 k iss; do en <- oset en0 k ie;
     Ok (ExtSt (w64 (ie + 1)) im nd ib en,
       if (k =? d - 1) && negb (ie =? n - 1) then (if ie <? iss then errs + 1 else errs) + 1
       else if ie <? iss then errs + 1 else errs)) = Ok (st', errs)).
  { intros ib0 en0 iss ie im nd Hie. destruct (oset ib0 k iss); cbn [bind]; try discriminate.
    destruct (oset en0 k ie); cbn [bind]; try discriminate. rewrite w64_id by lia.
    destruct (ie <? iss); [discriminate|]. destruct ((k =? d - 1) && negb (ie =? n - 1)); [discriminate|].
    intros E; inversion E; reflexivity. }
  destruct (Z.ltb_spec k ((d - 1) / 2 + 1)) as [Hh|Hh].
  - destruct (Hce (or_intror Hh)) as [-> Hie]. set (ie := x_is st + cdiv (imax - x_is st + 1) (ndmax - k) - 1) in *.
    destruct (Z.leb_spec 0 ie); [|lia]. destruct (Z.ltb_spec ie (2 ^ 64)); [|lia]. cbn [andb bind].
    destruct (Hb1 (or_intror Hh)) as (B1 & B2 & B3).
    destruct ((k <? d - 1 - k) && symmetrize n d).
    + replace (0 + (n - 1) - ie) with (n - 1 - ie) by lia. replace (0 + (n - 1) - x_is st) with (n - 1 - x_is st) by lia.
      rewrite (w64_id (n - 1 - ie)), (w64_id (ie + 1)), (w64_id (n - 1 - x_is st)), (w64_id (ndmax - 1)) by lia.
      destruct (oset (x_ibegin st) (d - 1 - k) (Z.max (n - 1 - ie) (ie + 1))) as [ib1| |] eqn:E1; cbn [bind]; try discriminate.
      destruct (oset (x_iend st) (d - 1 - k) (Z.max (n - 1 - x_is st) (ie + 1))) as [en1| |] eqn:E2; cbn [bind]; try discriminate.
      apply oset_Ok in E1. unfold oget. rewrite (zget_zset_eq _ _ _ _ E1). cbn [bind].
      rewrite (w64_id (Z.max (n - 1 - ie) (ie + 1) - 1)) by lia. intros HF; apply Fin in HF; [exact HF|lia].
    + cbn [bind]. intros HF; apply Fin in HF; [exact HF|lia].
  - destruct (symmetrize n d) eqn:Hs.
    + destruct (Hb2 eq_refl Hh) as (b & e & Eb & Ee & Hbe). unfold oget. rewrite Eb, Ee. cbn [bind].
      intros HF; apply Fin in HF; [exact HF|lia].
    + destruct (Hce (or_introl eq_refl)) as [-> Hie]. set (ie := x_is st + cdiv (imax - x_is st + 1) (ndmax - k) - 1) in *.
      destruct (Z.leb_spec 0 ie); [|lia]. destruct (Z.ltb_spec ie (2 ^ 64)); [|lia]. cbn [andb bind].
      intros HF; apply Fin in HF; [exact HF|lia].
Qed.

Lemma sc_compute_extent_spec n d ib0 ie0 :
  1 <= d <= n -> n <= 2 ^ 24 -> d <= zlen ib0 -> d <= zlen ie0 ->
  exists ib ie, sc_compute_extent (n - 1) d ib0 ie0 = Ok (ib, ie, 0)
    /\ forall j, 0 <= j < d -> zget ib j = Some (start_of n d j)
                             /\ zget ie j = Some (start_of n d (j + 1) - 1).
Proof.
  intros H Hn Lb Le. unfold sc_compute_extent.
  destruct (ofor_inv (fun k s => ext_ok n d k (fst s) /\ snd s = 0)
    (sc_extent_step (n - 1) d) 0 d (ExtSt 0 0 0 ib0 ie0, 0)) as (st & Hf & Hok & Herr).
  - lia.
  - split; [|reflexivity]. unfold ext_ok. cbn [fst x_is x_imax x_ndmax x_ibegin x_iend].
    repeat split; auto; try lia.
    + now rewrite start_of_0.
    + destruct (symmetrize n d); [split; intros; lia|intros; lia].
  - intros k [st e] Hk [Hok He]. cbn [fst snd] in *. subst e.
    destruct (extent_step_ok n d k st H ltac:(lia) Hok) as (st' & E & Hok').
    exists (st', 0). split; [|split; auto]. eapply sc_step_eq; eauto; lia.
  - rewrite Hf. destruct st as [st e]. cbn [fst snd bind] in *. subst e.
    do 2 eexists; split; [reflexivity|].
    destruct Hok as (_ & _ & _ & Hd & _). intros j Hj. apply Hd. lia.
Qed.

(** Any strictly increasing sequence of break points describes a tiling. *)
Lemma breaks_mono (s : Z -> Z) d : (forall j, 0 <= j < d -> s j < s (j + 1)) ->
  forall i j, 0 <= i <= j -> j <= d -> s i + (j - i) <= s j.
Proof.
  intros Hs i j Hij Hj. remember (Z.to_nat (j - i)) as k eqn:Hk. revert j Hij Hj Hk.
  induction k as [|k IH]; intros j Hij Hj Hk.
  - replace j with i by lia. lia.
  - specialize (IH (j - 1) ltac:(lia) ltac:(lia) ltac:(lia)). specialize (Hs (j - 1) ltac:(lia)).
    replace (j - 1 + 1) with j in Hs by lia. lia.
Qed.

Lemma breaks_cover (s : Z -> Z) d x : 0 <= d -> s 0 <= x < s d -> exists j, 0 <= j < d /\ s j <= x < s (j + 1).
Proof.
  intros Hd. remember (Z.to_nat d) as k eqn:Hk. revert d Hd Hk.
  induction k as [|k IH]; intros d Hd Hk Hx.
  - replace d with 0 in * by lia. lia.
  - destruct (Z.lt_ge_cases x (s (d - 1))) as [Hlt|Hge].
    + destruct (IH (d - 1) ltac:(lia) ltac:(lia) ltac:(lia)) as (j & Hj & Hc). exists j. split; [lia|auto].
    + exists (d - 1). replace (d - 1 + 1) with d by lia. lia.
Qed.

Lemma tiles_of_breaks (s : Z -> Z) npts ndivs ib ie :
  1 <= ndivs -> s 0 = 0 -> s ndivs = npts -> (forall j, 0 <= j < ndivs -> s j < s (j + 1)) ->
  (forall j, 0 <= j < ndivs -> zget ib j = Some (s j) /\ zget ie j = Some (s (j + 1) - 1)) ->
  tiles npts ndivs ib ie.
Proof.
  intros H S0 Sn Hinc Hs. pose proof (breaks_mono s ndivs Hinc) as Mono. unfold tiles, division.
  assert (Hdiv : forall j b e, 0 <= j < ndivs -> zget ib j = Some b -> zget ie j = Some e ->
            b = s j /\ e = s (j + 1) - 1).
  { intros j b e Hj Hb He. destruct (Hs j Hj) as [H1 H2]. split; congruence. }
  split; [|split; [|split; [|split]]].
  - intros j Hj. destruct (Hs j Hj) as [H1 H2]. do 2 eexists. split; [split; eauto|].
    pose proof (Mono 0 j ltac:(lia) ltac:(lia)). pose proof (Mono (j + 1) ndivs ltac:(lia) ltac:(lia)).
    specialize (Hinc j Hj). lia.
  - destruct (Hs 0 ltac:(lia)) as [H1 H2]. rewrite S0 in H1. eauto.
  - destruct (Hs (ndivs - 1) ltac:(lia)) as [H1 H2].
    replace (ndivs - 1 + 1) with ndivs in H2 by lia. rewrite Sn in H2. eauto.
  - intros j b e b' e' Hj Hj1 [Hb He] [Hb' He'].
    destruct (Hdiv j b e ltac:(lia) Hb He) as [_ ->].
    destruct (Hdiv (j + 1) b' e' ltac:(lia) Hb' He') as [-> _]. lia.
  - intros x Hx. destruct (breaks_cover s ndivs x ltac:(lia) ltac:(lia)) as (j & Hj & Hjx).
    exists j. split.
    + split; [auto|]. destruct (Hs j Hj) as [H1 H2]. do 2 eexists. split; [split; eauto|]. lia.
    + intros j' (Hj' & b & e & [Hb He] & Hbe).
      destruct (Hdiv j' b e Hj' Hb He) as [-> ->].
      destruct (Z.lt_trichotomy j j') as [Hlt|[->|Hlt]]; auto; exfalso.
      * pose proof (Mono (j + 1) j' ltac:(lia) ltac:(lia)). lia.
      * pose proof (Mono (j' + 1) j ltac:(lia) ltac:(lia)). lia.
Qed.

Lemma get_scatter_extents_spec n d : 1 <= d <= n -> n <= 2 ^ 24 ->
  exists sd, get_scatter_extents n d = Ok sd /\ sd_ndiv sd = d
    /\ forall j, 0 <= j < d -> zget (sd_start sd) j = Some (start_of n d j)
         /\ zget (sd_end sd) j = Some (start_of n d (j + 1) - 1)
         /\ zget (sd_len sd) j = Some (start_of n d (j + 1) - start_of n d j).
Proof.
  intros H Hn. unfold get_scatter_extents. set (fresh := repeat 0 (Z.to_nat d)).
  assert (Lf : zlen fresh = d) by (unfold fresh; rewrite zlen_repeat; lia).
  destruct (sc_compute_extent_spec n d fresh fresh H Hn ltac:(lia) ltac:(lia)) as (ib & ie & -> & Hs).
  cbn [bind].
  destruct (ofor_inv (fun k ln => zlen ln = d /\ forall j, 0 <= j < k -> zget ln j = Some (start_of n d (j + 1) - start_of n d j))
    (fun ln j => do e <- oget ie j ; do s <- oget ib j ; oset ln j (e - s + 1)) 0 d fresh) as (ln & E & L & Hl).
  - lia.
  - split; auto. intros; lia.
  - intros k ln Hk (L & IH). destruct (Hs k ltac:(lia)) as [H1 H2]. unfold oget. rewrite H1, H2. cbn [bind].
    destruct (zset_Some ln k (start_of n d (k + 1) - 1 - start_of n d k + 1) ltac:(lia)) as [ln' El].
    exists ln'. unfold oset. rewrite El. split; [auto|]. split; [rewrite (zset_len _ _ _ _ El); auto|].
    intros j Hj. destruct (Z.eq_dec j k) as [->|].
    + rewrite (zget_zset_eq _ _ _ _ El). f_equal. lia.
    + rewrite (zget_zset_ne _ _ _ _ _ El) by auto. apply IH; lia.
  - rewrite E. cbn [bind]. eexists. split; [reflexivity|]. split; [reflexivity|].
    intros j Hj. destruct (Hs j Hj). cbn. repeat split; auto; apply Hl; lia.
Qed.

Lemma io_group_spec (st en : list Z) (S E : Z -> Z) ndiv step nio :
  1 <= step -> 0 <= nio -> ndiv = nio * step ->
  (forall j, 0 <= j < ndiv -> zget st j = Some (S j) /\ zget en j = Some (E j)) ->
  forall fuel k sio eio lio, 0 <= k <= nio -> nio - k <= Z.of_nat fuel ->
  zlen sio = nio -> zlen eio = nio -> zlen lio = nio ->
  exists sio' eio' lio', io_group fuel ndiv step (k * step) k st en (sio, eio, lio) = Ok (sio', eio', lio')
    /\ (forall j, 0 <= j < k -> zget sio' j = zget sio j /\ zget eio' j = zget eio j /\ zget lio' j = zget lio j)
    /\ (forall j, k <= j < nio -> zget sio' j = Some (S (j * step)) /\ zget eio' j = Some (E ((j + 1) * step - 1))
          /\ zget lio' j = Some (E ((j + 1) * step - 1) - S (j * step) + 1)).
Proof.
  intros Hst Hn Hnd Hg. induction fuel as [|fuel IH]; intros k sio eio lio Hk Hf L1 L2 L3; cbn [io_group].
  - assert (k = nio) by lia. subst k. destruct (Z.ltb_spec (nio * step) ndiv); [lia|].
    do 3 eexists; split; [reflexivity|]. split; [auto|]. intros; lia.
  - destruct (Z.ltb_spec (k * step) ndiv) as [Hlt|Hge].
    + assert (k < nio) by nia.
      destruct (Hg (k * step) ltac:(nia)) as [G1 _]. destruct (Hg (k * step + step - 1) ltac:(nia)) as [_ G2].
      unfold oget. rewrite G1, G2. cbn [bind].
      replace (k * step + step - 1) with ((k + 1) * step - 1) by lia.
      destruct (zset_Some sio k (S (k * step)) ltac:(lia)) as [sio1 X1].
      destruct (zset_Some eio k (E ((k + 1) * step - 1)) ltac:(lia)) as [eio1 X2].
      destruct (zset_Some lio k (E ((k + 1) * step - 1) - S (k * step) + 1) ltac:(lia)) as [lio1 X3].
      unfold oset. rewrite X1, X2, X3. cbn [bind].
      replace (k * step + step) with ((k + 1) * step) by lia.
      destruct (IH (k + 1) sio1 eio1 lio1) as (a & b & c & Er & R1 & R2);
        try (rewrite (zset_len _ _ _ _ X1) || rewrite (zset_len _ _ _ _ X2) || rewrite (zset_len _ _ _ _ X3)); try lia.
      exists a, b, c. split; [exact Er|]. split.
      * intros j Hj. destruct (R1 j ltac:(lia)) as (-> & -> & ->).
        rewrite (zget_zset_ne _ _ _ _ _ X1), (zget_zset_ne _ _ _ _ _ X2), (zget_zset_ne _ _ _ _ _ X3) by lia. auto.
      * intros j Hj. destruct (Z.eq_dec j k) as [->|].
        -- destruct (R1 k ltac:(lia)) as (-> & -> & ->).
           rewrite (zget_zset_eq _ _ _ _ X1), (zget_zset_eq _ _ _ _ X2), (zget_zset_eq _ _ _ _ X3). auto.
        -- apply R2. lia.
    + assert (k = nio) by nia. subst k. do 3 eexists; split; [reflexivity|]. split; [auto|]. intros; lia.
Qed.
