(** * Proofs about time_average *)
From Coq Require Import Reals Lra.
From Verif Require Import Base Loops Lst M_Interp Spec_Interp P_Interp P_Interp2 M_Runoff P_Runoff M_TimeAvg Spec_TimeAvg.
Open Scope Z_scope.

Lemma list_at (l : list R) n : zlen l = n -> l = map (at_ l) (zseq 0 n).
Proof.
  intros H. apply zget_ext; [rewrite zlen_map, zlen_zseq; pose proof (zlen_nonneg l); lia|]. intros i Hi. rewrite zget_map, zget_zseq by lia.
  destruct (zget l i) as [x|] eqn:E; [|apply zget_None_range in E; lia]. cbn. now rewrite (at_zget _ _ _ E).
Qed.
Lemma at_zmap (F : Z -> R) m i : 0 <= i < m -> at_ (map F (zseq 0 m)) i = F i.
Proof. intros Hi. apply at_zget. rewrite zget_map, zget_zseq by lia. reflexivity. Qed.
Lemma map2_map {A B C D} (f : A -> B -> C) (g : D -> A) (h : D -> B) l : map2 f (map g l) (map h l) = map (fun x => f (g x) (h x)) l.
Proof. unfold map2. induction l as [|x l IH]; [reflexivity|]. cbn. f_equal. exact IH. Qed.
Lemma map_id_const {A B C} (b : C) (g : A -> B) l : map (fun _ => b) (map g l) = map (fun _ => b) l.
Proof. rewrite map_map. reflexivity. Qed.
Lemma firstn_next {A} (l : list A) i x : zget l i = Some x -> firstn (Z.to_nat (i + 1)) l = firstn (Z.to_nat i) l ++ [x].
Proof.
  intros H. assert (Hi : 0 <= i) by (unfold zget in H; destruct (Z.ltb_spec i 0); [discriminate|lia]).
  unfold zget in H. destruct (Z.ltb_spec i 0); [lia|]. replace (Z.to_nat (i + 1)) with (S (Z.to_nat i)) by lia.
  revert l H. induction (Z.to_nat i) as [|n IH]; intros [|y l] H; try discriminate; cbn in *; [congruence|]. f_equal. auto.
Qed.

Lemma filter_all_true {A} (p : A -> bool) l : (forall x, In x l -> p x = true) -> filter p l = l.
Proof. induction l as [|a l IH]; intros H; [reflexivity|]. cbn. rewrite (H a (or_introl eq_refl)), IH; auto. intros; apply H; right; auto. Qed.

Section Avg.
  Context (frac : R) (use_end : bool) (f : tfile) (sz : Z).
  Context (Hsz : 0 <= sz) (Hus : usable f sz).
  Definition wsum p L : R := rsum (fun r => weight f r * at_ (r_data r) p)%R (filter (is_valid f p) L).
  Definition wok p L : R := rsum (weight f) (filter (is_valid f p) L).
  (** The exact value before storing *)
  Definition expected p : R :=
    match miss_of f with
    | Some m => if Rlt_dec (fraction frac * total_weight f) (valid_weight f p) then mean f p else m
    | None => mean f p
    end.
  Definition do_store (x : R) : R :=
    if f_float f then x else truncate (match miss_of f with Some m => if reqb x m then x else half_sign x | None => half_sign x end).

  (** What stays the same from file to file *)
  Definition meta (v : tvar) : Prop :=
    v_static v = false /\ v_float v = f_float f /\ v_size v = sz /\ zlen (v_sum v) = sz /\ zlen (v_wt v) = sz /\
    match miss_of f with Some m => v_do_missval v = true /\ v_missval v = m | None => v_do_missval v = false end.
  (** Weights are kept where they are needed *)
  Definition weighted (v : tvar) : Prop := if v_use_wt v then miss_of f <> None else miss_of f = None \/ zlen (f_recs f) = 1.

  Lemma store_meta v x : meta v -> store v x = do_store x.
  Proof. intros (_ & Hf & _ & _ & _ & Hm). unfold store, do_store. rewrite Hf. destruct (f_float f); auto. destruct (miss_of f); [destruct Hm as [-> ->]; reflexivity|now rewrite Hm]. Qed.
  Lemma weight_pos r : In r (f_recs f) -> (0 < weight f r)%R.
  Proof. intros Hr. destruct Hus as (_ & _ & H & _). destruct (H r Hr) as [_ Hb]. unfold weight. destruct (f_bounds f); [specialize (Hb eq_refl)|]; lra. Qed.
  Lemma rec_tavg_w r : snd (rec_tavg f r) = weight f r.
  Proof. unfold rec_tavg, weight. destruct (f_bounds f); reflexivity. Qed.
  Lemma fraction_range : (0 <= fraction frac < 1)%R.
  Proof. unfold fraction. split; [apply Rmax_r|]. apply Rmax_lub_lt; [|lra]. apply Rle_lt_trans with (1 - 1/1000000)%R; [apply Rmin_r|lra]. Qed.

  Lemma one_record r : f_recs f = [r] -> forall p, expected p = at_ (r_data r) p.
  Proof.
    intros E p. pose proof fraction_range. assert (W : (0 < weight f r)%R) by (apply weight_pos; rewrite E; left; auto).
    unfold expected, mean, total_weight, valid_weight, valid. rewrite E. cbn [filter]. unfold is_valid. destruct (miss_of f) as [m|] eqn:Em.
    - destruct (Req_EM_T (at_ (r_data r) p) m) as [Eq|Nq].
      + rewrite rsum_nil, rsum_cons, rsum_nil. destruct Rlt_dec; [nra|auto].
      + rewrite !rsum_cons, !rsum_nil. destruct Rlt_dec as [L|L]; [field; lra|]. exfalso. apply L. nra.
    - rewrite !rsum_cons, !rsum_nil. field. lra.
  Qed.

  Definition tavg0 : R * R * R := (0, 0, 0)%R.
  Definition bounds_ok (t : R * R * R) : Prop :=
    exists r0 r1, hd_error (f_recs f) = Some r0 /\ zget (f_recs f) (zlen (f_recs f) - 1) = Some r1 /\
      fst (fst t) = fst (fst (rec_tavg f r0)) /\ snd (fst t) = snd (fst (rec_tavg f r1)).

  Lemma file_run first v : meta v -> weighted v ->
    exists v' lo hi t, do_file frac use_end first f v = Ok (v', Averaged (map (fun p => do_store (expected p)) (zseq 0 sz)) lo hi t) /\
      meta v' /\ v_use_wt v' = v_use_wt v /\ bounds_ok (lo, hi, 0%R) /\
      t = if use_end then last (map r_time (f_recs f)) 0%R else (1/2 * (lo + hi))%R.
  Proof.
    intros Hm Hw. pose proof Hus as (Hst & Hne & Hrec & Hint). unfold do_file, add_records.
    set (n := zlen (f_recs f)). set (L i := firstn (Z.to_nat i) (f_recs f)).
    assert (Hn : 1 <= n). { unfold n. destruct (f_recs f); [easy|]. unfold zlen. cbn [length]. lia. }
    assert (Hz : v_static (zero_var v) = false) by apply Hm. rewrite Hz.
    set (Inv := fun i v' => meta v' /\ v_use_wt v' = v_use_wt v /\
      (if v_use_wt v then v_sum v' = map (fun p => wsum p (L i)) (zseq 0 sz) /\ v_wt v' = map (fun p => wok p (L i)) (zseq 0 sz) /\ v_wt_max v' = rsum (weight f) (L i)
       else if n =? 1 then (i = 1 -> exists r, f_recs f = [r] /\ v_sum v' = r_data r)
       else v_sum v' = map (fun p => wsum p (L i)) (zseq 0 sz) /\ v_wt_max v' = rsum (weight f) (L i)) /\
      (1 <= i -> exists r0, hd_error (f_recs f) = Some r0 /\ fst (fst (v_tavg v')) = fst (fst (rec_tavg f r0))) /\
      (i = n -> exists r1, zget (f_recs f) (n - 1) = Some r1 /\ snd (fst (v_tavg v')) = snd (fst (rec_tavg f r1)))).
    destruct Hm as (M1 & M2 & M3 & M4 & M5 & M6).
    match goal with |- context [ofor 0 n ?g ?s] => destruct (ofor_inv Inv g 0 n s) as (v' & E & I) end; [lia| | |].
    - unfold Inv. split; [|split; [reflexivity|split; [|split; intros; lia]]].
      + repeat split; cbn; auto; [now rewrite zlen_map|]. destruct (v_use_wt v); [now rewrite zlen_map|auto].
      + cbn. destruct (v_use_wt v) eqn:Eu.
        * rewrite (list_at (v_sum v) sz M4), (list_at (v_wt v) sz M5), !map_id_const. repeat split; apply map_ext; reflexivity.
        * destruct (Z.eqb_spec n 1); [lia|]. rewrite (list_at (v_sum v) sz M4), map_id_const. split; [apply map_ext; reflexivity|reflexivity].
    - intros i v1 Hi (I1 & I2 & I3 & I4 & I5). assert (Hr : exists r, zget (f_recs f) i = Some r).
      { destruct (zget (f_recs f) i) eqn:Ez; [eauto|]. apply zget_None_range in Ez. fold n in Ez. lia. }
      destruct Hr as (r & Er). rewrite (proj2 (oget_Ok _ _ _) Er). cbn [bind]. assert (Hin : In r (f_recs f)) by (eapply zget_In; eauto).
      destruct (Hrec r Hin) as [Hlen _]. unfold add_data. cbn [set_tavg v_size v_use_wt v_sum v_wt v_wt_max v_do_missval v_missval v_static v_float v_tavg].
      pose proof I1 as (J1 & J2 & J3 & J4 & J5 & J6). rewrite J3, Hlen, Z.eqb_refl. cbn [negb]. rewrite I2.
      pose proof (list_at (r_data r) sz Hlen) as Ed. rewrite rec_tavg_w.
      assert (Lx : L (i + 1) = L i ++ [r]) by (apply firstn_next; auto).
      assert (VV : forall p, (if v_do_missval v1 then negb (reqb (at_ (r_data r) p) (v_missval v1)) else true) = is_valid f p r).
      { intros p. unfold is_valid. destruct (miss_of f) as [m|]; [destruct J6 as [-> ->]|rewrite J6; auto]. unfold reqb. now destruct Req_EM_T. }
      assert (S1 : map (fun p => if is_valid f p r then wsum p (L i) + weight f r * at_ (r_data r) p else wsum p (L i))%R (zseq 0 sz) = map (fun p => wsum p (L (i + 1))) (zseq 0 sz)).
      { apply map_ext. intros p. unfold wsum. rewrite Lx, filter_app, rsum_app. cbn [filter]. destruct (is_valid f p r); [rewrite rsum_cons|]; rewrite rsum_nil; lra. }
      assert (S2 : map (fun p => if is_valid f p r then wok p (L i) + weight f r else wok p (L i))%R (zseq 0 sz) = map (fun p => wok p (L (i + 1))) (zseq 0 sz)).
      { apply map_ext. intros p. unfold wok. rewrite Lx, filter_app, rsum_app. cbn [filter]. destruct (is_valid f p r); [rewrite rsum_cons|]; rewrite rsum_nil; lra. }
      assert (S3 : (rsum (weight f) (L i) + weight f r)%R = rsum (weight f) (L (i + 1))) by (rewrite Lx, rsum_app, rsum_cons, rsum_nil; lra).
      assert (TT : let t := track_time n (i + 1) (rec_tavg f r) (v_tavg v1) in
        (1 <= i + 1 -> exists r0, hd_error (f_recs f) = Some r0 /\ fst (fst t) = fst (fst (rec_tavg f r0))) /\
        (i + 1 = n -> exists r1, zget (f_recs f) (n - 1) = Some r1 /\ snd (fst t) = snd (fst (rec_tavg f r1)))).
      { cbn zeta. unfold track_time. destruct (v_tavg v1) as [[t1 t2] t3] eqn:Et. destruct (rec_tavg f r) as [[a1 a2] a3] eqn:Ea. cbn [fst snd]. split.
        - intros _. destruct (Z.eqb_spec (i + 1) 1) as [E1|N1].
          + exists r. replace i with 0 in Er by lia. split; [destruct (f_recs f); [discriminate|exact Er]|now rewrite Ea].
          + apply I4. lia.
        - intros En. exists r. replace (n - 1) with i by lia. split; auto. rewrite Ea. destruct (Z.eqb_spec (i + 1) n); [reflexivity|lia]. }
      destruct (v_use_wt v) eqn:Eu.
      + destruct I3 as (P1 & P2 & P3). eexists. split; [reflexivity|]. unfold Inv. try rewrite Eu. cbn [v_static v_float v_size v_sum v_wt v_do_missval v_missval v_use_wt v_wt_max v_tavg].
        rewrite P1, P2, P3. rewrite Ed, !map2_map, S3.
        rewrite (map_ext _ (fun p => if is_valid f p r then wsum p (L i) + weight f r * at_ (r_data r) p else wsum p (L i))%R) by (intros p; now rewrite VV).
        cbv beta. rewrite (map_ext (fun p => if (if v_do_missval v1 then negb (reqb (at_ (r_data r) p) (v_missval v1)) else true) then wok p (L i) + weight f r else wok p (L i))%R (fun p => if is_valid f p r then wok p (L i) + weight f r else wok p (L i))%R) by (intros p; now rewrite VV).
        rewrite S1, S2. split; [|split; [auto|split; [auto|exact TT]]]. repeat split; auto; try (cbn; rewrite zlen_map, zlen_zseq; lia).
      + destruct (Z.eqb_spec n 1) as [N1|N1].
        * eexists. split; [reflexivity|]. unfold Inv. try rewrite Eu. destruct (Z.eqb_spec n 1); [|lia]. split; [|split; [auto|split; [|exact TT]]].
          -- repeat split; auto.
          -- intros _. exists r. split; [|reflexivity]. unfold n in N1. replace i with 0 in Er by lia. destruct (f_recs f) as [|a [|b l]]; [discriminate|cbn in Er; congruence|unfold zlen in N1; cbn [length] in N1; lia].
        * destruct I3 as (P1 & P3). eexists. split; [reflexivity|]. unfold Inv. try rewrite Eu. cbn [v_static v_float v_size v_sum v_wt v_do_missval v_missval v_use_wt v_wt_max v_tavg].
          destruct (Z.eqb_spec n 1); [lia|]. rewrite P1, P3, Ed, !map2_map, S3. unfold weighted in Hw. rewrite Eu in Hw. destruct Hw as [Hno|]; [|lia].
          assert (Vt : forall p, is_valid f p r = true) by (intros p; unfold is_valid; rewrite Hno; auto).
          rewrite <- S1. rewrite (map_ext (fun p => if is_valid f p r then wsum p (L i) + weight f r * at_ (r_data r) p else wsum p (L i))%R (fun p => wsum p (L i) + weight f r * at_ (r_data r) p)%R) by (intros p; now rewrite Vt).
          split; [|split; [auto|split; [auto|exact TT]]]. repeat split; auto; try (cbn; rewrite zlen_map, zlen_zseq; lia).
    - rewrite E. cbn [bind]. destruct I as (I1 & I2 & I3 & I4 & I5). replace (0 + n) with n in * by lia. destruct (v_tavg v') as [[lo hi] w] eqn:Et.
      pose proof I1 as (J1 & J2 & J3 & J4 & J5 & J6). rewrite J1.
      assert (Ln : L n = f_recs f) by (unfold L, n; apply firstn_all2; unfold zlen; lia).
      assert (Av : average frac n v' = map (fun p => do_store (expected p)) (zseq 0 sz)).
      { unfold average. rewrite I2. unfold weighted in Hw. destruct (v_use_wt v) eqn:Eu.
        - destruct I3 as (P1 & P2 & P3). rewrite P1, P2, P3, map2_map. apply map_ext. intros p. rewrite (store_meta v' _ I1). f_equal. unfold expected.
          destruct (miss_of f) as [m|] eqn:Em; [|easy]. destruct J6 as [_ ->]. unfold wok, wsum. rewrite Ln. fold (valid f p). fold (valid_weight f p). fold (total_weight f).
          unfold rlt, small. fold (fraction frac). destruct Rlt_dec; reflexivity.
        - destruct (Z.eqb_spec n 1) as [N1|N1].
          + destruct (I3 N1) as (r & Er & ->). assert (Hin : In r (f_recs f)) by (rewrite Er; left; auto). destruct (Hrec r Hin) as [Hlen _].
            rewrite (list_at (r_data r) sz Hlen), map_map. apply map_ext. intros p. rewrite (store_meta v' _ I1), (one_record r Er). reflexivity.
          + destruct I3 as (P1 & P3). rewrite P1, P3, map_map. apply map_ext. intros p. rewrite (store_meta v' _ I1). f_equal. destruct Hw as [Hno|]; [|fold n in H; lia].
            unfold expected. rewrite Hno. unfold mean, valid_weight, valid, wsum. rewrite Ln. rewrite (filter_all_true (is_valid f p)); [reflexivity|].
            intros r _. unfold is_valid. now rewrite Hno. }
      exists v', lo, hi. eexists. split; [rewrite Av; reflexivity|]. split; auto. split; auto. split; [|reflexivity].
      destruct (I4 ltac:(lia)) as (r0 & Q1 & Q2). destruct (I5 eq_refl) as (r1 & Q3 & Q4). exists r0, r1. auto.
  Qed.
End Avg.

(** Storing in integer types *)
Lemma truncate_half x : exists z : Z, truncate (half_sign x) = IZR z /\ (Rabs (IZR z - x) <= 1/2)%R.
Proof.
  unfold half_sign, truncate, rle. destruct (Rle_dec 0 x) as [H|H].
  - destruct (Rle_dec 0 (x + 1/2)) as [H1|H1]; [|lra]. exists (Int_part (x + 1/2)). split; auto.
    destruct (base_Int_part (x + 1/2)) as [A B]. apply Rabs_le. lra.
  - destruct (Rle_dec 0 (x - 1/2)) as [H1|H1]; [lra|]. exists (- Int_part (- (x - 1/2)))%Z. rewrite opp_IZR. split; auto.
    destruct (base_Int_part (- (x - 1/2))) as [A B]. apply Rabs_le. lra.
Qed.
Lemma Int_part_IZR z : Int_part (IZR z) = z.
Proof. destruct (base_Int_part (IZR z)) as [A B]. apply le_IZR in A. rewrite <- minus_IZR in B. apply Rgt_lt in B. apply lt_IZR in B. lia. Qed.
Lemma truncate_int z : truncate (IZR z) = IZR z.
Proof. unfold truncate, rle. destruct Rle_dec; [now rewrite Int_part_IZR|]. rewrite <- (opp_IZR z), Int_part_IZR, opp_IZR. lra. Qed.
Lemma do_store_spec f x : (forall m, miss_of f = Some m -> f_float f = false -> exists z : Z, m = IZR z) -> stored (f_float f) x (do_store f x).
Proof.
  intros Hi. unfold stored, do_store. destruct (f_float f); auto. destruct (miss_of f) as [m|].
  - unfold reqb. destruct (Req_EM_T x m) as [->|]; [|destruct (truncate_half x) as (z & -> & H); eauto].
    destruct (Hi m eq_refl eq_refl) as (z & ->). exists z. rewrite truncate_int. split; auto. apply Rabs_le. lra.
  - destruct (truncate_half x) as (z & -> & H). eauto.
Qed.
Lemma do_store_miss f m : miss_of f = Some m -> (f_float f = false -> exists z : Z, m = IZR z) -> do_store f m = m.
Proof.
  intros Hm Hi. unfold do_store. destruct (f_float f); auto. rewrite Hm. unfold reqb. destruct (Req_EM_T m m); [|easy]. destruct (Hi eq_refl) as (z & ->). apply truncate_int.
Qed.
Lemma expected_spec frac f sz p : usable f sz -> averaged_at frac f p (do_store f (expected frac f p)).
Proof.
  intros (_ & _ & _ & Hi). unfold averaged_at, expected. destruct (miss_of f) as [m|] eqn:Em.
  - split; intros H; (destruct Rlt_dec; [|]); try lra.
    + apply do_store_spec. rewrite Em. auto.
    + apply do_store_miss; auto.
  - apply do_store_spec. rewrite Em. easy.
Qed.

(** The whole run *)
Definition no_rec := {| r_time := 0; r_lo := 0; r_hi := 0; r_data := [] |}%R.
Definition lo_of f : R := fst (fst (rec_tavg f (hd no_rec (f_recs f)))).
Definition hi_of f : R := snd (fst (rec_tavg f (last (f_recs f) no_rec))).
Definition result frac (use_end : bool) sz f : tout :=
  Averaged (map (fun p => do_store f (expected frac f p)) (zseq 0 sz)) (lo_of f) (hi_of f)
    (if use_end then last (map r_time (f_recs f)) 0%R else (1/2 * (lo_of f + hi_of f))%R).
Lemma zget_last {A} (l : list A) d x : zget l (zlen l - 1) = Some x -> last l d = x.
Proof.
  intros H. destruct l as [|a l] using rev_ind; [discriminate|]. rewrite last_last. replace (zlen (l ++ [a]) - 1) with (zlen l) in H by (rewrite zlen_app; unfold zlen; cbn; lia).
  rewrite zget_app_r in H by lia. replace (zlen l - zlen l) with 0 in H by lia. cbn in H. congruence.
Qed.
Lemma files_run frac use_end f0 rest sz :
  (forall f, In f (f0 :: rest) -> usable f sz /\ miss_of f = miss_of f0 /\ f_float f = f_float f0) ->
  miss_of f0 = None \/ 2 <= zlen (f_recs f0) \/ (forall f, In f (f0 :: rest) -> zlen (f_recs f) = 1) ->
  time_average frac use_end (f0 :: rest) = Ok (map (result frac use_end sz) (f0 :: rest)).
Proof.
  intros Hf Hc. set (files := f0 :: rest) in *. destruct (Hf f0 (or_introl eq_refl)) as [Hu0 _]. pose proof Hu0 as (Hst0 & Hne0 & Hr0 & _).
  assert (Hsz : 0 <= sz). { destruct (f_recs f0) as [|r l] eqn:E; [easy|]. destruct (Hr0 r (or_introl eq_refl)) as [<- _]. apply zlen_nonneg. }
  unfold time_average. unfold files at 1.
  set (Inv := fun k (st : tvar * list tout) => meta f0 sz (fst st) /\ v_use_wt (fst st) = v_use_wt (init_var f0) /\ snd st = map (result frac use_end sz) (firstn (Z.to_nat k) files)).
  assert (Hu : v_use_wt (init_var f0) = (1 <? zlen (f_recs f0)) && match miss_of f0 with Some _ => true | None => false end).
  { unfold init_var, miss_of. destruct (f_missing f0), (f_fill f0); cbn; rewrite Hst0, ?andb_true_r; reflexivity. }
  match goal with |- context [ofor 0 ?n ?g ?s] => destruct (ofor_inv Inv g 0 n s) as ([v outs] & E & _ & _ & I) end; [apply zlen_nonneg| | |].
  - unfold Inv. cbn [fst snd]. split; [|split; reflexivity]. destruct (f_recs f0) as [|r l] eqn:Er; [easy|]. destruct (Hr0 r (or_introl eq_refl)) as [Hl _].
    unfold init_var, meta, miss_of. rewrite Er, Hst0. destruct (f_missing f0), (f_fill f0); cbn; rewrite ?zlen_map; auto 10.
  - intros k [v outs] Hk (I1 & I2 & I3). cbn [fst snd] in *. assert (Hx : exists f, zget files k = Some f).
    { destruct (zget files k) eqn:Ez; [eauto|]. apply zget_None_range in Ez. lia. }
    destruct Hx as (f & Ef). rewrite (proj2 (oget_Ok _ _ _) Ef). cbn [bind]. assert (Hin : In f files) by (eapply zget_In; eauto).
    destruct (Hf f Hin) as (Huf & Hmf & Hff). destruct (file_run frac use_end f sz Hsz Huf (k =? 0) v) as (v' & lo & hi & t & E & M & U & (r0 & r1 & B1 & B2 & B3 & B4) & Et).
    + destruct I1 as (J1 & J2 & J3 & J4 & J5 & J6). split; [auto|]. rewrite Hff, Hmf. auto 10.
    + unfold weighted. rewrite I2, Hu, Hmf. destruct (miss_of f0) as [m|] eqn:Em; [|rewrite andb_false_r; auto]. rewrite andb_true_r.
      destruct (Z.ltb_spec 1 (zlen (f_recs f0))) as [L|L]; [discriminate|]. right. destruct Hc as [|[|Hc]]; [easy|lia|auto].
    + rewrite E. cbn [bind]. eexists. split; [reflexivity|]. unfold Inv. cbn [fst snd]. split; [|split; [congruence|]].
      * destruct M as (J1 & J2 & J3 & J4 & J5 & J6). rewrite Hff in J2. rewrite Hmf in J6. split; auto 10.
      * rewrite (firstn_next _ _ _ Ef), map_app, <- I3. cbn [map]. f_equal. f_equal. unfold result.
        assert (El : lo = lo_of f). { cbn [fst snd] in B3. rewrite B3. unfold lo_of. destruct (f_recs f); [discriminate|]. cbn in B1. injection B1 as ->. reflexivity. }
        assert (Eh : hi = hi_of f). { cbn [fst snd] in B4. rewrite B4. unfold hi_of. now rewrite (zget_last _ _ _ B2). }
        rewrite Et, El, Eh. reflexivity.
  - rewrite E. cbn [bind]. cbn [snd] in I. rewrite I. rewrite firstn_all2; [reflexivity|]. unfold zlen. lia.
Qed.
