(** * C48, C49: time averages *)
From Coq Require Import Reals Lra.
From Verif Require Import Base M_Interp Spec_Interp P_Interp P_Interp2 M_TimeAvg Spec_TimeAvg P_TimeAvg.
Open Scope Z_scope.

(** C48: at every point the output is the interval-weighted mean of the records that are not
    missing, or the missing value if their weight does not exceed the requested fraction of
    the total; the period runs from the first record's beginning to the last one's end. *)
Theorem C48_average frac use_end f sz : usable f sz ->
  exists x lo hi t, time_average frac use_end [f] = Ok [Averaged x lo hi t] /\ zlen x = sz /\
    (forall p, 0 <= p < sz -> averaged_at frac f p (at_ x p)) /\
    (f_bounds f = true -> exists r0 r1, hd_error (f_recs f) = Some r0 /\ hd_error (rev (f_recs f)) = Some r1 /\
       lo = r_lo r0 /\ hi = r_hi r1 /\ t = if use_end then r_time r1 else (1/2 * (r_lo r0 + r_hi r1))%R).
Proof.
  intros Hu. assert (Hsz : 0 <= sz). { pose proof Hu as (_ & Hne & Hr & _). destruct (f_recs f) as [|r l] eqn:E; [easy|]. destruct (Hr r (or_introl eq_refl)) as [<- _]. apply zlen_nonneg. }
  assert (Hc : miss_of f = None \/ 2 <= zlen (f_recs f) \/ (forall f', In f' [f] -> zlen (f_recs f') = 1)).
  { pose proof Hu as (_ & Hne & _). right. destruct (Z.eq_dec (zlen (f_recs f)) 1) as [E|N]; [right; intros f' [<-|[]]; auto|left].
    destruct (f_recs f) as [|r l]; [easy|]. unfold zlen in *. cbn [length] in *. lia. }
  pose proof (files_run frac use_end f [] sz) as E. cbn [map] in E. unfold result in E.
  do 4 eexists. split; [apply E; auto; intros f' [<-|[]]; auto|]. split; [rewrite zlen_map, zlen_zseq; lia|]. split.
  - intros p Hp. rewrite at_zmap by auto. eapply expected_spec; eauto.
  - intros Hb. unfold lo_of, hi_of, rec_tavg. rewrite Hb. destruct Hu as (_ & Hne & _). destruct (f_recs f) as [|r l] using rev_ind; [easy|].
    exists (hd r l), r. rewrite rev_app_distr, map_app, !last_last. cbn [map]. rewrite last_last. assert (Hh : hd no_rec (l ++ [r]) = hd r l) by (destruct l; reflexivity).
    rewrite Hh. repeat split. destruct l; reflexivity.
Qed.

(** The mean lies between the smallest and the largest valid value. *)
Theorem C48_between f sz p a b : usable f sz -> valid f p <> [] ->
  (forall r, In r (valid f p) -> (a <= at_ (r_data r) p <= b)%R) -> (a <= mean f p <= b)%R.
Proof.
  intros Hu Hne Hab. assert (W : forall r, In r (valid f p) -> (0 < weight f r)%R) by (intros r Hr; apply (weight_pos f sz Hu); apply filter_In in Hr; tauto).
  assert (Wp : (0 < valid_weight f p)%R) by (apply rsum_pos; auto). unfold mean.
  assert (L : (a * valid_weight f p <= rsum (fun r => weight f r * at_ (r_data r) p) (valid f p))%R).
  { unfold valid_weight. rewrite <- rsum_scal. apply rsum_le. intros r Hr. pose proof (W r Hr). pose proof (Hab r Hr). nra. }
  assert (U : (rsum (fun r => weight f r * at_ (r_data r) p) (valid f p) <= b * valid_weight f p)%R).
  { unfold valid_weight. rewrite <- rsum_scal. apply rsum_le. intros r Hr. pose proof (W r Hr). pose proof (Hab r Hr). nra. }
  split; (apply Rmult_le_reg_r with (valid_weight f p); [auto|]; unfold Rdiv; rewrite ?Rmult_assoc, Rinv_l by lra; lra).
Qed.
(** With no missing values nothing is marked missing. *)
Theorem C48_all_valid frac f sz p : usable f sz -> (forall r, In r (f_recs f) -> is_valid f p r = true) ->
  (fraction frac * total_weight f < valid_weight f p)%R.
Proof.
  intros Hu Hv. pose proof (fraction_range frac). unfold valid_weight, valid. rewrite filter_all_true by auto. fold (total_weight f).
  assert (0 < total_weight f)%R by (apply rsum_pos; [apply Hu|apply (weight_pos f sz Hu)]). nra.
Qed.
(** A single record is copied unchanged (integers for integer types). *)
Theorem C48_single frac use_end f sz r : usable f sz -> f_recs f = [r] ->
  (f_float f = false -> forall p, 0 <= p < sz -> exists z : Z, at_ (r_data r) p = IZR z) ->
  exists lo hi t, time_average frac use_end [f] = Ok [Averaged (r_data r) lo hi t].
Proof.
  intros Hu Er Hi. pose proof Hu as (_ & Hne & Hr & _). destruct (Hr r) as [Hl _]; [rewrite Er; left; auto|].
  pose proof (files_run frac use_end f [] sz) as E. cbn [map] in E. unfold result in E.
  do 3 eexists. rewrite E.
  - rewrite (list_at (r_data r) sz Hl) at 1. f_equal. f_equal. f_equal. apply map_ext_in. intros p Hp. apply In_zseq in Hp. rewrite (one_record frac f sz Hu r Er).
    unfold do_store. destruct (f_float f) eqn:Ef; auto. destruct (Hi eq_refl p ltac:(lia)) as (z & Ez).
    assert (Ht : truncate (half_sign (at_ (r_data r) p)) = at_ (r_data r) p).
    { destruct (truncate_half (at_ (r_data r) p)) as (z' & -> & Hz). rewrite Ez in *. rewrite <- minus_IZR, <- abs_IZR in Hz.
      f_equal. destruct (Z.eq_dec z' z); auto. assert (1 <= Z.abs (z' - z)) by lia. apply IZR_le in H. lra. }
    destruct (miss_of f) as [m|]; auto. unfold M_Runoff.reqb. destruct Req_EM_T; [rewrite Ez; apply truncate_int|auto].
  - intros f' [<-|[]]; auto.
  - right. right. intros f' [<-|[]]. rewrite Er. reflexivity.
Qed.
(** A variable without record dimension is copied from the first file. *)
Theorem C48_static frac use_end f : f_static f = true -> time_average frac use_end [f] = Ok [Fixed (f_fixed f)].
Proof.
  intros Hs. unfold time_average. change (zlen [f]) with 1. unfold ofor. cbn [ofold zseq Z.to_nat Pos.to_nat]. change (zseq 0 1) with [0]. cbn [ofold].
  unfold oget. cbn [bind]. cbn. unfold do_file, add_records.
  assert (V : v_static (zero_var (init_var f)) = true) by (unfold init_var; destruct (f_missing f), (f_fill f); exact Hs). rewrite V.
  assert (Z0 : v_size (zero_var (init_var f)) = zlen (f_fixed f)) by (unfold init_var; destruct (f_missing f), (f_fill f); cbn; rewrite Hs; reflexivity).
  assert (U : v_use_wt (zero_var (init_var f)) = false) by (unfold init_var; destruct (f_missing f), (f_fill f); cbn; rewrite Hs, andb_false_r; reflexivity).
  assert (S0 : v_sum (zero_var (init_var f)) = map (fun _ => 0%R) (f_fixed f)) by (unfold init_var; destruct (f_missing f), (f_fill f); cbn; rewrite Hs, map_map; reflexivity).
  unfold add_data. rewrite Z0, Z.eqb_refl, U, S0. cbn [negb].
  assert (E : map2 (fun s d : R => s + 1 * d)%R (map (fun _ => 0%R) (f_fixed f)) (f_fixed f) = f_fixed f).
  { unfold map2. generalize (f_fixed f). induction l as [|x l IH]; [reflexivity|]. cbn. rewrite IH. f_equal. lra. }
  rewrite E. destruct (zlen (f_recs f) =? 1); cbn [bind v_tavg v_static v_sum]; destruct (v_tavg (zero_var (init_var f))) as [[a b] c]; cbn [bind]; rewrite V; reflexivity.
Qed.

(** Finding: without time bounds in the file the period is recorded as starting and ending at
    time 1, whatever the times of the records; with use_end_time off so is the time value. *)
Theorem C48_no_bounds_refuted frac f sz : usable f sz -> f_bounds f = false ->
  exists x, time_average frac false [f] = Ok [Averaged x 1%R 1%R 1%R].
Proof.
  intros Hu Hb. pose proof (C48_average frac false f sz Hu) as (x & lo & hi & t & E & _).
  assert (Hc : miss_of f = None \/ 2 <= zlen (f_recs f) \/ (forall f', In f' [f] -> zlen (f_recs f') = 1)).
  { pose proof Hu as (_ & Hne & _). right. destruct (Z.eq_dec (zlen (f_recs f)) 1) as [E1|N]; [right; intros f' [<-|[]]; auto|left].
    destruct (f_recs f) as [|r l]; [easy|]. unfold zlen in *. cbn [length] in *. lia. }
  eexists. rewrite (files_run frac false f [] sz); auto; [|intros f' [<-|[]]; auto]. cbn [map]. unfold result, lo_of, hi_of, rec_tavg. rewrite Hb. cbn [fst snd].
  repeat f_equal. lra.
Qed.

(** C49: when all files describe the variable alike (same missing value and type), the output
    for a file is what averaging that file alone gives — provided the first file has at
    least two records, or the variable has no missing value, or every file has one record. *)
Theorem C49_independent_partial frac use_end f0 rest sz :
  (forall f, In f (f0 :: rest) -> usable f sz /\ miss_of f = miss_of f0 /\ f_float f = f_float f0) ->
  miss_of f0 = None \/ 2 <= zlen (f_recs f0) \/ (forall f, In f (f0 :: rest) -> zlen (f_recs f) = 1) ->
  exists outs, time_average frac use_end (f0 :: rest) = Ok outs /\ zlen outs = zlen (f0 :: rest) /\
    forall k f, zget (f0 :: rest) k = Some f -> exists o, zget outs k = Some o /\ time_average frac use_end [f] = Ok [o].
Proof.
  intros Hf Hc. exists (map (result frac use_end sz) (f0 :: rest)). split; [apply files_run; auto|]. split; [apply zlen_map|].
  intros k f Hk. exists (result frac use_end sz f). split; [rewrite zget_map, Hk; reflexivity|].
  destruct (Hf f (zget_In _ _ _ Hk)) as [Hu _]. apply (files_run frac use_end f [] sz).
  - intros f' [<-|[]]; auto.
  - pose proof Hu as (_ & Hne & _). right. destruct (Z.eq_dec (zlen (f_recs f)) 1) as [E1|N]; [right; intros f' [<-|[]]; auto|left].
    destruct (f_recs f) as [|r l]; [easy|]. unfold zlen in *. cbn [length] in *. lia.
Qed.

(** C49, variables without a record dimension: the output has the value of the first file, and nothing is
    written for the later ones. *)
Theorem C49_static frac use_end f0 rest :
  f_static f0 = true -> (forall f, In f rest -> zlen (f_fixed f) = zlen (f_fixed f0)) ->
  time_average frac use_end (f0 :: rest) = Ok (Fixed (f_fixed f0) :: map (fun _ => Nothing) rest).
Proof.
  intros Hs Hl. set (sz := zlen (f_fixed f0)). set (files := f0 :: rest).
  assert (L : forall f, In f files -> zlen (f_fixed f) = sz) by (intros f [<-|H]; auto).
  set (good := fun v => v_static v = true /\ v_use_wt v = false /\ v_size v = sz /\ zlen (v_sum v) = sz).
  assert (G0 : good (init_var f0)).
  { unfold good, init_var. destruct (f_missing f0), (f_fill f0); cbn; rewrite Hs, ?zlen_map, ?andb_false_r; auto. }
  assert (Step : forall first f v, good v -> In f files -> exists v', do_file frac use_end first f v = Ok (v', if first then Fixed (f_fixed f) else Nothing) /\ good v').
  { intros first f v (V1 & V2 & V3 & V4) Hf. unfold do_file, add_records. replace (v_static (zero_var v)) with true by (symmetry; exact V1).
    unfold add_data. replace (v_size (zero_var v)) with sz by (symmetry; exact V3). rewrite (L f Hf), Z.eqb_refl. cbn [negb].
    replace (v_use_wt (zero_var v)) with false by (symmetry; exact V2).
    assert (E : map2 (fun s d : R => s + 1 * d)%R (v_sum (zero_var v)) (f_fixed f) = f_fixed f).
    { cbn [v_sum zero_var]. assert (E' : zlen (v_sum v) = zlen (f_fixed f)) by (rewrite (L f Hf); auto). revert E'. generalize (v_sum v) as a. unfold map2. generalize (f_fixed f) as b. clear.
      induction b as [|x b IH]; intros [|y a] E; auto; try (exfalso; unfold zlen in E; cbn [length] in E; lia).
      cbn [map combine fst snd]. f_equal; [lra|]. apply IH. rewrite !zlen_cons in E. lia. }
    rewrite E. destruct (zlen (f_recs f) =? 1); cbn [bind v_tavg v_static v_sum zero_var fst]; destruct (fst (v_tavg v)) as [lo hi]; rewrite V1;
      (eexists; split; [reflexivity|]; unfold good; cbn; rewrite (L f Hf); auto). }
  unfold time_average. unfold files at 1.
  set (out := fun k => if k =? 0 then Fixed (f_fixed f0) else Nothing).
  set (Inv := fun k (st : tvar * list tout) => good (fst st) /\ snd st = map out (zseq 0 k)).
  match goal with |- context [ofor 0 ?n ?g ?s] => destruct (ofor_inv Inv g 0 n s) as ([v outs] & E & _ & I) end; [apply zlen_nonneg| | |].
  - split; auto.
  - intros k [v outs] Hk (I1 & I2). cbn [fst snd] in *. destruct (zget files k) as [f|] eqn:Ez; [|apply zget_None_range in Ez; unfold files in *; lia].
    change (f0 :: rest) with files. rewrite (proj2 (oget_Ok _ _ _) Ez). cbn [bind]. destruct (Step (k =? 0) f v I1 (zget_In _ _ _ Ez)) as (v' & -> & Gv). cbn [bind].
    eexists. split; [reflexivity|]. split; [exact Gv|]. cbn [snd]. rewrite I2, (zseq_app 0 k 1) by lia. rewrite map_app. f_equal. rewrite Z.add_0_l. unfold out. rewrite (zseq_S k 1), (zseq_nonpos (k + 1)) by lia. cbn [map].
    destruct (Z.eqb_spec k 0) as [->|]; auto. cbn in Ez. injection Ez as <-. reflexivity.
  - change (f0 :: rest) with files in E. rewrite E. cbn [bind]. cbn [snd] in I. rewrite I. f_equal. unfold files. rewrite zlen_cons, Z.add_0_l, (zseq_app 0 1 (zlen rest)) by (try lia; apply zlen_nonneg).
    rewrite map_app. change (map out (zseq 0 1)) with [Fixed (f_fixed f0)]. change (0 + 1) with 1. cbn [app]. f_equal. assert (Q : forall n lo, 0 < lo -> map out (zseq lo n) = map (fun _ => Nothing) (zseq lo n)).
    { intros n lo Hlo. apply map_ext_in. intros k Hk. apply In_zseq in Hk. unfold out. destruct (Z.eqb_spec k 0); [lia|auto]. }
    rewrite Q by lia. clear. generalize 1 as lo. induction rest as [|x r IH]; intros lo; auto. rewrite zlen_cons, zseq_S by (pose proof (zlen_nonneg r); lia). cbn [map]. f_equal. replace (1 + zlen r - 1) with (zlen r) by lia. auto.
Qed.

(** Finding: whether missing values are left out is decided by the number of records of the
    first file.  After a first file with a single record, missing values of later files are
    averaged as if they were data. *)
Definition mk_rec t x := {| r_time := t; r_lo := 0; r_hi := 0; r_data := [x] |}%R.
Definition mk_file rs := {| f_missing := Some (-1)%R; f_fill := None; f_float := true; f_static := false; f_bounds := false; f_fixed := []; f_recs := rs |}.
Definition file1 := mk_file [mk_rec 1 5]%R.
Definition file2 := mk_file [mk_rec 2 (-1); mk_rec 3 3]%R.
Lemma usable1 : usable file1 1. Proof. split; [auto|]. split; [discriminate|]. split; [|discriminate]. intros r [<-|[]]. split; [reflexivity|discriminate]. Qed.
Lemma usable2 : usable file2 1. Proof. split; [auto|]. split; [discriminate|]. split; [|discriminate]. intros r [<-|[<-|[]]]; (split; [reflexivity|discriminate]). Qed.
Theorem C49_first_file_refuted : exists o1 x y l1 h1 t1 l2 h2 t2,
  usable file1 1 /\ usable file2 1 /\ miss_of file1 = miss_of file2 /\ f_float file1 = f_float file2 /\
  time_average 0 true [file1; file2] = Ok [o1; Averaged [x] l1 h1 t1] /\
  time_average 0 true [file2] = Ok [Averaged [y] l2 h2 t2] /\ x = 1%R /\ y = 3%R.
Proof.
  do 9 eexists. split; [apply usable1|]. split; [apply usable2|]. split; [reflexivity|]. split; [reflexivity|]. split.
  { lazy -[IZR Rplus Rmult Rdiv Rminus Ropp Rinv]. reflexivity. }
  split. { rewrite (files_run 0 true file2 [] 1); [|intros f [<-|[]]; split; [apply usable2|auto]|right; left; unfold zlen; cbn; lia].
    cbn [map]. unfold result. change (zseq 0 1) with [0]. cbn [map]. reflexivity. }
  split; [lra|]. unfold do_store. cbn [f_float file2 mk_file]. unfold expected. cbn [miss_of file2 mk_file f_missing].
  assert (V : valid file2 0 = [mk_rec 3 3]).
  { unfold valid, file2. cbn [f_recs mk_file filter]. unfold is_valid. cbn [miss_of mk_file f_missing]. unfold at_. cbn.
    destruct (Req_EM_T (-1) (-1)) as [_|N]; [|easy]. destruct (Req_EM_T 3 (-1)); [lra|reflexivity]. }
  assert (M : mean file2 0 = 3%R). { unfold mean, valid_weight. rewrite V, !rsum_cons, !rsum_nil. unfold weight, at_. cbn. lra. }
  destruct Rlt_dec as [L|L]; [exact M|]. exfalso. apply L. unfold total_weight, valid_weight. rewrite V. unfold file2. cbn [f_recs mk_file].
  rewrite !rsum_cons, !rsum_nil. unfold weight. cbn. unfold fraction. rewrite Rmin_left by lra. rewrite Rmax_left by lra. lra.
Qed.

(** Hypotheses met: two usable files with two records each, one value missing *)
Example C48_example : usable file2 1 /\ valid file2 0 <> [] /\ (1 < zlen (f_recs file2)) /\
  (forall f, In f [file2; file1] -> usable f 1 /\ miss_of f = miss_of file2 /\ f_float f = f_float file2).
Proof.
  split; [apply usable2|]. split; [|split; [unfold zlen; cbn; lia|intros f [<-|[<-|[]]]; split; auto using usable1, usable2]].
  intros H. assert (Hin : In (mk_rec 3 3) (valid file2 0)); [|rewrite H in Hin; destruct Hin].
  apply filter_In. split; [right; left; reflexivity|]. unfold is_valid. cbn [miss_of file2 mk_file f_missing]. unfold at_. cbn.
  destruct (Req_EM_T 3 (-1)); [lra|reflexivity].
Qed.
Print Assumptions C48_average.
Print Assumptions C48_between.
Print Assumptions C48_all_valid.
Print Assumptions C48_single.
Print Assumptions C48_static.
Print Assumptions C48_no_bounds_refuted.
Print Assumptions C49_independent_partial.
Print Assumptions C49_static.
Print Assumptions C49_first_file_refuted.
