(** * The run of compute_grid_bound *)
From Coq Require Import Lra Psatz.
From Verif Require Import Base Loops Vec M_Interp Spec_Interp P_Interp P_Interp2 P_Spline T_Interp M_GridBound P_GridBound Spec_GridBound.
Local Open Scope Z_scope.
Ltac Zify.zify_post_hook ::= Z.to_euclidean_division_equations.

Lemma zsum_app a b : zsum (a ++ b) = zsum a + zsum b.
Proof. unfold zsum. induction a; cbn; lia. Qed.
Lemma firstn_S_get {A} (l : list A) i v : 0 <= i -> zget l i = Some v -> firstn (Z.to_nat (i + 1)) l = firstn (Z.to_nat i) l ++ [v].
Proof.
  intros Hi E. unfold zget in E. destruct (Z.ltb_spec i 0); [lia|]. replace (Z.to_nat (i + 1)) with (S (Z.to_nat i)) by lia. generalize dependent (Z.to_nat i). intros k E. clear - E.
  revert k E. induction l as [|a l IH]; intros [|k] E; cbn in *; try discriminate. - inversion E; reflexivity. - f_equal. now apply IH.
Qed.
Lemma before_S npts i v : 0 <= i -> zget npts i = Some v -> before npts (i + 1) = before npts i + v.
Proof. intros Hi E. unfold before. rewrite (firstn_S_get _ _ _ Hi E), zsum_app. unfold zsum. cbn. lia. Qed.
Lemma before_0 npts : before npts 0 = 0. Proof. reflexivity. Qed.

Section Run.
Variables (nb : Z) (bnds : list R) (npts : list Z) (r : Z).
Hypotheses (Hnb : 2 <= nb) (Lb : zlen bnds = nb) (Ln : zlen npts = nb - 1) (Hr : r = 1 \/ r = 2).
Hypotheses (Hpos : forall p, In p npts -> 0 < p /\ p mod r = 0).

Definition cum i := before npts i / r.
Lemma cum_step i : 0 <= i < nb - 1 -> exists p, zget npts i = Some p /\ 0 < p /\ Z.rem p r = 0 /\ cum (i + 1) = cum i + Z.quot p r /\ 0 < Z.quot p r.
Proof.
  intros Hi. destruct (zget_in_range npts i) as (p & E); [lia|]. exists p. destruct (Hpos p (zget_In _ _ _ E)) as [P M]. split; auto. split; auto. unfold cum. rewrite (before_S _ _ _ (proj1 Hi) E).
  destruct Hr as [-> | ->]; lia.
Qed.
Lemma before_div i : 0 <= i <= nb - 1 -> before npts i = r * cum i.
Proof.
  intros Hi. unfold cum. assert (before npts i mod r = 0); [|destruct Hr as [-> | ->]; lia].
  replace i with (Z.of_nat (Z.to_nat i)) in * by lia. induction (Z.to_nat i) as [|k IH]; [rewrite before_0; destruct Hr as [-> | ->]; reflexivity|].
  destruct (zget_in_range npts (Z.of_nat k)) as (p & E); [lia|]. destruct (Hpos p (zget_In _ _ _ E)) as [P M]. replace (Z.of_nat (S k)) with (Z.of_nat k + 1) by lia. rewrite (before_S _ _ _ (Zle_0_nat k) E). specialize (IH ltac:(lia)). destruct Hr as [-> | ->]; lia.
Qed.
Lemma cum_mono i j : 0 <= i < j -> j <= nb - 1 -> cum i < cum j.
Proof.
  intros Hi Hj. replace j with (i + 1 + Z.of_nat (Z.to_nat (j - i - 1))) in * by lia. induction (Z.to_nat (j - i - 1)) as [|k IH].
  - destruct (cum_step i) as (p & _ & _ & _ & E & P); [lia|]. rewrite Z.add_0_r. lia.
  - specialize (IH ltac:(lia) ltac:(lia)). destruct (cum_step (i + 1 + Z.of_nat k)) as (p & _ & _ & _ & E & P); [lia|]. replace (i + 1 + Z.of_nat (S k)) with (i + 1 + Z.of_nat k + 1) by lia. lia.
Qed.
Lemma cum_0 : cum 0 = 0. Proof. unfold cum. rewrite before_0. destruct Hr as [-> | ->]; reflexivity. Qed.

Notation n := (cum (nb - 1)).
Lemma n_pos : 0 < n. Proof. rewrite <- cum_0. apply cum_mono; lia. Qed.

(** The spline of the bounds over the cumulative cell numbers. *)
Lemma bound_loops (k : Z * list R -> outcome (Z * list R)) :
  (do grid1 <- oset (alloc nb) 0 1%R ;
   do '(n, grid1) <- ofor 1 (nb - 1) (fun '(n, grid1) i =>
      do p <- oget npts (i - 1) ;
      if negb (Z.rem p r =? 0) then Err 4
      else
        let n := n + Z.quot p r in
        do grid1 <- oset grid1 i (IZR (n + 1)) ;
        Ok (n, grid1)) (0, grid1) ; k (n, grid1)) = k (n, map (fun i => IZR (cum i + 1)) (zseq 0 nb)).
Proof.
  destruct (vec_set (alloc nb) nb _ (fun i => if i =? 0 then 1%R else 0%R) 0 1%R (vec_repeat 0%R nb ltac:(lia))) as (g0 & E0 & V0); [lia|auto|]. rewrite E0. cbn [bind].
  match goal with |- context [ofor 1 (nb - 1) ?f (0, g0)] => destruct (ofor_inv (fun i (s : Z * list R) => fst s = cum (i - 1) /\ vec (snd s) nb (fun j => if j <? i then IZR (cum j + 1) else 0%R)) f 1 (nb - 1) (0, g0)) as ([n1 g1] & E & En & Eg) end.
  - lia.
  - cbn [fst snd]. split; [change (1 - 1) with 0; rewrite cum_0; reflexivity|]. eapply vec_ext; [|exact V0]. intros i Hi. cbn. destruct (Z.eqb_spec i 0) as [-> |N]; [rewrite cum_0; reflexivity|]. destruct (Z.ltb_spec i 1); auto; lia.
  - intros i [n1 g1] Hi [En Eg]. cbn [fst snd] in *. destruct (cum_step (i - 1)) as (p & Ep & _ & Er & Ec & _); [lia|]. rewrite (proj2 (oget_Ok _ _ _) Ep). cbn [bind]. rewrite Er. cbn [negb Z.eqb]. cbn zeta.
    replace (i - 1 + 1) with i in Ec by lia. replace (n1 + Z.quot p r) with (cum i) by lia.
    destruct (vec_set g1 nb _ (fun j => if j <? i + 1 then IZR (cum j + 1) else 0%R) i (IZR (cum i + 1)) Eg) as (g2 & E2 & V2); [lia| |].
    { intros j Hj. destruct (Z.eqb_spec j i) as [Q|N]; destruct (Z.ltb_spec j (i + 1)), (Z.ltb_spec j i); subst; auto; lia. }
    rewrite E2. cbn [bind]. eexists; split; [reflexivity|]. cbn [fst snd]. split; [f_equal; lia|auto].
  - rewrite E. cbn [bind]. cbn [fst snd] in *. replace (1 + (nb - 1) - 1) with (nb - 1) in En by lia. rewrite En. f_equal. f_equal. eapply vec_eq; [|apply vec_map; lia]. eapply vec_ext; [|exact Eg]. intros i Hi. cbv beta. replace (i <? 1 + (nb - 1)) with true; [reflexivity|]. symmetry. apply Z.ltb_lt. lia.
Qed.

Notation g1 := (map (fun i => IZR (cum i + 1)) (zseq 0 nb)).
Notation g2 := (map (fun i => (IZR i + 1)%R) (zseq 0 (n + 1))).

Lemma at_map (F : Z -> R) m i : 0 <= i < m -> at_ (map F (zseq 0 m)) i = F i.
Proof. intros Hi. eapply vec_at_; [|exact Hi]. apply vec_map. lia. Qed.

Lemma bound_spline : increasing bnds ->
  exists tmp, cubic_spline_sp nb (n + 1) g1 g2 bnds (alloc (n + 1)) = Ok tmp /\ zlen tmp = n + 1
    /\ (forall i, 0 <= i < nb -> at_ tmp (cum i) = at_ bnds i) /\ (forall k k', 0 <= k < k' -> k' < n + 1 -> (at_ tmp k < at_ tmp k')%R).
Proof.
  intros IB. pose proof n_pos as NP. destruct (spline_strict nb (n + 1) g1 g2 bnds (alloc (n + 1))) as (tmp & E & L & HI & HS); auto; try lia.
  - rewrite zlen_map, zlen_zseq; lia.
  - rewrite zlen_map, zlen_zseq; lia.
  - unfold alloc. rewrite zlen_repeat. lia.
  - intros i j Hi Hj. rewrite zlen_map, zlen_zseq in Hj by lia. rewrite !at_map by lia. apply IZR_lt. pose proof (cum_mono i j). lia.
  - intros k Hk. rewrite !at_map by lia. replace (IZR k + 1)%R with (IZR (k + 1)) by (rewrite plus_IZR; reflexivity). split; apply IZR_le; rewrite ?cum_0; lia.
  - exists tmp. split; auto. split; auto. split.
    + intros i Hi. assert (0 <= cum i <= n). { destruct (Z.eq_dec i 0) as [-> |]; [rewrite cum_0; lia|]. pose proof (cum_mono 0 i). rewrite cum_0 in *. destruct (Z.eq_dec i (nb - 1)) as [-> |]; [lia|]. pose proof (cum_mono i (nb - 1)). lia. }
      apply HI; [lia|lia|]. rewrite !at_map by lia. now rewrite plus_IZR.
    + intros k k' Hk Hk'. apply HS; try lia. rewrite !at_map by lia. apply Rplus_lt_compat_r. apply IZR_lt. lia.
Qed.

Lemma grid2_loop : ofor 0 (n + 1) (fun g i => oset g i (IZR i + 1)%R) (alloc (n + 1)) = Ok g2.
Proof.
  pose proof n_pos. destruct (ofor_fill (fun g i => oset g i (IZR i + 1)%R) (n + 1) 0 (n + 1) (fun _ => 0%R) (fun i => (IZR i + 1)%R) (alloc (n + 1))) as (g & E & V); try lia.
  - apply vec_repeat. lia.
  - reflexivity.
  - rewrite E. f_equal. eapply vec_eq; [|apply vec_map; lia]. eapply vec_ext; [|exact V]. intros i Hi. cbn. destruct (Z.leb_spec 0 i), (Z.ltb_spec i (n + 1)); auto; lia.
Qed.

(** The three ways of filling the grid. *)
Variable tmp : list R.
Hypothesis (Lt : zlen tmp = n + 1).
Notation mids := (fun grid i => do a <- oget tmp i ; do b <- oget tmp (i + 1) ; oset grid (2 * i + 1) (1 / 2 * (a + b))%R).
Definition mid i := (1 / 2 * (at_ tmp i + at_ tmp (i + 1)))%R.

Lemma fill_none : exists grid, ofor 0 (n + 1) (fun grid i => do a <- oget tmp i ; oset grid i a) (alloc (n * 1 + 1)) = Ok grid /\ vec grid (n + 1) (at_ tmp).
Proof.
  pose proof n_pos. destruct (ofor_fill (fun grid i => do a <- oget tmp i ; oset grid i a) (n + 1) 0 (n + 1) (fun _ => 0%R) (at_ tmp) (alloc (n * 1 + 1))) as (g & E & V); try lia.
  - replace (n * 1 + 1) with (n + 1) by lia. apply vec_repeat. lia.
  - intros. rewrite get_at by lia. reflexivity.
  - exists g. split; auto. eapply vec_ext; [|exact V]. intros i Hi. cbn. destruct (Z.leb_spec 0 i), (Z.ltb_spec i (n + 1)); auto; lia.
Qed.

Lemma fill_t : exists grid, (do grid <- ofor 0 (n + 1) (fun grid i => do a <- oget tmp i ; oset grid (2 * i) a) (alloc (n * 2 + 1)) ; ofor 0 n mids grid) = Ok grid
  /\ vec grid (n * 2 + 1) (fun j => if j mod 2 =? 0 then at_ tmp (j / 2) else mid (j / 2)).
Proof.
  pose proof n_pos.
  destruct (ofor_vec (fun grid i => do a <- oget tmp i ; oset grid (2 * i) a) (n * 2 + 1) 0 (n + 1) (fun i j => if j mod 2 =? 0 then if j / 2 <? i then at_ tmp (j / 2) else 0%R else 0%R) (alloc (n * 2 + 1))) as (g & E & V).
  - lia.
  - eapply vec_ext; [|apply vec_repeat; lia]. intros i Hi. cbn. destruct (Z.eqb_spec (i mod 2) 0) as [Qe|Qe]; auto. destruct (Z.ltb_spec (i / 2) 0); auto; lia.
  - intros i g Hi V. rewrite get_at by lia. cbn [bind]. eapply vec_set; [exact V|lia|]. intros j Hj. destruct (Z.eqb_spec j (2 * i)) as [-> |N].
    + replace (2 * i / 2) with i by lia. replace ((2 * i) mod 2) with 0 by lia. destruct (Z.ltb_spec i (i + 1)); [reflexivity|lia].
    + destruct (Z.eqb_spec (j mod 2) 0) as [Qe|Qe]; auto. destruct (Z.ltb_spec (j / 2) (i + 1)), (Z.ltb_spec (j / 2) i); auto; lia.
  - rewrite E. cbn [bind]. clear E.
    destruct (ofor_vec mids (n * 2 + 1) 0 n (fun i j => if j mod 2 =? 0 then at_ tmp (j / 2) else if j / 2 <? i then mid (j / 2) else 0%R) g) as (g' & E' & V').
    + lia.
    + eapply vec_ext; [|exact V]. intros i Hi. cbn. destruct (Z.eqb_spec (i mod 2) 0) as [Qe|Qe]. * destruct (Z.ltb_spec (i / 2) (n + 1)); auto; lia. * destruct (Z.ltb_spec (i / 2) 0); auto; lia.
    + intros i g3 Hi V3. rewrite !get_at by lia. cbn [bind]. eapply vec_set; [exact V3|lia|]. intros j Hj. destruct (Z.eqb_spec j (2 * i + 1)) as [-> |N].
      * replace ((2 * i + 1) / 2) with i by lia. replace ((2 * i + 1) mod 2) with 1 by lia. cbn [Z.eqb]. destruct (Z.ltb_spec i (i + 1)); [reflexivity|lia].
      * destruct (Z.eqb_spec (j mod 2) 0) as [Qe|Qe]; auto. destruct (Z.ltb_spec (j / 2) (i + 1)), (Z.ltb_spec (j / 2) i); auto; lia.
    + exists g'. split; [exact E'|]. eapply vec_ext; [|exact V']. intros i Hi. cbv beta. destruct (Z.eqb_spec (i mod 2) 0) as [Qe|Qe]; auto. destruct (Z.ltb_spec (i / 2) (0 + n)); auto; lia.
Qed.

Lemma fill_c : exists grid, (do grid <- ofor 0 n mids (alloc (n * 2 + 1)) ;
      do a <- oget tmp 0 ; do grid <- oset grid 0 a ;
      do grid <- ofor 1 (n - 1) (fun grid i =>
          do a <- oget grid (2 * i - 1) ; do b <- oget grid (2 * i + 1) ;
          oset grid (2 * i) (1 / 2 * (a + b))%R) grid ;
      do a <- oget tmp n ; oset grid (2 * n) a) = Ok grid
  /\ vec grid (n * 2 + 1) (fun j => if j mod 2 =? 0 then if j =? 0 then at_ tmp 0 else if j =? 2 * n then at_ tmp n else (1 / 2 * (mid (j / 2 - 1) + mid (j / 2)))%R else mid (j / 2)).
Proof.
  pose proof n_pos.
  destruct (ofor_vec mids (n * 2 + 1) 0 n (fun i j => if j mod 2 =? 0 then 0%R else if j / 2 <? i then mid (j / 2) else 0%R) (alloc (n * 2 + 1))) as (g & E & V).
  - lia.
  - eapply vec_ext; [|apply vec_repeat; lia]. intros i Hi. cbn. destruct (Z.eqb_spec (i mod 2) 0) as [Qe|Qe]; auto. destruct (Z.ltb_spec (i / 2) 0); auto; lia.
  - intros i g3 Hi V3. rewrite !get_at by lia. cbn [bind]. eapply vec_set; [exact V3|lia|]. intros j Hj. destruct (Z.eqb_spec j (2 * i + 1)) as [-> |N].
    + replace ((2 * i + 1) / 2) with i by lia. replace ((2 * i + 1) mod 2) with 1 by lia. cbn [Z.eqb]. destruct (Z.ltb_spec i (i + 1)); [reflexivity|lia].
    + destruct (Z.eqb_spec (j mod 2) 0) as [Qe|Qe]; auto. destruct (Z.ltb_spec (j / 2) (i + 1)), (Z.ltb_spec (j / 2) i); auto; lia.
  - rewrite E. cbn [bind]. clear E. rewrite get_at by lia. cbn [bind].
    destruct (vec_set g (n * 2 + 1) _ (fun j => if j mod 2 =? 0 then if j =? 0 then at_ tmp 0 else 0%R else mid (j / 2)) 0 (at_ tmp 0) V) as (g0 & E0 & V0); [lia| |].
    { intros j Hj. destruct (Z.eqb_spec j 0) as [-> |N]; [reflexivity|]. destruct (Z.eqb_spec (j mod 2) 0) as [Qe|Qe]; auto. destruct (Z.ltb_spec (j / 2) (0 + n)); auto; lia. }
    rewrite E0. cbn [bind]. clear E0.
    match goal with |- context [ofor 1 (n - 1) ?f g0] => destruct (ofor_vec f (n * 2 + 1) 1 (n - 1) (fun i j => if j mod 2 =? 0 then if j =? 0 then at_ tmp 0 else if j / 2 <? i then (1 / 2 * (mid (j / 2 - 1) + mid (j / 2)))%R else 0%R else mid (j / 2)) g0) as (g1 & E1 & V1) end.
    + lia.
    + eapply vec_ext; [|exact V0]. intros j Hj. cbn. destruct (Z.eqb_spec (j mod 2) 0) as [Qe|Qe]; auto. destruct (Z.eqb_spec j 0) as [Q0|Q0]; auto. destruct (Z.ltb_spec (j / 2) 1); auto; lia.
    + intros i g3 Hi V3. rewrite (vec_get _ _ _ (2 * i - 1) V3), (vec_get _ _ _ (2 * i + 1) V3) by lia. cbn [bind]. eapply vec_set; [exact V3|lia|]. intros j Hj. destruct (Z.eqb_spec j (2 * i)) as [-> |N].
      * replace (2 * i / 2) with i by lia. replace ((2 * i) mod 2) with 0 by lia. replace ((2 * i - 1) mod 2) with 1 by lia. replace ((2 * i + 1) mod 2) with 1 by lia. replace ((2 * i - 1) / 2) with (i - 1) by lia. replace ((2 * i + 1) / 2) with i by lia.
        cbn [Z.eqb]. destruct (Z.eqb_spec (2 * i) 0) as [Q0|Q0]; [lia|]. destruct (Z.ltb_spec i (i + 1)); [reflexivity|lia].
      * destruct (Z.eqb_spec (j mod 2) 0) as [Qe|Qe]; auto. destruct (Z.eqb_spec j 0) as [Q0|Q0]; auto. destruct (Z.ltb_spec (j / 2) (i + 1)), (Z.ltb_spec (j / 2) i); auto; lia.
    + rewrite E1. cbn [bind]. rewrite get_at by lia. cbn [bind]. eapply vec_set; [exact V1|lia|]. intros j Hj. destruct (Z.eqb_spec j (2 * n)) as [-> |N].
      * replace ((2 * n) mod 2) with 0 by lia. cbn [Z.eqb]. destruct (Z.eqb_spec (2 * n) 0) as [Q0|Q0]; [lia|reflexivity].
      * destruct (Z.eqb_spec (j mod 2) 0) as [Qe|Qe]; auto. destruct (Z.eqb_spec j 0) as [Q0|Q0]; auto. destruct (Z.ltb_spec (j / 2) (1 + (n - 1))); auto; lia.
Qed.
End Run.
