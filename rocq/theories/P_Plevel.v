(** * Proofs about the interpolation to pressure levels: pressures, interpolation *)
From Coq Require Import Reals Lra Lia.
From Verif Require Import Base Loops M_Interp P_Interp M_Runoff M_Plevel Spec_Plevel.
Open Scope Z_scope.

Lemma at_ok (l : list R) k : 1 <= k <= zlen l -> at_ l k = Ok (lv l k).
Proof.
  intros H. unfold at_, oget, zget, lv, zlen in *.
  destruct (Z.ltb_spec (k - 1) 0); [lia|].
  rewrite (nth_error_nth' l 0%R) by lia. reflexivity.
Qed.
Lemma flog_ok x : (0 < x)%R -> flog x = Ok (ln x).
Proof. intros. unfold flog. destruct (rlt_spec 0 x); [reflexivity|lra]. Qed.
Lemma flog_inv x y : flog x = Ok y -> (0 < x)%R /\ y = ln x.
Proof. unfold flog. destruct (rlt_spec 0 x); [intros [= <-]; auto|discriminate]. Qed.
Lemma fdiv_ok x y : (y <> 0)%R -> fdiv x y = Ok (x / y)%R.
Proof. intros. unfold fdiv, reqb. destruct (Req_EM_T y 0); [contradiction|reflexivity]. Qed.
Lemma fdiv_inv x y z : fdiv x y = Ok z -> (y <> 0)%R /\ z = (x / y)%R.
Proof. unfold fdiv, reqb. destruct (Req_EM_T y 0); [discriminate|intros [= <-]; auto]. Qed.

(** ** The pressure of a layer *)
Lemma ln_lt_sub1 x : (0 < x)%R -> (x <> 1)%R -> (ln x < x - 1)%R.
Proof.
  intros Hx Hn. assert (ln x <> 0)%R by (intros E; apply Hn; apply ln_inv; [lra|lra|rewrite ln_1; exact E]).
  pose proof (exp_ineq1 (ln x) H). rewrite exp_ln in H0 by lra. lra.
Qed.
Definition mean_pressure (first : bool) (a b : R) : R :=
  exp ((b * ln b - (if first && negb (rlt 0 a) then 0 else a * ln a)) / (b - a) - 1).
Lemma mean_between first a b : (0 <= a < b)%R -> (first = true \/ 0 < a)%R -> (a < mean_pressure first a b < b)%R.
Proof.
  intros [Ha Hab] Hf. unfold mean_pressure.
  destruct (rlt_spec 0 a) as [Hp|Hp].
  - assert (E : (first && negb true)%bool = false) by (destruct first; reflexivity). rewrite E.
    assert (Hb : (0 < b)%R) by lra.
    assert (H1 : (ln (a / b) < a / b - 1)%R).
    { apply ln_lt_sub1; [apply Rdiv_lt_0_compat; lra|]. intros E1.
      assert (a = b)%R by (replace a with (a / b * b)%R by (field; lra); rewrite E1; ring). lra. }
    assert (H2 : (ln (b / a) < b / a - 1)%R).
    { apply ln_lt_sub1; [apply Rdiv_lt_0_compat; lra|]. intros E1.
      assert (b = a)%R by (replace b with (b / a * a)%R by (field; lra); rewrite E1; ring). lra. }
    unfold Rdiv in H1, H2. rewrite ln_mult, ln_Rinv in H1, H2 by (try apply Rinv_0_lt_compat; lra).
    set (x := ((b * ln b - a * ln a) / (b - a) - 1)%R).
    assert (Hx : (x * (b - a) = b * ln b - a * ln a - (b - a))%R) by (unfold x; field; lra).
    assert (L1 : (b * (ln a - ln b) < a - b)%R).
    { apply (Rmult_lt_compat_l b) in H1; [|lra]. replace (b * (a * / b - 1))%R with (a - b)%R in H1 by (field; lra). lra. }
    assert (L2 : (a * (ln b - ln a) < b - a)%R).
    { apply (Rmult_lt_compat_l a) in H2; [|lra]. replace (a * (b * / a - 1))%R with (b - a)%R in H2 by (field; lra). lra. }
    assert (ln a < x < ln b)%R.
    { split.
      - apply (Rmult_lt_reg_r (b - a)); [lra|]. rewrite Hx. lra.
      - apply (Rmult_lt_reg_r (b - a)); [lra|]. rewrite Hx. lra. }
    split.
    + apply Rle_lt_trans with (exp (ln a)); [rewrite exp_ln by lra; lra|apply exp_increasing; lra].
    + apply Rlt_le_trans with (exp (ln b)); [apply exp_increasing; lra|rewrite exp_ln by lra; lra].
  - destruct Hf as [-> |Hf]; [|lra]. cbn [andb negb].
    assert (a = 0)%R as -> by lra.
    replace ((b * ln b - 0) / (b - 0) - 1)%R with (ln b - 1)%R by (field; lra).
    split; [apply exp_pos|]. apply Rlt_le_trans with (exp (ln b)); [apply exp_increasing; lra|rewrite exp_ln by lra; lra].
Qed.

Lemma good_half_pos nlev ph k : good_half nlev ph -> 1 < k <= nlev + 1 -> (0 < lv ph k)%R.
Proof.
  intros (Hn & Hl & H0 & Hm) Hk.
  assert (G : forall n : nat, 1 + Z.of_nat n <= nlev + 1 -> (0 <= lv ph (1 + Z.of_nat n))%R).
  { induction n as [|n IH]; intros Hn'; [exact H0|].
    assert (0 <= lv ph (1 + Z.of_nat n))%R by (apply IH; lia).
    specialize (Hm (1 + Z.of_nat n)). replace (1 + Z.of_nat n + 1) with (1 + Z.of_nat (S n)) in Hm by lia.
    assert (lv ph (1 + Z.of_nat n) < lv ph (1 + Z.of_nat (S n)))%R by (apply Hm; lia). lra. }
  specialize (G (Z.to_nat (k - 2)) ltac:(lia)). specialize (Hm (k - 1) ltac:(lia)).
  replace (k - 1 + 1) with k in Hm by lia. replace (1 + Z.of_nat (Z.to_nat (k - 2))) with (k - 1) in G by lia. lra.
Qed.
Lemma good_half_nonneg nlev ph k : good_half nlev ph -> 1 <= k <= nlev + 1 -> (0 <= lv ph k)%R.
Proof.
  intros H Hk. destruct (Z.eq_dec k 1) as [-> |]; [apply H|]. apply Rlt_le, (good_half_pos nlev); [exact H|lia].
Qed.

Definition pf_list (nlev : Z) (ph : list R) : list R :=
  map (fun k => mean_pressure (k =? 1) (lv ph k) (lv ph (k + 1))) (zseq 1 nlev).
Lemma lv_map_zseq (f : Z -> R) n k : 1 <= k <= n -> lv (map f (zseq 1 n)) k = f k.
Proof.
  intros H. unfold lv. assert (E : zget (map f (zseq 1 n)) (k - 1) = Some (f k)).
  { rewrite zget_map, zget_zseq by lia. cbn [option_map]. replace (1 + (k - 1)) with k by lia. reflexivity. }
  unfold zget in E. destruct (Z.ltb_spec (k - 1) 0); [lia|]. apply nth_error_nth with (d := 0%R) in E. exact E.
Qed.
(** A loop that appends one value each time *)
Lemma ofor_append {A} lo n (body : Z -> outcome A) (val : Z -> A) :
  0 <= n -> (forall k, lo <= k < lo + n -> body k = Ok (val k)) ->
  ofor lo n (fun out k => do v <- body k ; Ok (out ++ [v])) [] = Ok (map val (zseq lo n)).
Proof.
  intros Hn Hb.
  assert (G : forall l acc, (forall k, In k l -> body k = Ok (val k)) ->
            ofold (fun out k => do v <- body k ; Ok (out ++ [v])) l acc = Ok (acc ++ map val l)).
  { induction l as [|k l IH]; intros acc H; cbn [ofold map]; [rewrite app_nil_r; reflexivity|].
    rewrite (H k) by (left; reflexivity). cbn [bind]. rewrite IH by (intros; apply H; right; assumption).
    rewrite <- app_assoc. reflexivity. }
  unfold ofor. rewrite G; [reflexivity|]. intros k Hk. apply Hb. apply In_zseq in Hk. lia.
Qed.
Lemma compute_pres_full_ok nlev ph : good_half nlev ph -> compute_pres_full nlev ph = Ok (pf_list nlev ph).
Proof.
  intros H. pose proof H as (Hn & Hl & H0 & Hm). unfold compute_pres_full, pf_list.
  rewrite <- (ofor_append 1 nlev (fun k =>
    do a <- at_ ph k ; do b <- at_ ph (k + 1) ; do la <- plogp (k =? 1) a ; do lb <- plogp false b ;
    do q <- fdiv (lb - la) (b - a) ; Ok (exp (q - 1)))).
  - apply ofor_ext. intros s k Hk.
    rewrite !at_ok by lia. cbn [bind].
    destruct (plogp (k =? 1) (lv ph k)); cbn [bind]; try reflexivity.
    destruct (plogp false (lv ph (k + 1))); cbn [bind]; try reflexivity.
    destruct (fdiv _ _); reflexivity.
  - lia.
  - intros k Hk. rewrite !at_ok by lia. cbn [bind].
    assert (Hb : (0 < lv ph (k + 1))%R) by (apply (good_half_pos nlev); [exact H|lia]).
    specialize (Hm k ltac:(lia)).
    unfold plogp at 2. cbn [andb]. rewrite (flog_ok (lv ph (k + 1))) by exact Hb. cbn [bind].
    assert (E : plogp (k =? 1) (lv ph k) = Ok (if (k =? 1) && negb (rlt 0 (lv ph k)) then 0 else lv ph k * ln (lv ph k))%R).
    { unfold plogp. destruct ((k =? 1) && negb (rlt 0 (lv ph k)))%bool eqn:E; [reflexivity|].
      rewrite flog_ok; [reflexivity|].
      destruct (Z.eqb_spec k 1) as [-> |].
      - cbn [andb] in E. destruct (rlt_spec 0 (lv ph 1)); [assumption|discriminate].
      - apply (good_half_pos nlev); [exact H|lia]. }
    rewrite E. cbn [bind]. rewrite fdiv_ok by lra. reflexivity.
Qed.
Lemma pf_list_inside nlev ph : good_half nlev ph -> inside nlev ph (pf_list nlev ph).
Proof.
  intros H. pose proof H as (Hn & Hl & H0 & Hm). split.
  - unfold pf_list. rewrite zlen_map, zlen_zseq by lia. reflexivity.
  - intros k Hk. unfold pf_list. rewrite lv_map_zseq by lia. apply mean_between.
    + split; [apply (good_half_nonneg nlev); [exact H|lia]|apply Hm; lia].
    + destruct (Z.eqb_spec k 1); [left; reflexivity|right]. apply (good_half_pos nlev); [exact H|lia].
Qed.

(** ** Level pressures: positive and increasing *)
Definition good_full (nlev : Z) (pf : list R) : Prop :=
  zlen pf = nlev /\ (forall k, 1 <= k <= nlev -> (0 < lv pf k)%R) /\ forall k, 1 <= k < nlev -> (lv pf k < lv pf (k + 1))%R.
Lemma inside_good nlev ph pf : good_half nlev ph -> inside nlev ph pf -> good_full nlev pf.
Proof.
  intros H (Hl & Hi). split; [exact Hl|]. split.
  - intros k Hk. pose proof (good_half_nonneg nlev ph k H ltac:(lia)). specialize (Hi k Hk). lra.
  - intros k Hk. pose proof (Hi k ltac:(lia)). pose proof (Hi (k + 1) ltac:(lia)). lra.
Qed.
Lemma good_full_lt nlev pf a b : good_full nlev pf -> 1 <= a -> a < b -> b <= nlev -> (lv pf a < lv pf b)%R.
Proof.
  intros (_ & _ & Hm) Ha Hab Hb.
  assert (G : forall n : nat, a + 1 + Z.of_nat n <= nlev -> (lv pf a < lv pf (a + 1 + Z.of_nat n))%R).
  { induction n as [|n IH]; intros Hn; [replace (a + 1 + Z.of_nat 0) with (a + 1) by lia; apply Hm; lia|].
    specialize (IH ltac:(lia)). specialize (Hm (a + 1 + Z.of_nat n) ltac:(lia)).
    replace (a + 1 + Z.of_nat n + 1) with (a + 1 + Z.of_nat (S n)) in Hm by lia. lra. }
  specialize (G (Z.to_nat (b - a - 1)) ltac:(lia)). replace (a + 1 + Z.of_nat (Z.to_nat (b - a - 1))) with b in G by lia. exact G.
Qed.
Lemma flogs_ok pf : (forall x, In x pf -> (0 < x)%R) -> flogs pf = Ok (map ln pf).
Proof.
  intros H. unfold flogs.
  assert (G : forall l acc, (forall x, In x l -> (0 < x)%R) -> ofold (fun acc x => do y <- flog x ; Ok (acc ++ [y])) l acc = Ok (acc ++ map ln l)).
  { induction l as [|x l IH]; intros acc Hx; cbn [ofold map]; [rewrite app_nil_r; reflexivity|].
    rewrite flog_ok by (apply Hx; left; reflexivity). cbn [bind]. rewrite IH by (intros; apply Hx; right; assumption).
    rewrite <- app_assoc. reflexivity. }
  apply (G pf []). exact H.
Qed.
Lemma lv_in nlev pf x : zlen pf = nlev -> In x pf -> exists k, 1 <= k <= nlev /\ x = lv pf k.
Proof.
  intros Hl Hx. destruct (In_nth pf x 0%R Hx) as (n & Hn & <-). exists (Z.of_nat n + 1).
  unfold lv, zlen in *. split; [lia|]. f_equal. lia.
Qed.
Lemma good_full_logs nlev pf : good_full nlev pf -> flogs pf = Ok (map ln pf).
Proof.
  intros (Hl & Hp & _). apply flogs_ok. intros x Hx. destruct (lv_in nlev pf x Hl Hx) as (k & Hk & ->). apply Hp. exact Hk.
Qed.
Lemma lv_map_ln pf k : 1 <= k <= zlen pf -> lv (map ln pf) k = ln (lv pf k).
Proof.
  intros H. unfold lv. rewrite <- (map_nth ln pf 0%R). apply nth_indep. rewrite map_length. unfold zlen in H. lia.
Qed.

(** ** The search *)
Lemma search_spec nlev pf kbot p : good_full nlev pf -> (0 < p)%R -> 2 <= kbot <= nlev ->
  forall fuel k, Z.of_nat fuel = kbot + 1 - k -> 2 <= k -> (forall j, 2 <= j < k -> (lv pf j < p)%R) ->
  exists i m, search fuel k kbot (map ln pf) (ln p) = Ok (i, m) /\
    (if (m : bool) then i = kbot /\ (lv pf kbot < p)%R
     else k <= i <= kbot /\ (p <= lv pf i)%R /\ forall j, 2 <= j < i -> (lv pf j < p)%R).
Proof.
  intros G Hp Hb. pose proof G as (Hl & Hpos & Hm).
  induction fuel as [|fuel IH]; intros k Hf Hk Hj; cbn [search].
  - exists kbot, true. split; [reflexivity|]. split; [reflexivity|]. apply Hj. lia.
  - rewrite at_ok by (rewrite zlen_map; lia). cbn [bind]. rewrite lv_map_ln by lia.
    destruct (rle_spec (ln p) (ln (lv pf k))) as [Hle|Hgt].
    + exists k, false. split; [reflexivity|]. split; [lia|]. split; [|exact Hj].
      apply Rnot_lt_le. intros Hlt. apply ln_increasing in Hlt; [lra|]. apply Hpos. lia.
    + destruct (IH (k + 1)) as (i & m & E & H); [lia|lia| |].
      { intros j Hj'. destruct (Z.eq_dec j k) as [-> |]; [|apply Hj; lia].
        apply ln_lt_inv; [apply Hpos; lia|exact Hp|lra]. }
      exists i, m. split; [exact E|]. destruct m; [exact H|]. destruct H as (H1 & H2 & H3). split; [lia|]. split; assumption.
Qed.

Lemma clamp_spec f : Rmax (-0.5) (Rmin 1.5 f) = (if rlt 1.5 f then 1.5 else if rlt f (-0.5) then -0.5 else f)%R.
Proof.
  destruct (rlt_spec 1.5 f); [rewrite Rmin_left, Rmax_right by lra; reflexivity|].
  rewrite Rmin_right by lra. destruct (rlt_spec f (-0.5)); [rewrite Rmax_left by lra|rewrite Rmax_right by lra]; reflexivity.
Qed.

(** The control: the level below, the position on the line, and the mask *)
Lemma control_spec nlev pf kbot p : good_full nlev pf -> (0 < p)%R -> 2 <= kbot <= nlev ->
  exists k f m, control_of (map ln pf) kbot (ln p) = Ok (Control k (Rmax (-0.5) (Rmin 1.5 f)) m) /\
    2 <= k <= kbot /\
    (f * (ln (lv pf (k - 1)) - ln (lv pf k)) = ln p - ln (lv pf k))%R /\
    (forall j, 2 <= j < k -> (lv pf j < p)%R) /\
    (if m then k = kbot /\ (lv pf kbot < p)%R else (p <= lv pf k)%R).
Proof.
  intros G Hp Hb. destruct (search_spec nlev pf kbot p G Hp Hb (Z.to_nat (kbot - 1)) 2) as (k & m & E & H); [lia|lia|lia|].
  pose proof G as (Hl & Hpos & _).
  unfold control_of. rewrite E. cbn [bind].
  assert (Hk : 2 <= k <= kbot) by (destruct m; destruct H; lia).
  rewrite !at_ok by (rewrite zlen_map; lia). cbn [bind]. rewrite !lv_map_ln by lia.
  assert (Hlt : (lv pf (k - 1) < lv pf k)%R) by (apply (good_full_lt nlev); [exact G|lia|lia|lia]).
  apply ln_increasing in Hlt; [|apply Hpos; lia].
  rewrite fdiv_ok by lra. cbn [bind].
  exists k, ((ln p - ln (lv pf k)) / (ln (lv pf (k - 1)) - ln (lv pf k)))%R, m.
  split; [reflexivity|]. split; [exact Hk|]. split; [field; lra|]. split.
  - destruct m; [|apply H]. destruct H as (-> & H). intros j Hj.
    pose proof (good_full_lt nlev pf j kbot G ltac:(lia) ltac:(lia) ltac:(lia)). lra.
  - destruct m; apply H.
Qed.
