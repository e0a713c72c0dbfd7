(** * process_topo: depths and levels agree *)
From Coq Require Import Lra Lia.
From Verif Require Import Base Loops Grid2 Vec M_Interp M_Runoff M_Topog Spec_Interp Spec_Topog P_Interp P_Runoff P_Topog P_Topog2 P_Topog3.
Local Open Scope Z_scope.

Section levels.
Variables (zw : list R) (nk : Z).
Hypothesis (Lz : zlen zw = nk) (Hnk : 2 <= nk) (Hz : increasing zw) (H0 : (0 < at_ zw 0)%R).

Definition lv (h : R) (k : Z) : Prop := layers zw h (k + 1).

Lemma lv_iff h k : lv h k <-> (h <= 0)%R /\ k = -1 \/ (0 < h)%R /\ 0 <= k < nk /\ (0 < k -> (at_ zw (k - 1) < h)%R) /\ (h <= at_ zw k)%R.
Proof.
  unfold lv, layers. rewrite Lz. replace (k + 1 - 2) with (k - 1) by lia. replace (k + 1 - 1) with k by lia.
  split; (intros [(A & B)|(A & B & C & E)]; [left; split; [auto|lia]|right; split; [auto|split; [lia|split; [intros; apply C; lia|auto]]]]).
Qed.

Lemma zw_lt i j : 0 <= i < j -> j < nk -> (at_ zw i < at_ zw j)%R.
Proof. intros. apply Hz; lia. Qed.
Lemma zw_le i j : 0 <= i <= j -> j < nk -> (at_ zw i <= at_ zw j)%R.
Proof. intros. destruct (Z.eq_dec i j) as [->|]; [lra|]. apply Rlt_le, zw_lt; lia. Qed.
Lemma zw_pos i : 0 <= i < nk -> (0 < at_ zw i)%R.
Proof. intros. pose proof (zw_le 0 i ltac:(lia) ltac:(lia)). lra. Qed.

Lemma lv_bottom k : 0 <= k < nk -> lv (at_ zw k) k.
Proof. intros Rk. apply lv_iff. right. split; [now apply zw_pos|]. split; auto. split; [|lra]. intros. apply zw_lt; lia. Qed.
Lemma lv_land h : (h <= 0)%R -> lv h (-1).
Proof. intros. apply lv_iff. auto. Qed.
Lemma lv_range h k : lv h k -> -1 <= k < nk /\ ((0 < h)%R -> 0 <= k) /\ (0 <= k -> (0 < h)%R).
Proof. rewrite lv_iff. intros [(A & B)|(A & B & C & E)]; (split; [lia|]); split; intros; auto; try lra; lia. Qed.

Lemma lv_mono h1 k1 h2 k2 : lv h1 k1 -> lv h2 k2 -> (h1 <= h2)%R -> k1 <= k2.
Proof.
  rewrite !lv_iff. intros [(A & B)|(A & B & C & E)] [(A' & B')|(A' & B' & C' & E')] L; try lia; try (exfalso; lra).
  destruct (Z_lt_le_dec k2 k1) as [Lt|]; auto. exfalso. specialize (C ltac:(lia)). pose proof (zw_le k2 (k1 - 1) ltac:(lia) ltac:(lia)). lra.
Qed.

Lemma lv_min h1 k1 h2 k2 : lv h1 k1 -> lv h2 k2 -> lv (Rmin h1 h2) (Z.min k1 k2).
Proof.
  intros A B. unfold Rmin. destruct (Rle_dec h1 h2) as [L|L].
  - pose proof (lv_mono _ _ _ _ A B L). now rewrite Z.min_l by lia.
  - pose proof (lv_mono _ _ _ _ B A ltac:(lra)). now rewrite Z.min_r by lia.
Qed.
Lemma lv_max h1 k1 h2 k2 : lv h1 k1 -> lv h2 k2 -> lv (Rmax h1 h2) (Z.max k1 k2).
Proof.
  intros A B. unfold Rmax. destruct (Rle_dec h1 h2) as [L|L].
  - pose proof (lv_mono _ _ _ _ A B L). now rewrite Z.max_r by lia.
  - pose proof (lv_mono _ _ _ _ B A ltac:(lra)). now rewrite Z.max_l by lia.
Qed.

Definition lvc (c : R * Z) : Prop := lv (fst c) (snd c).

Lemma lv_iso keep F x y : (forall x y, lvc (F x y)) -> lvc (iso keep F x y).
Proof.
  intros H. unfold iso. destruct (_ && _); auto. unfold lvc. cbn [fst snd].
  assert (B : forall x y, lv (hmn (hs F) x y) (kmn (ks F) x y)) by (intros a b; unfold hmn, kmn; repeat apply lv_min; apply H).
  unfold hmx, kmx. repeat apply lv_max; apply B.
Qed.

Variable o : options.

Lemma inc_nd : nondecreasing zw.
Proof. intros i j Rij L. apply zw_le; lia. Qed.

Lemma lv_level h : lvc (level_fun nk zw o (h, -1)).
Proof.
  unfold level_fun. cbn [fst]. destruct (rlt_spec 0 h) as [P|P]; [|apply lv_land; cbn; lra].
  destruct (nearest_index_cases h zw nk Lz Hnk inc_nd) as [(L & E)|[(L & E)|(k & Rk & (L1 & L2) & L3 & E)]]; rewrite E.
  - destruct (rlt_spec (at_ zw 0) h); [lra|]. apply lv_iff. right. cbn [fst snd]. split; auto. split; [lia|]. split; [lia|lra].
  - destruct (rlt_spec (at_ zw (nk - 1)) h); [|lra]. rewrite Z.eqb_refl. destruct (rlt _ _); apply (lv_bottom (nk - 1)); lia.
  - destruct (rlt_spec (h - at_ zw (k - 1)) (at_ zw k - h)) as [C|C].
    + destruct (rlt_spec (at_ zw (k - 1)) h) as [G|G].
      * destruct (rlt _ (o_min_thickness o)); [apply (lv_bottom (k - 1)); lia|]. replace (k - 1 =? nk - 1) with false by zc. apply lv_iff. right. cbn [fst snd]. replace (k - 1 + 1) with k by lia. split; auto. split; [lia|]. auto.
      * assert (h = at_ zw (k - 1)) by lra. subst h. apply (lv_bottom (k - 1)). lia.
    + destruct (rlt_spec (at_ zw k) h); [lra|]. apply lv_iff. right. cbn [fst snd]. split; auto. split; [lia|]. split; [|lra].
      intros _. destruct L3 as [->|L3]; auto. destruct (Req_EM_T h (at_ zw (1 - 1))) as [->|]; [|lra]. pose proof (zw_lt (1 - 1) 1 ltac:(lia) ltac:(lia)). lra.
Qed.

Lemma lv_full c : lvc c -> lvc (full_fun zw c).
Proof. intros H. unfold full_fun. destruct (rlt_spec 0 (fst c)) as [P|P]; auto. destruct (lv_range _ _ H) as (R & Q & _). apply (lv_bottom (snd c)). specialize (Q P). lia. Qed.
Lemma lv_flat c : lvc c -> lvc (flat_fun nk zw c).
Proof. intros H. unfold flat_fun. destruct (rlt_spec 0 (fst c)) as [P|P]; auto. apply (lv_bottom (nk - 1)). lia. Qed.

Definition thin_ok : Prop := forall k, 1 <= k < nk -> (0 < pmin zw o k <= at_ zw k - at_ zw (k - 1))%R.

Lemma lv_restrict c : thin_ok -> lvc c -> lvc (restrict_fun zw o c).
Proof.
  intros Hp H. destruct c as (h, k). unfold restrict_fun. destruct (Z.ltb_spec 0 k); auto. destruct (lv_range _ _ H) as (R & _ & Q). cbn [fst snd] in *.
  specialize (Hp k ltac:(lia)). specialize (Q ltac:(lia)).
  assert (B : lvc ((at_ zw (k - 1) + pmin zw o k)%R, k)).
  { apply lv_iff. right. cbn [fst snd]. pose proof (zw_pos (k - 1) ltac:(lia)). split; [lra|]. split; [lia|]. split; [intros; lra|lra]. }
  destruct (rlt _ (pmin zw o k)); auto. destruct (o_open_thin o); auto. destruct (rlt _ _); auto. apply (lv_bottom (k - 1)). lia.
Qed.

(** The bottom cells are thick enough. *)
Definition thick (c : R * Z) : Prop := 1 <= snd c -> (pmin zw o (snd c) <= fst c - at_ zw (snd c - 1))%R.

Lemma thick_restrict c : thin_ok -> lvc c -> thick (restrict_fun zw o c).
Proof.
  intros Hp H. destruct c as (h, k). destruct (lv_range _ _ H) as (R & _ & _). cbn [fst snd] in R. unfold restrict_fun, thick.
  destruct (Z.ltb_spec 0 k); [|cbn [fst snd]; lia].
  destruct (rlt_spec (h - at_ zw (k - 1)) (pmin zw o k)); [|cbn [fst snd]; intros; lra].
  destruct (o_open_thin o); [cbn [fst snd]; intros; lra|]. destruct (rlt _ _); [|cbn [fst snd]; intros; lra].
  cbn [fst snd]. intros. apply (Hp (k - 1)). lia.
Qed.

Lemma lv_shallow c : o_kmt_min o <= nk -> lvc c -> lvc (shallow_fun zw o c).
Proof.
  intros Hm H. destruct c as (h, k). unfold shallow_fun. destruct (lv_range _ _ H) as (R & Q & _). cbn [fst snd] in *.
  destruct (rlt_spec 0 h) as [P|P]; cbn [andb]; auto. specialize (Q P). destruct (Z.ltb_spec k (o_kmt_min o - 1)); auto.
  assert (B : lvc (at_ zw (o_kmt_min o - 1), o_kmt_min o - 1)) by (apply (lv_bottom (o_kmt_min o - 1)); lia).
  assert (B' : lvc (0%R, -1)) by (apply lv_land; cbn; lra).
  destruct (o_deepen o); auto. destruct (o_fill o); auto. destruct (rlt _ _); auto.
Qed.
Lemma thick_shallow c : o_kmt_min o <= nk -> thin_ok -> lvc c -> thick c -> thick (shallow_fun zw o c).
Proof.
  intros Hm Hp H T. destruct c as (h, k). unfold shallow_fun. destruct (lv_range _ _ H) as (R & Q & _). cbn [fst snd] in *.
  destruct (rlt_spec 0 h) as [P|P]; cbn [andb]; auto. specialize (Q P). destruct (Z.ltb_spec k (o_kmt_min o - 1)); auto.
  assert (B : thick (at_ zw (o_kmt_min o - 1), o_kmt_min o - 1)) by (intros L; cbn [fst snd] in *; apply Hp; lia).
  assert (B' : thick (0%R, -1)) by (intros L; cbn [fst snd] in *; lia).
  destruct (o_deepen o); auto. destruct (o_fill o); auto. destruct (rlt _ _); auto.
Qed.
Lemma min_shallow c : lvc c -> snd (shallow_fun zw o c) = -1 \/ o_kmt_min o - 1 <= snd (shallow_fun zw o c).
Proof.
  intros H. destruct c as (h, k). unfold shallow_fun. destruct (lv_range _ _ H) as (R & Q & Q'). cbn [fst snd] in *.
  destruct (rlt_spec 0 h) as [P|P]; cbn [andb].
  - destruct (Z.ltb_spec k (o_kmt_min o - 1)); cbn [snd]; [|lia]. destruct (o_deepen o); cbn [snd]; [lia|]. destruct (o_fill o); cbn [snd]; [lia|]. destruct (rlt _ _); cbn [snd]; lia.
  - cbn [snd]. left. destruct (Z.eq_dec k (-1)); auto. exfalso. apply P. apply Q'. lia.
Qed.

(** The level after enforce_min_depth as a monotone function of the level before. *)
Definition raise (k : Z) : Z :=
  let m := o_kmt_min o - 1 in
  if (0 <=? k) && (k <? m) then
    if o_deepen o then m else if o_fill o then -1 else if rlt (at_ zw k) (1/2 * at_ zw m) then -1 else m
  else k.
Lemma raise_shallow c : lvc c -> snd (shallow_fun zw o c) = raise (snd c).
Proof.
  intros H. destruct c as (h, k). unfold shallow_fun, raise. destruct (lv_range _ _ H) as (R & Q & Q'). cbn [fst snd] in *.
  destruct (rlt_spec 0 h) as [P|P]; cbn [andb].
  - specialize (Q P). replace (0 <=? k) with true by zc. cbn [andb]. destruct (k <? _); auto. destruct (o_deepen o); auto. destruct (o_fill o); auto. destruct (rlt _ _); auto.
  - destruct (Z.leb_spec 0 k); auto. exfalso. auto.
Qed.
Lemma raise_mono k k' : o_kmt_min o <= nk -> -1 <= k -> k <= k' -> k' < nk -> raise k <= raise k'.
Proof.
  intros Hm Hk L Hk'. unfold raise. set (m := o_kmt_min o - 1).
  destruct (Z.leb_spec 0 k), (Z.leb_spec 0 k'), (Z.ltb_spec k m), (Z.ltb_spec k' m); cbn [andb]; try lia.
  - destruct (o_deepen o); [lia|]. destruct (o_fill o); [lia|]. pose proof (zw_le k k' ltac:(lia) ltac:(lia)).
    destruct (rlt_spec (at_ zw k) (1/2 * at_ zw m)), (rlt_spec (at_ zw k') (1/2 * at_ zw m)); try lia. lra.
  - destruct (o_deepen o); [lia|]. destruct (o_fill o); [lia|]. destruct (rlt _ _); lia.
  - destruct (o_deepen o); [lia|]. destruct (o_fill o); [lia|]. destruct (rlt _ _); lia.
Qed.
Lemma raise_neg : raise (-1) = -1.
Proof. reflexivity. Qed.
End levels.

(** ** The cells *)
Section cells.
Variables (ni nj nk : Z) (zw : list R) (o : options) (D : Z -> Z -> R).
Hypothesis (Lz : zlen zw = nk) (Hnk : 2 <= nk) (Hz : increasing zw) (H0 : (0 < at_ zw 0)%R).
Let c0 := cell0 nk zw o D.
Let c1 := cell1 ni nj nk zw o D.
Let W := world ni nj o.
Notation lvc := (lvc zw).

Lemma lv_cell0 x y : lvc (c0 x y).
Proof.
  unfold c0, cell0. pose proof (lv_level zw nk Lz Hnk Hz H0 o (D x y)) as L.
  destruct (o_full o), (o_flat o); auto; try (apply (lv_flat zw nk); auto); apply (lv_full zw nk); auto.
Qed.
Lemma lv_world C : (forall x y, lvc (C x y)) -> forall x y, lvc (W C x y).
Proof. intros H x y. unfold W, world. destruct (place _ _ _ _ _ x y) as [(a, b)|]; auto. apply (lv_land zw nk); auto. cbn. lra. Qed.
Lemma lv_cell1 x y : lvc (c1 x y).
Proof.
  unfold c1, cell1. destruct (_ && _); [|apply lv_cell0]. apply (lv_iso zw nk); auto. apply lv_world. apply lv_cell0.
Qed.

Lemma okc_lv c : lvc c -> okc nk c.
Proof. intros H. destruct (lv_range zw nk Lz Hnk _ _ H) as (R & Q & _). split; [intros P; specialize (Q P); lia|lia]. Qed.

Lemma okc_restrict c : lvc c -> okc nk (restrict_fun zw o c).
Proof.
  intros H. destruct (lv_range zw nk Lz Hnk _ _ H) as (R & Q & _). destruct c as (h, k). cbn [fst snd] in *. unfold restrict_fun, okc.
  destruct (Z.ltb_spec 0 k); [|cbn [fst snd]; split; [intros P; specialize (Q P); lia|lia]].
  destruct (rlt _ _); [|cbn [fst snd]; lia]. destruct (o_open_thin o); [cbn [fst snd]; lia|]. destruct (rlt _ _); cbn [fst snd]; lia.
Qed.

(** Land. *)
Lemma cell0_land x y : (D x y <= 0)%R -> c0 x y = (D x y, -1).
Proof.
  intros L. unfold c0, cell0. assert (E : level_fun nk zw o (D x y, -1) = (D x y, -1)) by (unfold level_fun; cbn [fst]; destruct (rlt_spec 0 (D x y)); auto; lra).
  rewrite E. unfold full_fun, flat_fun. cbn [fst snd]. destruct (rlt_spec 0 (D x y)); [lra|]. destruct (o_full o); cbn [fst snd]; destruct (rlt_spec 0 (D x y)); try lra; destruct (o_flat o); auto.
Qed.
Lemma cell0_ocean x y : (0 < D x y)%R -> 0 <= snd (c0 x y).
Proof.
  intros L. pose proof (lv_cell0 x y) as Q. destruct (lv_range zw nk Lz Hnk _ _ Q) as (R & Q1 & _). apply Q1.
  unfold c0, cell0. set (c := level_fun nk zw o (D x y, -1)).
  assert (P : (0 < fst c)%R).
  { unfold c, level_fun. cbn [fst]. destruct (rlt_spec 0 (D x y)); [|lra]. destruct (nearest_ok nk zw Lz Hnk (inc_nd zw nk Lz Hz) (D x y)) as (k & E & Rk). rewrite E.
    pose proof (zw_pos zw nk Lz Hz H0 k Rk). destruct (rlt _ _); auto. destruct (rlt _ _); auto. destruct (_ =? _); auto. }
  assert (P' : lvc c) by (apply (lv_level zw nk); auto).
  assert (P2 : (0 < fst (if o_full o then full_fun zw c else c))%R).
  { destruct (o_full o); auto. unfold full_fun. destruct (rlt_spec 0 (fst c)); auto. cbn [fst]. destruct (lv_range zw nk Lz Hnk _ _ P') as (R' & Q' & _). apply (zw_pos zw nk); auto. specialize (Q' P). lia. }
  destruct (o_flat o); auto. unfold flat_fun. destruct (rlt_spec 0 (fst (if o_full o then full_fun zw c else c))); auto. cbn [fst]. apply (zw_pos zw nk); auto. lia.
Qed.

Lemma iso_land keep F x y : (forall x y, lvc (F x y)) -> ks F x y = -1 -> iso keep F x y = F x y.
Proof.
  intros H E. unfold iso. destruct (iso_between keep F x y) as (B & _). pose proof (lv_iso zw nk Lz Hz keep F x y H) as L. destruct (lv_range zw nk Lz Hnk _ _ L) as (R & _).
  assert (kmx (ks F) x y = -1).
  { assert (Bk : forall a b, lv zw (hmn (hs F) a b) (kmn (ks F) a b)) by (intros a b; unfold hmn, kmn; repeat apply (lv_min zw nk); auto; apply H).
    assert (Lk : lv zw (hmx (hs F) x y) (kmx (ks F) x y)) by (unfold hmx, kmx; repeat apply (lv_max zw nk); auto).
    destruct (lv_range zw nk Lz Hnk _ _ Lk) as (R' & _). pose proof (kmx_le (ks F) x y). lia. }
  rewrite H1, E. rewrite andb_false_r. reflexivity.
Qed.

Lemma cell1_land x y : 0 <= x < ni -> 0 <= y < nj -> snd (c0 x y) = -1 -> c1 x y = c0 x y.
Proof.
  intros Rx Ry E. unfold c1, cell1. fold c0. destruct (_ && _); auto. fold W. assert (EW : W c0 x y = c0 x y) by (now apply world_in).
  rewrite iso_land; auto; [apply lv_world; apply lv_cell0|]. unfold ks. now rewrite EW.
Qed.
End cells.
