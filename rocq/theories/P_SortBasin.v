(** * Proofs about sort_basin *)
From Coq Require Import Reals Lra.
From Verif Require Import Base Loops Vec M_Interp Spec_Interp P_Interp P_Interp2 M_Runoff P_Runoff M_QsortIndex Spec_Sort P_QsortIndex T_QsortIndex M_River Spec_River Tiles P_Halo.
Open Scope Z_scope.

Lemma max_cells_run nt nx ny d F : 0 <= nt -> 0 <= nx -> 0 <= ny -> haloed nt nx ny d F ->
  exists m, max_cells nt nx ny d = Ok m /\ -1 <= m /\ (forall c, own nt nx ny c -> F c <= m) /\ (m = -1 \/ exists c, own nt nx ny c /\ F c = m).
Proof.
  intros Ht Hx Hy H. unfold max_cells.
  match goal with |- context [for_cells nt nx ny ?f ?s] => destruct (for_cells_inv nt nx ny (fun p m => -1 <= m /\
    (forall c, own nt nx ny c -> pos nx ny c < p -> F c <= m) /\ (m = -1 \/ exists c, own nt nx ny c /\ F c = m)) f s) as (m & E & Hm & Ha & He) end; auto.
  - split; [lia|]. split; auto. intros c Ho Hp. pose proof (pos_range _ _ _ _ Ho). lia.
  - intros n j i m Ho (Hm & Ha & He). rewrite (haloed_get _ _ _ _ _ _ _ _ H (own_frame _ _ _ _ Ho)). cbn [bind]. set (c := (n, j, i)) in *.
    exists (Z.max m (F c)). split; auto. split; [lia|]. split.
    + intros c' Ho' Hp. apply (pos_step nt nx ny c c' Ho Ho') in Hp. destruct Hp as [->|Hp]; [lia|]. specialize (Ha c' Ho' Hp). lia.
    + destruct (Z.max_spec m (F c)) as [[_ ->]|[_ ->]]; eauto.
  - exists m. split; auto. split; auto. split; auto. intros c Ho. apply Ha; auto. apply pos_range; auto.
Qed.

Lemma last_get nt nx ny d (P : cell -> Z) n j i : plain_field nt nx ny d P -> own nt nx ny (n, j, i) -> mget d n ((j - 1) * nx + i - 1) = Ok (P (n, j, i)).
Proof. intros H Ho. replace ((j - 1) * nx + i - 1) with ((j - 1) * nx + (i - 1)) by ring. eapply plain_get; eauto. Qed.

Lemma sort_run nt nx ny bm miss basin last subA B P S : 0 <= nt -> 0 <= nx -> 0 <= ny ->
  haloed nt nx ny basin B -> plain_field nt nx ny last P -> haloed nt nx ny subA S -> basins_ok nt nx ny bm miss B P S ->
  exists basin' B' m rank, sort_basin nt nx ny bm miss basin last subA = Ok basin' /\ haloed nt nx ny basin' B' /\
    (forall c, ~ own nt nx ny c -> B' c = B c) /\
    (forall c, own nt nx ny c -> B c = bm -> B' c = bm) /\
    (forall c, own nt nx ny c -> B c <> bm -> 1 <= B c <= m /\ exists r, zget rank (B c - 1) = Some r /\ B' c = m - r) /\
    (forall b, 1 <= b <= m -> exists o, own nt nx ny o /\ P o <> 0 /\ B o = b) /\
    (forall k, 0 <= k < m -> exists r, 0 <= r < m /\ zget rank k = Some r) /\
    (forall r, 0 <= r < m -> exists k, 0 <= k < m /\ zget rank k = Some r) /\
    (forall k k' r, 0 <= k < m -> 0 <= k' < m -> zget rank k = Some r -> zget rank k' = Some r -> k = k') /\
    (forall o o' r r', own nt nx ny o -> own nt nx ny o' -> P o <> 0 -> P o' <> 0 -> (S o' < S o)%R ->
       zget rank (B o - 1) = Some r -> zget rank (B o' - 1) = Some r' -> r' < r).
Proof.
  intros Ht Hx Hy HB HP HS (Hbm & Hb1 & Hb2 & Hb3 & Hb4). unfold sort_basin.
  destruct (max_cells_run nt nx ny basin B Ht Hx Hy HB) as (m & E & Hm & Ha & He). rewrite E. cbn [bind]. clear E.
  assert (Hex : forall b, 1 <= b <= m -> exists o, own nt nx ny o /\ P o <> 0 /\ B o = b).
  { intros b Hb. destruct He as [->|(c & Ho & <-)]; [lia|]. eauto. }
  (* the outlets' areas *)
  match goal with |- context [for_cells nt nx ny ?f (repeat miss ?k)] => destruct (for_cells_inv nt nx ny (fun p ms => zlen ms = Z.max 0 m /\
    (forall o, own nt nx ny o -> P o <> 0 -> pos nx ny o < p -> zget ms (B o - 1) = Some (S o))) f (repeat miss k)) as (ms & E & Lms & Hms) end; auto.
  { split; [rewrite zlen_repeat; lia|]. intros o Ho _ Hp. pose proof (pos_range _ _ _ _ Ho). lia. }
  { intros n j i ms Ho (L & H). rewrite (last_get _ _ _ _ _ _ _ _ HP Ho). cbn [bind]. set (c := (n, j, i)) in *.
    destruct (Z.eqb_spec (P c) 0) as [E0|E0]; cbn [negb].
    { exists ms. split; auto. split; auto. intros o Ho' HPo Hp. apply (pos_step nt nx ny c o Ho Ho') in Hp. destruct Hp as [->|Hp]; [easy|auto]. }
    rewrite (haloed_get _ _ _ _ _ _ _ _ HB (own_frame _ _ _ _ Ho)). cbn [bind]. fold c.
    destruct (Hb3 c Ho E0) as [H1 _]. pose proof (Ha c Ho) as H2.
    destruct (Z.ltb_spec m (B c)); [lia|]. destruct (Z.ltb_spec (B c) 1); [lia|]. cbn [orb].
    rewrite (haloed_get _ _ _ _ _ _ _ _ HS (own_frame _ _ _ _ Ho)). cbn [bind]. fold c.
    destruct (zset_Some ms (B c - 1) (S c)) as (ms' & Es); [lia|]. rewrite (proj2 (oset_Ok _ _ _ _) Es). exists ms'. split; auto.
    split; [rewrite (zset_len _ _ _ _ Es); auto|]. intros o Ho' HPo Hp. apply (pos_step nt nx ny c o Ho Ho') in Hp.
    destruct (Z.eq_dec (B o) (B c)) as [Eb|Nb].
    - rewrite (Hb4 o c Ho' Ho HPo E0 Eb). apply (zget_zset_eq _ _ _ _ Es).
    - rewrite (zget_zset_ne _ _ _ _ _ Es) by lia. destruct Hp as [->|Hp]; [easy|auto]. }
  rewrite E. cbn [bind]. clear E.
  assert (Hms' : forall o, own nt nx ny o -> P o <> 0 -> zget ms (B o - 1) = Some (S o)). { intros o Ho HPo. apply Hms; auto. apply pos_range; auto. }
  clear Hms. rename Hms' into Hms.
  assert (Chk : ofor 0 m (fun u n => do s <- oget ms n ; if reqb s miss then Err 4 else Ok u) tt = Ok tt).
  { destruct (Z.leb_spec 0 m) as [Hm0|Hm0]; [|replace m with (-1) by lia; reflexivity].
    destruct (ofor_inv (fun _ _ => True) (fun u n => do s <- oget ms n ; if reqb s miss then Err 4 else Ok u) 0 m tt) as ([] & E & _); auto.
    intros k [] Hk _. destruct (Hex (k + 1) ltac:(lia)) as (o & Ho & HPo & Eo). exists tt. split; auto.
    specialize (Hms o Ho HPo). rewrite Eo in Hms. replace (k + 1 - 1) with k in Hms by lia. rewrite (proj2 (oget_Ok _ _ _) Hms). cbn [bind].
    destruct (reqb_spec (S o) miss) as [Em|]; auto. now elim (proj2 (Hb3 o Ho HPo)). }
  rewrite Chk. cbn [bind]. clear Chk.
  (* the sort *)
  assert (Srt : exists array' idx, qsort_index (Z.to_nat m) ms 0 (m - 1) (zseq 0 m) = Ok (array', idx) /\
    (0 <= m -> sorted_on 0 (m - 1) array' /\ index_perm m idx /\ zlen array' = m /\ forall i k, 0 <= i < m -> zget idx i = Some k -> zget array' i = zget ms k)).
  { destruct (Z.leb_spec 0 m) as [Hm0|Hm0].
    - destruct (C42_index ms (zseq 0 m) m) as (a & r & E & L & H1 & H2 & H3); [lia|rewrite zlen_zseq; lia| |exists a, r; auto].
      intros i Hi. rewrite zget_zseq by lia. f_equal.
    - exists ms, (zseq 0 m). split; [|lia]. replace m with (-1) by lia. reflexivity. }
  destruct Srt as (array' & idx & E & Srt). rewrite E. cbn [bind]. clear E.
  assert (Rk : exists rank, ofor 0 m (fun rank n => do k <- oget idx n ; oset rank k n) (repeat (-1) (Z.to_nat m)) = Ok rank /\
    (0 <= m -> zlen rank = m /\ forall i k, 0 <= i < m -> zget idx i = Some k -> zget rank k = Some i)).
  { destruct (Z.leb_spec 0 m) as [Hm0|Hm0]; [|exists []; split; [replace m with (-1) by lia; reflexivity|lia]].
    destruct (Srt Hm0) as (_ & (Li & Hi1 & Hi2 & Hi3) & _).
    destruct (ofor_inv (fun p rank => zlen rank = m /\ forall i k, 0 <= i < p -> zget idx i = Some k -> zget rank k = Some i)
      (fun rank n => do k <- oget idx n ; oset rank k n) 0 m (repeat (-1) (Z.to_nat m))) as (rank & E & H1 & H2); auto.
    - split; [rewrite zlen_repeat; lia|]. intros; lia.
    - intros p rank Hp (L & H). destruct (Hi2 p ltac:(lia)) as (k & Hk & Ek). rewrite (proj2 (oget_Ok _ _ _) Ek). cbn [bind].
      destruct (zset_Some rank k p) as (rank' & Es); [lia|]. rewrite (proj2 (oset_Ok _ _ _ _) Es). exists rank'. split; auto.
      split; [rewrite (zset_len _ _ _ _ Es); auto|]. intros i k' Hi Ek'. destruct (Z.eq_dec i p) as [Ei|Ni].
      + subst i. rewrite Ek in Ek'. injection Ek' as <-. apply (zget_zset_eq _ _ _ _ Es).
      + rewrite (zget_zset_ne _ _ _ _ _ Es) by (intros <-; apply Ni; eauto). apply H; [lia|auto].
    - exists rank. split; auto. }
  destruct Rk as (rank & E & Rk). rewrite E. cbn [bind]. clear E.
  assert (R1 : forall k, 0 <= k < m -> exists r, 0 <= r < m /\ zget rank k = Some r /\ zget idx r = Some k).
  { intros k Hk. destruct (Srt ltac:(lia)) as (_ & (_ & Hi1 & _) & _). destruct (Rk ltac:(lia)) as (_ & Hr). destruct (Hi1 k Hk) as (i & Hi & Ei).
    exists i. split; auto. }
  assert (Chk : ofor 0 m (fun u n => do r <- oget rank n ; if r <? 0 then Err 5 else Ok u) tt = Ok tt).
  { destruct (Z.leb_spec 0 m) as [Hm0|Hm0]; [|replace m with (-1) by lia; reflexivity].
    destruct (ofor_inv (fun _ _ => True) (fun u n => do r <- oget rank n ; if r <? 0 then Err 5 else Ok u) 0 m tt) as ([] & E & _); auto.
    intros k [] Hk _. exists tt. split; auto. destruct (R1 k ltac:(lia)) as (r & Hr & Er & _). rewrite (proj2 (oget_Ok _ _ _) Er). cbn [bind].
    destruct (Z.ltb_spec r 0); [lia|auto]. }
  rewrite Chk. cbn [bind]. clear Chk.
  match goal with |- context [for_cells nt nx ny ?f basin] => destruct (for_cells_inv nt nx ny (fun p basin => exists B', haloed nt nx ny basin B' /\
    (forall c, ~ own nt nx ny c \/ p <= pos nx ny c -> B' c = B c) /\
    (forall c, own nt nx ny c -> pos nx ny c < p -> B c = bm -> B' c = bm) /\
    (forall c, own nt nx ny c -> pos nx ny c < p -> B c <> bm -> exists r, zget rank (B c - 1) = Some r /\ B' c = m - r)) f basin) as (basin' & E & B' & HB' & Ho1 & Ho2 & Ho3) end; auto.
  { exists B. split; auto. split; auto. split; intros c Ho Hp; pose proof (pos_range _ _ _ _ Ho); lia. }
  { intros n j i bs Ho (B' & HB' & H1 & H2 & H3). rewrite (haloed_get _ _ _ _ _ _ _ _ HB (own_frame _ _ _ _ Ho)). cbn [bind]. set (c := (n, j, i)) in *.
    destruct (Z.eqb_spec (B c) bm) as [Eb|Nb].
    { exists bs. split; auto. exists B'. split; auto. split; [intros c' [Hc|Hc]; apply H1; [auto|right; lia]|].
      split; intros c' Ho' Hp; apply (pos_step nt nx ny c c' Ho Ho') in Hp; destruct Hp as [->|Hp]; auto; intros Ebm; [rewrite H1; auto; right; lia|easy]. }
    destruct (Hb1 c Ho) as [|Hb]; [easy|]. pose proof (Ha c Ho).
    destruct (Z.ltb_spec m (B c)); [lia|]. destruct (Z.ltb_spec (B c) 1); [lia|]. cbn [orb].
    destruct (R1 (B c - 1) ltac:(lia)) as (r & Hr & Er & _). rewrite (proj2 (oget_Ok _ _ _) Er). cbn [bind].
    destruct (haloed_put nt nx ny bs B' n j i (m - r) HB' (own_frame _ _ _ _ Ho)) as (bs' & Es & Hs). exists bs'. split; auto.
    exists (put B' c (m - r)). split; auto. split.
    - intros c' Hc'. rewrite put_ne by (intros ->; destruct Hc'; [auto|lia]). apply H1. destruct Hc'; [auto|right; lia].
    - split; intros c' Ho' Hp; apply (pos_step nt nx ny c c' Ho Ho') in Hp; (destruct (cell_dec c' c) as [->|Hne]; [rewrite put_eq|rewrite put_ne by auto; destruct Hp; [easy|auto]]); intros Eb'; [easy|].
      exists r. auto. }
  rewrite E. exists basin', B', m, rank. split; auto. split; auto. split; [intros; apply Ho1; auto|].
  split; [intros c Ho; apply Ho2; auto; apply pos_range; auto|].
  split. { intros c Ho Nb. split; [pose proof (Ha c Ho); destruct (Hb1 c Ho); [easy|lia]|]. apply Ho3; auto. apply pos_range; auto. }
  split; auto.
  split. { intros k Hk. destruct (R1 k Hk) as (r & Hr & Er & _). eauto. }
  split. { intros r Hr. destruct (Srt ltac:(lia)) as (_ & (_ & _ & Hi2 & _) & _). destruct (Rk ltac:(lia)) as (_ & Hrk).
    destruct (Hi2 r Hr) as (k & Hk & Ek). eauto. }
  split. { intros k k' r Hk Hk' Er Er'. destruct (R1 k Hk) as (r1 & _ & Er1 & Ei1). destruct (R1 k' Hk') as (r2 & _ & Er2 & Ei2). congruence. }
  intros o o' r r' Ho Ho' HPo HPo' HSo Er Er'. destruct (Z.leb_spec r r') as [Hle|]; [exfalso|lia].
  destruct (Hb3 o Ho HPo) as [Hb _]. destruct (Hb3 o' Ho' HPo') as [Hb' _]. pose proof (Ha o Ho). pose proof (Ha o' Ho').
  destruct (R1 (B o - 1) ltac:(lia)) as (r1 & Hr1 & Er1 & Ei1). destruct (R1 (B o' - 1) ltac:(lia)) as (r2 & Hr2 & Er2 & Ei2).
  rewrite Er in Er1. injection Er1 as <-. rewrite Er' in Er2. injection Er2 as <-.
  destruct (Srt ltac:(lia)) as (So & _ & La & Hv).
  pose proof (Hv r _ Hr1 Ei1) as V1. rewrite (Hms o Ho HPo) in V1. pose proof (Hv r' _ Hr2 Ei2) as V2. rewrite (Hms o' Ho' HPo') in V2.
  specialize (So r r' ltac:(lia) Hle ltac:(lia)). rewrite (at_zget _ _ _ V1), (at_zget _ _ _ V2) in So. lra.
Qed.
