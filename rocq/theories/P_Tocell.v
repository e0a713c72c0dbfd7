(** * Proofs about calc_tocell *)
From Coq Require Import Reals Lra.
From Verif Require Import Base Loops M_Interp P_Interp M_Runoff P_Runoff M_River Spec_River Tiles P_Halo.
Open Scope Z_scope.

Definition ring : list (Z * Z) := [(0,0);(0,1);(0,2);(1,0);(1,2);(2,0);(2,1);(2,2)].
Lemma for_ring_fold {S} (f : S -> Z -> Z -> outcome S) s : for_ring f s = ofold (fun s p => f s (fst p) (snd p)) ring s.
Proof.
  unfold for_ring, ring, ofor. change (zseq 0 3) with [0; 1; 2]. cbn -[bind].
  repeat (match goal with |- bind (bind (bind ?a _) _) _ = _ => destruct a; cbn [bind]; auto | |- bind (bind ?a _) _ = _ => destruct a; cbn [bind]; auto
    | |- bind ?a _ = _ => destruct a; cbn [bind]; auto end).
Qed.
Definition val (S : cell -> R) (n j i : Z) (p : Z * Z) : R := S (n, j - 1 + fst p, i - 1 + snd p).
Lemma ring_frame nt nx ny n j i p : own nt nx ny (n, j, i) -> In p ring -> in_frame nt nx ny (n, j - 1 + fst p, i - 1 + snd p).
Proof. intros (Hn & Hj & Hi) Hp. repeat destruct Hp as [<-|Hp]; try destruct Hp; cbn; lia. Qed.

Lemma choose_high nt nx ny large cutoff miss subA S n j i me : (-999 <= cutoff)%R ->
  haloed nt nx ny subA S -> own nt nx ny (n, j, i) -> (cutoff < me)%R ->
  exists tval ig jg, choose large cutoff miss subA (nx + 2) n (j - 1) (i - 1) me = Ok (tval, ig, jg) /\
   ((tval = (-999)%R /\ ig = -1 /\ jg = -1 /\ forall p, In p ring -> (val S n j i p <= me)%R)%Z \/
    (In (jg, ig) ring /\ tval = val S n j i (jg, ig) /\ (me < tval)%R /\
      forall p, In p ring -> (me < val S n j i p < large)%R -> (val S n j i p <= tval < large)%R)).
Proof.
  intros Hc HS Ho Hm. unfold choose. destruct (rlt_spec cutoff me) as [_|]; [|lra]. rewrite for_ring_fold.
  match goal with |- context [ofold ?f ring ?s] => destruct (ofold_inv (fun l st => let '(tval, ig, jg) := st in
    (tval = (-999)%R /\ ig = -1 /\ jg = -1 /\ forall p, In p l -> (val S n j i p <= me)%R)%Z \/
    (In (jg, ig) l /\ tval = val S n j i (jg, ig) /\ (me < tval)%R /\
      forall p, In p l -> (me < val S n j i p < large)%R -> (val S n j i p <= tval < large)%R)) f ring s) as ([[tval ig] jg] & E & HP) end.
  - left. repeat split; auto. intros p [].
  - intros l1 p l2 [[tval ig] jg] El HP. assert (Hp : In p ring) by (rewrite El; apply in_or_app; right; left; reflexivity).
    rewrite (haloed_get _ _ _ _ _ _ _ _ HS (ring_frame _ _ _ _ _ _ _ Ho Hp)). cbn [bind]. fold (val S n j i p).
    destruct p as [pj pi]. cbn [fst snd]. set (v := val S n j i (pj, pi)) in *.
    destruct (rlt_spec me v) as [Hv|Hv].
    2:{ exists (tval, ig, jg). split; auto. destruct HP as [(-> & -> & -> & H)|(H1 & -> & H2 & H)]; [left|right].
      - repeat split; auto. intros q Hq. apply in_app_or in Hq. destruct Hq as [Hq|[<-|[]]]; auto. fold v. lra.
      - split; [apply in_or_app; auto|]. split; auto. split; auto. intros q Hq Hr. apply in_app_or in Hq. destruct Hq as [Hq|[<-|[]]]; [auto|]. exfalso. fold v in Hr. lra. }
    destruct HP as [(-> & -> & -> & H)|(H1 & Et & H2 & H)].
    + destruct (reqb_spec (-999)%R (-999)%R) as [_|]; [|congruence]. destruct (rlt_spec (-999)%R v) as [_|]; [|lra].
      exists (v, pi, pj). split; auto. right. split; [apply in_or_app; right; left; reflexivity|]. split; [reflexivity|]. split; auto.
      intros q Hq Hr. apply in_app_or in Hq. destruct Hq as [Hq|[<-|[]]]; [specialize (H q Hq); lra|]. fold v in Hr |- *. lra.
    + destruct (reqb_spec tval (-999)%R) as [|_]; [lra|]. destruct (rlt_spec tval large) as [Hl|Hl].
      * destruct (rlt_spec tval v) as [Hv1|Hv1]; cbn [andb].
        -- destruct (rlt_spec v large) as [Hv2|Hv2].
           ++ exists (v, pi, pj). split; auto. right. split; [apply in_or_app; right; left; reflexivity|]. split; [reflexivity|]. split; auto.
              intros q Hq Hr. apply in_app_or in Hq. destruct Hq as [Hq|[<-|[]]]; [specialize (H q Hq); lra|]. fold v in Hr |- *. lra.
           ++ exists (tval, ig, jg). split; auto. right. split; [apply in_or_app; auto|]. split; [auto|]. split; auto.
              intros q Hq Hr. apply in_app_or in Hq. destruct Hq as [Hq|[<-|[]]]; [specialize (H q Hq); lra|]. fold v in Hr |- *. lra.
        -- exists (tval, ig, jg). split; auto. right. split; [apply in_or_app; auto|]. split; [auto|]. split; auto.
           intros q Hq Hr. apply in_app_or in Hq. destruct Hq as [Hq|[<-|[]]]; [specialize (H q Hq); lra|]. fold v in Hr |- *. lra.
      * exists (v, pi, pj). split; auto. right. split; [apply in_or_app; right; left; reflexivity|]. split; [reflexivity|]. split; auto.
        intros q Hq Hr. apply in_app_or in Hq. destruct Hq as [Hq|[<-|[]]]; [specialize (H q Hq); lra|]. fold v in Hr |- *. lra.
  - exists tval, ig, jg. auto.
Qed.

Lemma choose_low nt nx ny large cutoff miss subA S n j i me :
  haloed nt nx ny subA S -> own nt nx ny (n, j, i) -> (me <= cutoff)%R ->
  exists tval ig jg, choose large cutoff miss subA (nx + 2) n (j - 1) (i - 1) me = Ok (tval, ig, jg) /\
   ((tval = (-999)%R /\ ig = -1 /\ jg = -1 /\ forall p, In p ring -> val S n j i p = miss \/ (val S n j i p < -999)%R)%Z \/
    (In (jg, ig) ring /\ tval = val S n j i (jg, ig) /\ tval <> miss /\
      forall p, In p ring -> val S n j i p <> miss -> (val S n j i p <= tval)%R)).
Proof.
  intros HS Ho Hm. unfold choose. destruct (rlt_spec cutoff me) as [|_]; [lra|]. rewrite for_ring_fold.
  match goal with |- context [ofold ?f ring ?s] => destruct (ofold_inv (fun l st => let '(tval, ig, jg) := st in
    (tval = (-999)%R /\ ig = -1 /\ jg = -1 /\ forall p, In p l -> val S n j i p = miss \/ (val S n j i p < -999)%R)%Z \/
    (In (jg, ig) l /\ tval = val S n j i (jg, ig) /\ tval <> miss /\ (-999 <= tval)%R /\
      forall p, In p l -> val S n j i p <> miss -> (val S n j i p <= tval)%R)) f ring s) as ([[tval ig] jg] & E & HP) end.
  - left. repeat split; auto. intros p [].
  - intros l1 p l2 [[tval ig] jg] El HP. assert (Hp : In p ring) by (rewrite El; apply in_or_app; right; left; reflexivity).
    rewrite (haloed_get _ _ _ _ _ _ _ _ HS (ring_frame _ _ _ _ _ _ _ Ho Hp)). cbn [bind]. fold (val S n j i p).
    destruct p as [pj pi]. cbn [fst snd]. set (v := val S n j i (pj, pi)) in *.
    destruct (reqb_spec v miss) as [Hv|Hv]; cbn [negb].
    { exists (tval, ig, jg). split; auto. destruct HP as [(-> & -> & -> & H)|(H1 & -> & H2 & H3 & H)]; [left|right].
      - repeat split; auto. intros q Hq. apply in_app_or in Hq. destruct Hq as [Hq|[<-|[]]]; auto.
      - split; [apply in_or_app; auto|]. split; auto. split; auto. split; auto. intros q Hq Hr. apply in_app_or in Hq. destruct Hq as [Hq|[<-|[]]]; auto. now elim Hr. }
    destruct (rle_spec tval v) as [Hl|Hl].
    + exists (v, pi, pj). split; auto. right. split; [apply in_or_app; right; left; reflexivity|]. split; [reflexivity|]. split; auto.
      split; [destruct HP as [(-> & _)|(_ & _ & _ & H & _)]; lra|].
      intros q Hq Hr. apply in_app_or in Hq. destruct Hq as [Hq|[<-|[]]]; [|fold v; lra].
      destruct HP as [(-> & _ & _ & H)|(_ & _ & _ & _ & H)]; [destruct (H q Hq); [congruence|lra]|specialize (H q Hq Hr); lra].
    + exists (tval, ig, jg). split; auto. destruct HP as [(-> & -> & -> & H)|(H1 & -> & H2 & H3 & H)]; [left|right].
      * repeat split; auto. intros q Hq. apply in_app_or in Hq. destruct Hq as [Hq|[<-|[]]]; auto. fold v. right. lra.
      * split; [apply in_or_app; auto|]. split; auto. split; auto. split; auto. intros q Hq Hr. apply in_app_or in Hq. destruct Hq as [Hq|[<-|[]]]; auto. fold v. lra.
  - exists tval, ig, jg. split; auto. destruct HP as [|(H1 & H2 & H3 & _ & H)]; auto.
Qed.
Lemma cell_eq (n j i j' i' : Z) : j = j' -> i = i' -> (n, j, i) = (n, j', i').
Proof. congruence. Qed.
Lemma ring_dir n j i pj pi : In (pj, pi) ring -> exists d, 0 <= d <= 7 /\ zget out_dir (pj * 3 + pi) = Some d /\
  zget out_flow (pj * 3 + pi) = Some (2 ^ d) /\ step (n, j, i) d = (n, j - 1 + pj, i - 1 + pi) /\ 0 <= pj /\ 0 <= pi.
Proof.
  intros H. assert (K : forall d a b, (a, b) = (pj, pi) -> 0 <= d <= 7 -> zget out_dir (a * 3 + b) = Some d -> zget out_flow (a * 3 + b) = Some (2 ^ d) ->
    step (n, j, i) d = (n, j - 1 + a, i - 1 + b) -> 0 <= a -> 0 <= b -> exists d, 0 <= d <= 7 /\ zget out_dir (pj * 3 + pi) = Some d /\
    zget out_flow (pj * 3 + pi) = Some (2 ^ d) /\ step (n, j, i) d = (n, j - 1 + pj, i - 1 + pi) /\ 0 <= pj /\ 0 <= pi).
  { intros d a b E. injection E as -> ->. intros. exists d. repeat (split; [assumption|]). assumption. }
  destruct H as [E|[E|[E|[E|[E|[E|[E|[E|[]]]]]]]]]; [apply (K 3 _ _ E)|apply (K 2 _ _ E)|apply (K 1 _ _ E)|apply (K 4 _ _ E)|apply (K 0 _ _ E)|apply (K 5 _ _ E)|apply (K 6 _ _ E)|apply (K 7 _ _ E)];
    try lia; try reflexivity; unfold step; cbn [compass fst snd]; apply cell_eq; lia.
Qed.
Lemma dir_ring n j i d : 0 <= d <= 7 -> exists p, In p ring /\ step (n, j, i) d = (n, j - 1 + fst p, i - 1 + snd p).
Proof.
  intros H. assert (D : d = 0 \/ d = 1 \/ d = 2 \/ d = 3 \/ d = 4 \/ d = 5 \/ d = 6 \/ d = 7) by lia. unfold ring, step.
  destruct D as [->|[->|[->|[->|[->|[->|[->| ->]]]]]]]; [exists (1,2)|exists (0,2)|exists (0,1)|exists (0,0)|exists (1,0)|exists (2,0)|exists (2,1)|exists (2,2)];
    (split; [cbn; tauto|]; cbn [compass fst snd]; apply cell_eq; lia).
Qed.

Lemma choose_run nt nx ny large cutoff miss subA S n j i : (-999 <= cutoff)%R ->
  haloed nt nx ny subA S -> own nt nx ny (n, j, i) ->
  exists tval ig jg, choose large cutoff miss subA (nx + 2) n (j - 1) (i - 1) (S (n, j, i)) = Ok (tval, ig, jg) /\
   (((ig < 0 /\ jg < 0 \/ (tval <= S (n, j, i))%R) /\ no_drain cutoff miss S (n, j, i)) \/
    (exists d, In (jg, ig) ring /\ (S (n, j, i) < tval)%R /\ 0 <= jg /\ 0 <= ig /\ zget out_dir (jg * 3 + ig) = Some d /\
       zget out_flow (jg * 3 + ig) = Some (2 ^ d) /\ drains_to large cutoff miss S (n, j, i) d)).
Proof.
  intros Hc HS Ho. set (me := S (n, j, i)). destruct (Rlt_dec cutoff me) as [Hm|Hm].
  - destruct (choose_high nt nx ny large cutoff miss subA S n j i me Hc HS Ho Hm) as (tval & ig & jg & E & H). exists tval, ig, jg. split; auto.
    destruct H as [(-> & -> & -> & H)|(H1 & Et & H2 & H)]; [left|right].
    + split; [left; lia|]. intros d Hd. destruct (dir_ring n j i d Hd) as (p & Hp & ->). left. apply (H p Hp).
    + destruct (ring_dir n j i jg ig H1) as (d & Hd & E1 & E2 & Es & Hj & Hi). exists d. repeat (split; [assumption|]).
      rewrite Es. change (S (n, j - 1 + jg, i - 1 + ig)) with (val S n j i (jg, ig)). rewrite <- Et. fold me. split; auto. split; [lra|].
      intros _ d' Hd' Hr. destruct (dir_ring n j i d' Hd') as (p & Hp & Ep). rewrite Ep in *. apply (H p Hp Hr).
  - assert (Hm' : (me <= cutoff)%R) by lra.
    destruct (choose_low nt nx ny large cutoff miss subA S n j i me HS Ho Hm') as (tval & ig & jg & E & H). exists tval, ig, jg. split; auto.
    destruct H as [(-> & -> & -> & H)|(H1 & Et & H2 & H)]; [left|].
    + split; [left; lia|]. intros d Hd. destruct (dir_ring n j i d Hd) as (p & Hp & ->). right. split; auto. apply (H p Hp).
    + destruct (Rlt_dec me tval) as [Hl|Hl]; [right|left].
      * destruct (ring_dir n j i jg ig H1) as (d & Hd & E1 & E2 & Es & Hj & Hi). exists d. repeat (split; [assumption|]).
        rewrite Es. change (S (n, j - 1 + jg, i - 1 + ig)) with (val S n j i (jg, ig)). rewrite <- Et. fold me. split; auto. split; [|lra].
        intros _. split; auto. intros d' Hd' Hr. destruct (dir_ring n j i d' Hd') as (p & Hp & Ep). rewrite Ep in *. apply (H p Hp Hr).
      * split; [right; lra|]. intros d Hd. destruct (dir_ring n j i d Hd) as (p & Hp & ->). change (S (n, j - 1 + fst p, i - 1 + snd p)) with (val S n j i p).
        destruct (Req_EM_T (val S n j i p) miss); [right; auto|]. left. specialize (H p Hp n0). fold me. lra.
Qed.

Lemma tocell_run nt nx ny op large cutoff miss landfrac subA tocell dir L S T0 D0 :
  (-999 <= cutoff)%R -> op_ok op nt nx ny -> plain_field nt nx ny landfrac L -> haloed nt nx ny subA S ->
  haloed nt nx ny tocell T0 -> haloed nt nx ny dir D0 ->
  exists tocell' dir' T D, calc_tocell nt nx ny op large cutoff miss landfrac subA tocell dir = Ok (tocell', dir') /\
    haloed nt nx ny tocell' (fun c => T (wrap op nx ny c)) /\ haloed nt nx ny dir' (fun c => D (wrap op nx ny c)) /\
    (forall c, ~ own nt nx ny c -> T c = T0 c /\ D c = D0 c) /\
    (forall c, own nt nx ny c -> directed large cutoff miss S c (L c) (T0 c) (D0 c) (T c) (D c)).
Proof.
  intros Hc Hop HL HS HT HD. pose proof Hop as (Hx & Hy & Ht & _). unfold calc_tocell.
  match goal with |- context [for_cells nt nx ny ?f ?s] => destruct (for_cells_inv nt nx ny (fun p st => let '(tocell, dir) := st in
    exists T D, haloed nt nx ny tocell T /\ haloed nt nx ny dir D /\
    (forall c, ~ own nt nx ny c \/ p <= pos nx ny c -> T c = T0 c /\ D c = D0 c) /\
    (forall c, own nt nx ny c -> pos nx ny c < p -> directed large cutoff miss S c (L c) (T0 c) (D0 c) (T c) (D c))) f s) as ([t d] & E & T & D & HT' & HD' & Hout & Hin) end; try lia.
  - exists T0, D0. split; [exact HT|]. split; [exact HD|]. split; [auto|]. intros c Hc1 Hp. pose proof (pos_range _ _ _ _ Hc1). lia.
  - intros n j i [t d] Ho (T & D & HT' & HD' & Hout & Hin). set (c := (n, j, i)) in *.
    assert (Fin : forall t' d' T' D' tc dc, haloed nt nx ny t' T' -> haloed nt nx ny d' D' -> (forall c', T' c' = put T c tc c') -> (forall c', D' c' = put D c dc c') ->
      directed large cutoff miss S c (L c) (T0 c) (D0 c) tc dc ->
      exists T D, haloed nt nx ny t' T /\ haloed nt nx ny d' D /\
    (forall c', ~ own nt nx ny c' \/ pos nx ny c + 1 <= pos nx ny c' -> T c' = T0 c' /\ D c' = D0 c') /\
    (forall c', own nt nx ny c' -> pos nx ny c' < pos nx ny c + 1 -> directed large cutoff miss S c' (L c') (T0 c') (D0 c') (T c') (D c'))).
    { intros t' d' T' D' tc dc H1 H2 H3 H4 H5. exists T', D'. split; auto. split; auto. split.
      - intros c' Hc'. assert (c' <> c) by (intros ->; destruct Hc'; [auto|lia]). rewrite H3, H4, !put_ne by auto. apply Hout. destruct Hc'; [auto|right; lia].
      - intros c' Ho' Hp. apply (pos_step nt nx ny c c' Ho Ho') in Hp. destruct (cell_dec c' c) as [->|Hne]; [rewrite H3, H4, !put_eq; auto|].
        rewrite H3, H4, !put_ne by auto. apply Hin; auto. destruct Hp; [congruence|auto]. }
    assert (Same : forall {B} (G : cell -> B) c', G c' = put G c (G c) c') by (intros B G c'; unfold put; destruct (cell_dec c' c); congruence).
    destruct (Hout c) as [ET ED]; [right; lia|].
    rewrite (plain_get _ _ _ _ _ _ _ _ HL Ho). cbn [bind]. fold c.
    destruct (reqb_spec (L c) 0) as [E0|E0].
    { exists (t, d). split; auto. apply (Fin t d T D (T c) (D c)); auto. left. auto. }
    pose proof (own_frame _ _ _ _ Ho) as Hf.
    destruct (rlt_spec (L c) 1) as [E1|E1].
    { destruct (haloed_put nt nx ny t T n j i 0 HT' Hf) as (t' & Es & Ht'). rewrite Es. cbn [bind]. exists (t', d). split; auto.
      apply (Fin t' d (put T c 0) D 0 (D c)); auto. right. left. auto. }
    rewrite (haloed_get _ _ _ _ _ _ _ _ HS Hf). cbn [bind]. fold c.
    destruct (choose_run nt nx ny large cutoff miss subA S n j i Hc HS Ho) as (tval & ig & jg & Ec & H). fold c in Ec, H. rewrite Ec. cbn [bind].
    destruct (haloed_put nt nx ny t T n j i 0 HT' Hf) as (t' & Es & Ht').
    assert (Sink : no_drain cutoff miss S c -> exists T D, haloed nt nx ny t' T /\ haloed nt nx ny d D /\
    (forall c', ~ own nt nx ny c' \/ pos nx ny c + 1 <= pos nx ny c' -> T c' = T0 c' /\ D c' = D0 c') /\
    (forall c', own nt nx ny c' -> pos nx ny c' < pos nx ny c + 1 -> directed large cutoff miss S c' (L c') (T0 c') (D0 c') (T c') (D c'))).
    { intros Hn. apply (Fin t' d (put T c 0) D 0 (D c)); auto. right. right. split; [lra|]. left. auto. }
    destruct H as [[H Hn]|(dd & Hr & Hl & Hj & Hi & Ed & Ef & Hdr)].
    + rewrite Es. cbn [bind]. destruct ((0 <=? ig) && (0 <=? jg)) eqn:Eb.
      * destruct (rlt_spec (S c) tval) as [Hl|Hl]; [exfalso; apply andb_prop in Eb; destruct H as [H|H]; [lia|lra]|]. exists (t', d). split; auto.
      * exists (t', d). split; auto.
    + rewrite (proj2 (Z.leb_le 0 ig)), (proj2 (Z.leb_le 0 jg)) by lia. cbn [andb]. destruct (rlt_spec (S c) tval) as [_|]; [|lra].
      rewrite (proj2 (oget_Ok _ _ _) Ed), (proj2 (oget_Ok _ _ _) Ef). cbn [bind].
      destruct (haloed_put nt nx ny t T n j i (2 ^ dd) HT' Hf) as (t1 & Es1 & Ht1). rewrite Es1. cbn [bind].
      destruct (haloed_put nt nx ny d D n j i dd HD' Hf) as (d1 & Es2 & Hd1). rewrite Es2. cbn [bind]. rewrite Z.eqb_refl. cbn [negb].
      exists (t1, d1). split; auto. apply (Fin t1 d1 (put T c (2 ^ dd)) (put D c dd) (2 ^ dd) dd); auto. right. right. split; [lra|]. right. auto.
  - rewrite E. cbn [bind]. destruct (update_halo_run nt nx ny op t T Hop HT') as (t2 & E2 & H2). rewrite E2. cbn [bind].
    destruct (update_halo_run nt nx ny op d D Hop HD') as (d2 & E3 & H3). rewrite E3. cbn [bind].
    exists t2, d2, T, D. split; auto. split; auto. split; auto. split; [intros; apply Hout; auto|]. intros c Ho. apply Hin; auto. apply pos_range; auto.
Qed.
