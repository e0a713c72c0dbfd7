(** * C43: renumbering basins *)
From Coq Require Import Reals Lra.
From Verif Require Import Base M_River Spec_River Tiles P_Halo P_SortBasin.
Open Scope Z_scope.

(** The renumbering succeeds; cells without a basin and the halo keep their value; cells share
    a basin afterwards iff they did before; exactly the numbers 1..nb are used; and of two
    outlets the one that drains the larger area gets the smaller number. *)
Theorem C43_renumber nt nx ny bm miss basin last subA B P S : 0 <= nt -> 0 <= nx -> 0 <= ny ->
  haloed nt nx ny basin B -> plain_field nt nx ny last P -> haloed nt nx ny subA S -> basins_ok nt nx ny bm miss B P S ->
  exists basin' B' nb, sort_basin nt nx ny bm miss basin last subA = Ok basin' /\ haloed nt nx ny basin' B' /\
    (forall c, ~ own nt nx ny c \/ B c = bm -> B' c = B c) /\
    (forall c, own nt nx ny c -> B c <> bm -> 1 <= B' c <= nb) /\
    (forall c c', own nt nx ny c -> own nt nx ny c' -> B c <> bm -> B c' <> bm -> (B' c = B' c' <-> B c = B c')) /\
    (forall b, 1 <= b <= nb -> exists o, own nt nx ny o /\ P o <> 0 /\ B' o = b) /\
    (forall c, own nt nx ny c -> B c <= nb) /\
    (forall o o', own nt nx ny o -> own nt nx ny o' -> P o <> 0 -> P o' <> 0 -> (S o' < S o)%R -> B' o < B' o').
Proof.
  intros Ht Hx Hy HB HP HS Hok.
  destruct (sort_run nt nx ny bm miss basin last subA B P S) as (basin' & B' & m & rank & E & HB' & H1 & H2 & H3 & H4 & H5 & H6 & H7 & H8); auto.
  destruct Hok as (Hbm & Hb1 & Hb2 & Hb3 & Hb4).
  assert (NB : forall o, own nt nx ny o -> P o <> 0 -> B o <> bm) by (intros o Ho Hp; destruct (Hb3 o Ho Hp); lia).
  assert (own_dec : forall c, own nt nx ny c \/ ~ own nt nx ny c) by (intros [[n j] i]; unfold own; lia).
  exists basin', B', (Z.max 0 m). split; auto. split; auto.
  split. { intros c [Hn|Hb]; auto. destruct (own_dec c); auto. rewrite Hb. auto. }
  split. { intros c Ho Hb. destruct (H3 c Ho Hb) as (Hr & r & Er & ->). destruct (H5 (B c - 1) ltac:(lia)) as (r' & Hr' & Er'). rewrite Er in Er'. injection Er' as ->. lia. }
  split. { intros c c' Ho Ho' Hb Hb'. destruct (H3 c Ho Hb) as (Hr & r & Er & ->). destruct (H3 c' Ho' Hb') as (Hr' & r' & Er' & ->). split; intros HH.
    - assert (r = r') by lia. subst r'. pose proof (H7 (B c - 1) (B c' - 1) r ltac:(lia) ltac:(lia) Er Er'). lia.
    - rewrite HH in Er. rewrite Er in Er'. congruence. }
  split. { intros b Hb. destruct (H6 (m - b) ltac:(lia)) as (k & Hk & Ek). destruct (H4 (k + 1) ltac:(lia)) as (o & Ho & HPo & Eo). exists o. split; auto. split; auto.
    destruct (H3 o Ho (NB o Ho HPo)) as (_ & r & Er & ->). rewrite Eo in Er. replace (k + 1 - 1) with k in Er by lia. rewrite Ek in Er. injection Er as <-. lia. }
  split. { intros c Ho. destruct (Hb1 c Ho) as [->|Hb]; [lia|]. destruct (H3 c Ho) as (Hr & _); lia. }
  intros o o' Ho Ho' HPo HPo' HSo. destruct (H3 o Ho (NB o Ho HPo)) as (_ & r & Er & ->). destruct (H3 o' Ho' (NB o' Ho' HPo')) as (_ & r' & Er' & ->).
  pose proof (H8 o o' r r' Ho Ho' HPo HPo' HSo Er Er'). lia.
Qed.

(** Hypotheses met: a row of five cells, basins 1 1 - 2 3 with outlets in columns 2, 4, 5 *)
Definition exB (c : cell) : Z := let '(_, j, i) := c in match i with 1 => 1 | 2 => 1 | 4 => 2 | 5 => 3 | _ => -9 end.
Definition exP (c : cell) : Z := let '(_, j, i) := c in match i with 2 => 1 | 4 => 1 | 5 => 1 | _ => 0 end.
Definition exA (c : cell) : R := let '(_, j, i) := c in if i =? 3 then (-9)%R else IZR i.
Example C43_example : basins_ok 1 5 1 (-9) (-9) exB exP exA.
Proof.
  assert (I : forall i, 1 <= i <= 5 -> i = 1 \/ i = 2 \/ i = 3 \/ i = 4 \/ i = 5) by lia.
  split; [lia|]. split; [|split; [|split]].
  - intros [[n j] i] (_ & _ & Hi). destruct (I i Hi) as [->|[->|[->|[->| ->]]]]; cbn; lia.
  - intros [[n j] i] b (Hn & Hj & Hi) Hb. assert (b = 1 \/ b = 2 \/ b = 3) as [->|[->| ->]].
    { destruct (I i Hi) as [->|[->|[->|[->| ->]]]]; cbn in Hb; lia. }
    + exists (0, 1, 2). cbn. lia.
    + exists (0, 1, 4). cbn. lia.
    + exists (0, 1, 5). cbn. lia.
  - intros [[n j] i] (_ & _ & Hi). destruct (I i Hi) as [->|[->|[->|[->| ->]]]]; cbn; intros Hp; try lia; (split; [lia|intros X; lra]).
  - intros [[n j] i] [[n' j'] i'] (Hn & Hj & Hi) (Hn' & Hj' & Hi') HP HP' E. assert (n = n') by lia. assert (j = j') by lia. subst.
    destruct (I i Hi) as [->|[->|[->|[->| ->]]]]; destruct (I i' Hi') as [->|[->|[->|[->| ->]]]]; cbn in *; auto; lia.
Qed.
Print Assumptions C43_renumber.
