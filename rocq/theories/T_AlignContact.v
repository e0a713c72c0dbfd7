(** * C39: contacts found between tile edges *)
From Coq Require Import Reals Lra.
From Verif Require Import Base Loops Vec M_Interp Spec_Interp P_Interp M_Contact Spec_Contact M_AlignContact Spec_AlignContact P_AlignContact Lst.
Open Scope Z_scope.

(** ** Two edges *)

(** Full statement: in addition the two ranges have equal length.  That is false in
    general ([C39_equal_length_refuted]); it holds when the edges match point by point
    ([C39_matched]). *)
Theorem C39_index_partial : forall n1 n2 x1 y1 x2 y2 px py,
  zlen x1 = n1 -> zlen y1 = n1 -> zlen x2 = n2 -> zlen y2 = n2 ->
  exists r, get_contact_index n1 n2 x1 y1 x2 y2 px py = Ok r /\
    ((forall i j, 0 <= i < n1 -> 0 <= j < n2 -> ~ meets x1 y1 x2 y2 px py i j) -> r = None) /\
    forall s1 t1 s2 t2, r = Some (s1, t1, s2, t2) ->
      exists p1 q1 p2 q2, 0 <= p1 < q1 /\ q1 < n1 /\ 0 <= p2 < n2 /\ 0 <= q2 < n2 /\
        meets x1 y1 x2 y2 px py p1 p2 /\ meets x1 y1 x2 y2 px py q1 q2 /\
        cells_between p1 q1 s1 t1 /\ cells_between p2 q2 s2 t2 /\
        (forall i j, 0 <= i < n1 -> 0 <= j < n2 -> meets x1 y1 x2 y2 px py i j -> p1 <= i <= q1).
Proof.
  intros n1 n2 x1 y1 x2 y2 px py L1 L2 L3 L4.
  pose proof (zlen_nonneg x1). pose proof (zlen_nonneg x2).
  destruct (contact_index_run n1 n2 x1 y1 x2 y2 px py L1 L2 L3 L4) as [(a & b & c & d & Ha & Hb & Hc & Hd & M1 & M2 & O & E)|(N & E)]; try lia.
  - eexists. split; [exact E|]. split.
    + intros N. exfalso. exact (N a b Ha Hb M1).
    + intros s1 t1 s2 t2 R. destruct ((a =? c) || (b =? d)) eqn:Q; [discriminate|]. apply orb_false_iff in Q. injection R as <- <- <- <-.
      destruct (O a b Ha Hb M1) as [_ O1]. unfold before2 in O1.
      exists a, c, b, d. repeat (split; [lia || assumption|]). split; [apply shrink_cells; lia|]. split; [apply shrink_cells; lia|].
      intros i j Hi Hj Mij. destruct (O i j Hi Hj Mij) as [O2 O3]. unfold before2 in *. lia.
  - exists None. split; auto. split; auto. intros. discriminate.
Qed.

(** If the points that meet are matched one to one along n cells, exactly that contact is
    reported: n cells on both sides. *)
Theorem C39_matched : forall n1 n2 x1 y1 x2 y2 px py a b n s,
  zlen x1 = n1 -> zlen y1 = n1 -> zlen x2 = n2 -> zlen y2 = n2 ->
  s = 1 \/ s = -1 -> 1 <= n -> 0 <= a -> a + n < n1 -> 0 <= b < n2 -> 0 <= b + s * n < n2 ->
  matched n1 n2 (meets x1 y1 x2 y2 px py) a b n s ->
  exists s1 t1 s2 t2, get_contact_index n1 n2 x1 y1 x2 y2 px py = Ok (Some (s1, t1, s2, t2)) /\
    cells_between a (a + n) s1 t1 /\ cells_between b (b + s * n) s2 t2 /\
    range_len s1 t1 = n /\ range_len s2 t2 = n.
Proof.
  intros n1 n2 x1 y1 x2 y2 px py a b n s L1 L2 L3 L4 Hs Hn Ha Han Hb Hbn HM.
  assert (Mab : meets x1 y1 x2 y2 px py a b) by (apply HM; try lia; exists 0; lia).
  assert (Mcd : meets x1 y1 x2 y2 px py (a + n) (b + s * n)) by (apply HM; try lia; exists n; lia).
  destruct (contact_index_run n1 n2 x1 y1 x2 y2 px py L1 L2 L3 L4) as [(a' & b' & c' & d' & Ha' & Hb' & Hc' & Hd' & M1 & M2 & O & E)|(N & E)]; try lia.
  2: { exfalso. apply (N a b); auto. lia. }
  apply HM in M1; auto. destruct M1 as (k1 & K1 & -> & ->). apply HM in M2; auto. destruct M2 as (k2 & K2 & -> & ->).
  destruct (O a b) as [O1 _]; try lia; auto. destruct (O (a + n) (b + s * n)) as [_ O2]; try lia; auto.
  unfold before2 in *. assert (k1 = 0) by lia. assert (k2 = n) by lia. subst k1 k2.
  replace (a + 0) with a in * by lia. replace (b + s * 0) with b in * by lia.
  destruct ((a =? a + n) || (b =? b + s * n)) eqn:Q; [apply orb_true_iff in Q; destruct Hs; subst; lia|].
  do 4 eexists. split; [exact E|]. apply orb_false_iff in Q.
  pose proof (shrink_cells a (a + n) ltac:(lia)) as C1. pose proof (shrink_cells b (b + s * n) ltac:(lia)) as C2.
  split; auto. split; auto. unfold cells_between, range_len in *. destruct Hs; subst; lia.
Qed.

(** Edges with different numbers of points between the end points are reported as a
    contact with ranges of different lengths. *)
Ltac rabs := unfold Rabs in *; repeat match goal with |- context [Rcase_abs ?x] => destruct (Rcase_abs x) | H : context [Rcase_abs ?x] |- _ => destruct (Rcase_abs x) end.
Lemma same_coord_refl a : same_coord 0 a a.
Proof. left. rabs; lra. Qed.
Theorem C39_equal_length_refuted :
  exists x1 y1 x2 y2 s1 t1 s2 t2, zlen x1 = 3 /\ zlen y1 = 3 /\ zlen x2 = 2 /\ zlen y2 = 2 /\
    get_contact_index 3 2 x1 y1 x2 y2 0%R 0%R = Ok (Some (s1, t1, s2, t2)) /\ range_len s1 t1 <> range_len s2 t2.
Proof.
  set (x1 := [0; 1; 2]%R). set (y1 := [0; 0; 0]%R). set (x2 := [0; 2]%R). set (y2 := [0; 0]%R).
  exists x1, y1, x2, y2.
  destruct (contact_index_run 3 2 x1 y1 x2 y2 0%R 0%R) as [(a & b & c & d & Ha & Hb & Hc & Hd & M1 & M2 & O & E)|(N & E)]; auto; try lia.
  - assert (M00 : meets x1 y1 x2 y2 0 0 0 0) by (split; apply same_coord_refl).
    assert (M21 : meets x1 y1 x2 y2 0 0 2 1) by (split; apply same_coord_refl).
    assert (K : forall i j, 0 <= i < 3 -> 0 <= j < 2 -> meets x1 y1 x2 y2 0 0 i j -> (i = 0 /\ j = 0) \/ (i = 2 /\ j = 1)).
    { intros i j Hi Hj [M _].
      assert (Ci : i = 0 \/ i = 1 \/ i = 2) by lia. assert (Cj : j = 0 \/ j = 1) by lia.
      unfold same_coord in M.
      destruct Ci as [-> | [-> | ->]]; destruct Cj as [-> | ->]; auto; exfalso;
      [change (at_ x1 0) with 0%R in M; change (at_ x2 1) with 2%R in M
      |change (at_ x1 1) with 1%R in M; change (at_ x2 0) with 0%R in M
      |change (at_ x1 1) with 1%R in M; change (at_ x2 1) with 2%R in M
      |change (at_ x1 2) with 2%R in M; change (at_ x2 0) with 0%R in M];
      destruct M as [M|M]; rabs; lra. }
    apply K in M1; auto. apply K in M2; auto.
    destruct (O 0 0) as [O1 _]; auto; try lia. destruct (O 2 1) as [_ O2]; auto; try lia. unfold before2 in *.
    assert (a = 0 /\ b = 0) as [-> ->] by lia. assert (c = 2 /\ d = 1) as [-> ->] by lia.
    do 4 eexists. split; [reflexivity|]. split; [reflexivity|]. split; [reflexivity|]. split; [reflexivity|]. split; [exact E|]. cbn. lia.
  - exfalso. apply (N 0 0); try lia. split; apply same_coord_refl.
Qed.
Print Assumptions C39_index_partial.
Print Assumptions C39_matched.
Print Assumptions C39_equal_length_refuted.

(** ** Two tiles *)
Section tiles.
Variables (nx1 ny1 nx2 ny2 : Z) (x1 y1 x2 y2 : list R).
Hypotheses (H1 : 0 < nx1) (H2 : 0 < ny1) (H3 : 0 < nx2) (H4 : 0 < ny2).
Hypotheses (L1 : zlen x1 = nx1 * ny1) (L2 : zlen y1 = nx1 * ny1) (L3 : zlen x2 = nx2 * ny2) (L4 : zlen y2 = nx2 * ny2).

Definition good (tile1 tile2 : Z) (c : edge * edge * R * R) (res : list contact) : Prop :=
  let '(e1, e2, px, py) := c in
  let M := tile_meets e1 e2 nx1 ny1 nx2 ny2 x1 y1 x2 y2 px py in
  zlen res <= 1 /\
  (forall k, In k res -> k_tile1 k = tile1 /\ k_tile2 k = tile2 /\ exists p1 q1 p2 q2, 0 <= p1 < q1 /\ q1 < edge_size e1 nx1 ny1 /\
     0 <= p2 < edge_size e2 nx2 ny2 /\ 0 <= q2 < edge_size e2 nx2 ny2 /\ M p1 p2 /\ M q1 q2 /\
     contact_along e1 e2 nx1 ny1 nx2 ny2 k p1 q1 p2 q2) /\
  (forall a b n s, s = 1 \/ s = -1 -> 1 <= n -> 0 <= a -> a + n < edge_size e1 nx1 ny1 ->
     0 <= b < edge_size e2 nx2 ny2 -> 0 <= b + s * n < edge_size e2 nx2 ny2 ->
     matched (edge_size e1 nx1 ny1) (edge_size e2 nx2 ny2) M a b n s ->
     exists k, In k res /\ contact_along e1 e2 nx1 ny1 nx2 ny2 k a (a + n) b (b + s * n)).

Lemma edge_size_pos1 e : 0 < edge_size e nx1 ny1. Proof. destruct e; cbn; lia. Qed.
Lemma edge_size_pos2 e : 0 < edge_size e nx2 ny2. Proof. destruct e; cbn; lia. Qed.
Lemma on_edge_cells e nx ny s t : let '(is, ie, js, je) := on_edge e nx ny s t in edge_cells e nx ny s t is ie js je.
Proof. destruct e; cbn; auto. Qed.

Lemma try_run tile1 tile2 e1 e2 px py : exists res, good tile1 tile2 (e1, e2, px, py) res /\
  forall out, try_edges e1 e2 nx1 ny1 nx2 ny2 x1 y1 x2 y2 px py tile1 tile2 out = Ok (out ++ res).
Proof.
  destruct (bound_run e1 x1 nx1 ny1) as (xb1 & E1 & S1 & A1); auto; try lia.
  destruct (bound_run e1 y1 nx1 ny1) as (yb1 & E2 & S2 & A2); auto; try lia.
  destruct (bound_run e2 x2 nx2 ny2) as (xb2 & E3 & S3 & A3); auto; try lia.
  destruct (bound_run e2 y2 nx2 ny2) as (yb2 & E4 & S4 & A4); auto; try lia.
  assert (Bz : forall e nx ny, bsize e nx ny = edge_size e nx ny) by (intros []; reflexivity).
  assert (MM : forall i j, 0 <= i < edge_size e1 nx1 ny1 -> 0 <= j < edge_size e2 nx2 ny2 ->
     (meets xb1 yb1 xb2 yb2 px py i j <-> tile_meets e1 e2 nx1 ny1 nx2 ny2 x1 y1 x2 y2 px py i j)).
  { intros i j Hi Hj. unfold meets, tile_meets. rewrite A1, A2, A3, A4 by auto. tauto. }
  destruct (C39_index_partial _ _ xb1 yb1 xb2 yb2 px py S1 S2 S3 S4) as (r & E & _ & HP).
  pose proof (fun a b n s Hs Hn Ha Han Hb Hbn => C39_matched _ _ xb1 yb1 xb2 yb2 px py a b n s S1 S2 S3 S4 Hs Hn Ha Han Hb Hbn) as HQ.
  rewrite E in HQ.
  unfold try_edges. rewrite E1, E2, E3, E4. cbn [bind]. rewrite (Bz e1), (Bz e2), E. cbn [bind].
  destruct r as [[[[s1 t1] s2] t2]|].
  - pose proof (on_edge_cells e1 nx1 ny1 s1 t1) as C1. pose proof (on_edge_cells e2 nx2 ny2 s2 t2) as C2.
    destruct (on_edge e1 nx1 ny1 s1 t1) as [[[is1 ie1] js1] je1]. destruct (on_edge e2 nx2 ny2 s2 t2) as [[[is2 ie2] js2] je2].
    eexists. split; [|intros; reflexivity]. split; [cbn; lia|]. split.
    + intros k [<-|[]]. cbn [k_tile1 k_tile2]. split; auto. split; auto.
      destruct (HP s1 t1 s2 t2 eq_refl) as (p1 & q1 & p2 & q2 & P1 & P2 & P3 & P4 & P5 & P6 & P7 & P8 & _).
      exists p1, q1, p2, q2. repeat (split; [assumption|]). split; [apply MM; auto; lia|]. split; [apply MM; auto; lia|].
      exists s1, t1, s2, t2. cbn. auto.
    + intros a b n s Hs Hn Ha Han Hb Hbn HM. eexists. split; [left; reflexivity|].
      destruct (HQ a b n s) as (u1 & v1 & u2 & v2 & Eu & Q1 & Q2 & _); auto.
      { intros i j Hi Hj. rewrite MM by auto. apply HM; auto. }
      injection Eu as <- <- <- <-. exists s1, t1, s2, t2. cbn. auto.
  - exists []. split; [|intros; now rewrite app_nil_r]. split; [cbn; lia|]. split; [intros k []|].
    intros a b n s Hs Hn Ha Han Hb Hbn HM. exfalso.
    destruct (HQ a b n s) as (u1 & v1 & u2 & v2 & Eu & _); auto; [|discriminate].
    intros i j Hi Hj. rewrite MM by auto. apply HM; auto.
Qed.

(** Every reported contact joins two of the considered edges at points that coincide;
    every considered pair of edges that match along n cells is reported, with those n
    cells on both sides. *)
Definition explained (tile1 tile2 : Z) (cs : list (edge * edge * R * R)) (out : list contact) : Prop :=
  (forall k, In k out -> k_tile1 k = tile1 /\ k_tile2 k = tile2 /\
     exists e1 e2 px py p1 q1 p2 q2, In (e1, e2, px, py) cs /\
       0 <= p1 < q1 /\ q1 < edge_size e1 nx1 ny1 /\ 0 <= p2 < edge_size e2 nx2 ny2 /\ 0 <= q2 < edge_size e2 nx2 ny2 /\
       tile_meets e1 e2 nx1 ny1 nx2 ny2 x1 y1 x2 y2 px py p1 p2 /\ tile_meets e1 e2 nx1 ny1 nx2 ny2 x1 y1 x2 y2 px py q1 q2 /\
       contact_along e1 e2 nx1 ny1 nx2 ny2 k p1 q1 p2 q2) /\
  (forall e1 e2 px py a b n s, In (e1, e2, px, py) cs -> s = 1 \/ s = -1 -> 1 <= n -> 0 <= a -> a + n < edge_size e1 nx1 ny1 ->
     0 <= b < edge_size e2 nx2 ny2 -> 0 <= b + s * n < edge_size e2 nx2 ny2 ->
     matched (edge_size e1 nx1 ny1) (edge_size e2 nx2 ny2) (tile_meets e1 e2 nx1 ny1 nx2 ny2 x1 y1 x2 y2 px py) a b n s ->
     exists k, In k out /\ contact_along e1 e2 nx1 ny1 nx2 ny2 k a (a + n) b (b + s * n)) /\
  zlen out <= zlen cs.

Lemma explained_nil t1 t2 : explained t1 t2 [] [].
Proof. split; [intros k []|]. split; [intros; contradiction|]. cbn. lia. Qed.
Lemma explained_snoc t1 t2 cs c out res : explained t1 t2 cs out -> good t1 t2 c res -> explained t1 t2 (cs ++ [c]) (out ++ res).
Proof.
  destruct c as [[[e1 e2] px] py]. intros (X1 & X2 & X3) (G1 & G2 & G3). split; [|split].
  - intros k I. apply in_app_iff in I. destruct I as [I|I].
    + destruct (X1 k I) as (T1 & T2 & f1 & f2 & qx & qy & p1 & q1 & p2 & q2 & Hi & Y). split; auto. split; auto.
      exists f1, f2, qx, qy, p1, q1, p2, q2. split; auto. apply in_app_iff. auto.
    + destruct (G2 k I) as (T1 & T2 & p1 & q1 & p2 & q2 & Y). split; auto. split; auto.
      exists e1, e2, px, py, p1, q1, p2, q2. split; auto. apply in_app_iff. right. left. auto.
  - intros f1 f2 qx qy a b n s I. apply in_app_iff in I. destruct I as [I|[I|[]]].
    + intros. destruct (X2 f1 f2 qx qy a b n s I) as (k & K1 & K2); auto. exists k. split; auto. apply in_app_iff. auto.
    + injection I as <- <- <- <-. intros. destruct (G3 a b n s) as (k & K1 & K2); auto. exists k. split; auto. apply in_app_iff. auto.
  - rewrite !zlen_app. change (zlen [(e1, e2, px, py)]) with 1. lia.
Qed.

Theorem C39_two_tiles_partial : forall tile1 tile2 periodx periody, tile1 <> tile2 ->
  exists out, get_align_contact tile1 tile2 nx1 ny1 nx2 ny2 x1 y1 x2 y2 periodx periody = Ok out /\
    explained tile1 tile2 (considered false periodx periody) out.
Proof.
  intros t1 t2 px py Hne. unfold get_align_contact. replace (t1 =? t2) with false by lia. cbn [negb].
  destruct (try_run t1 t2 East West px 0%R) as (r1 & G1 & E1). rewrite E1. cbn [bind].
  destruct (try_run t1 t2 East South 0%R 0%R) as (r2 & G2 & E2). rewrite E2. cbn [bind].
  destruct (try_run t1 t2 South North 0%R py) as (r3 & G3 & E3). rewrite E3. cbn [bind].
  destruct (try_run t1 t2 South East 0%R 0%R) as (r4 & G4 & E4). rewrite E4. cbn [bind].
  destruct (try_run t1 t2 West East px 0%R) as (r5 & G5 & E5). rewrite E5. cbn [bind].
  destruct (try_run t1 t2 West North 0%R 0%R) as (r6 & G6 & E6). rewrite E6. cbn [bind].
  destruct (try_run t1 t2 North South 0%R py) as (r7 & G7 & E7). rewrite E7. cbn [bind].
  destruct (try_run t1 t2 North West 0%R 0%R) as (r8 & G8 & E8). rewrite E8.
  eexists. split; [reflexivity|].
  exact (explained_snoc _ _ _ _ _ _ (explained_snoc _ _ _ _ _ _ (explained_snoc _ _ _ _ _ _ (explained_snoc _ _ _ _ _ _
    (explained_snoc _ _ _ _ _ _ (explained_snoc _ _ _ _ _ _ (explained_snoc _ _ _ _ _ _ (explained_snoc _ _ _ _ _ _
    (explained_nil t1 t2) G1) G2) G3) G4) G5) G6) G7) G8).
Qed.
End tiles.

(** ** One tile: cyclic boundaries and the folded north *)

Lemma north_run (g : list R) nx ny : 0 < nx -> 0 < ny -> zlen g = nx * ny ->
  exists b, north_bound g nx ny = Ok b /\ zlen b = nx /\ forall k, 0 <= k < nx -> at_ b k = at_ g ((ny - 1) * nx + k).
Proof. intros. destruct (bound_run North g nx ny) as (b & E & L & A); auto; try lia. exists b. auto. Qed.

(** The fold test says yes exactly if each point of the northern edge lies on its mirror
    image, except that at most one pair may be at opposite longitudes (the poles). *)
Theorem C39_folded : forall xb yb nx, zlen xb = nx -> zlen yb = nx ->
  exists f, folded_north xb yb nx = Ok f /\
   (f = true <->
     (forall i, 0 <= i < nx / 2 -> fold_same xb yb nx i \/ fold_opposite xb yb nx i) /\
     (forall i j, 0 <= i < nx / 2 -> 0 <= j < nx / 2 ->
        ~ fold_same xb yb nx i -> ~ fold_same xb yb nx j -> i = j)).
Proof.
  intros xb yb nx Lx Ly. pose proof (zlen_nonneg xb).
  assert (Hn : 0 <= nx / 2 /\ 2 * (nx / 2) <= nx) by (pose proof (Z.div_mod nx 2); pose proof (Z.mod_pos_bound nx 2); lia).
  set (S := fold_same xb yb nx). set (O := fold_opposite xb yb nx).
  unfold folded_north.
  set (P := fun (i : Z) (st : bool * Z) => let '(f, num) := st in
     if f then (forall k, 0 <= k < i -> S k \/ O k) /\
       ((num = 0 /\ forall k, 0 <= k < i -> S k) \/
        (num = 1 /\ exists k, 0 <= k < i /\ ~ S k /\ forall j, 0 <= j < i -> j <> k -> S j) \/
        (1 < num /\ exists k j, 0 <= k < i /\ 0 <= j < i /\ k <> j /\ ~ S k /\ ~ S j))
     else exists k, 0 <= k < i /\ ~ S k /\ ~ O k).
  match goal with |- context [ofor 0 ?N ?b ?s] => destruct (ofor_inv P b 0 N s) as ([f num] & E & HP) end.
  - lia.
  - cbn. split; [intros; lia|]. left. split; auto. intros; lia.
  - intros i [f num] Hi HP. cbn beta iota. destruct f; cbn [negb].
    2: { exists (false, num). split; auto. cbn in *. destruct HP as (k & K1 & K2). exists k. split; [lia|auto]. }
    rewrite !get_at by lia. cbn [bind]. replace (nx - i - 1) with (nx - 1 - i) by lia.
    unfold EPSLN2.
    assert (SO : S i \/ O i -> (Rabs (at_ yb i - at_ yb (nx - 1 - i)) <= / 10000000)%R) by (intros [X|X]; apply X).
    destruct (rlt_spec (/ 10000000) (Rabs (at_ yb i - at_ yb (nx - 1 - i)))) as [D1|D1].
    { exists (false, num). split; auto. cbn. exists i. split; [lia|]. split; intros X; [assert (S i \/ O i) as Y by auto|assert (S i \/ O i) as Y by auto]; apply SO in Y; lra. }
    cbn [bind].
    set (dx := Rabs (at_ xb i - at_ xb (nx - 1 - i))) in *.
    destruct (rlt_spec (/ 10000000) dx) as [D2|D2]; [destruct (rlt_spec (/ 10000000) (Rabs (dx - 360))) as [D3|D3]|]; cbn [andb].
    + assert (NS : ~ S i) by (intros [_ [X|X]]; fold dx in X; lra).
      destruct (rlt_spec (Rabs (dx - 180)) (/ 10000000)) as [D4|D4].
      * exists (true, num + 1). split; auto. cbn in HP |- *. destruct HP as [A B]. split.
        { intros k Hk. destruct (Z.eq_dec k i) as [->|]; [right; split; [lra|fold dx; lra]|apply A; lia]. }
        destruct B as [(-> & B)|[(-> & k & K1 & K2 & K3)|(Hnum & k & j & K1 & K2 & K3 & K4 & K5)]].
        -- right. left. split; auto. exists i. split; [lia|]. split; auto. intros j Hj Hne. apply B. lia.
        -- right. right. split; [lia|]. exists k, i. repeat split; auto; lia.
        -- right. right. split; [lia|]. exists k, j. repeat split; auto; lia.
      * exists (false, num). split; auto. cbn. exists i. split; [lia|]. split; auto. intros [_ X]. fold dx in X. lra.
    + assert (Si : S i) by (split; [lra|right; fold dx; lra]).
      exists (true, num). split; auto. cbn in HP |- *. destruct HP as [A B]. split.
      { intros k Hk. destruct (Z.eq_dec k i) as [->|]; [auto|apply A; lia]. }
      destruct B as [(-> & B)|[(-> & k & K1 & K2 & K3)|(Hnum & k & j & K1 & K2 & K3 & K4 & K5)]].
      * left. split; auto. intros k Hk. destruct (Z.eq_dec k i) as [->|]; auto. apply B. lia.
      * right. left. split; auto. exists k. split; [lia|]. split; auto. intros j Hj Hne. destruct (Z.eq_dec j i) as [->|]; auto. apply K3; lia.
      * right. right. split; auto. exists k, j. repeat split; auto; lia.
    + assert (Si : S i) by (split; [lra|left; fold dx; lra]).
      exists (true, num). split; auto. cbn in HP |- *. destruct HP as [A B]. split.
      { intros k Hk. destruct (Z.eq_dec k i) as [->|]; [auto|apply A; lia]. }
      destruct B as [(-> & B)|[(-> & k & K1 & K2 & K3)|(Hnum & k & j & K1 & K2 & K3 & K4 & K5)]].
      * left. split; auto. intros k Hk. destruct (Z.eq_dec k i) as [->|]; auto. apply B. lia.
      * right. left. split; auto. exists k. split; [lia|]. split; auto. intros j Hj Hne. destruct (Z.eq_dec j i) as [->|]; auto. apply K3; lia.
      * right. right. split; auto. exists k, j. repeat split; auto; lia.
  - rewrite E. cbn [bind]. eexists. split; [reflexivity|]. cbn [P] in HP. change (0 + nx / 2) with (nx / 2) in HP. unfold P in HP. destruct f; cbn [andb].
    + destruct HP as [A B]. destruct B as [(-> & B)|[(-> & k & K1 & K2 & K3)|(Hnum & k & j & K1 & K2 & K3 & K4 & K5)]].
      * split; auto. intros _. split; auto. intros i j Hi Hj Ni. exfalso. apply Ni. apply B. auto.
      * split; auto. intros _. split; auto. intros i j Hi Hj Ni Nj.
        destruct (Z.eq_dec i k) as [->|]; [|exfalso; apply Ni, K3; auto]. destruct (Z.eq_dec j k) as [->|]; [auto|exfalso; apply Nj, K3; auto].
      * destruct (Z.gtb_spec num 1); [|lia]. split; [discriminate|]. intros [_ U]. exfalso. apply K3. apply U; auto.
    + split; [discriminate|]. intros [A _]. destruct HP as (k & K1 & K2 & K3). destruct (A k K1); contradiction.
Qed.

Theorem C39_one_tile_partial : forall tile nx ny x y periodx periody,
  0 < nx -> 0 < ny -> zlen x = nx * ny -> zlen y = nx * ny ->
  exists out fold, get_align_contact tile tile nx ny nx ny x y x y periodx periody = Ok (out ++ fold) /\
    explained nx ny nx ny x y x y tile tile (considered true periodx periody) out /\
    (fold = [] \/ exists k, fold = [k] /\
       (* half of the northern edge against the other half, backwards *)
       (Z.odd nx = true -> range_len (k_is1 k) (k_ie1 k) = range_len (k_is2 k) (k_ie2 k)) /\
       k_is1 k = 1 /\ k_ie1 k = nx / 2 /\ k_is2 k = nx - 1 /\ k_ie2 k = nx / 2 + 1 /\
       k_js1 k = ny - 1 /\ k_je1 k = ny - 1 /\ k_js2 k = ny - 1 /\ k_je2 k = ny - 1 /\
       forall xb yb, zlen xb = nx -> zlen yb = nx ->
         (forall i, 0 <= i < nx -> at_ xb i = at_ x ((ny - 1) * nx + i) /\ at_ yb i = at_ y ((ny - 1) * nx + i)) ->
         forall i, 0 <= i < nx / 2 -> fold_same xb yb nx i \/ fold_opposite xb yb nx i).
Proof.
  intros t nx ny x y px py Hx Hy Lx Ly. unfold get_align_contact. rewrite Z.eqb_refl. cbn [negb].
  destruct (try_run nx ny nx ny x y x y Hx Hy Hx Hy Lx Ly Lx Ly t t East West px 0%R) as (r1 & G1 & E1). rewrite E1. cbn [bind].
  destruct (try_run nx ny nx ny x y x y Hx Hy Hx Hy Lx Ly Lx Ly t t South North 0%R py) as (r3 & G3 & E3). rewrite E3. cbn [bind].
  destruct (north_run x nx ny Hx Hy Lx) as (xb & Ex & Lxb & Ax). destruct (north_run y nx ny Hx Hy Ly) as (yb & Ey & Lyb & Ay).
  rewrite Ex, Ey. cbn [bind]. destruct (C39_folded xb yb nx Lxb Lyb) as (f & Ef & Hf). rewrite Ef. cbn [bind].
  pose proof (explained_snoc nx ny nx ny x y x y t t _ _ _ _ (explained_snoc nx ny nx ny x y x y t t _ _ _ _ (explained_nil nx ny nx ny x y x y t t) G1) G3) as X.
  destruct f.
  - eexists. eexists. split; [reflexivity|]. split; [exact X|]. right. eexists. split; [reflexivity|]. cbn [k_is1 k_ie1 k_is2 k_ie2 k_js1 k_je1 k_js2 k_je2].
    split. { intros O. apply Z.odd_spec in O. destruct O as [m ->]. replace (2 * m + 1) with (1 + m * 2) by lia. rewrite Z.div_add by lia. change (1 / 2) with 0. unfold range_len. lia. }
    repeat (split; [reflexivity|]). intros xb' yb' L1 L2 A i Hi. destruct (proj1 Hf eq_refl) as [F _].
    assert (Hi2 : 0 <= i < nx /\ 0 <= nx - 1 - i < nx) by (pose proof (Z.div_mod nx 2); pose proof (Z.mod_pos_bound nx 2); lia).
    specialize (F i Hi). unfold fold_same, fold_opposite in *.
    destruct (A i (proj1 Hi2)) as [-> ->]. destruct (A (nx - 1 - i) (proj2 Hi2)) as [-> ->].
    rewrite !Ax, !Ay in F by tauto. exact F.
  - eexists. exists []. split; [rewrite app_nil_r; reflexivity|]. split; [exact X|]. auto.
Qed.
Print Assumptions C39_two_tiles_partial.
Print Assumptions C39_folded.
Print Assumptions C39_one_tile_partial.

(** Two tiles with 2x2 points side by side: the hypotheses of the matching case hold for the
    east edge of the first and the west edge of the second. *)
Example C39_example : let x1 := [0; 1; 0; 1]%R in let x2 := [1; 2; 1; 2]%R in let y := [0; 0; 1; 1]%R in
  matched 2 2 (tile_meets East West 2 2 2 2 x1 y x2 y 0 0) 0 0 1 1.
Proof.
  intros x1 x2 y i j Hi Hj.
  assert (X1 : at_ x1 (edge_point East 2 2 i) = 1%R) by (assert (C : i = 0 \/ i = 1) by lia; destruct C as [-> | ->]; reflexivity).
  assert (X2 : at_ x2 (edge_point West 2 2 j) = 1%R) by (assert (C : j = 0 \/ j = 1) by lia; destruct C as [-> | ->]; reflexivity).
  assert (Y1 : at_ y (edge_point East 2 2 i) = IZR i) by (assert (C : i = 0 \/ i = 1) by lia; destruct C as [-> | ->]; reflexivity).
  assert (Y2 : at_ y (edge_point West 2 2 j) = IZR j) by (assert (C : j = 0 \/ j = 1) by lia; destruct C as [-> | ->]; reflexivity).
  unfold tile_meets. rewrite X1, X2, Y1, Y2. split.
  - intros [_ M]. exists i. split; [lia|]. split; [lia|]. unfold same_coord in M.
    assert (Ci : i = 0 \/ i = 1) by lia. assert (Cj : j = 0 \/ j = 1) by lia.
    destruct Ci as [-> | ->], Cj as [-> | ->]; try lia; exfalso; destruct M as [M|M]; rabs; lra.
  - intros (k & K & -> & ->). replace (0 + 1 * k) with (0 + k) by lia. split; apply same_coord_refl.
Qed.
