(** C82: the six tiles of a cubed-sphere grid made by make_hgrid fit together exactly. *)
From Coq Require Import ZArith List Bool Lia.
From Verif Require Import Base M_Cubic Spec_Cubic P_Cubic P_Cubic2 P_Cubic3.
Import ListNotations.
Open Scope Z_scope.

(** The twelve edges glue the tiles to a closed surface: every side of every tile is a side
    of exactly one of them. *)
Theorem C82_closed : forall t s, 0 <= t < 6 ->
  exists! e, In e cube_edges /\ has_side e t s.
Proof.
  intros t s Ht.
  assert (H : t = 0 \/ t = 1 \/ t = 2 \/ t = 3 \/ t = 4 \/ t = 5) by lia.
  repeat (destruct H as [H|H]); subst t; destruct s;
  match goal with |- exists! e, _ /\ has_side e ?tt ?ss => let x := constr:((tt, ss)) in
    let rec go l := match l with
      | (?t1, ?s1, ?t2, ?s2, ?r) :: ?l' =>
          first [ unify (t1, s1) x; exists (t1, s1, t2, s2, r) | unify (t2, s2) x; exists (t1, s1, t2, s2, r) | go l' ] end in
    let l := eval unfold cube_edges in cube_edges in go l end;
  (split; [split; [unfold cube_edges; cbn [In]; tauto|unfold has_side; tauto]|]);
  intros e [I E]; unfold has_side in E; unfold cube_edges in I; cbn [In] in I;
  repeat (destruct I as [<-|I]; [first [reflexivity | destruct E; discriminate]|]); destruct I.
Qed.

Section C82.
  Context {P V : Type} (adjust transform : P -> P) (mid : P -> P -> P) (mid4 : P -> P -> P -> P -> P)
    (dist : P -> P -> V).

  Lemma edge_tiles t s t' s' r : In (t, s, t', s', r) cube_edges -> 0 <= t < 6 /\ 0 <= t' < 6.
  Proof.
    intros I. unfold cube_edges in I; cbn [In] in I.
    repeat (destruct I as [I|I]; [injection I as <- <- <- <- <-; lia|]). destruct I.
  Qed.
  Lemma side_point_tab n (x : list P) S t s k : tab (n + 1) (n + 1) x S -> 0 <= t < 6 -> 0 <= k <= n ->
    side_point n x t s k = Some (sp n S t s k).
  Proof. intros H Ht Hk. unfold sp. destruct s; cbn [side_point spoint fst snd]; apply (tab_value _ _ _ _ _ _ _ H); lia. Qed.

  Lemma grid_run stretched ni xc x dx dy : 1 <= ni ->
    zlen xc = 6 * ((ni + 1) * (ni + 1)) -> zlen x = 6 * ((2 * ni + 1) * (2 * ni + 1)) ->
    zlen dx = 6 * ((2 * ni + 1) * (2 * ni)) -> zlen dy = 6 * (2 * ni * (2 * ni + 1)) ->
    exists X C x' dx' dy', tab (ni + 1) (ni + 1) xc X
      /\ cubic_grid adjust transform mid mid4 dist stretched ni xc x dx dy = Ok (x', dx', dy')
      /\ tab (2 * ni + 1) (2 * ni + 1) x' (spt mid mid4 C)
      /\ (forall t s t' s' r k, In (t, s, t', s', r) cube_edges -> 0 <= k <= ni ->
            sp ni C t s k = sp ni C t' s' (if r then ni - k else k))
      /\ (forall t j i, 0 <= t < 6 -> 0 < j < ni -> 0 < i < ni -> C t j i = transform (adjust (X t j i)))
      /\ (forall j i, 0 <= j <= ni -> 0 <= i <= ni -> C 0 j i = transform (adjust (X 0 j i)))
      /\ tab (2 * ni + 1) (2 * ni) dx' (DX dist (spt mid mid4 C))
      /\ tab (2 * ni) (2 * ni + 1) dy' (JY (2 * ni) (DX dist (spt mid mid4 C)) (DY dist stretched (spt mid mid4 C))).
  Proof.
    intros Hni Lc Lx Ldx Ldy.
    destruct (tab_of (ni + 1) (ni + 1) xc Lc ltac:(lia) ltac:(lia)) as [X HX].
    destruct (points_run adjust transform mid mid4 ni Hni xc x X HX Lx) as (x' & C & E & HS & Hedge & Hint & H0).
    destruct (lengths_run dist (2 * ni) ltac:(lia) stretched x' dx dy (spt mid mid4 C) HS Ldx Ldy) as (dx' & dy1 & E1 & Hx & Hy).
    destruct (join_lengths_run (2 * ni) ltac:(lia) dx' dy1 _ _ Hx Hy) as (dy' & E2 & Hy').
    exists X, C, x', dx', dy'. split; [exact HX|]. split; [|tauto].
    unfold cubic_grid. rewrite E. cbn [bind]. rewrite E1. cbn [bind]. rewrite E2. reflexivity.
  Qed.
End C82.

(** Two tiles have the very same points, supergrid midpoints included, along the edge they
    share, for every grid size, whatever the points are that the tiles were made of and
    whatever transformation was asked for.  (The midpoint of two points does not depend on
    their order: cell_east and cell_north add the coordinates of the two.) *)
Theorem C82_edges : forall (P V : Type) (adjust transform : P -> P) (mid : P -> P -> P)
    (mid4 : P -> P -> P -> P -> P) (dist : P -> P -> V) stretched ni xc x dx dy, 1 <= ni ->
  zlen xc = 6 * ((ni + 1) * (ni + 1)) -> zlen x = 6 * ((2 * ni + 1) * (2 * ni + 1)) ->
  zlen dx = 6 * ((2 * ni + 1) * (2 * ni)) -> zlen dy = 6 * (2 * ni * (2 * ni + 1)) ->
  (forall p q, mid p q = mid q p) ->
  exists x' dx' dy', cubic_grid adjust transform mid mid4 dist stretched ni xc x dx dy = Ok (x', dx', dy')
    /\ forall t s t' s' r k, In (t, s, t', s', r) cube_edges -> 0 <= k <= 2 * ni ->
         exists p, side_point (2 * ni) x' t s k = Some p
           /\ side_point (2 * ni) x' t' s' (if r then 2 * ni - k else k) = Some p.
Proof.
  intros P V adjust transform mid mid4 dist stretched ni xc x dx dy Hni Lc Lx Ldx Ldy Hm.
  destruct (grid_run adjust transform mid mid4 dist stretched ni xc x dx dy Hni Lc Lx Ldx Ldy) as (X & C & x' & dx' & dy' & HX & E & HS & Hedge & _).
  exists x', dx', dy'. split; auto. intros t s t' s' r k I Hk. destruct (edge_tiles _ _ _ _ _ I) as [Ht Ht'].
  rewrite (side_point_tab _ _ _ _ _ _ HS) by lia. rewrite (side_point_tab _ _ _ _ _ _ HS) by (destruct r; lia).
  eexists. split; [reflexivity|]. f_equal. symmetry. apply (spt_edges adjust transform mid mid4 ni C); auto.
Qed.

(** Two tiles have the very same lengths, dx or dy, along the edge they share. *)
Theorem C82_lengths : forall (P V : Type) (adjust transform : P -> P) (mid : P -> P -> P)
    (mid4 : P -> P -> P -> P -> P) (dist : P -> P -> V) stretched ni xc x dx dy, 1 <= ni ->
  zlen xc = 6 * ((ni + 1) * (ni + 1)) -> zlen x = 6 * ((2 * ni + 1) * (2 * ni + 1)) ->
  zlen dx = 6 * ((2 * ni + 1) * (2 * ni)) -> zlen dy = 6 * (2 * ni * (2 * ni + 1)) ->
  (forall p q, mid p q = mid q p) ->
  exists x' dx' dy', cubic_grid adjust transform mid mid4 dist stretched ni xc x dx dy = Ok (x', dx', dy')
    /\ forall t s t' s' r k, In (t, s, t', s', r) cube_edges -> 0 <= k < 2 * ni ->
         exists v, side_length (2 * ni) dx' dy' t s k = Some v
           /\ side_length (2 * ni) dx' dy' t' s' (if r then 2 * ni - 1 - k else k) = Some v.
Proof.
  intros P V adjust transform mid mid4 dist stretched ni xc x dx dy Hni Lc Lx Ldx Ldy Hm.
  destruct (grid_run adjust transform mid mid4 dist stretched ni xc x dx dy Hni Lc Lx Ldx Ldy) as (X & C & x' & dx' & dy' & HX & E & HS & Hedge & _ & _ & Hx & Hy).
  exists x', dx', dy'. split; auto. intros t s t' s' r k I Hk.
  pose proof (spt_edges adjust transform mid mid4 ni C Hm Hedge) as HE.
  set (S := spt mid mid4 C) in *. set (n := 2 * ni) in *. assert (Hn : 2 <= n) by (unfold n; lia). clearbody S n.
  unfold cube_edges in I; cbn [In] in I.
  repeat (destruct I as [I|I]; [injection I as <- <- <- <- <-; cbn [side_length]|]); [..|destruct I].
  all: rewrite ?(tab_value _ _ _ _ _ _ _ Hx), ?(tab_value _ _ _ _ _ _ _ Hy) by lia.
  all: eexists; split; [reflexivity|]; f_equal.
  all: unfold JY; cbn [Z.eqb Pos.eqb andb]; rewrite ?Z.eqb_refl;
       repeat match goal with |- context [?a =? ?b] => destruct (Z.eqb_spec a b); [try lia|try lia] end;
       try reflexivity; try (f_equal; lia); try (clear - Hn; destruct n; [lia|reflexivity|reflexivity]).
  - unfold DX. pose proof (HE 0 South 5 North false k ltac:(cbn; tauto) ltac:(lia)) as H1.
    pose proof (HE 0 South 5 North false (k + 1) ltac:(cbn; tauto) ltac:(lia)) as H2.
    unfold sp in H1, H2. cbn [spoint fst snd] in H1, H2. now rewrite H1, H2.
  - unfold DX. pose proof (HE 1 North 2 South false k ltac:(cbn; tauto) ltac:(lia)) as H1.
    pose proof (HE 1 North 2 South false (k + 1) ltac:(cbn; tauto) ltac:(lia)) as H2.
    unfold sp in H1, H2. cbn [spoint fst snd] in H1, H2. now rewrite H1, H2.
  - unfold DX. pose proof (HE 3 North 4 South false k ltac:(cbn; tauto) ltac:(lia)) as H1.
    pose proof (HE 3 North 4 South false (k + 1) ltac:(cbn; tauto) ltac:(lia)) as H2.
    unfold sp in H1, H2. cbn [spoint fst snd] in H1, H2. now rewrite H1, H2.
Qed.

(** What the supergrid consists of: the given corners, adjusted and transformed (all those
    of tile 1, and those inside the other tiles, whose sides come from their neighbours),
    the midpoints of the sides of the cells, and the middles of the cells; nothing of what
    the array held before. *)
Theorem C82_points : forall (P V : Type) (adjust transform : P -> P) (mid : P -> P -> P)
    (mid4 : P -> P -> P -> P -> P) (dist : P -> P -> V) stretched ni xc x dx dy, 1 <= ni ->
  zlen xc = 6 * ((ni + 1) * (ni + 1)) -> zlen x = 6 * ((2 * ni + 1) * (2 * ni + 1)) ->
  zlen dx = 6 * ((2 * ni + 1) * (2 * ni)) -> zlen dy = 6 * (2 * ni * (2 * ni + 1)) ->
  exists x' dx' dy' G,
    cubic_grid adjust transform mid mid4 dist stretched ni xc x dx dy = Ok (x', dx', dy')
    /\ zlen x' = zlen x
    /\ (forall t J I, 0 <= t < 6 -> 0 <= J <= 2 * ni -> 0 <= I <= 2 * ni ->
          tile_value (2 * ni + 1) (2 * ni + 1) x' t J I = Some (G t J I))
    /\ (forall t j i p, 0 <= t < 6 -> t = 0 \/ (0 < j < ni /\ 0 < i < ni) ->
          tile_value (ni + 1) (ni + 1) xc t j i = Some p -> G t (2 * j) (2 * i) = transform (adjust p))
    /\ (forall t j i, 0 <= t < 6 -> 0 <= j < ni -> 0 <= i <= ni ->
          G t (2 * j + 1) (2 * i) = mid (G t (2 * j) (2 * i)) (G t (2 * (j + 1)) (2 * i)))
    /\ (forall t j i, 0 <= t < 6 -> 0 <= j <= ni -> 0 <= i < ni ->
          G t (2 * j) (2 * i + 1) = mid (G t (2 * j) (2 * i)) (G t (2 * j) (2 * (i + 1))))
    /\ (forall t j i, 0 <= t < 6 -> 0 <= j < ni -> 0 <= i < ni ->
          G t (2 * j + 1) (2 * i + 1) =
          mid4 (G t (2 * j) (2 * i)) (G t (2 * j) (2 * (i + 1)))
               (G t (2 * (j + 1)) (2 * (i + 1))) (G t (2 * (j + 1)) (2 * i))).
Proof.
  intros P V adjust transform mid mid4 dist stretched ni xc x dx dy Hni Lc Lx Ldx Ldy.
  destruct (grid_run adjust transform mid mid4 dist stretched ni xc x dx dy Hni Lc Lx Ldx Ldy) as (X & C & x' & dx' & dy' & HX & E & HS & Hedge & Hint & H0 & Hx & Hy).
  exists x', dx', dy', (spt mid mid4 C). split; auto. split; [destruct HS; congruence|].
  split; [intros; apply tab_value; auto; lia|].
  split; [|split; [|split]].
  - intros t j i p Ht Hji Hp. rewrite !(Z.mul_comm 2). rewrite spt_ee.
    assert (Hr : 0 <= j <= ni /\ 0 <= i <= ni).
    { unfold tile_value in Hp.
      destruct (Z.leb_spec 0 j), (Z.ltb_spec j (ni + 1)), (Z.leb_spec 0 i), (Z.ltb_spec i (ni + 1));
        try lia; rewrite ?andb_false_r in Hp; cbn [andb] in Hp; rewrite ?andb_false_r in Hp; discriminate. }
    rewrite (tab_value _ _ _ _ _ _ _ HX) in Hp by lia. injection Hp as <-.
    destruct Hji as [->|[Hj Hi]]; [apply H0; lia|apply Hint; lia].
  - intros t j i Ht Hj Hi. rewrite !(Z.mul_comm 2). now rewrite spt_oe, !spt_ee.
  - intros t j i Ht Hj Hi. rewrite !(Z.mul_comm 2). now rewrite spt_eo, !spt_ee.
  - intros t j i Ht Hj Hi. rewrite !(Z.mul_comm 2). now rewrite spt_oo, !spt_ee.
Qed.

(** The lengths are the distances between neighbouring points of the supergrid, everywhere,
    the edges included: for a stretched grid always; for an unstretched one, where dy is the
    transpose of dx, when the tiles have the symmetry this relies on. *)
Theorem C82_distances : forall (P V : Type) (adjust transform : P -> P) (mid : P -> P -> P)
    (mid4 : P -> P -> P -> P -> P) (dist : P -> P -> V) stretched ni xc x dx dy, 1 <= ni ->
  zlen xc = 6 * ((ni + 1) * (ni + 1)) -> zlen x = 6 * ((2 * ni + 1) * (2 * ni + 1)) ->
  zlen dx = 6 * ((2 * ni + 1) * (2 * ni)) -> zlen dy = 6 * (2 * ni * (2 * ni + 1)) ->
  (forall p q, mid p q = mid q p) -> (forall p q, dist p q = dist q p) ->
  exists x' dx' dy' G,
    cubic_grid adjust transform mid mid4 dist stretched ni xc x dx dy = Ok (x', dx', dy')
    /\ (forall t J I, 0 <= t < 6 -> 0 <= J <= 2 * ni -> 0 <= I <= 2 * ni ->
          tile_value (2 * ni + 1) (2 * ni + 1) x' t J I = Some (G t J I))
    /\ (forall t J I, 0 <= t < 6 -> 0 <= J <= 2 * ni -> 0 <= I < 2 * ni ->
          tile_value (2 * ni + 1) (2 * ni) dx' t J I = Some (dist (G t J I) (G t J (I + 1))))
    /\ (stretched = true \/
        (forall t J I, 0 <= t < 6 -> 0 <= J < 2 * ni -> 0 <= I <= 2 * ni ->
           dist (G t I J) (G t I (J + 1)) = dist (G t J I) (G t (J + 1) I)) ->
        forall t J I, 0 <= t < 6 -> 0 <= J < 2 * ni -> 0 <= I <= 2 * ni ->
          tile_value (2 * ni) (2 * ni + 1) dy' t J I = Some (dist (G t J I) (G t (J + 1) I))).
Proof.
  intros P V adjust transform mid mid4 dist stretched ni xc x dx dy Hni Lc Lx Ldx Ldy Hm Hd.
  destruct (grid_run adjust transform mid mid4 dist stretched ni xc x dx dy Hni Lc Lx Ldx Ldy) as (X & C & x' & dx' & dy' & HX & E & HS & Hedge & _ & _ & Hx & Hy).
  exists x', dx', dy', (spt mid mid4 C). split; auto.
  pose proof (spt_edges adjust transform mid mid4 ni C Hm Hedge) as HE.
  split; [intros; apply tab_value; auto; lia|].
  split; [intros; rewrite (tab_value _ _ _ _ _ _ _ Hx) by lia; reflexivity|].
  intros Hsym t j i Ht Hj Hi. rewrite (tab_value _ _ _ _ _ _ _ Hy) by lia. f_equal.
  set (S := spt mid mid4 C) in *.
  assert (HDY : forall t j i, 0 <= t < 6 -> 0 <= j < 2 * ni -> 0 <= i <= 2 * ni -> DY dist stretched S t j i = dist (S t j i) (S t (j + 1) i)).
  { intros t0 j0 i0 Ht0 Hj0 Hi0. unfold DY. destruct Hsym as [->|Hsym]; [reflexivity|]. destruct stretched; [reflexivity|]. apply Hsym; auto. }
  set (n := 2 * ni) in *. assert (Hn : 2 <= n) by (unfold n; lia). clearbody S n. clear Hsym.
  assert (HDX : forall t j i, DX dist S t j i = dist (S t j i) (S t j (i + 1))) by reflexivity.
  unfold JY. rewrite !HDX. rewrite (HDY t j i) by lia. rewrite !HDY by lia.
  Ltac edge HE t s t' s' r k := let H1 := fresh in
    pose proof (HE t s t' s' r k ltac:(cbn; tauto) ltac:(lia)) as H1; unfold sp in H1; cbn [spoint fst snd] in H1.
  destruct (Z.eqb_spec t 0) as [->|N0]; [|destruct (Z.eqb_spec t 1) as [->|N1]; [|destruct (Z.eqb_spec t 2) as [->|N2];
    [|destruct (Z.eqb_spec t 3) as [->|N3]; [|destruct (Z.eqb_spec t 4) as [->|N4]; [|destruct (Z.eqb_spec t 5) as [->|N5]; [|lia]]]]]];
  cbn [Z.eqb Pos.eqb andb].
  - destruct (Z.eqb_spec i 0) as [->|]; [|destruct (Z.eqb_spec i n) as [->|]; [|reflexivity]].
    + edge HE 0 West 4 North true j. edge HE 0 West 4 North true (j + 1). rewrite H, H0. rewrite Hd. do 2 f_equal; lia.
    + edge HE 0 East 1 West false j. edge HE 0 East 1 West false (j + 1). now rewrite H, H0.
  - destruct (Z.eqb_spec i n) as [->|]; [|reflexivity].
    edge HE 1 East 3 South true j. edge HE 1 East 3 South true (j + 1). rewrite H, H0. rewrite Hd. do 2 f_equal; lia.
  - destruct (Z.eqb_spec i 0) as [->|]; [|destruct (Z.eqb_spec i n) as [->|]; [|reflexivity]].
    + edge HE 0 North 2 West true (n - j). edge HE 0 North 2 West true (n - (j + 1)).
      replace (n - (n - j)) with j in H by lia. replace (n - (n - (j + 1))) with (j + 1) in H0 by lia.
      rewrite <- H, <- H0. rewrite Hd. do 2 f_equal; lia.
    + edge HE 2 East 3 West false j. edge HE 2 East 3 West false (j + 1). now rewrite H, H0.
  - destruct (Z.eqb_spec i n) as [->|]; [|reflexivity].
    edge HE 3 East 5 South true j. edge HE 3 East 5 South true (j + 1). rewrite H, H0. rewrite Hd. do 2 f_equal; lia.
  - destruct (Z.eqb_spec i 0) as [->|]; [|destruct (Z.eqb_spec i n) as [->|]; [|reflexivity]].
    + edge HE 2 North 4 West true (n - j). edge HE 2 North 4 West true (n - (j + 1)).
      replace (n - (n - j)) with j in H by lia. replace (n - (n - (j + 1))) with (j + 1) in H0 by lia.
      rewrite <- H, <- H0. rewrite Hd. do 2 f_equal; lia.
    + edge HE 4 East 5 West false j. edge HE 4 East 5 West false (j + 1). now rewrite H, H0.
  - destruct (Z.eqb_spec i n) as [->|]; [|reflexivity].
    edge HE 1 South 5 East true (n - j). edge HE 1 South 5 East true (n - (j + 1)).
    replace (n - (n - j)) with j in H by lia. replace (n - (n - (j + 1))) with (j + 1) in H0 by lia.
    rewrite <- H, <- H0. rewrite Hd. do 2 f_equal; lia.
Qed.

(** A cubed sphere of 2 x 2 supergrid cells per tile whose points are numbered, "midpoints"
    being sums: the tiles are given unrelated points and end up with common edges. *)
Example C82_example :
  let x0 := repeat 0 54 in let d0 := repeat 0 36 in
  exists x dx dy, cubic_grid (fun p => p) (fun p => p) Z.add (fun a b c d => a + b + c + d) Z.add true
      1 (zseq 1 24) x0 d0 d0 = Ok (x, dx, dy)
    /\ map (side_point 2 x 0 North) [0; 1; 2] = [Some 3; Some 7; Some 4]
    /\ map (side_point 2 x 2 West) [2; 1; 0] = [Some 3; Some 7; Some 4]
    /\ map (side_length 2 dx dy 1 East) [0; 1] = [Some 20; Some 22]
    /\ map (side_length 2 dx dy 3 South) [1; 0] = [Some 20; Some 22].
Proof. vm_compute. do 3 eexists. repeat split. Qed.
