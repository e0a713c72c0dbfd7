(** Proofs for M_Cubic: the sides of the supergrid and the lengths. *)
From Coq Require Import ZArith List Bool Lia.
From Verif Require Import Base Loops M_Cubic Spec_Cubic P_Cubic P_Cubic2.
Import ListNotations.
Open Scope Z_scope.

(** Six tiles of [h] rows of [w] values. *)
Definition tab {A} (h w : Z) (a : list A) (F : Z -> Z -> Z -> A) : Prop :=
  zlen a = 6 * (h * w)
  /\ forall t j i, 0 <= t < 6 -> 0 <= j < h -> 0 <= i < w -> zget a (at3 h w t j i) = Some (F t j i).

Lemma tab_ext {A} h w (a : list A) F F' :
  (forall t j i, 0 <= t < 6 -> 0 <= j < h -> 0 <= i < w -> F t j i = F' t j i) -> tab h w a F -> tab h w a F'.
Proof. intros E [L H]. split; auto. intros. rewrite <- E by auto. auto. Qed.

Lemma tab_of {A} h w (a : list A) : zlen a = 6 * (h * w) -> 0 < h -> 0 < w -> exists F, tab h w a F.
Proof.
  intros L Hh Hw. destruct a as [|d a'] eqn:Ea. { rewrite zlen_nil in L. nia. }
  exists (fun t j i => match zget a (at3 h w t j i) with Some v => v | None => d end).
  rewrite Ea. split; auto. intros t j i Ht Hj Hi.
  destruct (zget_in_range (d :: a') (at3 h w t j i)) as [v Ev]; [rewrite L; apply at3_range; auto|]. rewrite Ev. reflexivity.
Qed.

Lemma tab_value {A} h w (a : list A) F t j i : tab h w a F -> 0 <= t < 6 -> 0 <= j < h -> 0 <= i < w ->
  tile_value h w a t j i = Some (F t j i).
Proof.
  intros [L H] Ht Hj Hi. unfold tile_value.
  repeat match goal with |- context [?x <=? ?y] => destruct (Z.leb_spec x y); [|lia] | |- context [?x <? ?y] => destruct (Z.ltb_spec x y); [|lia] end.
  cbn [andb]. apply H; auto.
Qed.

Lemma tab_get {A} h w (a : list A) F t j i : tab h w a F -> 0 <= t < 6 -> 0 <= j < h -> 0 <= i < w ->
  oget a (at3 h w t j i) = Ok (F t j i).
Proof. intros [L H] **. apply oget_Ok. auto. Qed.

Lemma tab_set {A} h w (a : list A) F t0 j0 i0 v : tab h w a F -> 0 <= t0 < 6 -> 0 <= j0 < h -> 0 <= i0 < w ->
  exists a', oset a (at3 h w t0 j0 i0) v = Ok a'
    /\ tab h w a' (fun t j i => if (t =? t0) && (j =? j0) && (i =? i0) then v else F t j i).
Proof.
  intros [L H] Ht Hj Hi. destruct (zset_Some a (at3 h w t0 j0 i0) v) as [a' E]; [rewrite L; apply at3_range; auto|].
  exists a'. split; [now apply oset_Ok|]. split; [rewrite (zset_len _ _ _ _ E); auto|].
  intros t j i Ht' Hj' Hi'.
  destruct (Z.eq_dec (at3 h w t0 j0 i0) (at3 h w t j i)) as [Eq|Ne].
  - pose proof Eq as Eq'. apply at3_inj in Eq' as (-> & -> & ->); auto. rewrite !Z.eqb_refl. cbn [andb]. apply (zget_zset_eq _ _ _ _ E).
  - rewrite (zget_zset_ne _ _ _ _ _ E) by auto.
    destruct (Z.eqb_spec t t0); [|apply H; auto]. destruct (Z.eqb_spec j j0); [|apply H; auto].
    destruct (Z.eqb_spec i i0); [|apply H; auto]. subst. lia.
Qed.

(** ** The points *)
Section points.
  Context {P : Type} (adjust transform : P -> P) (mid : P -> P -> P) (mid4 : P -> P -> P -> P -> P).
  Context (ni : Z) (Hni : 1 <= ni).

  Definition sp {A} (n : Z) (F : Z -> Z -> Z -> A) t s k : A :=
    F t (fst (spoint n s k)) (snd (spoint n s k)).

  Lemma spt_side_even C t s k : sp (2 * ni) (spt mid mid4 C) t s (k * 2) = sp ni C t s k.
  Proof.
    unfold sp. destruct s; cbn [spoint fst snd]; replace (2 * ni) with (ni * 2) by lia;
    try (change 0 with (0 * 2) at 1); apply spt_ee.
  Qed.
  Lemma spt_side_odd C t s k : sp (2 * ni) (spt mid mid4 C) t s (k * 2 + 1) = mid (sp ni C t s k) (sp ni C t s (k + 1)).
  Proof.
    unfold sp. destruct s; cbn [spoint fst snd]; replace (2 * ni) with (ni * 2) by lia.
    - exact (spt_eo mid mid4 C t 0 k).
    - apply spt_eo.
    - exact (spt_oe mid mid4 C t k 0).
    - apply spt_oe.
  Qed.

  Lemma points_run xc x X : tab (ni + 1) (ni + 1) xc X -> zlen x = 6 * ((2 * ni + 1) * (2 * ni + 1)) ->
    exists x' C, cubic_points adjust transform mid mid4 ni xc x = Ok x'
      /\ tab (2 * ni + 1) (2 * ni + 1) x' (spt mid mid4 C)
      /\ (forall t s t' s' r k, In (t, s, t', s', r) cube_edges -> 0 <= k <= ni ->
            sp ni C t s k = sp ni C t' s' (if r then ni - k else k))
      /\ (forall t j i, 0 <= t < 6 -> 0 < j < ni -> 0 < i < ni -> C t j i = transform (adjust (X t j i)))
      /\ (forall j i, 0 <= j <= ni -> 0 <= i <= ni -> C 0 j i = transform (adjust (X 0 j i))).
  Proof.
    intros [Lc Hc] Lx. unfold cubic_points.
    destruct (join_run ni Hni (map adjust xc)) as (a & E & La & Hedge & Hint & H0); [rewrite zlen_map; auto|].
    rewrite E. cbn [bind].
    destruct (tab_of (ni + 1) (ni + 1) a La ltac:(lia) ltac:(lia)) as [F [_ HF]].
    set (C := fun t j i => transform (F t j i)).
    assert (HC : forall t j i, 0 <= t < 6 -> 0 <= j <= ni -> 0 <= i <= ni -> zget (map transform a) (at3 (ni + 1) (ni + 1) t j i) = Some (C t j i)).
    { intros. rewrite zget_map, HF by lia. reflexivity. }
    destruct (fill_all mid mid4 ni Hni (map transform a) C HC x Lx) as (x' & Ex & L' & G).
    exists x', C. split; auto. split; [|split; [|split]].
    - split; [congruence|]. intros; apply G; lia.
    - intros t s t' s' r k I Hk. specialize (Hedge t s t' s' r k I Hk). unfold sp, C.
      assert (Ht : 0 <= t < 6 /\ 0 <= t' < 6).
      { unfold cube_edges in I; cbn [In] in I. repeat (destruct I as [I|I]; [injection I as <- <- <- <- <-; lia|]). destruct I. }
      rewrite !HF in Hedge. now injection Hedge as ->. 
      all: try tauto; destruct s, s', r; cbn [spoint fst snd]; lia.
    - intros t j i Ht Hj Hi. unfold C. f_equal. specialize (Hint t j i Hj Hi). rewrite HF in Hint by lia.
      rewrite zget_map, Hc in Hint by lia. now injection Hint.
    - intros j i Hj Hi. unfold C. f_equal. specialize (H0 j i Hj Hi). rewrite HF in H0 by lia.
      rewrite zget_map, Hc in H0 by lia. now injection H0.
  Qed.

  (** The sides of the supergrid agree as those of the coarse grid do. *)
  Lemma spt_edges C : (forall p q, mid p q = mid q p) ->
    (forall t s t' s' r k, In (t, s, t', s', r) cube_edges -> 0 <= k <= ni ->
        sp ni C t s k = sp ni C t' s' (if r then ni - k else k)) ->
    forall t s t' s' r k, In (t, s, t', s', r) cube_edges -> 0 <= k <= 2 * ni ->
      sp (2 * ni) (spt mid mid4 C) t s k = sp (2 * ni) (spt mid mid4 C) t' s' (if r then 2 * ni - k else k).
  Proof.
    intros Hm HC t s t' s' r k I Hk.
    pose proof (Z.div_mod k 2 ltac:(lia)) as D. pose proof (Z.mod_pos_bound k 2 ltac:(lia)) as M.
    set (m := k / 2) in *. clearbody m. assert (Hk' : k = m * 2 \/ k = m * 2 + 1) by lia. clear D M.
    destruct Hk' as [->| ->].
    - rewrite spt_side_even. rewrite (HC _ _ _ _ _ m I) by lia.
      replace (if r then 2 * ni - m * 2 else m * 2) with ((if r then ni - m else m) * 2) by (destruct r; lia).
      now rewrite spt_side_even.
    - rewrite spt_side_odd. rewrite (HC _ _ _ _ _ m I), (HC _ _ _ _ _ (m + 1) I) by lia.
      replace (if r then 2 * ni - (m * 2 + 1) else m * 2 + 1) with ((if r then ni - m - 1 else m) * 2 + 1) by (destruct r; lia).
      rewrite spt_side_odd. destruct r; [|reflexivity].
      rewrite Hm. replace (ni - (m + 1)) with (ni - m - 1) by lia. replace (ni - m - 1 + 1) with (ni - m) by lia. reflexivity.
  Qed.
End points.

(** ** The lengths *)
Section lengths.
  Context {P V : Type} (dist : P -> P -> V) (nx : Z) (Hnx : 1 <= nx).
  Let nxp := nx + 1.

  Lemma tiles_store {A} h w (p : Z -> Z -> Z) nj ni (f : Z -> Z -> Z -> outcome A) a F :
    (* p is a bijection from nj x ni to h x w given by coordinates *)
    forall (pj pi : Z -> Z -> Z),
    0 <= nj -> 0 <= ni -> zlen a = 6 * (h * w) ->
    (forall j i, 0 <= j < nj -> 0 <= i < ni -> 0 <= pj j i < h /\ 0 <= pi j i < w) ->
    (forall j i j' i', 0 <= j < nj -> 0 <= i < ni -> 0 <= j' < nj -> 0 <= i' < ni -> pj j i = pj j' i' -> pi j i = pi j' i' -> j = j' /\ i = i') ->
    (forall J I, 0 <= J < h -> 0 <= I < w -> exists j i, 0 <= j < nj /\ 0 <= i < ni /\ J = pj j i /\ I = pi j i) ->
    (forall n j i, 0 <= n < 6 -> 0 <= j < nj -> 0 <= i < ni -> f n j i = Ok (F n (pj j i) (pi j i))) ->
    exists a', ofor 0 6 (fun a n => store2 nj ni (fun j i => at3 h w n (pj j i) (pi j i)) (f n) a) a = Ok a' /\ tab h w a' F.
  Proof.
    intros pj pi Hnj Hni L Hr Hinj Hsur Hf.
    destruct (ofor_inv (fun n a' => zlen a' = 6 * (h * w)
       /\ forall t J I, 0 <= t < n -> 0 <= J < h -> 0 <= I < w -> zget a' (at3 h w t J I) = Some (F t J I))
      (fun a n => store2 nj ni (fun j i => at3 h w n (pj j i) (pi j i)) (f n) a) 0 6 a) as (a' & E & L' & H); [lia| | |].
    - split; auto. intros; lia.
    - intros n a1 Hn (L1 & G1).
      destruct (store2_run nj ni (fun j i => at3 h w n (pj j i) (pi j i)) (f n) (fun j i => F n (pj j i) (pi j i)) a1) as (a2 & E2 & L2 & G2 & K2); auto.
      + intros j i Hj Hi. split; [apply Hf; lia|]. rewrite L1. apply at3_range; [lia| |]; apply Hr; auto.
      + intros j i j' i' Hj Hi Hj' Hi' Eq. pose proof (Hr j i Hj Hi). pose proof (Hr j' i' Hj' Hi').
        apply at3_inj in Eq as (_ & E1 & E2); try tauto. apply Hinj; auto.
      + exists a2. split; auto. split; [congruence|]. intros t J I Ht HJ HI.
        destruct (Z.eq_dec t n) as [->|Hne].
        * destruct (Hsur J I HJ HI) as (j & i & Hj & Hi & -> & ->). apply G2; auto.
        * rewrite K2; [apply G1; lia|]. intros j i Hj Hi Eq. pose proof (Hr j i Hj Hi). apply at3_inj in Eq as (E1 & _); try tauto. lia.
    - exists a'. split; auto. split; auto.
  Qed.

  Definition DX (S : Z -> Z -> Z -> P) t j i : V := dist (S t j i) (S t j (i + 1)).
  Definition DY (stretched : bool) (S : Z -> Z -> Z -> P) t j i : V :=
    if stretched then dist (S t j i) (S t (j + 1) i) else dist (S t i j) (S t i (j + 1)).

  Lemma lengths_run stretched x dx dy S : tab nxp nxp x S ->
    zlen dx = 6 * (nxp * nx) -> zlen dy = 6 * (nx * nxp) ->
    exists dx' dy', side_lengths dist stretched nx x dx dy = Ok (dx', dy')
      /\ tab nxp nx dx' (DX S) /\ tab nx nxp dy' (DY stretched S).
  Proof.
    intros HS Ldx Ldy. unfold side_lengths. fold nxp.
    destruct (tiles_store nxp nx (fun _ _ => 0) nxp nx (fun n j i => do p1 <- oget x (at3 nxp nxp n j i) ; do p2 <- oget x (at3 nxp nxp n j (i + 1)) ; Ok (dist p1 p2))
       dx (DX S) (fun j i => j) (fun j i => i)) as (dx' & Ex & Hx); auto; try (unfold nxp; lia).
    { intros J I HJ HI. exists J, I. auto. }
    { intros n j i Hn Hj Hi. unfold nxp in Hj. rewrite !(tab_get _ _ _ _ _ _ _ HS) by (unfold nxp; lia). reflexivity. }
    assert (Ex' : ofor 0 6 (fun dx n => store2 nxp nx (at3 nxp nx n) (fun j i => do p1 <- oget x (at3 nxp nxp n j i) ; do p2 <- oget x (at3 nxp nxp n j (i + 1)) ; Ok (dist p1 p2)) dx) dx = Ok dx') by exact Ex.
    rewrite Ex'. cbn [bind]. destruct stretched.
    - destruct (tiles_store nx nxp (fun _ _ => 0) nx nxp (fun n j i => do p1 <- oget x (at3 nxp nxp n j i) ; do p2 <- oget x (at3 nxp nxp n (j + 1) i) ; Ok (dist p1 p2))
       dy (DY true S) (fun j i => j) (fun j i => i)) as (dy' & Ey & Hy); auto; try (unfold nxp; lia).
      { intros J I HJ HI. exists J, I. auto. }
      { intros n j i Hn Hj Hi. unfold nxp in Hi. rewrite !(tab_get _ _ _ _ _ _ _ HS) by (unfold nxp; lia). reflexivity. }
      assert (Ey' : ofor 0 6 (fun dy n => store2 nx nxp (at3 nx nxp n) (fun j i => do p1 <- oget x (at3 nxp nxp n j i) ; do p2 <- oget x (at3 nxp nxp n (j + 1) i) ; Ok (dist p1 p2)) dy) dy = Ok dy') by exact Ey.
      rewrite Ey'. exists dx', dy'. auto.
    - destruct (tiles_store nx nxp (fun _ _ => 0) nxp nx (fun n j i => oget dx' (at3 nxp nx n j i))
       dy (DY false S) (fun j i => i) (fun j i => j)) as (dy' & Ey & Hy); auto; try (unfold nxp; lia).
      { intros J I HJ HI. exists I, J. auto. }
      { intros n j i Hn Hj Hi. apply (tab_get _ _ _ _ _ _ _ Hx); lia. }
      rewrite Ey. exists dx', dy'. auto.
  Qed.

  Definition JY (DXf DYf : Z -> Z -> Z -> V) t j i : V :=
    if (t =? 0) && (i =? 0) then DXf 4 nx (nx - j - 1)
    else if (t =? 0) && (i =? nx) then DYf 1 j 0
    else if (t =? 1) && (i =? nx) then DXf 3 0 (nx - j - 1)
    else if (t =? 2) && (i =? 0) then DXf 0 nx (nx - j - 1)
    else if (t =? 2) && (i =? nx) then DYf 3 j 0
    else if (t =? 3) && (i =? nx) then DXf 5 0 (nx - j - 1)
    else if (t =? 4) && (i =? 0) then DXf 2 nx (nx - j - 1)
    else if (t =? 4) && (i =? nx) then DYf 5 j 0
    else if (t =? 5) && (i =? nx) then DXf 1 0 (nx - j - 1)
    else DYf t j i.

  Lemma join_lengths_run dx dy DXf DYf : tab nxp nx dx DXf -> tab nx nxp dy DYf ->
    exists dy', join_lengths nx dx dy = Ok dy' /\ tab nx nxp dy' (JY DXf DYf).
  Proof.
    intros Hx Hy. unfold join_lengths. fold nxp.
    match goal with |- context [ofor 0 nx ?f dy] => set (body := f) end.
    destruct (ofor_inv (fun k dy' => tab nx nxp dy' (fun t j i => if j <? k then JY DXf DYf t j i else DYf t j i)) body 0 nx dy)
      as (dy' & E & H); [lia| | |].
    - revert Hy. apply tab_ext. intros t j i Ht Hj Hi. destruct (Z.ltb_spec j 0); [lia|reflexivity].
    - intros k d0 Hk H0. unfold body. clear body.
      Ltac step1 Hx := match goal with
        | Hd : tab nx nxp ?d ?F |- context [oget ?dx (at3 nxp nx ?t ?j ?i)] =>
            rewrite (tab_get _ _ _ _ t j i Hx) by (unfold nxp; lia); cbn [bind]
        end.
      Ltac set1 := match goal with
        | Hd : tab nx nxp ?d ?F |- context [oset ?d (at3 nx nxp ?t ?j ?i) ?v] =>
            let d' := fresh "d" in let E' := fresh "E" in let Hd' := fresh "Hd" in
            destruct (tab_set nx nxp d F t j i v Hd) as (d' & E' & Hd'); [lia|lia|unfold nxp; lia|];
            rewrite E'; cbn [bind]; clear E' Hd
        end.
      Ltac cp1 := unfold copy1 at 1; match goal with
        | Hd : tab nx nxp ?d ?F |- context [oget ?d (at3 nx nxp ?t ?j ?i)] =>
            rewrite (tab_get _ _ _ _ t j i Hd) by (unfold nxp; lia); cbn [bind]
        end.
      step1 Hx; set1. cp1; set1. step1 Hx; set1. step1 Hx; set1. cp1; set1. step1 Hx; set1. step1 Hx; set1. cp1; set1. step1 Hx.
      match goal with Hd : tab nx nxp ?d ?F |- context [oset ?d (at3 nx nxp ?t ?j ?i) ?v] =>
        destruct (tab_set nx nxp d F t j i v Hd) as (d9 & E9 & Hd9); [lia|lia|unfold nxp; lia|] end.
      exists d9. split; [exact E9|]. revert Hd9. apply tab_ext. clear - Hnx Hk. intros t j i Ht Hj Hi.
      cbn beta. unfold JY. rewrite Z.ltb_irrefl. cbn [Z.eqb Pos.eqb andb].
      destruct (Z.eqb_spec j k) as [->|Hne].
      + rewrite Z.ltb_irrefl. destruct (Z.ltb_spec k (k + 1)); [|lia]. rewrite !andb_true_r, ?Z.eqb_refl.
        repeat match goal with |- context [?x =? ?y] => destruct (Z.eqb_spec x y); cbn [andb]; try lia end; reflexivity.
      + rewrite !andb_false_r. cbn [andb]. 
        destruct (Z.ltb_spec j k); destruct (Z.ltb_spec j (k + 1)); try lia; reflexivity.
    - exists dy'. split; auto. revert H. apply tab_ext. intros t j i Ht Hj Hi. destruct (Z.ltb_spec j (0 + nx)); [reflexivity|lia].
  Qed.
End lengths.
