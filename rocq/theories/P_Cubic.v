(** Proofs for M_Cubic. *)
From Coq Require Import ZArith List Bool Lia.
From Verif Require Import Base Loops M_Cubic Spec_Cubic.
Import ListNotations.
Open Scope Z_scope.

Lemma at3_range h w t j i : 0 <= t < 6 -> 0 <= j < h -> 0 <= i < w -> 0 <= at3 h w t j i < 6 * (h * w).
Proof. intros. unfold at3. pose proof (rowmajor_range h w j i). nia. Qed.
Lemma at3_inj h w t j i t' j' i' : 0 <= j < h -> 0 <= i < w -> 0 <= j' < h -> 0 <= i' < w ->
  at3 h w t j i = at3 h w t' j' i' -> t = t' /\ j = j' /\ i = i'.
Proof.
  intros Hj Hi Hj' Hi' E. unfold at3 in E.
  destruct (rowmajor_inj (h * w) t (j * w + i) t' (j' * w + i')) as [-> E2].
  1,2: apply rowmajor_range; lia. lia.
  split; auto. apply rowmajor_inj with w; auto.
Qed.

Section copies.
  Context {A : Type}.
  Implicit Types (a : list A) (l : list ((Z -> Z) * (Z -> Z))).

  Lemma copy1_run a d s : 0 <= d < zlen a -> 0 <= s < zlen a ->
    exists a', copy1 a d s = Ok a' /\ zlen a' = zlen a /\ zget a' d = zget a s
      /\ (forall q, q <> d -> zget a' q = zget a q).
  Proof.
    intros Hd Hs. unfold copy1. destruct (zget_in_range a s Hs) as [v Ev]. rewrite (proj2 (oget_Ok _ _ _) Ev). cbn [bind].
    destruct (zset_Some a d v Hd) as [a' Ea]. exists a'. split; [now apply oset_Ok|]. split; [now apply (zset_len _ _ _ _ Ea)|].
    split. - rewrite (zget_zset_eq _ _ _ _ Ea). auto. - intros q Hq. apply (zget_zset_ne _ _ _ _ _ Ea). auto.
  Qed.

  Lemma copies_run k l : forall a,
    (forall ds, In ds l -> 0 <= fst ds k < zlen a /\ 0 <= snd ds k < zlen a) ->
    (forall ds ds', In ds l -> In ds' l -> snd ds k <> fst ds' k) ->
    NoDup (map (fun ds => fst ds k) l) ->
    exists a', ofold (fun a '(dst, src) => copy1 a (dst k) (src k)) l a = Ok a' /\ zlen a' = zlen a
      /\ (forall ds, In ds l -> zget a' (fst ds k) = zget a (snd ds k))
      /\ (forall q, (forall ds, In ds l -> fst ds k <> q) -> zget a' q = zget a q).
  Proof.
    induction l as [|[d s] l IH]; intros a Hr Hs Hn.
    - exists a. repeat split; auto. intros ds [].
    - cbn [ofold]. destruct (Hr (d, s) (or_introl eq_refl)) as [H1 H2]. cbn [fst snd] in H1, H2.
      destruct (copy1_run a (d k) (s k) H1 H2) as (a1 & E1 & L1 & G1 & K1). rewrite E1. cbn [bind].
      cbn [map] in Hn. inversion Hn as [|x xs Hx Hn']; subst.
      destruct (IH a1) as (a' & E & L & G & K); auto.
      + intros ds Hds. rewrite L1. apply Hr. now right.
      + intros ds ds' I I'. apply Hs; now right.
      + exists a'. split; auto. split; [congruence|]. split.
        * intros ds [<-|Hds]; cbn [fst snd].
          -- rewrite K; auto. intros ds' Hds' E'. apply Hx. cbn [fst]. rewrite <- E'. apply in_map with (f := fun ds => fst ds k). auto.
          -- rewrite G by auto. apply K1. intros E'. apply (Hs ds (d, s)); [now right|now left|exact E'].
        * intros q Hq. rewrite K by (intros ds Hds; apply Hq; now right).
          apply K1. intros ->. apply (Hq (d, s)); [now left|reflexivity].
  Qed.

  Lemma copy_loop_run n l a : 0 <= n ->
    (forall ds k, In ds l -> 0 <= k < n -> 0 <= fst ds k < zlen a /\ 0 <= snd ds k < zlen a) ->
    (forall ds ds' k k', In ds l -> In ds' l -> 0 <= k < n -> 0 <= k' < n -> snd ds k <> fst ds' k') ->
    (forall k, 0 <= k < n -> NoDup (map (fun ds => fst ds k) l)) ->
    (forall ds ds' k k', In ds l -> In ds' l -> 0 <= k < n -> 0 <= k' < n -> k <> k' -> fst ds k <> fst ds' k') ->
    exists a', copy_loop n l a = Ok a' /\ zlen a' = zlen a
      /\ (forall ds k, In ds l -> 0 <= k < n -> zget a' (fst ds k) = zget a (snd ds k))
      /\ (forall q, (forall ds k, In ds l -> 0 <= k < n -> fst ds k <> q) -> zget a' q = zget a q).
  Proof.
    intros Hn Hr Hs Hd Hd'. unfold copy_loop.
    destruct (ofor_inv (fun k a' => zlen a' = zlen a
        /\ (forall ds k', In ds l -> 0 <= k' < k -> zget a' (fst ds k') = zget a (snd ds k'))
        /\ (forall q, (forall ds k', In ds l -> 0 <= k' < k -> fst ds k' <> q) -> zget a' q = zget a q))
      (fun a k => ofold (fun a '(dst, src) => copy1 a (dst k) (src k)) l a) 0 n a) as (a' & E & H); auto.
    - repeat split; auto. intros; lia.
    - intros k a1 Hk (L1 & G1 & K1).
      destruct (copies_run k l a1) as (a2 & E2 & L2 & G2 & K2).
      + intros ds I. rewrite L1. apply Hr; auto; lia.
      + intros ds ds' I I'. apply Hs; auto; lia.
      + apply Hd; lia.
      + exists a2. split; auto. split; [congruence|]. split.
        * intros ds k' I Hk'. destruct (Z.eq_dec k' k) as [->|Hne].
          -- rewrite G2 by auto. apply K1. intros ds' k' I' Hk''. apply not_eq_sym. apply Hs; auto; lia.
          -- rewrite K2. apply G1; auto; lia. intros ds' I'. apply Hd'; auto; lia.
        * intros q Hq. rewrite K2 by (intros; apply Hq; auto; lia). apply K1. intros; apply Hq; auto; lia.
    - exists a'. replace (0 + n) with n in H by lia. auto.
  Qed.
End copies.

(** ** Joining the tiles *)
Section join.
  Context {A : Type} (ni : Z) (Hni : 1 <= ni).
  Let nip := ni + 1.
  Let p := at3 nip nip.
  Let g (a : list A) t j i := zget a (p t j i).

  Ltac at3s := repeat match goal with
    | H : p ?t ?j ?i = p ?t' ?j' ?i' |- _ =>
        apply at3_inj in H; [|unfold nip; lia..]; destruct H as (? & ? & ?)
    end.
  Ltac rng := split; (apply at3_range; unfold nip; lia).
  Ltac nodup := match goal with
    | |- NoDup [] => apply NoDup_nil
    | |- NoDup _ => apply NoDup_cons; [cbn [In]; intros X; repeat (destruct X as [X|X]; [at3s; lia|]); exact X|nodup] end.
  Ltac side_conds := 
    first [ solve [lia]
    | solve [intros ds k I Hk; cbn [In] in I; unfold nip in Hk; repeat (destruct I as [<-|I]; [cbn [fst snd]; rng|]); destruct I]
    | solve [intros ds ds' k k' I I' Hk Hk' E; cbn [In] in I, I'; unfold nip in Hk, Hk';
      repeat (destruct I as [<-|I]; [repeat (destruct I' as [<-|I']; [cbn [fst snd] in E; at3s; lia|]); destruct I'|]); destruct I]
    | solve [intros k Hk; cbn [map fst]; unfold nip in Hk;
      nodup]
    | solve [intros ds ds' k k' I I' Hk Hk' Hne E; cbn [In] in I, I'; unfold nip in Hk, Hk';
      repeat (destruct I as [<-|I]; [repeat (destruct I' as [<-|I']; [cbn [fst snd] in E; at3s; lia|]); destruct I'|]); destruct I] ].

  Ltac loop_tac L :=
    match goal with |- context [copy_loop nip ?l ?a] => destruct (copy_loop_run nip l a) as (a' & E & L' & G & K);
    [ unfold nip; lia | rewrite L; side_conds | side_conds | side_conds | side_conds | ];
    exists a'; split; [exact E|]; split; [congruence|]; intros t j i Hj Hi; unfold g;
    cbn [In] in G;
    try pose proof (fun k => G _ k (or_introl eq_refl)) as G1;
    try pose proof (fun k => G _ k (or_intror (or_introl eq_refl))) as G2;
    try pose proof (fun k => G _ k (or_intror (or_intror (or_introl eq_refl)))) as G3;
    try pose proof (fun k => G _ k (or_intror (or_intror (or_intror (or_introl eq_refl))))) as G4;
    cbn [fst snd] in *; clear G;
    repeat match goal with |- context [Z.eqb ?x ?y] => is_var x; destruct (Z.eqb_spec x y) end; subst; cbn [andb]; try lia;
    first [ match goal with H : forall k, 0 <= k < nip -> _ |- _ => apply H; unfold nip; lia end
          | apply K; intros ds k I Hk E'; cbn [In] in I; unfold nip in Hk;
            repeat (destruct I as [<-|I]; [cbn [fst snd] in E'; at3s; lia|]); destruct I ] end.

  Lemma loop1 a : zlen a = 6 * (nip * nip) -> exists a',
    copy_loop nip [ (fun j => p 1 j 0, fun j => p 0 j ni); (fun j => p 2 j 0, fun j => p 0 ni (ni - j)) ] a = Ok a'
    /\ zlen a' = 6 * (nip * nip)
    /\ (forall t j i, 0 <= j <= ni -> 0 <= i <= ni -> g a' t j i =
         if (t =? 1) && (i =? 0) then g a 0 j ni
         else if (t =? 2) && (i =? 0) then g a 0 ni (ni - j) else g a t j i).
  Proof. intros L. loop_tac L. Qed.
  Lemma loop2 a : zlen a = 6 * (nip * nip) -> exists a',
    copy_loop nip [ (fun i => p 4 ni i, fun i => p 0 (ni - i) 0); (fun i => p 5 ni i, fun i => p 0 0 i);
                    (fun i => p 2 0 i, fun i => p 1 ni i); (fun i => p 3 0 i, fun i => p 1 (ni - i) ni) ] a = Ok a'
    /\ zlen a' = 6 * (nip * nip)
    /\ (forall t j i, 0 <= j <= ni -> 0 <= i <= ni -> g a' t j i =
         if (t =? 4) && (j =? ni) then g a 0 (ni - i) 0
         else if (t =? 5) && (j =? ni) then g a 0 0 i
         else if (t =? 2) && (j =? 0) then g a 1 ni i
         else if (t =? 3) && (j =? 0) then g a 1 (ni - i) ni else g a t j i).
  Proof. intros L. loop_tac L. Qed.
  Lemma loop3 a : zlen a = 6 * (nip * nip) -> exists a',
    copy_loop nip [ (fun j => p 5 j ni, fun j => p 1 0 (ni - j)); (fun j => p 3 j 0, fun j => p 2 j ni);
                    (fun j => p 4 j 0, fun j => p 2 ni (ni - j)) ] a = Ok a'
    /\ zlen a' = 6 * (nip * nip)
    /\ (forall t j i, 0 <= j <= ni -> 0 <= i <= ni -> g a' t j i =
         if (t =? 5) && (i =? ni) then g a 1 0 (ni - j)
         else if (t =? 3) && (i =? 0) then g a 2 j ni
         else if (t =? 4) && (i =? 0) then g a 2 ni (ni - j) else g a t j i).
  Proof. intros L. loop_tac L. Qed.
  Lemma loop4 a : zlen a = 6 * (nip * nip) -> exists a',
    copy_loop nip [ (fun i => p 4 0 i, fun i => p 3 ni i); (fun i => p 5 0 i, fun i => p 3 (ni - i) ni) ] a = Ok a'
    /\ zlen a' = 6 * (nip * nip)
    /\ (forall t j i, 0 <= j <= ni -> 0 <= i <= ni -> g a' t j i =
         if (t =? 4) && (j =? 0) then g a 3 ni i
         else if (t =? 5) && (j =? 0) then g a 3 (ni - i) ni else g a t j i).
  Proof. intros L. loop_tac L. Qed.
  Lemma loop5 a : zlen a = 6 * (nip * nip) -> exists a',
    copy_loop nip [ (fun j => p 5 j 0, fun j => p 4 j ni) ] a = Ok a'
    /\ zlen a' = 6 * (nip * nip)
    /\ (forall t j i, 0 <= j <= ni -> 0 <= i <= ni -> g a' t j i =
         if (t =? 5) && (i =? 0) then g a 4 j ni else g a t j i).
  Proof. intros L. loop_tac L. Qed.

  (** The point of the edge or corner (j, i) of tile t. *)
  Definition spoint (n : Z) (s : side) (k : Z) : Z * Z :=
    match s with South => (0, k) | North => (n, k) | West => (k, 0) | East => (k, n) end.

  Lemma join_run a : zlen a = 6 * (nip * nip) -> exists a', join_tiles ni a = Ok a' /\ zlen a' = 6 * (nip * nip)
    /\ (forall t s t' s' r k, In (t, s, t', s', r) cube_edges -> 0 <= k <= ni ->
         g a' t (fst (spoint ni s k)) (snd (spoint ni s k))
         = g a' t' (fst (spoint ni s' (if r then ni - k else k))) (snd (spoint ni s' (if r then ni - k else k))))
    /\ (forall t j i, 0 < j < ni -> 0 < i < ni -> g a' t j i = g a t j i)
    /\ (forall j i, 0 <= j <= ni -> 0 <= i <= ni -> g a' 0 j i = g a 0 j i).
  Proof.
    intros L. unfold join_tiles. fold nip. fold p.
    destruct (loop1 a L) as (a1 & E1 & L1 & G1). rewrite E1. cbn [bind].
    destruct (loop2 a1 L1) as (a2 & E2 & L2 & G2). rewrite E2. cbn [bind].
    destruct (loop3 a2 L2) as (a3 & E3 & L3 & G3). rewrite E3. cbn [bind].
    destruct (loop4 a3 L3) as (a4 & E4 & L4 & G4). rewrite E4. cbn [bind].
    destruct (loop5 a4 L4) as (a5 & E5 & L5 & G5). rewrite E5.
    exists a5. split; auto. split; auto. clear E1 E2 E3 E4 E5.
    split; [|split].
    - intros t s t' s' r k I Hk. unfold cube_edges in I; cbn [In] in I.
      assert (HK : k = 0 \/ k = ni \/ 0 < k < ni) by lia.
      repeat (destruct I as [I|I]; [injection I as <- <- <- <- <-; cbn [spoint fst snd]|]); [..|destruct I].
      all: destruct HK as [->|[->|HK]];
           repeat match goal with
           | |- context [?x =? ?y] => destruct (Z.eqb_spec x y); [try lia|try lia]; cbn [andb]
           | G : forall t j i, 0 <= j <= ni -> 0 <= i <= ni -> g ?b t j i = _ |- context [g ?b _ _ _] => rewrite G by lia; cbn [Z.eqb Pos.eqb andb]
           end; try reflexivity; try (f_equal; lia).
    - intros t j i Hj Hi.
      repeat match goal with
           | |- context [?x =? ?y] => destruct (Z.eqb_spec x y); [try lia|try lia]; cbn [andb]
           | G : forall t j i, 0 <= j <= ni -> 0 <= i <= ni -> g ?b t j i = _ |- context [g ?b _ _ _] => rewrite G by lia; cbn [Z.eqb Pos.eqb andb]
           end; reflexivity.
    - intros j i Hj Hi.
      do 5 (match goal with G : forall t j i, 0 <= j <= ni -> 0 <= i <= ni -> g ?b t j i = _ |- context [g ?b _ _ _] => rewrite G by lia; cbn [Z.eqb Pos.eqb andb] end).
      reflexivity.
  Qed.
End join.
