From Coq Require Import Reals Lra.
From Verif Require Import Base Loops Vec M_Interp Spec_Interp P_Interp M_Contact M_AlignContact Spec_AlignContact Lst.
Open Scope Z_scope.

(** A loop that stops at the first hit *)
Lemma ofor_find {A} (N : Z) (T : Z -> bool) (V : Z -> A) (body : option A -> Z -> outcome (option A)) :
  0 <= N ->
  (forall n v, 0 <= n < N -> body (Some v) n = Ok (Some v)) ->
  (forall n, 0 <= n < N -> body None n = Ok (if T n then Some (V n) else None)) ->
  (exists n, 0 <= n < N /\ T n = true /\ (forall m, 0 <= m < n -> T m = false) /\ ofor 0 N body None = Ok (Some (V n))) \/
  ((forall m, 0 <= m < N -> T m = false) /\ ofor 0 N body None = Ok None).
Proof.
  intros HN H1 H2.
  set (P := fun (i : Z) (st : option A) =>
    (exists n, 0 <= n < i /\ T n = true /\ (forall m, 0 <= m < n -> T m = false) /\ st = Some (V n)) \/
    ((forall m, 0 <= m < i -> T m = false) /\ st = None)).
  destruct (ofor_inv P body 0 N None HN) as (st & E & [(n & A1 & A2 & A3 & ->)|(A1 & ->)]).
  - right. split; auto. intros; lia.
  - intros i st Hi [(n & A1 & A2 & A3 & ->)|(A1 & ->)].
    + exists (Some (V n)). split; [apply H1; lia|]. left. exists n. repeat split; auto; lia.
    + rewrite H2 by lia. eexists. split; [reflexivity|]. destruct (T i) eqn:Ti.
      * left. exists i. repeat split; auto; lia.
      * right. split; auto. intros m Hm. destruct (Z.eq_dec m i) as [->|]; auto. apply A1. lia.
  - left. exists n. repeat split; auto; lia.
  - right. split; auto.
Qed.

Lemma coincident_spec x1 y1 x2 y2 px py : coincident x1 y1 x2 y2 px py = true <-> same_coord px x1 x2 /\ same_coord py y1 y2.
Proof.
  unfold coincident, same_coord, EPSLN. rewrite andb_true_iff.
  assert (K : forall d p, rlt (Rmin d (Rabs (d - p))) (/ 10000000000) = true <-> (d < / 10000000000 \/ Rabs (d - p) < / 10000000000)%R).
  { intros d p. destruct (rlt_spec (Rmin d (Rabs (d - p))) (/ 10000000000)) as [H|H]; split; intros; auto; try discriminate.
    - unfold Rmin in H. destruct (Rle_dec d (Rabs (d - p))); auto.
    - exfalso. apply H. unfold Rmin. destruct (Rle_dec d (Rabs (d - p))); lra. }
  rewrite !K. tauto.
Qed.

Section search.
Variables (n1 n2 : Z) (x1 y1 x2 y2 : list R) (px py : R).
Hypotheses (L1 : zlen x1 = n1) (L2 : zlen y1 = n1) (L3 : zlen x2 = n2) (L4 : zlen y2 = n2).
Notation M := (meets x1 y1 x2 y2 px py).

Lemma search_run ix1 ix2 : 0 <= n1 -> 0 <= n2 ->
  (forall n, 0 <= n < n1 -> 0 <= ix1 n < n1) -> (forall n, 0 <= n < n2 -> 0 <= ix2 n < n2) ->
  (exists a b, 0 <= a < n1 /\ 0 <= b < n2 /\ M (ix1 a) (ix2 b) /\
     (forall c d, 0 <= c < n1 -> 0 <= d < n2 -> before2 c d a b -> ~ M (ix1 c) (ix2 d)) /\
     search n1 n2 ix1 ix2 x1 y1 x2 y2 px py = Ok (Some (ix1 a + 1, ix2 b + 1))) \/
  ((forall c d, 0 <= c < n1 -> 0 <= d < n2 -> ~ M (ix1 c) (ix2 d)) /\
     search n1 n2 ix1 ix2 x1 y1 x2 y2 px py = Ok None).
Proof.
  intros H1 H2 I1 I2. unfold search.
  rewrite (ofor_nest n1 n2 (fun st n1 n2 => match st with Some _ => Ok st | None =>
      let i1 := ix1 n1 in let i2 := ix2 n2 in
      do a1 <- oget x1 i1 ; do a2 <- oget x2 i2 ; do b1 <- oget y1 i1 ; do b2 <- oget y2 i2 ;
      Ok (if coincident a1 b1 a2 b2 px py then Some (i1 + 1, i2 + 1) else None) end)) by auto.
  set (T := fun c d => coincident (at_ x1 (ix1 c)) (at_ y1 (ix1 c)) (at_ x2 (ix2 d)) (at_ y2 (ix2 d)) px py).
  assert (HT : forall c d, T c d = true <-> M (ix1 c) (ix2 d)) by (intros; apply coincident_spec).
  assert (HT' : forall c d, T c d = false <-> ~ M (ix1 c) (ix2 d)).
  { intros c d. rewrite <- HT. destruct (T c d); split; congruence. }
  match goal with |- context [ofor 0 ?N ?b None] =>
    destruct (ofor_find N (fun n => T (n / n2) (n mod n2)) (fun n => (ix1 (n / n2) + 1, ix2 (n mod n2) + 1)) b) as [(n & A1 & A2 & A3 & E)|(A & E)] end.
  - nia.
  - auto.
  - intros n Hn. destruct (divmod_range n1 n2 n H2 Hn) as (Q0 & Q1 & Q2 & _). cbv zeta.
    specialize (I1 _ Q1). specialize (I2 _ Q2).
    rewrite !get_at by lia. cbn [bind]. unfold T. reflexivity.
  - left. destruct (divmod_range n1 n2 n H2 A1) as (Q0 & Q1 & Q2 & Q3).
    exists (n / n2), (n mod n2). split; auto. split; auto. split; [now apply HT|]. split; auto.
    intros c d Hc Hd Hb. apply HT'.
    specialize (A3 (c * n2 + d)). cbv beta in A3. rewrite rowmajor_div, rowmajor_mod in A3 by lia. apply A3.
    split; [nia|]. rewrite Q3. unfold before2 in Hb. destruct Hb as [Hb|[-> Hb]]; nia.
  - right. split; auto. intros c d Hc Hd. apply HT'.
    specialize (A (c * n2 + d)). cbv beta in A. rewrite rowmajor_div, rowmajor_mod in A by lia. apply A. nia.
Qed.

(** The result in terms of the first and the last meeting pair *)
Lemma first_run : 0 <= n1 -> 0 <= n2 ->
  (exists a b, 0 <= a < n1 /\ 0 <= b < n2 /\ M a b /\
     (forall c d, 0 <= c < n1 -> 0 <= d < n2 -> before2 c d a b -> ~ M c d) /\
     search n1 n2 (fun n => n) (fun n => n) x1 y1 x2 y2 px py = Ok (Some (a + 1, b + 1))) \/
  ((forall c d, 0 <= c < n1 -> 0 <= d < n2 -> ~ M c d) /\
     search n1 n2 (fun n => n) (fun n => n) x1 y1 x2 y2 px py = Ok None).
Proof. intros. apply (search_run (fun n => n) (fun n => n)); auto. Qed.
Lemma last_run : 0 <= n1 -> 0 <= n2 ->
  (exists a b, 0 <= a < n1 /\ 0 <= b < n2 /\ M a b /\
     (forall c d, 0 <= c < n1 -> 0 <= d < n2 -> before2 a b c d -> ~ M c d) /\
     search n1 n2 (fun n => n1 - 1 - n) (fun n => n2 - 1 - n) x1 y1 x2 y2 px py = Ok (Some (a + 1, b + 1))) \/
  ((forall c d, 0 <= c < n1 -> 0 <= d < n2 -> ~ M c d) /\
     search n1 n2 (fun n => n1 - 1 - n) (fun n => n2 - 1 - n) x1 y1 x2 y2 px py = Ok None).
Proof.
  intros H1 H2. destruct (search_run (fun n => n1 - 1 - n) (fun n => n2 - 1 - n)) as [(a & b & Ha & Hb & Hm & Hl & E)|(Hn & E)]; auto; try lia.
  - left. exists (n1 - 1 - a), (n2 - 1 - b). split; [lia|]. split; [lia|]. split; auto. split; auto.
    intros c d Hc Hd Hb2. replace c with (n1 - 1 - (n1 - 1 - c)) by lia. replace d with (n2 - 1 - (n2 - 1 - d)) by lia.
    apply Hl; try lia. unfold before2 in *. lia.
  - right. split; auto. intros c d Hc Hd. replace c with (n1 - 1 - (n1 - 1 - c)) by lia. replace d with (n2 - 1 - (n2 - 1 - d)) by lia.
    apply Hn; lia.
Qed.

Definition shrink (p q : Z) : Z * Z := if p + 1 >? q + 1 then (p + 1 - 1, q + 1) else (p + 1, q + 1 - 1).
Lemma shrink_cells p q : p <> q -> cells_between p q (fst (shrink p q)) (snd (shrink p q)).
Proof. intros H. unfold shrink, cells_between. destruct (p + 1 >? q + 1) eqn:E; cbn [fst snd]; lia. Qed.

Lemma contact_index_run : 0 <= n1 -> 0 <= n2 ->
  (exists a b c d, 0 <= a < n1 /\ 0 <= b < n2 /\ 0 <= c < n1 /\ 0 <= d < n2 /\ M a b /\ M c d /\
     (forall i j, 0 <= i < n1 -> 0 <= j < n2 -> M i j -> ~ before2 i j a b /\ ~ before2 c d i j) /\
     get_contact_index n1 n2 x1 y1 x2 y2 px py =
       Ok (if (a =? c) || (b =? d) then None else Some (fst (shrink a c), snd (shrink a c), fst (shrink b d), snd (shrink b d)))) \/
  ((forall c d, 0 <= c < n1 -> 0 <= d < n2 -> ~ M c d) /\ get_contact_index n1 n2 x1 y1 x2 y2 px py = Ok None).
Proof.
  intros H1 H2. unfold get_contact_index.
  destruct (first_run H1 H2) as [(a & b & Ha & Hb & Hm & Hl & E)|(Hn & E)]; rewrite E; cbn [bind].
  2: { right. auto. }
  destruct (last_run H1 H2) as [(c & d & Hc & Hd & Hm' & Hl' & E')|(Hn & E')]; rewrite E'; cbn [bind].
  2: { exfalso. exact (Hn a b Ha Hb Hm). }
  left. exists a, b, c, d. repeat (split; [assumption|]). split.
  - intros i j Hi Hj Hmm. split; intros X; [exact (Hl i j Hi Hj X Hmm)|exact (Hl' i j Hi Hj X Hmm)].
  - replace (a + 1 =? c + 1) with (a =? c) by lia. replace (b + 1 =? d + 1) with (b =? d) by lia.
    destruct ((a =? c) || (b =? d)); auto. unfold shrink. destruct (a + 1 >? c + 1), (b + 1 >? d + 1); reflexivity.
Qed.
End search.

(** The edges *)
Lemma bound_run e (g : list R) nx ny : 0 <= nx -> 0 <= ny -> (0 < edge_size e nx ny -> 0 < nx /\ 0 < ny) -> zlen g = nx * ny ->
  exists b, bound e g nx ny = Ok b /\ zlen b = edge_size e nx ny /\
    forall k, 0 <= k < edge_size e nx ny -> at_ b k = at_ g (edge_point e nx ny k).
Proof.
  intros Hx Hy Hp L.
  assert (G : forall N (ix : Z -> Z) , 0 <= N -> (forall k, 0 <= k < N -> 0 <= ix k < zlen g) ->
     exists b, ofor 0 N (fun b i => do v <- oget g (ix i) ; Ok (b ++ [v])) [] = Ok b /\ zlen b = N /\ forall k, 0 <= k < N -> at_ b k = at_ g (ix k)).
  { intros N ix HN Hi.
    rewrite (ofor_ext 0 N _ (fun b i => Ok (b ++ [at_ g (ix i)]))).
    2: { intros b i H. rewrite get_at by (apply Hi; lia). reflexivity. }
    rewrite (ofor_grow N _ (fun i => at_ g (ix i))) by auto.
    exists (map (fun i => at_ g (ix i)) (zseq 0 N)). split; auto. destruct (vec_map (fun i => at_ g (ix i)) N HN) as [V1 V2].
    split; auto. intros k Hk. apply at_zget. auto. }
  destruct e; cbn [bound edge_size edge_point] in *.
  - apply (G ny (fun i => i * nx)); auto. intros k Hk. rewrite L. nia.
  - apply (G ny (fun i => i * nx + nx - 1)); auto. intros k Hk. rewrite L. nia.
  - apply (G nx (fun i => i)); auto. intros k Hk. rewrite L. nia.
  - apply (G nx (fun i => (ny - 1) * nx + i)); auto. intros k Hk. rewrite L. nia.
Qed.
