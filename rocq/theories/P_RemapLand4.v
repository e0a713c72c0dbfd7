(** * Proofs about remap_land: compressing and gathering *)
From Coq Require Import Reals Lra.
From Verif Require Import Base Loops Lst Vec Grid2 M_RemapLand.
Open Scope Z_scope.

Lemma flat_map_app {A B} (f : A -> list B) l l' : flat_map f (l ++ l') = flat_map f l ++ flat_map f l'.
Proof. induction l as [|x l IH]; cbn; auto. now rewrite IH, app_assoc. Qed.
Lemma flat_map_ext_in {A B} (f g : A -> list B) l : (forall x, In x l -> f x = g x) -> flat_map f l = flat_map g l.
Proof. induction l as [|x l IH]; intros H; cbn; auto. rewrite (H x) by (cbn; auto). f_equal. apply IH. intros y Hy. apply H. cbn; auto. Qed.
Lemma flat_map_map {A B C} (f : B -> list C) (g : A -> B) l : flat_map f (map g l) = flat_map (fun x => f (g x)) l.
Proof. induction l as [|x l IH]; cbn; auto. now rewrite IH. Qed.
Lemma flat_map_nested {A B C} (f : B -> list C) (g : A -> list B) l : flat_map f (flat_map g l) = flat_map (fun x => flat_map f (g x)) l.
Proof. induction l as [|x l IH]; cbn; auto. now rewrite flat_map_app, IH. Qed.
Lemma map_flat_map {A B C} (f : B -> C) (g : A -> list B) l : map f (flat_map g l) = flat_map (fun x => map f (g x)) l.
Proof. induction l as [|x l IH]; cbn; auto. now rewrite map_app, IH. Qed.
Lemma flat_map_empty {A B} (f : A -> list B) l : (forall x, In x l -> f x = []) -> flat_map f l = [].
Proof. induction l as [|x l IH]; intros H; cbn; auto. rewrite H by (cbn; auto). apply IH. intros; apply H; cbn; auto. Qed.
Lemma flat_map_swap_len {A B C} (f : A -> B -> list C) l1 l2 :
  zlen (flat_map (fun a => flat_map (f a) l2) l1) = zlen (flat_map (fun b => flat_map (fun a => f a b) l1) l2).
Proof.
  induction l1 as [|a l1 IH]; cbn.
  - symmetry. rewrite flat_map_empty; auto.
  - rewrite zlen_app, IH. clear IH. induction l2 as [|b l2 IH]; cbn; [reflexivity|]. rewrite !zlen_app in *. lia.
Qed.
Lemma zseq_map lo n : zseq lo n = map (fun i => lo + i) (zseq 0 n).
Proof.
  destruct (Z.lt_ge_cases n 0); [now rewrite !zseq_nonpos by lia|]. apply zget_ext.
  - rewrite zlen_map, !zlen_zseq by lia. reflexivity.
  - intros i Hi. rewrite zlen_zseq in Hi by lia. rewrite zget_map, !zget_zseq by lia. cbn [option_map]. f_equal.
Qed.
Lemma firstn_exact {A} (l l' : list A) : firstn (length l) (l ++ l') = l.
Proof. rewrite firstn_app, Nat.sub_diag, firstn_all. cbn. apply app_nil_r. Qed.
Lemma skipn_exact {A} (l l' : list A) : skipn (length l) (l ++ l') = l'.
Proof. rewrite skipn_app, Nat.sub_diag, skipn_all. reflexivity. Qed.

Lemma skipn_skipn {A} a b (l : list A) : skipn a (skipn b l) = skipn (b + a) l.
Proof. revert l. induction b as [|b IH]; intros [|x l]; cbn; auto. now rewrite skipn_nil. Qed.

Section Compress.
  Context {A : Type}.
  Variables (is_fill : A -> bool) (init : option A) (ntile : Z) (all : bool).
  Hypothesis Ht : 0 <= ntile.

  (** What is handed over for tile [n] of cell [i]. *)
  Definition emit (C : Z -> Z) (V : Z -> Z -> A) (n i : Z) : list (option A) :=
    if n <? C i then if is_fill (V n i) then if all then [init] else [] else [Some (V n i)] else [].

  Section Local.
    Variables (npts nidx : Z) (count : list Z) (data : list A) (C : Z -> Z) (V : Z -> Z -> A).
    Hypothesis Hp : 0 <= npts.
    Hypothesis HC : vec count npts C.
    Hypothesis HV : fields data ntile npts V.
    Let seg n := flat_map (emit C V n) (zseq 0 npts).
    Hypothesis Hidx : zlen (flat_map seg (zseq 0 ntile)) <= nidx.

    Definition lst (pre : list (option A)) : list (option A) := pre ++ repeat init (Z.to_nat (nidx - zlen pre)).

    Lemma compress_local_run : compress_local is_fill init ntile npts nidx count data all = Ok (map seg (zseq 0 ntile)).
    Proof.
      unfold compress_local.
      match goal with |- context [ofor 0 ntile ?f ?s] =>
        destruct (ofor_inv (fun n st => st = (lst (flat_map seg (zseq 0 n)), zlen (flat_map seg (zseq 0 n)), map seg (zseq 0 n))) f 0 ntile s Ht) as (st & E & HI) end.
      - change (flat_map seg (zseq 0 0)) with (@nil (option A)). unfold lst. change (zlen (@nil (option A))) with 0. rewrite Z.sub_0_r. reflexivity.
      - intros n st Hn ->. rewrite Z.add_0_l in Hn. set (pre := flat_map seg (zseq 0 n)).
        assert (zlen pre + zlen (seg n) <= nidx) as Hb.
        { transitivity (zlen (flat_map seg (zseq 0 ntile))); auto. replace ntile with (n + (1 + (ntile - n - 1))) by lia.
          rewrite zseq_app by lia. rewrite Z.add_0_l, zseq_app by lia. change (zseq n 1) with [n]. rewrite !flat_map_app, !zlen_app. cbn [flat_map]. rewrite app_nil_r. fold pre.
          pose proof (zlen_nonneg (flat_map seg (zseq (n + 1) (ntile - n - 1)))). lia. }
        match goal with |- context [ofor 0 npts ?f ?s] =>
          destruct (ofor_inv (fun i st => st = (lst (pre ++ flat_map (emit C V n) (zseq 0 i)), zlen (pre ++ flat_map (emit C V n) (zseq 0 i)))) f 0 npts s Hp) as (st & E & HI) end.
        + cbn. now rewrite app_nil_r.
        + intros i st Hi ->. rewrite Z.add_0_l in Hi. rewrite (vec_get _ _ _ _ HC) by lia. cbn [bind].
          set (q := pre ++ flat_map (emit C V n) (zseq 0 i)).
          assert (pre ++ flat_map (emit C V n) (zseq 0 (i + 1)) = q ++ emit C V n i) as Eq.
          { unfold q. rewrite zseq_snoc by lia. rewrite Z.add_0_l, flat_map_app. cbn [flat_map]. now rewrite app_nil_r, app_assoc. }
          rewrite Eq.
          assert (zlen (q ++ emit C V n i) <= nidx) as Hq.
          { rewrite <- Eq. rewrite zlen_app. transitivity (zlen pre + zlen (seg n)); auto. unfold seg.
            replace npts with (i + 1 + (npts - i - 1)) by lia. rewrite (zseq_app 0 (i + 1)) by lia. rewrite flat_map_app, zlen_app.
            pose proof (zlen_nonneg (flat_map (emit C V n) (zseq (0 + (i + 1)) (npts - i - 1)))). lia. }
          unfold emit in *. destruct (n <? C i).
          2: { rewrite app_nil_r. eexists; split; [reflexivity|auto]. }
          rewrite (Z.mul_comm ntile i). rewrite (fields_get _ _ _ _ _ _ HV) by lia. cbn [bind].
          assert (forall o, zlen (q ++ [o]) <= nidx -> exists w, Z.to_nat (nidx - zlen q) = S w /\ Z.to_nat (nidx - zlen (q ++ [o])) = w) as Hw.
          { intros o Ho. rewrite zlen_app in *. change (zlen [o]) with 1 in *. exists (Z.to_nat (nidx - zlen q - 1)). split; lia. }
          destruct (is_fill (V n i)).
          * destruct all.
            -- eexists; split; [reflexivity|]. destruct (Hw init Hq) as (w & W1 & W2). unfold lst. rewrite W1, W2. cbn [repeat]. rewrite <- app_assoc. cbn [app].
               rewrite zlen_app. reflexivity.
            -- rewrite app_nil_r. eexists; split; [reflexivity|auto].
          * destruct (Hw _ Hq) as (w & W1 & W2). unfold lst. rewrite W1, W2. cbn [repeat]. rewrite oset_middle. cbn [bind].
            eexists; split; [reflexivity|]. rewrite <- app_assoc, zlen_app. reflexivity.
        + rewrite E. cbn [bind]. rewrite Z.add_0_l in HI. rewrite HI. cbn [fst snd].
          change (flat_map (emit C V n) (zseq 0 npts)) with (seg n). eexists; split; [reflexivity|].
          rewrite (zseq_snoc 0 n) by lia. rewrite Z.add_0_l, flat_map_app, map_app. fold pre. cbn [flat_map map]. rewrite app_nil_r. f_equal. f_equal. f_equal.
          unfold lst. rewrite zlen_app. replace (Z.to_nat (zlen pre)) with (length pre) by (unfold zlen; lia). rewrite <- app_assoc, skipn_exact.
          replace (Z.to_nat (zlen pre + zlen (seg n) - zlen pre)) with (length (seg n)) by (unfold zlen; lia). apply firstn_exact.
      - rewrite E. cbn [bind]. rewrite Z.add_0_l in HI. rewrite HI. reflexivity.
    Qed.
  End Local.

  Lemma gather_run {B} (pre old : list B) parts : zlen (concat parts) <= zlen old ->
    gather (pre ++ old) (zlen pre) parts = Ok ((pre ++ concat parts) ++ skipn (length (concat parts)) old, zlen (pre ++ concat parts)).
  Proof.
    unfold gather. generalize (concat parts). intros vs. revert pre old. induction vs as [|v vs IH]; intros pre old H.
    - cbn. now rewrite app_nil_r.
    - destruct old as [|o old]; [rewrite zlen_cons, zlen_nil in H; pose proof (zlen_nonneg vs); lia|]. cbn [ofold]. rewrite oset_middle. cbn [bind].
      replace (pre ++ v :: old) with ((pre ++ [v]) ++ old) by now rewrite <- app_assoc.
      replace (zlen pre + 1) with (zlen (pre ++ [v])) by (rewrite zlen_app; reflexivity).
      rewrite IH by (rewrite !zlen_cons in H; lia). cbn [length skipn]. now rewrite <- !app_assoc.
  Qed.

  Lemma compress_global_run {P} (pes : list P) (seg : P -> Z -> list (option A)) global :
    zlen (flat_map (fun n => flat_map (fun p => seg p n) pes) (zseq 0 ntile)) <= zlen global ->
    compress_global ntile global (map (fun p => map (seg p) (zseq 0 ntile)) pes) =
    Ok (flat_map (fun n => flat_map (fun p => seg p n) pes) (zseq 0 ntile) ++ skipn (length (flat_map (fun n => flat_map (fun p => seg p n) pes) (zseq 0 ntile))) global).
  Proof.
    intros HL. unfold compress_global. set (row := fun n => flat_map (fun p => seg p n) pes) in *.
    match goal with |- context [ofor 0 ntile ?f ?s] =>
      destruct (ofor_inv (fun n st => st = (flat_map row (zseq 0 n) ++ skipn (length (flat_map row (zseq 0 n))) global, zlen (flat_map row (zseq 0 n)))) f 0 ntile s Ht) as (st & E & HI) end.
    - reflexivity.
    - intros n st Hn ->. rewrite Z.add_0_l in Hn.
      assert (forall q acc, ofold (fun acc segs => do s <- oget segs n ; Ok (acc ++ [s])) (map (fun p => map (seg p) (zseq 0 ntile)) q) acc = Ok (acc ++ map (fun p => seg p n) q)) as EP.
      { induction q as [|p q IH]; intros acc; cbn [map ofold]; [now rewrite app_nil_r|].
        rewrite (proj2 (oget_Ok _ n (seg p n))) by (rewrite zget_map, zget_zseq by lia; cbn; f_equal; f_equal; lia). cbn [bind]. rewrite IH. now rewrite <- app_assoc. }
      rewrite EP. cbn [bind app].
      assert (concat (map (fun p => seg p n) pes) = row n) as Ec by (unfold row; now rewrite flat_map_concat_map).
      set (old := skipn (length (flat_map row (zseq 0 n))) global).
      assert (zlen (row n) <= zlen old) as Hb.
      { revert HL. replace ntile with (n + (1 + (ntile - n - 1))) by lia. rewrite zseq_app by lia. rewrite Z.add_0_l, zseq_app by lia. change (zseq n 1) with [n].
        rewrite !flat_map_app, !zlen_app. cbn [flat_map]. rewrite app_nil_r. pose proof (zlen_nonneg (flat_map row (zseq (n + 1) (ntile - n - 1)))).
        unfold old, zlen in *. rewrite skipn_length. lia. }
      rewrite gather_run by (rewrite Ec; exact Hb). rewrite Ec. eexists; split; [reflexivity|].
      rewrite zseq_snoc by lia. rewrite Z.add_0_l, flat_map_app. cbn [flat_map]. rewrite app_nil_r. f_equal. f_equal. unfold old. rewrite skipn_skipn, app_length. reflexivity.
    - rewrite E. cbn [bind]. rewrite Z.add_0_l in HI. rewrite HI. reflexivity.
  Qed.
End Compress.

Section Write.
  Context {A : Type}.
  Variables (ft : ftype) (z : input) (is_fill : A -> bool) (init global : option A) (values : pe_result -> outcome (list A)) (pes : list pe_result).
  Variables (N : Z) (C : Z -> Z) (V : Z -> Z -> A).
  Let ntile := i_ntile z.
  Let em := emit is_fill init (use_all_tile ft) C V.
  Hypothesis Ht : 0 <= ntile.
  Hypothesis Hwin : flat_map (fun r => zseq (r_isc r) (r_nxc r)) pes = zseq 0 N.
  Hypothesis Hpe : forall r, In r pes -> 0 <= r_nxc r /\ vec (r_count r) (r_nxc r) (fun i => C (r_isc r + i)) /\
    (exists d, values r = Ok d /\ fields d ntile (r_nxc r) (fun n i => V n (r_isc r + i))) /\
    zlen (flat_map (fun i => flat_map (fun n => em n i) (zseq 0 ntile)) (zseq (r_isc r) (r_nxc r))) <= r_nidx r.

  Lemma write_run : let out := flat_map (fun n => flat_map (em n) (zseq 0 N)) (zseq 0 ntile) in
    write ft z is_fill init global values pes = Ok (out ++ repeat global (Z.to_nat (fold_right Z.add 0 (map r_nidx pes) - zlen out))).
  Proof.
    intros out. unfold write. fold ntile. set (seg := fun r n => flat_map (em n) (zseq (r_isc r) (r_nxc r))).
    assert (forall r, In r pes -> zlen (flat_map (seg r) (zseq 0 ntile)) <= r_nidx r) as Hn.
    { intros r Hr. destruct (Hpe r Hr) as (_ & _ & _ & H). etransitivity; [|exact H]. unfold seg. rewrite (flat_map_swap_len em). lia. }
    assert (forall q acc, (forall r, In r q -> In r pes) -> ofold (fun acc r =>
      do d <- values r ;
      do segs <- compress_local is_fill init ntile (r_nxc r) (r_nidx r) (r_count r) d (use_all_tile ft) ; Ok (acc ++ [segs])) q acc =
      Ok (acc ++ map (fun r => map (seg r) (zseq 0 ntile)) q)) as EP.
    { induction q as [|r q IH]; intros acc Hq; cbn [ofold map]; [now rewrite app_nil_r|].
      destruct (Hpe r (Hq r (or_introl eq_refl))) as (H1 & H2 & (d & Ed & Hd) & _). rewrite Ed. cbn [bind].
      assert (forall n, flat_map (emit is_fill init (use_all_tile ft) (fun i => C (r_isc r + i)) (fun n i => V n (r_isc r + i)) n) (zseq 0 (r_nxc r)) = seg r n) as Es.
      { intros n. unfold seg. rewrite (zseq_map (r_isc r)), flat_map_map. reflexivity. }
      rewrite (compress_local_run is_fill init ntile (use_all_tile ft) Ht (r_nxc r) (r_nidx r) (r_count r) d _ _ H1 H2 Hd).
      - cbn [bind]. rewrite IH by (intros; apply Hq; cbn; auto). rewrite <- app_assoc. cbn [app]. f_equal. f_equal. f_equal. apply map_ext. exact Es.
      - rewrite (flat_map_ext_in _ (seg r)) by (intros n _; apply Es). apply Hn. apply Hq. cbn; auto. }
    rewrite EP by auto. cbn [bind app].
    assert (out = flat_map (fun n => flat_map (fun r => seg r n) pes) (zseq 0 ntile)) as Eo.
    { apply flat_map_ext_in. intros n _. rewrite <- Hwin. rewrite flat_map_nested. reflexivity. }
    assert (zlen out <= fold_right Z.add 0 (map r_nidx pes)) as Hlen.
    { rewrite Eo. rewrite (flat_map_swap_len (fun n r => seg r n)).
      clear Hwin EP Hpe out Eo. induction pes as [|r q IH]; [cbn; lia|]. cbn [flat_map map fold_right]. rewrite zlen_app.
      pose proof (Hn r (or_introl eq_refl)). specialize (IH ltac:(intros; apply Hn; cbn; auto)). change (fun n => seg r n) with (seg r). lia. }
    pose proof (zlen_nonneg out) as H0. set (tt := fold_right Z.add 0 (map r_nidx pes)) in *.
    rewrite compress_global_run; auto; rewrite <- Eo.
    - f_equal. f_equal. replace (Z.to_nat tt) with (length out + Z.to_nat (tt - zlen out))%nat by (unfold zlen in *; lia).
      rewrite repeat_app. rewrite <- (repeat_length global (length out)) at 1. apply skipn_exact.
    - unfold zlen at 2. rewrite repeat_length. lia.
  Qed.
End Write.
