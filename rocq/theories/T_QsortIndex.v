(** * C42: sorting with an index array *)
From Coq Require Import Reals Lra.
From Verif Require Import Base Loops Vec M_Interp Spec_Interp P_Interp P_Interp2 M_QsortIndex Spec_Sort P_QsortIndex.
Open Scope Z_scope.

(** For every part s..e of an array: the sort ends (recursion depth at most e-s), the part is
    sorted, both arrays are rearranged in the same way and nothing else changes. *)
Theorem C42_sorts_part : forall fuel array start end_ rank,
  0 <= start -> end_ < zlen array -> end_ < zlen rank -> end_ - start <= Z.of_nat fuel ->
  exists array' rank', qsort_index fuel array start end_ rank = Ok (array', rank') /\
    sorted_on start end_ array' /\ zlen array' = zlen array /\ zlen rank' = zlen rank /\
    exists f, rearranges start end_ f /\ forall i, zget array' i = zget array (f i) /\ zget rank' i = zget rank (f i).
Proof.
  intros fuel a s e k Hs Ha Hk Hf. destruct (qsort_run fuel a k s e) as (a' & k' & E & (L1 & L2 & f & Hfp & He) & So); auto.
  exists a', k'. repeat split; auto. exists f. auto.
Qed.
(** Called as the tool does, with the identity in the index array: the index array lists every
    position once, and tells for each sorted position where its element was. *)
Theorem C42_index : forall array rank n,
  zlen array = n -> zlen rank = n -> (forall i, 0 <= i < n -> zget rank i = Some i) ->
  exists array' rank', qsort_index (Z.to_nat n) array 0 (n - 1) rank = Ok (array', rank') /\ zlen array' = n /\
    sorted_on 0 (n - 1) array' /\ index_perm n rank' /\
    forall i k, 0 <= i < n -> zget rank' i = Some k -> zget array' i = zget array k.
Proof.
  intros a k n La Lk Hid. pose proof (zlen_nonneg a).
  destruct (C42_sorts_part (Z.to_nat n) a 0 (n - 1) k) as (a' & k' & E & So & L1 & L2 & f & Hf & He); try lia.
  assert (Hin : forall i, 0 <= i < n -> 0 <= f i < n). { intros i Hi. pose proof (rearr_in _ _ _ i Hf). lia. }
  assert (Hk : forall i, 0 <= i < n -> zget k' i = Some (f i)). { intros i Hi. rewrite (proj2 (He i)). apply Hid, Hin, Hi. }
  exists a', k'. split; auto. split; [lia|]. split; auto. destruct Hf as [Hout (g & Hg)]. split.
  - split; [lia|]. split; [|split].
    + intros v Hv. assert (Hg' : rearranges 0 (n - 1) g). { split; [|exists f; intros i; destruct (Hg i); auto]. intros i Hi. rewrite <- (Hout i Hi) at 1. apply Hg. }
      exists (g v). pose proof (rearr_in _ _ _ v Hg'). split; [lia|]. rewrite Hk by lia. now rewrite (proj2 (Hg v)).
    + intros i Hi. exists (f i). auto.
    + intros i j v Ei Ej. pose proof (zget_Some_range _ _ _ Ei). pose proof (zget_Some_range _ _ _ Ej).
      rewrite Hk in Ei, Ej by lia. assert (f i = f j) by congruence. rewrite <- (proj1 (Hg i)), <- (proj1 (Hg j)). congruence.
  - intros i v Hi Ev. rewrite Hk in Ev by auto. injection Ev as <-. apply He.
Qed.
(** A concrete run with equal elements and the largest first. *)
Example C42_example : exists array' rank', qsort_index 3 [7; 2; 7]%R 0 2 [0; 1; 2] = Ok (array', rank') /\ sorted_on 0 2 array' /\ index_perm 3 rank'.
Proof.
  destruct (C42_index [7; 2; 7]%R [0; 1; 2] 3) as (a & r & E & _ & So & P & _); auto.
  - intros i Hi. assert (i = 0 \/ i = 1 \/ i = 2) as [-> | [-> | ->]] by lia; reflexivity.
  - exists a, r. auto.
Qed.
Print Assumptions C42_index.
