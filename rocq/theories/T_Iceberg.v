(** * C51: iceberg_comb *)
From Coq Require Import String.
From Verif Require Import Base Str M_Restarts M_Iceberg.
Open Scope string_scope. Open Scope list_scope. Open Scope Z_scope.

Section C51.
Context {B : Type}.
Notation ifile := (@ifile B).
Implicit Types (d : @dir ifile).
(** An iceberg restart of a set of [n] files: readable, format version at least 0.1 *)
Definition restart_of (n : Z) (c : ifile) : Prop :=
  i_nc c = true /\ i_set c = Some n /\
  exists M, i_major c = Some M /\ (0 < M \/ (M = 0 /\ exists m, i_minor c = Some m /\ 1 <= m)).
(** The inputs are valid, as many as each of them says, and the output does not exist. *)
Definition acceptable d (ins : list str) (out : str) : Prop :=
  2 <= zlen ins /\ look d out = None /\ (forall f, In f ins -> exists c, look d f = Some c /\ restart_of (zlen ins) c).
(** The icebergs of a file *)
Definition bergs_of d (f : str) : list B := match look d f with Some c => i_bergs c | None => [] end.

Lemma check_spec c n : 0 < n -> (check_icebergs c = true /\ num_files c = n) <-> restart_of n c.
Proof.
  intros Hn. unfold check_icebergs, valid_version, restart_of, num_files. destruct (i_nc c); cbn [andb]; [|split; [intros [? _]; discriminate|intros (? & _); discriminate]].
  destruct (i_set c) as [s|], (i_major c) as [M|], (i_minor c) as [m|]; cbn [or_minus1]; split;
    try (intros (_ & Q & _); discriminate); try (intros (_ & _ & M' & Q & _); discriminate);
    rewrite ?andb_true_iff, ?orb_true_iff, ?andb_true_iff, ?Z.gtb_lt, ?Z.eqb_eq, ?Z.geb_le; try (intros; exfalso; lia).
  - intros [[[H|[H1 H2]] H3] <-]; (split; [auto|split; [auto|]]); exists M; split; auto. right. split; auto. exists m. auto.
  - intros (_ & Q & M' & QM & H). injection Q as <-. injection QM as <-. split; [|auto]. split; [|lia]. destruct H as [H|[H (m' & Qm & Hm)]]; [left; lia|right]. injection Qm as <-. lia.
  - intros [[[H|[H1 H2]] H3] <-]; [|lia]. split; [auto|split; [auto|]]. exists M. auto.
  - intros (_ & Q & M' & QM & H). injection Q as <-. injection QM as <-. split; [|auto]. split; [|lia]. destruct H as [H|[H (m' & Qm & Hm)]]; [left; lia|discriminate].
Qed.
Lemma contents_spec d fs : forall cs, contents d fs = Some cs -> Forall2 (fun f c => look d f = Some c) fs cs.
Proof.
  induction fs as [|f fs IH]; cbn; intros cs E; [injection E as <-; constructor|]. destruct (look d f) eqn:E1; [|discriminate]. destruct (contents d fs); [|discriminate].
  injection E as <-. constructor; auto.
Qed.
Lemma contents_some d fs : (forall f, In f fs -> look d f <> None) -> exists cs, contents d fs = Some cs.
Proof.
  induction fs as [|f fs IH]; cbn; intros H; [eauto|]. destruct IH as (cs & ->); [intros; apply H; auto|]. destruct (look d f) eqn:E; [eauto|]. elim (H f); auto.
Qed.
Lemma flat_filter (cs : list ifile) : flat_map i_bergs (filter has_icebergs cs) = flat_map i_bergs cs.
Proof. induction cs as [|c cs IH]; cbn; auto. unfold has_icebergs at 1. destruct (i_bergs c) eqn:E; cbn; [auto|]. rewrite E, IH. reflexivity. Qed.
Lemma flat_bergs d fs cs : Forall2 (fun f c => look d f = Some c) fs cs -> flat_map (bergs_of d) fs = flat_map i_bergs cs.
Proof. induction 1 as [|f c fs cs H _ IH]; cbn; auto. unfold bergs_of at 1. rewrite H, IH. reflexivity. Qed.
Lemma F2_in {X Y} (P : X -> Y -> Prop) l l' : Forall2 P l l' -> forall y, In y l' -> exists x, In x l /\ P x y.
Proof. induction 1 as [|x y l l' H _ IH]; intros z Hz; [destruct Hz|]. destruct Hz as [<-|Hz]; [exists x; split; [left|]; auto|]. destruct (IH z Hz) as (x' & ? & ?). exists x'. split; [right|]; auto. Qed.
Lemma F2_len {X Y} (P : X -> Y -> Prop) l l' : Forall2 P l l' -> zlen l = zlen l'.
Proof. induction 1; unfold zlen in *; cbn [List.length]; lia. Qed.

(** C51: with working utilities the script succeeds exactly on acceptable arguments; then the
    output, without the set attribute, holds the icebergs of all inputs in order, and
    every other file is untouched.  Otherwise nothing changes. *)
Theorem C51_combines d ins out :
  let U := {| ncrcat_ok := true; cp_ok := true; ncatted_ok := true |} in
  (acceptable d ins out /\ exists c d', iceberg_comb U d (ins ++ [out]) = (d', true) /\ look d' out = Some c /\
     i_bergs c = flat_map (bergs_of d) ins /\ i_set c = None /\ (forall n, n <> out -> look d' n = look d n)) \/
  (~ acceptable d ins out /\ iceberg_comb U d (ins ++ [out]) = (d, false)).
Proof.
  intros U. unfold iceberg_comb. rewrite last_last, removelast_last. rewrite zlen_app. change (zlen [out]) with 1.
  destruct (Z.ltb_spec (zlen ins + 1) 3) as [H|H]; [right; split; auto; intros (? & _); lia|].
  destruct (contents d ins) as [cs|] eqn:Ec.
  2:{ right. split; auto. intros (_ & _ & Ha). destruct (contents_some d ins) as (cs & E); [|congruence]. intros f Hf. destruct (Ha f Hf) as (c & -> & _). discriminate. }
  pose proof (contents_spec d ins cs Ec) as F. pose proof (F2_len _ _ _ F) as Hl.
  assert (A : forall c, In c cs -> acceptable d ins out -> check_icebergs c = true /\ num_files c = zlen ins).
  { intros c Hc (_ & _ & Ha). destruct (F2_in _ _ _ F c Hc) as (f & Hf & Ef). destruct (Ha f Hf) as (c' & Ef' & Hr). rewrite Ef in Ef'. injection Ef' as <-. apply check_spec; auto. lia. }
  destruct (forallb check_icebergs cs) eqn:Ek; cbn [negb].
  2:{ right. split; auto. intros Ha. assert (forallb check_icebergs cs = true); [|congruence]. apply forallb_forall. intros c Hc. apply (A c Hc Ha). }
  rewrite forallb_forall in Ek. destruct cs as [|c0 rest]; [unfold zlen in Hl; cbn [List.length] in Hl; unfold zlen in H; lia|].
  destruct (forallb (fun c => num_files c0 =? num_files c) rest) eqn:En; cbn [negb].
  2:{ right. split; auto. intros Ha. assert (forallb (fun c => num_files c0 =? num_files c) rest = true); [|congruence]. apply forallb_forall. intros c Hc.
      apply Z.eqb_eq. destruct (A c0 (or_introl eq_refl) Ha) as [_ ->]. destruct (A c (or_intror Hc) Ha) as [_ ->]. reflexivity. }
  rewrite forallb_forall in En. destruct (Z.eqb_spec (num_files c0) (zlen ins)) as [E0|N0]; cbn [negb].
  2:{ right. split; auto. intros Ha. apply N0. apply (A c0 (or_introl eq_refl) Ha). }
  destruct (look d out) as [co|] eqn:Eo; [right; split; auto; intros (_ & Q & _); congruence|].
  left. split.
  { split; [lia|]. split; [auto|]. intros f Hf. assert (Hx : exists c, In c (c0 :: rest) /\ look d f = Some c).
    { clear - F Hf. induction F as [|f' c fs cs Hfc _ IH]; [destruct Hf|]. destruct Hf as [<-|Hf]; [exists c; split; [left|]; auto|]. destruct (IH Hf) as (c' & ? & ?). exists c'. split; [right|]; auto. }
    destruct Hx as (c & Hc & Ef). exists c. split; auto. apply check_spec; [lia|]. split; auto. destruct Hc as [<-|Hc]; auto. specialize (En c Hc). apply Z.eqb_eq in En. congruence. }
  assert (Fb : flat_map i_bergs (filter has_icebergs (c0 :: rest)) = flat_map (bergs_of d) ins) by (rewrite flat_filter; symmetry; apply flat_bergs; auto).
  cbn [ncrcat_ok cp_ok ncatted_ok U]. destruct (filter has_icebergs (c0 :: rest)) as [|c1 r1] eqn:Ef; cbn [cat].
  - eexists (no_set c0), _. split; [reflexivity|]. cbn [look]. rewrite str_eqb_refl. split; auto. split.
    + rewrite <- Fb. cbn. destruct (i_bergs c0) eqn:Eb; auto. exfalso. assert (Hin : In c0 (filter has_icebergs (c0 :: rest))) by (apply filter_In; split; [left; auto|unfold has_icebergs; now rewrite Eb]). rewrite Ef in Hin. destruct Hin.
    + split; auto. intros n N. destruct (str_eqb out n) eqn:E; auto. apply str_eqb_spec in E. congruence.
  - eexists _, _. split; [reflexivity|]. cbn [look]. rewrite str_eqb_refl. split; [reflexivity|]. split; [exact Fb|]. split; auto.
    intros n N. destruct (str_eqb out n) eqn:E; auto. apply str_eqb_spec in E. congruence.
Qed.
(** Whatever the utilities do, no file but the output changes, and a reported success means the
    arguments were acceptable. *)
Theorem C51_any_utils U d ins out d' ok : iceberg_comb U d (ins ++ [out]) = (d', ok) ->
  (forall n, n <> out -> look d' n = look d n) /\ (ok = true -> acceptable d ins out).
Proof.
  intros E. destruct (C51_combines d ins out) as [(Ha & _)|(Hn & E1)].
  - split; auto. intros n N. assert (O : forall c, look ((out, c) :: d) n = look d n) by (intros c; cbn; destruct (str_eqb out n) eqn:Q; auto; apply str_eqb_spec in Q; congruence).
    unfold iceberg_comb in E. rewrite last_last, removelast_last in E.
    repeat match type of E with context [if ?b then _ else _] => destruct b | context [match ?x with _ => _ end] => destruct x end; inversion E; subst; auto.
  - unfold iceberg_comb in *. destruct (zlen (ins ++ [out]) <? 3); [inversion E; subst; split; auto; discriminate|].
    destruct (contents d (removelast (ins ++ [out]))) as [cs|]; [|inversion E; subst; split; auto; discriminate].
    destruct (negb (forallb check_icebergs cs)); [inversion E; subst; split; auto; discriminate|]. destruct cs as [|c0 rest]; [inversion E; subst; split; auto; discriminate|].
    destruct (negb (forallb (fun c => num_files c0 =? num_files c) rest)); [inversion E; subst; split; auto; discriminate|].
    destruct (negb (num_files c0 =? zlen (removelast (ins ++ [out])))); [inversion E; subst; split; auto; discriminate|].
    destruct (look d (last (ins ++ [out]) [])); [inversion E; subst; split; auto; discriminate|]. exfalso.
    cbn [ncrcat_ok cp_ok ncatted_ok] in E1. destruct (cat (filter has_icebergs (c0 :: rest))); discriminate.
Qed.
End C51.

(** Finding: only the number of arguments is compared, so the same file given twice passes for
    a set of two, and its icebergs are then there twice while the other half is lost. *)
Definition berg (s : Z) : @ifile Z := {| i_nc := true; i_major := Some 0; i_minor := Some 1; i_set := Some 2; i_bergs := [s] |}.
Definition U1 := {| ncrcat_ok := true; cp_ok := true; ncatted_ok := true |}.
Theorem C51_duplicate_refuted : exists d',
  iceberg_comb U1 [(chars "i.0000", berg 5); (chars "i.0001", berg 6)] [chars "i.0000"; chars "i.0000"; chars "i"] = (d', true) /\
  bergs_of d' (chars "i") = [5; 5].
Proof. eexists. split; vm_compute; reflexivity. Qed.
(** Finding: a set that consists of one file is refused. *)
Theorem C51_single_refuted {B} U (d : @dir (@ifile B)) f out : iceberg_comb U d [f; out] = (d, false).
Proof. reflexivity. Qed.
(** Hypotheses met *)
Example C51_example : acceptable [(chars "i.0000", berg 5); (chars "i.0001", berg 6)] [chars "i.0000"; chars "i.0001"] (chars "i").
Proof.
  split; [vm_compute; discriminate|]. split; [reflexivity|]. intros f [<-|[<-|[]]]; eexists; (split; [reflexivity|]); (split; [reflexivity|]); (split; [reflexivity|]); exists 0; (split; [reflexivity|]); right; split; auto; exists 1; split; [reflexivity|lia|reflexivity|lia].
Qed.
Print Assumptions C51_combines.
Print Assumptions C51_any_utils.
Print Assumptions C51_duplicate_refuted.
Print Assumptions C51_single_refuted.
