(** * Properties C12-C14: errors, missing files and the removal of inputs *)
From Verif Require Import Base Loops Spec_Combine M_Combine Spec_CombineSet P_CombineSet P_CombineRun P_CombineMain P_CombineErr Spec_CombineErr P_CombineMiss T_Combine Spec_CombineGap P_CombineGap.

(** ** C12: removal *)

(** The names of the pieces: the arguments, or the numbers from the start number
    on, written with the width of the first file. *)
Definition width_of {A} (fs : @fsys A) (start : Z) : Z := match fs (NNum 4 start) with Some _ => 4 | None => 6 end.
Definition piece_name {A} (o : copts) (fs : @fsys A) (nargs i : Z) : fname :=
  if nargs =? 0 then NNum (width_of fs (o_start o)) (o_start o + i) else NArg i.

(** No other numbered file in the range -r goes through: the number after the last
    piece, or with -e all numbers up to it. *)
Definition nothing_beyond {A} (o : copts) (fs : @fsys A) (nargs n : Z) : Prop :=
  nargs = 0 -> forall a, o_start o + n <= a <= match o_end o with Some e => e | None => o_start o + n end ->
    fs (NNum (width_of fs (o_start o)) a) = None.

(** Given a complete set, -r removes exactly the pieces.
    Partial: other numbered files must not follow the set ([nothing_beyond]; see the
    refutations); the set must be complete and well-formed as in C09. *)
Theorem C12_removal_partial : forall (A : Type) (zero : A) S (files : list (@infile A)) o fs nargs,
  set_ok S -> files <> [] -> Forall (piece S (zlen files)) files ->
  o_append o = false -> supplied o fs nargs files -> nothing_beyond o fs nargs (zlen files) ->
  exists r, main zero no_write_fails 0 o fs nargs false = Ok r /\ res_code r = 0
    /\ complete_output zero (o_missing o) S files (res_log r)
    /\ forall nm, In nm (res_removed r) <-> o_remove o = true /\ exists i, 0 <= i < zlen files /\ nm = piece_name o fs nargs i.
Proof.
  intros A zero S files o fs nargs HS Hne HF Ha Hs Hb. destruct files as [|first rest]; [congruence|].
  destruct (main_ok zero S HS first rest HF o fs nargs Ha Hs) as (r & E & C & O & L & R0 & R1). exists r. split; [exact E|]. split; auto. split; auto.
  pose proof (zlen_nonneg rest) as Hrn. assert (Hn : 1 <= zlen (first :: rest)) by (rewrite zlen_cons; lia).
  destruct (o_remove o); [|intros nm; rewrite R0 by auto; split; [intros []|intros [? _]; discriminate]].
  destruct (R1 eq_refl) as [[Hn1 ->]|(Hn0 & w & Hw & ->)]; intros nm; unfold piece_name.
  - rewrite in_map_iff. destruct (Z.eqb_spec nargs 0); [lia|]. split.
    + intros (i & <- & Hi). apply In_zseq in Hi. split; auto. exists i. split; [lia|auto].
    + intros (_ & i & Hi & ->). exists i. split; auto. apply In_zseq. lia.
  - destruct (Z.eqb_spec nargs 0) as [_|]; [|lia].
    assert (Ew : width_of fs (o_start o) = w).
    { destruct Hw as [Hw1 Hw2]. unfold width_of. destruct (Hw1 0 ltac:(lia)) as (fi & _ & Ef). rewrite Z.add_0_r in Ef.
      destruct Hw2 as [->|[-> H4]]; [now rewrite Ef|now rewrite H4]. }
    rewrite Ew in *. unfold deleted. cbv zeta. rewrite filter_In, in_map_iff.
    assert (Hlast : o_start o + zlen (first :: rest) - 1 <= match o_end o with Some e => e | None => o_start o + zlen (first :: rest) end).
    { destruct Hs as [[? _]|[(_ & -> & _)|(_ & _ & e & -> & _ & He)]]; lia. }
    split.
    + intros [(a & <- & Hi) He]. apply In_zseq in Hi. split; auto. exists (a - o_start o). split; [|f_equal; lia].
      destruct (Z.lt_ge_cases a (o_start o + zlen (first :: rest))); [lia|]. exfalso.
      unfold exists_ in He. unfold nothing_beyond in Hb. rewrite Ew in Hb. rewrite Hb in He; auto; [discriminate|].
      split; [lia|]. destruct (o_end o); lia.
    + intros (_ & i & Hi & ->). destruct Hw as [Hw1 _]. destruct (Hw1 i Hi) as (fi & _ & Ef). split.
      * exists (o_start o + i). split; auto. apply In_zseq. destruct (o_end o); lia.
      * unfold exists_. now rewrite Ef.
Qed.
Print Assumptions C12_removal_partial.

(** Whatever the directory, the options and the errors: without -r nothing is
    removed, a run that ends with another status than 0 removes nothing, and what is
    removed are files that were named or lie in the numbered range. *)
Theorem C12_removal_general : forall (A : Type) (zero : A) wfail closefail o fs nargs ex r,
  main (A:=A) zero wfail closefail o fs nargs ex = Ok r ->
  (o_remove o = false \/ res_code r <> 0 -> res_removed r = [])
  /\ forall nm, In nm (res_removed r) -> fs nm <> None
       /\ match nm with NArg i => 0 <= i < nargs | NNum _ a => nargs <= 0 /\ o_start o <= a end.
Proof.
  intros A zero wf cf o fs nargs ex r E. unfold main in E.
  destruct (negb (o_append o) && ex); [injection E as <-; cbn; split; [auto|intros _ []]|].
  destruct (o_append o && negb ex); [injection E as <-; cbn; split; [auto|intros _ []]|].
  apply bind_inv in E. destruct E as (d & _ & E).
  destruct (d_stop d); [injection E as <-; cbn; split; [auto|intros _ []]|].
  destruct (_ && _); injection E as <-; cbn [res_code res_removed]; [|split; [auto|intros _ []]].
  split; [intros [->|]; [auto|lia]|]. destruct (o_remove o); [|intros _ []].
  destruct (Z.gtb_spec nargs 0) as [Hn|Hn].
  - intros nm H. unfold remove_args in H. apply filter_In in H. destruct H as [H1 H2]. apply in_map_iff in H1. destruct H1 as (i & <- & H1).
    apply In_zseq in H1. split; [|lia]. unfold exists_ in H2. destruct (fs (NArg i)); congruence.
  - intros nm. unfold remove_nums. set (b := match o_end o with Some e => _ | None => _ end). clearbody b.
    assert (K : forall l p acc, (forall a, In a l -> o_start o <= a) -> (forall nm, In nm acc -> fs nm <> None /\ match nm with NArg i => 0 <= i < nargs | NNum _ a => nargs <= 0 /\ o_start o <= a end) ->
      forall nm, In nm (snd (fold_left (fun '(pe, acc) a => match detect fs pe a with None => (pe, acc)
          | Some w => (w, if exists_ fs (NNum w a) then acc ++ [NNum w a] else acc) end) l (p, acc))) ->
       fs nm <> None /\ match nm with NArg i => 0 <= i < nargs | NNum _ a => nargs <= 0 /\ o_start o <= a end).
    { induction l as [|a l IH]; intros p acc Hl Hacc nm0 H; [apply Hacc, H|]. cbn [fold_left] in H. destruct (detect fs p a) as [w|].
      - eapply IH; [| |exact H]; [intros; apply Hl; now right|]. intros x Hx. destruct (exists_ fs (NNum w a)) eqn:Ee; [|auto].
        apply in_app_or in Hx. destruct Hx as [Hx|[<-|[]]]; auto. split; [unfold exists_ in Ee; destruct (fs (NNum w a)); congruence|].
        split; auto. apply Hl. now left.
      - eapply IH; [| |exact H]; auto. intros; apply Hl; now right. }
    apply K; [|intros ? []]. intros a H. destruct (Z.le_gt_cases (b - o_start o + 1) 0); [rewrite zseq_nonpos in H by lia; destruct H|]. apply In_zseq in H. lia.
Qed.
Print Assumptions C12_removal_general.

(** The example satisfies the hypotheses. *)
Definition optr (e : option Z) : copts :=
  {| o_start := 0; o_end := e; o_force := false; o_remove := true; o_append := false; o_k := 1; o_missing := true |}.
Example C12_example : supplied (optr None) (numd [ex_file 0; ex_file 1]) 0 [ex_file 0; ex_file 1]
  /\ nothing_beyond (optr None) (numd [ex_file 0; ex_file 1]) 0 2
  /\ match main 0 no_write_fails 0 (optr None) (numd [ex_file 0; ex_file 1]) 0 false with
     | Ok r => res_removed r = [NNum 4 0; NNum 4 1] | _ => False end.
Proof.
  split; [|split].
  - right. left. split; [reflexivity|]. split; [reflexivity|]. exists 4. split; [|auto]. intros i fi H. cbn [numd optr o_start Z.add]. now rewrite H.
  - intros _ a Ha. cbn in Ha. assert (a = 2) as -> by lia. reflexivity.
  - vm_compute. reflexivity.
Qed.

(** Without -e the file after the last one of the set is removed although it is not
    part of the set: the two files written do not contain its data. *)
Theorem C12_next_file_refuted :
  exists fs r, supplied (optr None) fs 0 [ex_file 0; ex_file 1] /\ fs (NNum 4 2) = Some (Some (ex_file 7))
    /\ main 0 no_write_fails 0 (optr None) fs 0 false = Ok r /\ res_code r = 0
    /\ complete_output 0 true ex_set [ex_file 0; ex_file 1] (res_log r)
    /\ In (NNum 4 2) (res_removed r).
Proof.
  set (fs := numd [ex_file 0; ex_file 1; ex_file 7]).
  assert (Hs : supplied (optr None) fs 0 [ex_file 0; ex_file 1]).
  { right. left. split; [reflexivity|]. split; [reflexivity|]. exists 4. split; [|auto]. intros i fi H. pose proof (zget_Some_range _ _ _ H) as Hr.
    change (0 <= i < 2) in Hr. assert (i = 0 \/ i = 1) as [->| ->] by lia; cbn [optr o_start Z.add]; vm_compute in H; vm_compute; congruence. }
  destruct (main_ok 0 ex_set ex_set_ok (ex_file 0) [ex_file 1]
     ltac:(constructor; [apply ex_pieces; lia|constructor; [apply ex_pieces; lia|constructor]]) (optr None) fs 0 eq_refl Hs)
    as (r & E & C & O & L & R0 & R1). exists fs, r. split; auto. split; [reflexivity|]. split; [exact E|]. split; auto. split; auto.
  vm_compute in E. injection E as <-. cbn. auto.
Qed.
Print Assumptions C12_next_file_refuted.

(** With -e every numbered file of the range is removed, also beyond the set. *)
Theorem C12_range_refuted :
  exists fs r, supplied (optr (Some 5)) fs 0 [ex_file 0; ex_file 1]
    /\ main 0 no_write_fails 0 (optr (Some 5)) fs 0 false = Ok r /\ res_code r = 0
    /\ complete_output 0 true ex_set [ex_file 0; ex_file 1] (res_log r)
    /\ In (NNum 4 4) (res_removed r).
Proof.
  set (fs := numd [ex_file 0; ex_file 1; ex_file 7; ex_file 8; ex_file 9]).
  assert (Hs : supplied (optr (Some 5)) fs 0 [ex_file 0; ex_file 1]).
  { right. right. split; [reflexivity|]. split; [|exists 5; cbn; split; [auto|lia]]. exists 4. split; [|auto]. intros i fi H. pose proof (zget_Some_range _ _ _ H) as Hr.
    change (0 <= i < 2) in Hr. assert (i = 0 \/ i = 1) as [->| ->] by lia; cbn [optr o_start Z.add]; vm_compute in H; vm_compute; congruence. }
  destruct (main_ok 0 ex_set ex_set_ok (ex_file 0) [ex_file 1]
     ltac:(constructor; [apply ex_pieces; lia|constructor; [apply ex_pieces; lia|constructor]]) (optr (Some 5)) fs 0 eq_refl Hs)
    as (r & E & C & O & L & R0 & R1). exists fs, r. split; auto. split; [exact E|]. split; auto. split; auto.
  vm_compute in E. injection E as <-. cbn. auto 10.
Qed.
Print Assumptions C12_range_refuted.

(** ** C13: errors *)

(** Compare a run with failures with the run over the same directory [fs'] in which
    every file can be read and every write succeeds.  If the latter makes fewer than
    256 writes (counting the errors of closing the output), then a run that reports
    success has had no failure that mattered: it wrote and removed the same; and a run
    that does not report success removes nothing.
    Partial: the bound 256, and the runs must not have undefined behaviour; see the
    refutations. *)
Theorem C13_errors_reported_partial : forall (A : Type) (zero : A) wfail closefail o fs fs' nargs ex r r0,
  damaged fs fs' -> sane fs -> 0 <= closefail ->
  main zero no_write_fails 0 o fs' nargs ex = Ok r0 ->
  main zero wfail closefail o fs nargs ex = Ok r ->
  zlen (res_log r0) + closefail < 256 ->
  (res_code r = 0 -> closefail = 0 /\ r = r0) /\ (res_code r <> 0 -> res_removed r = []).
Proof.
  intros A zero wf cf o fs fs' nargs ex r r0 Hd Hs Hcf E0 E HL. split.
  - exact (main_two zero wf fs fs' Hd Hs o cf nargs ex r r0 Hcf E0 E HL).
  - intros H. apply (proj1 (C12_removal_general _ _ _ _ _ _ _ _ _ E)). auto.
Qed.
Print Assumptions C13_errors_reported_partial.

(** A run over the example in which writing record 1 of the third variable fails. *)
Example C13_example :
  let fs := args [ex_file 0; ex_file 1] in
  damaged fs fs /\ sane fs
  /\ match main 0 no_write_fails 0 (optr None) fs 2 false, main 0 (fun v r => (v =? 2) && (r =? 1)) 0 (optr None) fs 2 false with
     | Ok r0, Ok r => zlen (res_log r0) = 5 /\ res_code r = 1 /\ zlen (res_log r) = 4 /\ res_removed r = [] | _, _ => False end.
Proof.
  cbv zeta. split; [|split].
  - intros nm. destruct nm as [i|]; cbn; auto. destruct (zget [ex_file 0; ex_file 1] i); cbn; auto.
    split; auto. split; auto. split; auto. generalize (in_vars i0). induction l; constructor; auto. split; auto.
  - intros nm fi H. destruct nm as [i|]; [|discriminate]. cbn in H. destruct (zget [ex_file 0; ex_file 1] i) eqn:E; [|discriminate]. injection H as <-.
    apply zget_In in E. destruct E as [<-|[<-|[]]]; repeat constructor; cbn; lia.
  - vm_compute. auto.
Qed.

(** 256 failed writes are reported as success, and the input is removed although
    nothing of the variable was written. *)
Definition ex256 : @infile Z :=
  {| in_nfiles := Some 1; in_dims := [und 256; dec 1 1 0]; in_rec := 0;
     in_vars := [{| v_dims := [0;1]; v_coord := -1; v_miss := None; v_data := fun r => Some [r] |}] |}.
Theorem C13_wraparound_refuted :
  main 0 (fun _ _ => true) 0 (optr None) (args [ex256]) 1 false
    = Ok {| res_code := 0; res_output := true; res_log := []; res_removed := [NArg 0] |}.
Proof. vm_compute. reflexivity. Qed.
Print Assumptions C13_wraparound_refuted.

(** When the data of a decomposed variable cannot be read from any file, the buffer of
    that variable is never allocated and the write from it is undefined behaviour. *)
Definition exbad : @infile Z :=
  {| in_nfiles := Some 1; in_dims := [und 1; dec 1 1 0]; in_rec := 0;
     in_vars := [{| v_dims := [0;1]; v_coord := -1; v_miss := None; v_data := fun r => None |}] |}.
Theorem C13_unreadable_refuted : main 0 no_write_fails 0 (optr None) (args [exbad]) 1 false = UB.
Proof. vm_compute. reflexivity. Qed.
Print Assumptions C13_unreadable_refuted.

(** ** C14: missing files *)

Definition fails_with_9 {A} (r : @cres A) : Prop := res_code r = 9 /\ res_output r = false /\ res_removed r = [].

(** Without -f a missing file makes the run fail with status 9 and leave no output,
    whatever the files contain and whatever else fails:
    - a named file;
    - a number after the start number and within the set announced by the file with
      the start number;
    - with -e, a number after the first number found ([a0]), within the range and
      within the set announced by the files. *)
Theorem C14_missing_partial : forall (A : Type) (zero : A) wfail closefail o fs nargs r w a,
  o_force o = false -> o_append o = false ->
  main (A:=A) zero wfail closefail o fs nargs false = Ok r ->
  (  (0 <= a < nargs /\ fs (NArg a) = None)
  \/ (nargs = 0 /\ o_end o = None /\ (w = 4 \/ (w = 6 /\ fs (NNum 4 (o_start o)) = None))
      /\ fs (NNum w a) = None
      /\ exists fi n, fs (NNum w (o_start o)) = Some (Some fi) /\ in_nfiles fi = Some n /\ o_start o < a < o_start o + n)
  \/ (nargs = 0 /\ fs (NNum w a) = None
      /\ exists e a0 n, o_end o = Some e /\ 0 <= e /\ o_start o <= a0 < a /\ a <= e /\ a - a0 < n
         /\ (w = 4 \/ (w = 6 /\ fs (NNum 4 a0) = None)) /\ fs (NNum w a0) <> None
         /\ (forall i, o_start o <= i < a0 -> fs (NNum 4 i) = None /\ fs (NNum 6 i) = None)
         /\ (forall i fi, a0 <= i <= e -> fs (NNum w i) = Some (Some fi) -> in_nfiles fi = Some n))) ->
  fails_with_9 r.
Proof.
  intros A zero wf cf o fs nargs r w a Hf Ha E H. unfold main in E. rewrite Ha in E. cbn [negb andb] in E.
  set (d0 := {| d_st := _ |}) in E. apply bind_inv in E. destruct E as (d & E1 & E).
  assert (HS : d_stop d = Some 9).
  { destruct H as [[H1 H2]|[(H1 & H2 & H3 & H4 & fi & n & H5 & H6 & H7)|(H1 & H2 & e & a0 & n & H3 & H4 & H5 & H6 & H7 & H8 & H9 & H10 & H11)]].
    - destruct (Z.gtb_spec nargs 0); [|lia]. revert E1. apply all_blocks_stopped; auto. intros y Ey.
      refine (args_missing zero wf o fs Hf nargs _ _ _ a H1 H2 _ Ey); reflexivity.
    - rewrite H1, H2 in E1. cbn [Z.gtb Z.compare] in E1. revert E1. apply all_blocks_stopped; auto. intros y Ey.
      refine (auto_missing zero wf o fs Hf w n fi _ _ _ a H3 H5 H6 H7 H4 _ _ Ey); reflexivity.
    - rewrite H1, H3 in E1. cbn [Z.gtb Z.compare] in E1. destruct (Z.gtb_spec e (-1)); [|lia]. revert E1. apply all_blocks_stopped; auto. intros y Ey.
      refine (range_missing zero wf o fs Hf w n e _ _ _ a0 a H5 H6 H7 H10 H8 H11 H9 H2 _ _ _ Ey); reflexivity. }
  rewrite HS in E. injection E as <-. split; auto.
Qed.
Print Assumptions C14_missing_partial.

(** Files 0 and 2 of a set of three. *)
Definition ex3_file (i : Z) : @infile Z :=
  {| in_nfiles := Some 3; in_dims := [und 2; dec 2 6 (2*i)]; in_rec := 0;
     in_vars := [{| v_dims := [0;1]; v_coord := -1; v_miss := None; v_data := fun r => Some [2*i; 2*i+1] |}] |}.
Definition some_of (l : list (Z * @infile Z)) : @fsys Z := fun nm => match nm with
  | NNum 4 i => option_map (fun p => Some (snd p)) (find (fun p : Z * @infile Z => fst p =? i) l) | _ => None end.
Definition optf (start : Z) (e : option Z) (f : bool) : copts :=
  {| o_start := start; o_end := e; o_force := f; o_remove := true; o_append := false; o_k := 0; o_missing := true |}.
Example C14_example :
  (exists r, main 0 no_write_fails 0 (optf 0 None false) (some_of [(0, ex3_file 0); (2, ex3_file 2)]) 0 false = Ok r /\ fails_with_9 r)
  /\ (exists r, main 0 no_write_fails 0 (optf 0 (Some 2) false) (some_of [(0, ex3_file 0); (2, ex3_file 2)]) 0 false = Ok r /\ fails_with_9 r)
  (* with -f the two files are combined, the missing part is filled; the status is 1 *)
  /\ (exists r, main 0 no_write_fails 0 (optf 0 None true) (some_of [(0, ex3_file 0); (2, ex3_file 2)]) 0 false = Ok r
        /\ res_code r = 1 /\ res_output r = true /\ map w_vals (res_log r) = [[0;1;0;0;4;5]; [0;1;0;0;4;5]] /\ res_removed r = []).
Proof. split; [|split]; eexists; (split; [vm_compute; reflexivity|vm_compute; auto]). Qed.

(** With -f, exactly the files that exist are combined: every variable and record is
    written once, assembled from the files that are there; elements of the places
    without file keep the fill value.  The status is 1, nothing is removed.  Without
    any missing file no -f is needed and the status is 0; the named files may be
    fewer than the set has pieces.
    Partial: the first place must have its file (see the refutation); the files are
    pieces of one dataset as in C09. *)
Theorem C14_forced_partial : forall (A : Type) (zero : A) S n (first : @infile A) others o fs nargs,
  set_ok S -> Forall (piece S n) (present (Some first :: others)) -> zlen (Some first :: others) <= n ->
  o_append o = false -> (In None others -> o_force o = true) -> supplied_partly o fs nargs n (Some first :: others) ->
  exists r, main zero no_write_fails 0 o fs nargs false = Ok r /\ res_output r = true
    /\ complete_output zero (o_missing o) S (present (Some first :: others)) (res_log r)
    /\ (In None others -> res_code r = 1 /\ res_removed r = []) /\ (~ In None others -> res_code r = 0).
Proof.
  intros A zero S n first others o fs nargs HS HF Hl Ha Hf Hs.
  assert (K : In None (Some first :: others) <-> In None others) by (cbn; intuition discriminate).
  rewrite <- K in Hf. destruct (forced_ok zero S HS n first others HF Hl o fs nargs Ha Hf Hs) as (r & E & O & C & R1 & R2).
  rewrite K in R1, R2. exists r. auto.
Qed.
Print Assumptions C14_forced_partial.

Definition ex3_set : cset :=
  {| s_rec := 0; s_nrecs := 2; s_full := [2;6]; s_dec := [false;true]; s_vars := [{| sv_rec := true; sv_nd := [1]; sv_coord := -1 |}] |}.
Example C14_forced_example : set_ok ex3_set /\ Forall (piece ex3_set 3) (present [Some (ex3_file 0); None; Some (ex3_file 2)])
  /\ supplied_partly (optf 0 None true) (some_of [(0, ex3_file 0); (2, ex3_file 2)]) 0 3 [Some (ex3_file 0); None; Some (ex3_file 2)]
  /\ supplied_partly (optf 0 (Some 1) true) (some_of [(0, ex3_file 0); (2, ex3_file 2)]) 0 3 [Some (ex3_file 0); None].
Proof.
  split; [|split; [|split]].
  - constructor; cbn [ex3_set s_rec s_nrecs s_full s_dec s_vars]; try lia.
    + right. vm_compute. repeat split; congruence.
    + repeat constructor; lia.
    + reflexivity.
    + intros v id Hv Hid. each_in Hv; each_in Hid; vm_compute; repeat split; congruence.
    + intros v Hv Hd. each_in Hv; cbn; lia.
    + intros v Hv Hr Hc. each_in Hv; cbn in *; try lia; try discriminate; auto.
    + intros v Hv Hr Hc. each_in Hv; cbn in *; try lia; try discriminate; auto.
  - cbn [present flat_map app]. assert (K : forall i, i = 0 \/ i = 2 -> piece ex3_set 3 (ex3_file i)).
    { intros i Hi. constructor; try reflexivity.
      - split; [reflexivity|]. intros id rd H. pose proof (zget_Some_range _ _ _ H) as R. cbn in R.
        destruct Hi as [->| ->]; assert (id = 0 \/ id = 1) as [->| ->] by lia;
          vm_compute in H; injection H as <-; vm_compute; repeat split; congruence.
      - repeat constructor; intros r Hr; eexists; split; reflexivity. }
    constructor; [apply K; auto|constructor; [apply K; auto|constructor]].
  - right. left. repeat (split; [reflexivity|]). exists 4. split; [|auto]. intros i p H. pose proof (zget_Some_range _ _ _ H) as R. cbn in R.
    assert (i = 0 \/ i = 1 \/ i = 2) as [->|[->| ->]] by lia; vm_compute in H; injection H as <-; reflexivity.
  - right. right. split; [reflexivity|]. split.
    + exists 4. split; [|auto]. intros i p H. pose proof (zget_Some_range _ _ _ H) as R. cbn in R.
      assert (i = 0 \/ i = 1) as [->| ->] by lia; vm_compute in H; injection H as <-; reflexivity.
    + exists 1. split; [reflexivity|]. split; [lia|reflexivity].
Qed.

(** With -f, a missing first named file leaves the description of the output unset:
    the flush reads it uninitialised. *)
Theorem C14_forced_first_missing_refuted :
  main 0 no_write_fails 0 (optf 0 None true) (fun nm => match nm with NArg 1 => Some (Some (ex3_file 1)) | NArg 2 => Some (Some (ex3_file 2)) | _ => None end) 3 false
    = UB.
Proof. vm_compute. reflexivity. Qed.
Print Assumptions C14_forced_first_missing_refuted.

(** Without -f and without -e: when the file with the start number is missing, the
    run reports success and leaves an output without any data. *)
Theorem C14_first_missing_refuted :
  main 0 no_write_fails 0 (optf 0 None false) (some_of [(1, ex3_file 1); (2, ex3_file 2)]) 0 false
    = Ok {| res_code := 0; res_output := true; res_log := []; res_removed := [NNum 4 1] |}.
Proof. vm_compute. reflexivity. Qed.
Print Assumptions C14_first_missing_refuted.

(** Without -f but with -e: files missing at the beginning are skipped silently; the
    run reports success and removes the others (with several blocks the second block
    does notice them). *)
Theorem C14_range_first_missing_refuted :
  exists r, main 0 no_write_fails 0 (optf 0 (Some 2) false) (some_of [(1, ex3_file 1); (2, ex3_file 2)]) 0 false = Ok r
    /\ res_code r = 0 /\ map w_vals (res_log r) = [[0;0;2;3;4;5]; [0;0;2;3;4;5]] /\ res_removed r = [NNum 4 1; NNum 4 2].
Proof. eexists. split; [vm_compute; reflexivity|]. vm_compute. auto. Qed.
Print Assumptions C14_range_first_missing_refuted.
