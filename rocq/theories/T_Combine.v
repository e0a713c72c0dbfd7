(** * Properties C09-C11: what mppnccombine writes *)
From Verif Require Import Base Loops Spec_Hyperslab Shape Spec_Combine P_Assemble M_Combine Spec_CombineSet P_CombineSet P_CombineRun P_CombineMain.

(** No write to the output fails. *)
Definition no_write_fails : Z -> Z -> bool := fun _ _ => false.

(** C09: given all the files of a well-formed set, in any of the three ways, the
    combiner ends with status 0 and its writes are exactly one per variable and
    record, each the whole record with the right content: every element of a
    decomposed variable comes from the (last) tile whose domain_decomposition covers
    it, an element covered by no tile is the fill value.
    Partial: a decomposed variable may have at most four dimensions beside the
    record dimension ([so_rank]) and a variable that has the name of a dimension is
    restricted ([so_coord], [so_time]); see the refutations below. *)
Theorem C09_combine_partial : forall (A : Type) (zero : A) S (files : list (@infile A)) o fs nargs,
  set_ok S -> files <> [] -> Forall (piece S (zlen files)) files ->
  o_append o = false -> supplied o fs nargs files ->
  exists r, main zero no_write_fails 0 o fs nargs false = Ok r
    /\ res_code r = 0 /\ res_output r = true
    /\ complete_output zero (o_missing o) S files (res_log r).
Proof.
  intros A zero S files o fs nargs HS Hne HF Ha Hs. destruct files as [|first rest]; [congruence|].
  destruct (main_ok zero S HS first rest HF o fs nargs Ha Hs) as (r & E & C & O & L & _). exists r. auto.
Qed.
Print Assumptions C09_combine_partial.

(** The content of a right write is determined, so the statement above leaves no
    freedom but the order of the writes. *)
Lemma right_write_unique {A} (zero : A) missing S files vn v r w1 w2 :
  set_ok S -> Forall (piece S (zlen files)) files -> zget (s_vars S) vn = Some v -> has_record S v r ->
  right_write zero missing S files vn v r w1 -> right_write zero missing S files vn v r w2 -> w1 = w2.
Proof.
  intros HS HF Ev Hr (A1 & A2 & A3 & f1 & l1 & E1 & A4) (B1 & B2 & B3 & f2 & l2 & E2 & B4).
  rewrite E1 in E2. injection E2 as <- <-.
  assert (w_vals w1 = w_vals w2) as Hv.
  { destruct (sv_dec S v); [|congruence]. eapply assembled_unique; [| |exact A4|exact B4].
    - rewrite Forall_forall in HF. apply (full_nonneg S HS (zlen files) f1); [|eapply zget_In; eauto].
      apply HF. rewrite E1. left; auto.
    - apply Forall_map, Forall_forall. intros fi Hfi. rewrite Forall_forall in HF. pose proof (HF _ Hfi) as HP.
      apply (tile_in S HS (zlen files) fi HP); [eapply zget_In; eauto|].
      destruct (Forall2_zget _ _ _ _ _ (pc_vars _ _ _ HP) Ev) as (iv & Ei & _ & _ & HD).
      destruct (HD r Hr) as (vals & Ed & L). unfold data_of. rewrite Ei, Ed. exact L. }
  destruct w1, w2. cbn in *. subst. f_equal; congruence.
Qed.

Lemma svnums_get S vn v : In (vn, v) (svnums S) -> zget (s_vars S) vn = Some v.
Proof.
  unfold svnums. generalize (s_vars S) as l. intros l H. apply In_zget in H. destruct H as (j & _ & Ej).
  assert (forall (l : list svar) lo j p, zget (combine (zseq lo (zlen l)) l) j = Some p -> fst p = lo + j /\ zget l j = Some (snd p)) as K.
  { clear. induction l as [|a l IHl]; intros lo j p Hj.
    - cbn in Hj. now rewrite zget_nil in Hj.
    - rewrite zlen_cons, zseq_S in Hj by (pose proof (zlen_nonneg l); lia). cbn [combine] in Hj.
      destruct (Z.eq_dec j 0) as [->|Hj0].
      + rewrite zget_cons_0 in Hj. injection Hj as <-. cbn [fst snd]. rewrite zget_cons_0. split; [lia|auto].
      + pose proof (zget_Some_range _ _ _ Hj). rewrite zget_cons_pos in Hj by lia. rewrite zget_cons_pos by lia.
        replace (1 + zlen l - 1) with (zlen l) in Hj by lia.
        apply IHl in Hj. destruct Hj. split; auto. lia. }
  apply K in Ej. cbn [fst snd] in Ej. destruct Ej as [-> Ej]. exact Ej.
Qed.

Lemma slots_spec S vn v r : In (vn, v, r) (slots S) -> zget (s_vars S) vn = Some v /\ has_record S v r.
Proof.
  unfold slots. intros H. apply in_flat_map in H. destruct H as (r' & Hr & H). apply in_map_iff in H.
  destruct H as ([vn' v'] & E & H). injection E as -> -> ->. apply filter_In in H. destruct H as [H Ha].
  apply In_zseq in Hr. split; [now apply svnums_get|]. cbn in Ha. split; [lia|]. destruct (sv_rec v); cbn in Ha; lia.
Qed.

(** Two complete outputs are equal up to order when right writes agree. *)
Lemma complete_perm {A} (P Q : Z -> svar -> Z -> @wr A -> Prop) S (log1 log2 : list (@wr A)) :
  (forall vn v r w1 w2, zget (s_vars S) vn = Some v -> has_record S v r -> P vn v r w1 -> Q vn v r w2 -> w1 = w2) ->
  (exists l, Permutation log1 l /\ Forall2 (fun '(vn, v, r) w => P vn v r w) (slots S) l) ->
  (exists l, Permutation log2 l /\ Forall2 (fun '(vn, v, r) w => Q vn v r w) (slots S) l) ->
  Permutation log1 log2.
Proof.
  intros H (l1 & P1 & F1) (l2 & P2 & F2). assert (l1 = l2) as ->; [|now rewrite P1, P2].
  clear P1 P2. assert (K : forall x, In x (slots S) -> In x (slots S)) by auto. revert K F1 F2. generalize (slots S) at 1 3 4 as sl.
  intros sl K F1. revert l2. induction F1 as [|[[vn v] r] w1 sl l1 Hw F1 IH]; intros l2 F2; inversion F2 as [|? w2 ? l2' Hw2 F2']; subst; auto.
  f_equal; [|apply IH; auto; intros; apply K; simpl; auto].
  destruct (slots_spec S vn v r (K _ (or_introl eq_refl))). eauto.
Qed.

(** C11: the blocking factor -k (and the way the files are named) does not change
    what is written: both runs succeed and write the same records, each once. *)
Theorem C11_blocking_independent : forall (A : Type) (zero : A) S (files : list (@infile A)) o1 o2 fs1 fs2 n1 n2,
  set_ok S -> files <> [] -> Forall (piece S (zlen files)) files ->
  o_append o1 = false -> o_append o2 = false -> o_missing o1 = o_missing o2 ->
  supplied o1 fs1 n1 files -> supplied o2 fs2 n2 files ->
  exists r1 r2, main zero no_write_fails 0 o1 fs1 n1 false = Ok r1 /\ main zero no_write_fails 0 o2 fs2 n2 false = Ok r2
    /\ res_code r1 = 0 /\ res_code r2 = 0
    /\ Permutation (res_log r1) (res_log r2)
    /\ length (res_log r1) = length (slots S).
Proof.
  intros A zero S files o1 o2 fs1 fs2 n1 n2 HS Hne HF Ha1 Ha2 Hm H1 H2.
  destruct (C09_combine_partial A zero S files o1 fs1 n1 HS Hne HF Ha1 H1) as (r1 & E1 & C1 & _ & L1).
  destruct (C09_combine_partial A zero S files o2 fs2 n2 HS Hne HF Ha2 H2) as (r2 & E2 & C2 & _ & L2).
  exists r1, r2. do 4 (split; auto). split.
  - rewrite Hm in L1. eapply complete_perm; [|exact L1|exact L2]. intros. eapply right_write_unique; eauto.
  - destruct L1 as (l & HP & HF2). rewrite (Permutation_length HP). clear -HF2. induction HF2; cbn; auto.
Qed.
Print Assumptions C11_blocking_independent.

(** What C10 assumes about the data: the tiles of every decomposed variable are
    disjoint, and what is taken from the first file only is the same in all files. *)
Definition disjoint_set {A} (S : cset) (files : list (@infile A)) : Prop :=
  forall vn v r, zget (s_vars S) vn = Some v -> sv_dec S v = true -> has_record S v r ->
    disjoint_tiles (map (fun fi => piece_tile v fi (data_of fi vn r)) files).
Definition same_shared {A} (S : cset) (files : list (@infile A)) : Prop :=
  forall f1 f2 vn v, In f1 files -> In f2 files -> zget (s_vars S) vn = Some v ->
    (forall zero m, @fill_of A zero m f1 vn = fill_of zero m f2 vn)
    /\ (sv_dec S v = false -> forall r, has_record S v r -> data_of f1 vn r = data_of f2 vn r).

Lemma disjoint_perm {A} (ts ts' : list (@tile A)) : Permutation ts ts' -> disjoint_tiles ts -> disjoint_tiles ts'.
Proof.
  intros HP HD. intros t1 t t2 t' t3 g E Ct Ct'.
  assert (forall l : list (@tile A), disjoint_tiles l <-> ForallOrdPairs (fun a b : @tile A => forall g, covers a g -> ~ covers b g) l) as K.
  { clear. intros l. split.
    - intros H. induction l as [|a l IH]; constructor.
      + apply Forall_forall. intros b Hb g Ca. apply in_split in Hb. destruct Hb as (l1 & l2 & ->).
        apply (H [] a l1 b l2 g); auto.
      + apply IH. intros t1 t t2 t' t3 g E. apply (H (a :: t1) t t2 t' t3 g). now rewrite E.
    - intros H. intros t1 t t2 t' t3 g E Ct Ct'. subst l. induction t1 as [|a t1 IH]; cbn in H.
      + inversion H as [|? ? F _]; subst. rewrite Forall_forall in F. apply (F t' ltac:(apply in_or_app; right; left; auto) g); auto.
      + inversion H; subst; auto. }
  apply K in HD. assert (HS : ForallOrdPairs (fun a b : @tile A => forall g, covers a g -> ~ covers b g) ts').
  { clear -HD HP. induction HP as [|a l l' HP IH|a b l|l l' l'' H1 IH1 H2 IH2]; auto.
    - inversion HD; subst. constructor; auto. rewrite <- HP. auto.
    - inversion HD as [|? ? F1 D1]; subst. inversion D1 as [|? ? F2 D2]; subst. inversion F1; subst.
      constructor; [constructor; auto|constructor; auto]. intros g Cb Ca. eapply H1; eauto. }
  apply K in HS. eapply HS; eauto.
Qed.

Lemma assembled_perm {A} full (ts ts' : list (@tile A)) fill out out' :
  Forall (fun d => 0 <= d) full -> Forall (tile_ok full) ts -> Permutation ts ts' -> disjoint_tiles ts ->
  assembled full ts fill out -> assembled full ts' fill out' -> out = out'.
Proof.
  intros Hf Ht HP HD HA HA'. pose proof (disjoint_perm _ _ HP HD) as HD'.
  eapply (assembled_unique fill full ts out out'); auto. destruct HA' as (L & C & F). split; auto. split.
  - intros t1 t t2 g idx E Hat _. assert (In t ts') as Hin.
    { rewrite <- HP, E. apply in_or_app. right. left. auto. }
    apply in_split in Hin. destruct Hin as (u1 & u2 & E'). apply (C u1 t u2 g idx E' Hat).
    intros t' Hin' Hc. apply in_split in Hin'. destruct Hin' as (x & y & ->).
    apply (HD' u1 t x t' y g E'); auto. exists idx. auto.
  - intros g Hv Hn. apply F; auto. intros t Hin. apply Hn. now rewrite HP.
Qed.

(** C10: the order in which the files are given does not matter. *)
Theorem C10_order_independent : forall (A : Type) (zero : A) S (files1 files2 : list (@infile A)) o1 o2 fs1 fs2 n1 n2,
  set_ok S -> files1 <> [] -> Permutation files1 files2 ->
  Forall (piece S (zlen files1)) files1 -> disjoint_set S files1 -> same_shared S files1 ->
  o_append o1 = false -> o_append o2 = false -> o_missing o1 = o_missing o2 ->
  supplied o1 fs1 n1 files1 -> supplied o2 fs2 n2 files2 ->
  exists r1 r2, main zero no_write_fails 0 o1 fs1 n1 false = Ok r1 /\ main zero no_write_fails 0 o2 fs2 n2 false = Ok r2
    /\ res_code r1 = 0 /\ res_code r2 = 0 /\ Permutation (res_log r1) (res_log r2).
Proof.
  intros A zero S files1 files2 o1 o2 fs1 fs2 n1 n2 HS Hne HP HF HD Hsh Ha1 Ha2 Hm H1 H2.
  assert (HF2 : Forall (piece S (zlen files2)) files2).
  { replace (zlen files2) with (zlen files1) by (unfold zlen; now rewrite (Permutation_length HP)). rewrite <- HP. auto. }
  assert (Hne2 : files2 <> []) by (intros ->; apply Hne; symmetry in HP; now apply Permutation_nil in HP).
  destruct (C09_combine_partial A zero S files1 o1 fs1 n1 HS Hne HF Ha1 H1) as (r1 & E1 & C1 & _ & L1).
  destruct (C09_combine_partial A zero S files2 o2 fs2 n2 HS Hne2 HF2 Ha2 H2) as (r2 & E2 & C2 & _ & L2).
  exists r1, r2. do 4 (split; auto). rewrite Hm in L1.
  eapply complete_perm; [|exact L1|exact L2].
  intros vn v r w1 w2 Ev Hr (A1 & A2 & A3 & g1 & l1 & X1 & A4) (B1 & B2 & B3 & g2 & l2 & X2 & B4).
  assert (I1 : In g1 files1) by (rewrite X1; left; auto).
  assert (I2 : In g2 files1) by (rewrite HP, X2; left; auto).
  destruct (Hsh g1 g2 vn v I1 I2 Ev) as [S1 S2].
  assert (w_vals w1 = w_vals w2) as Hv.
  { destruct (sv_dec S v) eqn:Ed.
    - rewrite (S1 zero (o_missing o2)) in A4.
      eapply assembled_perm; [| | | |exact A4|exact B4].
      + rewrite Forall_forall in HF. apply (full_nonneg S HS (zlen files1) g1); auto. eapply zget_In; eauto.
      + apply Forall_map, Forall_forall. intros fi Hfi. rewrite Forall_forall in HF. pose proof (HF _ Hfi) as HPc.
        apply (tile_in S HS (zlen files1) fi HPc); [eapply zget_In; eauto|].
        destruct (Forall2_zget _ _ _ _ _ (pc_vars _ _ _ HPc) Ev) as (iv & Ei & _ & _ & HDt).
        destruct (HDt r Hr) as (vals & Edt & L). unfold data_of. rewrite Ei, Edt. exact L.
      + apply Permutation_map. exact HP.
      + apply HD; auto.
    - rewrite A4, B4. apply S2; auto. }
  destruct w1, w2. cbn in *. subst. f_equal; congruence.
Qed.
Print Assumptions C10_order_independent.

(** ** Concrete cases *)
Definition und (n : Z) : rawdim := {| rd_len := n; rd_decomp := None |}.
Definition dec (n full s : Z) : rawdim := {| rd_len := n; rd_decomp := Some (1, full, s + 1, s + n) |}.
Definition opt0 (k : Z) : copts :=
  {| o_start := 0; o_end := None; o_force := false; o_remove := false; o_append := false; o_k := k; o_missing := true |}.
Definition args (l : list (@infile Z)) : @fsys Z := fun nm => match nm with NArg i => option_map Some (zget l i) | _ => None end.
Definition numd (l : list (@infile Z)) : @fsys Z := fun nm => match nm with NNum 4 i => option_map Some (zget l i) | _ => None end.

(** Two records; dimension 1 of length 5 decomposed into [0,2), [2,4) (element 4
    belongs to no tile). *)
Definition ex_file (i : Z) : @infile Z :=
  {| in_nfiles := Some 2; in_dims := [und 2; dec 2 5 (2*i); und 2]; in_rec := 0;
     in_vars := [{| v_dims := [0]; v_coord := 0; v_miss := None; v_data := fun r => Some [100 + r] |};
       {| v_dims := [1]; v_coord := 1; v_miss := None; v_data := fun _ => Some [2*i; 2*i+1] |};
       {| v_dims := [0;2;1]; v_coord := -1; v_miss := Some (-99);
          v_data := fun r => Some [1000*r+2*i; 1000*r+2*i+1; 1000*r+10+2*i; 1000*r+10+2*i+1] |}] |}.
Definition ex_set : cset :=
  {| s_rec := 0; s_nrecs := 2; s_full := [2;5;2]; s_dec := [false;true;false];
     s_vars := [{| sv_rec := true; sv_nd := []; sv_coord := 0 |}; {| sv_rec := false; sv_nd := [1]; sv_coord := 1 |};
                {| sv_rec := true; sv_nd := [2;1]; sv_coord := -1 |}] |}.

Ltac each_in H := cbn in H; repeat (destruct H as [H|H]; [try subst|]); try contradiction.

Lemma ex_set_ok : set_ok ex_set.
Proof.
  constructor; cbn [ex_set s_rec s_nrecs s_full s_dec s_vars]; try lia.
  - right. vm_compute. repeat split; congruence.
  - repeat constructor; lia.
  - reflexivity.
  - intros v id Hv Hid. each_in Hv; each_in Hid; vm_compute; repeat split; congruence.
  - intros v Hv Hd. each_in Hv; cbn; lia.
  - intros v Hv Hr Hc. each_in Hv; cbn in *; try lia; try discriminate; auto.
  - intros v Hv Hr Hc. each_in Hv; cbn in *; try lia; try discriminate; auto.
Qed.

Lemma ex_pieces i : 0 <= i <= 1 -> piece ex_set 2 (ex_file i).
Proof.
  intros Hi. constructor; try reflexivity.
  - split; [reflexivity|]. intros id rd H. pose proof (zget_Some_range _ _ _ H) as R. cbn in R.
    assert (i = 0 \/ i = 1) as [->| ->] by lia; assert (id = 0 \/ id = 1 \/ id = 2) as [->|[->| ->]] by lia;
      vm_compute in H; injection H as <-; vm_compute; repeat split; congruence.
  - repeat constructor; intros r Hr; eexists; split; reflexivity.
Qed.

Example C09_example : set_ok ex_set /\ Forall (piece ex_set 2) [ex_file 0; ex_file 1]
  /\ supplied (opt0 1) (args [ex_file 0; ex_file 1]) 2 [ex_file 0; ex_file 1]
  /\ supplied (opt0 0) (numd [ex_file 1; ex_file 0]) 0 [ex_file 1; ex_file 0]
  /\ match main 0 no_write_fails 0 (opt0 1) (args [ex_file 0; ex_file 1]) 2 false with
     | Ok r => map (@w_vals Z) (res_log r) =
         [[100]; [0;1;2;3;0]; [0;1;2;3;-99;10;11;12;13;-99]; [101]; [1000;1001;1002;1003;-99;1010;1011;1012;1013;-99]]
     | _ => False
     end.
Proof.
  split; [exact ex_set_ok|]. split; [constructor; [apply ex_pieces; lia|constructor; [apply ex_pieces; lia|constructor]]|]. split; [|split].
  - left. split; [reflexivity|]. intros i fi H. cbn [args]. now rewrite H.
  - right. left. split; [reflexivity|]. split; [reflexivity|]. exists 4. split; [|auto]. intros i fi H. cbn [numd opt0 o_start Z.add]. now rewrite H.
  - vm_compute. reflexivity.
Qed.

Example C10_example : disjoint_set ex_set [ex_file 0; ex_file 1] /\ same_shared ex_set [ex_file 0; ex_file 1].
Proof.
  split.
  - intros vn v r Hv Hd _ t1 t t2 t' t3 g E (i1 & V1 & G1) (i2 & V2 & G2).
    assert (Hl : length (map (fun fi => piece_tile v fi (data_of fi vn r)) [ex_file 0; ex_file 1]) = 2%nat) by reflexivity.
    rewrite E in Hl. rewrite app_length in Hl. cbn in Hl. rewrite app_length in Hl. cbn in Hl.
    destruct t1; [|cbn in Hl; lia]. destruct t2; [|cbn in Hl; lia]. destruct t3; [|cbn in Hl; lia]. cbn in E. injection E as <- <-.
    pose proof (zget_Some_range _ _ _ Hv) as R. cbn in R. assert (vn = 0 \/ vn = 1 \/ vn = 2) as [->|[->| ->]] by lia; cbn in Hv; injection Hv as <-; cbn in *; try discriminate.
    + apply valid_cons in V1. destruct V1 as (a & l & -> & Ha & V1). apply valid_nil in V1. subst l.
      apply valid_cons in V2. destruct V2 as (b & l & -> & Hb & V2). apply valid_nil in V2. subst l. cbn [piece_tile t_start map vadd] in G1, G2. subst.
      match type of G2 with _ :: ?x :: _ = _ :: ?y :: _ => assert (x = y) as G3 by congruence | ?x :: _ = ?y :: _ => assert (x = y) as G3 by congruence end.
      change (start_in (ex_file 0) 1) with 0 in *. change (start_in (ex_file 1) 1) with 2 in *. change (len_in (ex_file 0) 1) with 2 in *. lia.
    + apply valid_cons in V1. destruct V1 as (a & l & -> & Ha & V1). apply valid_cons in V1. destruct V1 as (a' & l' & -> & Ha' & V1). apply valid_nil in V1. subst l'.
      apply valid_cons in V2. destruct V2 as (b & l & -> & Hb & V2). apply valid_cons in V2. destruct V2 as (b' & l' & -> & Hb' & V2). apply valid_nil in V2. subst l'.
      cbn [piece_tile t_start map vadd] in G1, G2. subst.
      match type of G2 with _ :: ?x :: _ = _ :: ?y :: _ => assert (x = y) as G3 by congruence | ?x :: _ = ?y :: _ => assert (x = y) as G3 by congruence end.
      change (start_in (ex_file 0) 1) with 0 in *. change (start_in (ex_file 1) 1) with 2 in *. change (len_in (ex_file 0) 1) with 2 in *. lia.
  - intros f1 f2 vn v H1 H2 Hv. pose proof (zget_Some_range _ _ _ Hv) as R. cbn in R.
    assert (vn = 0 \/ vn = 1 \/ vn = 2) as [->|[->| ->]] by lia; cbn in Hv; injection Hv as <-; each_in H1; each_in H2; split; intros; reflexivity || discriminate.
Qed.

(** ** What the restrictions exclude *)

(** A decomposed variable with five dimensions: status 0, wrong content. *)
Definition ex5_file (s : Z) : @infile Z :=
  {| in_nfiles := Some 2; in_dims := [und 2; und 1; und 1; und 1; dec 1 2 s]; in_rec := -1;
     in_vars := [{| v_dims := [0;1;2;3;4]; v_coord := -1; v_miss := None; v_data := fun _ => Some [10 + s; 20 + s] |}] |}.
Definition ex5_set : cset :=
  {| s_rec := -1; s_nrecs := 1; s_full := [2;1;1;1;2]; s_dec := [false;false;false;false;true];
     s_vars := [{| sv_rec := false; sv_nd := [0;1;2;3;4]; sv_coord := -1 |}] |}.
Theorem C09_rank5_refuted :
  Forall (piece ex5_set 2) [ex5_file 0; ex5_file 1]
  /\ exists r, main 0 no_write_fails 0 (opt0 0) (args [ex5_file 0; ex5_file 1]) 2 false = Ok r
    /\ res_code r = 0 /\ ~ complete_output 0 true ex5_set [ex5_file 0; ex5_file 1] (res_log r).
Proof.
  split.
  - assert (forall s, 0 <= s <= 1 -> piece ex5_set 2 (ex5_file s)) as K.
    { intros s Hs. constructor; try reflexivity.
      - split; [reflexivity|]. intros id rd H. pose proof (zget_Some_range _ _ _ H) as R. cbn in R.
        assert (id = 0 \/ id = 1 \/ id = 2 \/ id = 3 \/ id = 4) as [->|[->|[->|[->| ->]]]] by lia;
          assert (s = 0 \/ s = 1) as [->| ->] by lia; vm_compute in H; injection H as <-; vm_compute; repeat split; congruence.
      - repeat constructor. intros r Hr. eexists. split; reflexivity. }
    constructor; [apply K; lia|constructor; [apply K; lia|constructor]].
  - eexists. split; [vm_compute; reflexivity|]. split; [reflexivity|]. cbn [res_log].
    intros (l & HP & HF). apply Permutation_length_1_inv in HP. subst l.
    assert (Hs : slots ex5_set = [((0, {| sv_rec := false; sv_nd := [0;1;2;3;4]; sv_coord := -1 |}), 0)]) by reflexivity.
    rewrite Hs in HF. inversion HF as [|? ? ? ? HW _]; subst. cbv beta in HW. destruct HW as (_ & _ & _ & f & l & E & HA). injection E as <- <-.
    change (sv_dec ex5_set _) with true in HA. destruct HA as (_ & C & _).
    specialize (C [piece_tile {| sv_rec := false; sv_nd := [0;1;2;3;4]; sv_coord := -1 |} (ex5_file 0) [10;20]]
      (piece_tile {| sv_rec := false; sv_nd := [0;1;2;3;4]; sv_coord := -1 |} (ex5_file 1) [11;21]) [] [1;0;0;0;1] [1;0;0;0;0] eq_refl).
    assert (K : at_tile (piece_tile {| sv_rec := false; sv_nd := [0;1;2;3;4]; sv_coord := -1 |} (ex5_file 1) [11;21]) [1;0;0;0;1] [1;0;0;0;0]).
    { split; [repeat constructor; cbn; lia|reflexivity]. }
    specialize (C K ltac:(intros t' [])). vm_compute in C. discriminate.
Qed.
Print Assumptions C09_rank5_refuted.

(** A decomposed record variable with the name of a dimension that is not the
    record dimension: a null pointer is written. *)
Definition exn_file (s : Z) : @infile Z :=
  {| in_nfiles := Some 2; in_dims := [und 2; dec 1 2 s]; in_rec := 0;
     in_vars := [{| v_dims := [0;1]; v_coord := 1; v_miss := None; v_data := fun r => Some [10 * r + s] |}] |}.
Theorem C09_named_variable_refuted :
  main 0 no_write_fails 0 (opt0 0) (args [exn_file 0; exn_file 1]) 2 false = UB.
Proof. vm_compute. reflexivity. Qed.
Print Assumptions C09_named_variable_refuted.

(** No record at all: the remainder by a zero blocking factor is undefined,
    whatever -k says. *)
Definition ex0_file : @infile Z :=
  {| in_nfiles := Some 1; in_dims := [und 0]; in_rec := 0;
     in_vars := [{| v_dims := [0]; v_coord := 0; v_miss := None; v_data := fun _ => None |}] |}.
Theorem C11_no_records_refuted : forall k,
  main 0 no_write_fails 0 (opt0 k) (args [ex0_file]) 1 false = UB.
Proof.
  intros k. unfold main, opt0. cbn [o_append negb andb o_k o_end o_start]. set (kk := Z.min MAX_BF k). clearbody kk.
  unfold all_blocks, block_args. cbn [d_stop Z.gtb Z.compare]. unfold ofor at 2. cbn [zseq zseq_nat Z.to_nat Pos.to_nat Pos.iter_op ofold Init.Nat.add].
  unfold do_file. cbn -[pv_records process_vars]. unfold process_vars. cbn -[pv_records]. unfold pv_records. cbn -[Z.min].
  destruct kk as [|p|p]; cbn; try reflexivity. destruct p; reflexivity.
Qed.
Print Assumptions C11_no_records_refuted.
