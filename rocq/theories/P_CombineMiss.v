(** * Proofs: missing input files *)
From Verif Require Import Base Loops M_Combine P_CombineErr.

Lemma ofor_post {S} (P : Z -> S -> Prop) (f : S -> Z -> outcome S) lo n s s1 : 0 <= n ->
  (forall i s s1, lo <= i < lo + n -> P i s -> f s i = Ok s1 -> P (i + 1) s1) -> P lo s -> ofor lo n f s = Ok s1 -> P (lo + n) s1.
Proof.
  intros Hn H HP E. eapply (ofor_two (fun i a (_ : unit) => P i a) f (fun u _ => Ok u) lo n s tt s1 tt); eauto.
  unfold ofor. generalize (zseq lo n). induction l as [|x l IH]; cbn; auto.
Qed.

Section M.
  Context {A : Type} (zero : A) (wf : Z -> Z -> bool) (o : copts) (fs : @fsys A).
  Notation dst := (@dst A).
  Notation infile := (@infile A).

  (** the number of files known so far *)
  Lemma pv_var_nfiles missing fi app r f x vn y : pv_var zero wf missing fi app r f x vn = Ok y -> c_nfiles (snd y) = c_nfiles (snd x).
  Proof.
    intros E. destruct x as [c st]. cbn [fst snd] in *. unfold pv_var in E. destruct (negb (c =? 0)); [injection E as <-; auto|].
    apply bind_inv in E. destruct E as (v & _ & E). apply bind_inv in E. destruct E as (ds & _ & E).
    destruct (pv_skip _ _ _ _ _ _); [injection E as <-; auto|]. destruct (v_data v r); [|injection E as <-; auto].
    destruct (negb (vdecomp ds)); [destruct (wf vn r); injection E as <-; auto|].
    apply bind_inv in E. destruct E as (ns & _ & E). destruct (negb _); [discriminate|].
    apply bind_inv in E. destruct E as (ob & _ & E). destruct ob; [|injection E as <-; auto].
    apply bind_inv in E. destruct E as (b1 & _ & E). injection E as <-. auto.
  Qed.
  Lemma process_vars_nfiles missing fi app r f st y : process_vars zero wf missing fi app r f st = Ok y -> c_nfiles (snd y) = c_nfiles st.
  Proof.
    intros E. unfold process_vars in E. apply bind_inv in E. destruct E as (n & En & E).
    apply bind_inv in E. destruct E as (q & Eo & E). destruct q as [s|]; [|injection E as <-; auto].
    assert (Hs : c_nfiles s = c_nfiles st).
    { unfold pv_records in Eo.
      assert (HSl : forall z z' : @cst A, match c_slots z with None => set_slots z (Some (c_bf z)) | Some _ => z end = z' -> c_nfiles z' = c_nfiles z)
        by (intros z z' <-; destruct (c_slots z); auto).
      destruct (c_nrecs st =? 1).
      - set (bf := if 1 <=? c_bf st then _ else _) in *. destruct (bf =? 0); [discriminate|]. cbn [bind] in Eo. injection Eo as Eo.
        now apply (HSl (set_rec st n (if negb (n mod bf =? 0) then n / bf + 1 else n / bf) bf)) in Eo.
      - destruct (negb _); [discriminate|]. cbn [bind] in Eo. injection Eo as Eo. now apply (HSl st) in Eo. }
    revert E. apply (ofor_keep (fun y => c_nfiles (snd y) = c_nfiles st)); auto. intros i x x1 He F. apply pv_var_nfiles in F. congruence.
  Qed.
  Lemma process_file_nfiles missing file app block f st y : process_file zero wf missing file app block f st = Ok y ->
    c_nfiles (snd y) = match file with Some fi => match in_nfiles fi with Some n => n | None => c_nfiles st end | None => c_nfiles st end.
  Proof.
    intros E. unfold process_file in E. destruct file as [fi|]; [|injection E as <-; auto].
    destruct (in_nfiles fi) as [n|]; [|destruct (c_nfiles st =? 1); [injection E as <-; auto|discriminate]].
    apply bind_inv in E. destruct E as (oi & _ & E). unfold rec_loop in E. apply bind_inv in E. destruct E as ([e s] & E0 & E).
    apply process_vars_nfiles in E0. cbn [snd c_nfiles set_oi] in E0.
    revert E. apply (ofor_keep (fun y => c_nfiles (snd y) = n)); auto.
    intros r [e1 s1] y1 Q F. apply bind_inv in F. destruct F as ([e2 s2] & F1 & F). injection F as <-. cbn [fst snd] in *.
    apply process_vars_nfiles in F1. cbn [snd] in F1. congruence.
  Qed.
  Lemma flush_nfiles block e (st : @cst A) y : flush_block wf block e st = Ok y -> c_nfiles (snd y) = c_nfiles st.
  Proof. intros E. apply flush_block_keeps in E. destruct E as [N _]. apply nolog_eq in N. apply N. Qed.

  Context (Hforce : o_force o = false).

  Lemma do_file_missing nm block me first last (d : dst) y : fs nm = None -> do_file zero wf o fs nm block me first last d = Ok y -> d_stop y = Some 9.
  Proof. intros H E. unfold do_file in E. rewrite H, Hforce in E. cbn in E. injection E as <-. reflexivity. Qed.
  Lemma do_file_present nm block me first last (d : dst) y x : fs nm = Some x -> do_file zero wf o fs nm block me first last d = Ok y ->
    let n := match x with Some fi => match in_nfiles fi with Some n => n | None => c_nfiles (d_st d) end | None => c_nfiles (d_st d) end in
    d_stop y = None /\ c_nfiles (d_st y) = n /\ d_pe y = d_pe d /\ d_nend y = (if first && (n >? 0) then o_start o + n else d_nend d)
    /\ (me = false -> d_break y = false) /\ (me = true -> d_f y = d_f d + 1 /\ (d_break y = true -> d_f d + 1 = n \/ exists d1, d_f d1 = d_f d + 1 /\ last d1 = true)).
  Proof.
    intros H E. cbv zeta. unfold do_file in E. rewrite H in E. cbn [andb] in E.
    apply bind_inv in E. destruct E as ([e st] & E0 & E). apply process_file_nfiles in E0. cbn [snd] in E0. cbv zeta in E. cbn [d_f d_outerr d_pe d_used d_inerr d_nend d_stop] in E.
    rewrite <- E0. set (d1 := {| d_st := st |}) in E.
    destruct ((d_f d + 1 =? c_nfiles st) || last d1) eqn:Ef.
    - apply bind_inv in E. destruct E as ([oe s] & E1 & E). apply flush_nfiles in E1. cbn [snd] in E1. injection E as <-. cbn.
      repeat split; auto; intros; subst; auto. apply orb_true_iff in Ef. destruct Ef as [Ef|Ef]; [left; lia|right; exists d1; auto].
    - injection E as <-. cbn. repeat split; auto. intros; discriminate.
  Qed.

  Lemma all_blocks_stopped one (d y : dst) : (forall y, one 0 d = Ok y -> d_stop y = Some 9) -> d_stop d = None ->
    all_blocks one d = Ok y -> d_stop y = Some 9.
  Proof.
    intros H H0 E. unfold all_blocks in E. apply bind_inv in E. destruct E as (d1 & E0 & E). rewrite H0 in E0. apply H in E0.
    revert E. apply (ofor_keep (fun d => d_stop d = Some 9)); auto. intros i s s1 Hs F. cbv beta in F. rewrite Hs in F. injection F as <-. auto.
  Qed.

  (** explicit names *)
  Lemma args_missing nargs b (d y : dst) a : 0 <= a < nargs -> fs (NArg a) = None -> d_stop d = None ->
    block_args zero wf o fs nargs b d = Ok y -> d_stop y = Some 9.
  Proof.
    intros Ha Hm Hs E. unfold block_args in E. apply bind_inv in E. destruct E as (d1 & E & E1). injection E1 as <-. change (d_stop d1 = Some 9).
    enough (X : d_stop d1 = Some 9 \/ (0 + nargs <= a /\ running d1 = true)) by (destruct X; [auto|lia]).
    revert E. apply (ofor_post (fun i d => d_stop d = Some 9 \/ (i <= a /\ running d = true))); [lia| |].
    - intros i s s1 Hi [P|[P1 P2]] F; cbv beta in F.
      + left. unfold running in F. rewrite P in F. cbn [negb] in F. injection F as <-. auto.
      + rewrite P2 in F. cbn [negb] in F. destruct (Z.eq_dec i a) as [->|Hne]; [left; eapply do_file_missing; eauto|].
        destruct (fs (NArg i)) as [x|] eqn:Ex; [|left; eapply do_file_missing; eauto].
        right. split; [lia|]. pose proof (do_file_present _ _ _ _ _ _ _ _ Ex F) as (G1 & _ & _ & _ & G5 & _). unfold running. rewrite G1, G5; auto.
    - right. split; [lia|]. unfold running. cbn. rewrite Hs. auto.
  Qed.

  (** numbered files without -e *)
  Lemma detect_first w a : (w = 4 \/ (w = 6 /\ fs (NNum 4 a) = None)) -> fs (NNum w a) <> None -> detect fs (-1) a = Some w.
  Proof.
    intros H1 H2. unfold detect, exists_. cbn. destruct H1 as [->|[-> H1]].
    - destruct (fs (NNum 4 a)); auto. contradiction.
    - rewrite H1. destruct (fs (NNum 6 a)); auto. contradiction.
  Qed.
  Lemma detect_known w a : 0 <= w -> detect fs w a = Some w.
  Proof. intros H. unfold detect. destruct (Z.ltb_spec w 0); auto. lia. Qed.

  Lemma auto_missing w n fi b (d y : dst) a : (w = 4 \/ (w = 6 /\ fs (NNum 4 (o_start o)) = None)) ->
    fs (NNum w (o_start o)) = Some (Some fi) -> in_nfiles fi = Some n -> o_start o < a < o_start o + n -> fs (NNum w a) = None ->
    d_stop d = None -> d_pe d = -1 -> block_auto zero wf o fs b d = Ok y -> d_stop y = Some 9.
  Proof.
    intros Hw Hf Hn Ha Hm Hs Hpe E. unfold block_auto in E. apply bind_inv in E. destruct E as (d0 & E0 & E). apply bind_inv in E. destruct E as (d1 & E & E1). injection E1 as <-.
    change (d_stop d1 = Some 9).
    assert (H0 : running d0 = true /\ d_pe d0 = w /\ d_nend d0 = o_start o + n).
    { unfold do_num, running in E0. cbn [start_block d_stop d_break d_pe] in E0. rewrite Hs in E0. cbn [negb] in E0.
      rewrite Hpe, (detect_first w) in E0 by (auto; congruence).
      pose proof (do_file_present _ _ _ _ _ _ _ _ Hf E0) as (G1 & _ & G3 & G4 & G5 & _). cbv iota in G4. rewrite Hn in G4.
      unfold running. rewrite G1, G5, G3 by auto. cbn. split; auto. split; auto. rewrite G4. destruct (Z.gtb_spec n 0); [auto|lia]. }
    destruct H0 as (H1 & H2 & H3). rewrite H3 in E.
    enough (X : d_stop d1 = Some 9 \/ (o_start o + 1 + (o_start o + n - (o_start o + 1)) <= a /\ running d1 = true /\ d_pe d1 = w)) by (destruct X; [auto|lia]).
    revert E. apply (ofor_post (fun i d => d_stop d = Some 9 \/ (i <= a /\ running d = true /\ d_pe d = w))); [lia| |].
    - intros i s s1 Hi [P|[P1 [P2 P3]]] F; unfold do_num in F.
      + left. unfold running in F. rewrite P in F. cbn [negb] in F. injection F as <-. auto.
      + rewrite P2 in F. cbn [negb] in F. rewrite P3, detect_known in F by (destruct Hw as [->|[-> _]]; lia).
        destruct (Z.eq_dec i a) as [->|Hne]; [left; eapply do_file_missing; eauto|].
        destruct (fs (NNum w i)) as [x|] eqn:Ex; [|left; eapply do_file_missing; eauto].
        right. split; [lia|]. pose proof (do_file_present _ _ _ _ _ _ _ _ Ex F) as (G1 & _ & G3 & _ & G5 & _). unfold running. rewrite G1, G5, G3; auto.
    - right. split; [lia|]. auto.
  Qed.

  (** numbered files with -e: [a0] is the first number with a file *)
  Lemma range_missing w n e b (d y : dst) a0 a :
    o_start o <= a0 < a -> a <= e -> a - a0 < n ->
    (forall i, o_start o <= i < a0 -> fs (NNum 4 i) = None /\ fs (NNum 6 i) = None) ->
    (w = 4 \/ (w = 6 /\ fs (NNum 4 a0) = None)) ->
    (forall i fi, a0 <= i <= e -> fs (NNum w i) = Some (Some fi) -> in_nfiles fi = Some n) ->
    fs (NNum w a0) <> None -> fs (NNum w a) = None ->
    d_stop d = None -> d_pe d = -1 -> c_nfiles (d_st d) = -1 ->
    block_range zero wf o fs e b d = Ok y -> d_stop y = Some 9.
  Proof.
    intros Ha0 Hae Han Hbefore Hw Hn Hf Hm Hs Hpe Hc E. unfold block_range in E. apply bind_inv in E. destruct E as (d1 & E & E1).
    enough (X : d_stop d1 = Some 9).
    { rewrite X in E1. injection E1 as <-. exact X. }
    enough (X : d_stop d1 = Some 9 \/ (o_start o + (e - o_start o + 1) <= a /\ running d1 = true)) by (destruct X; [auto|lia]).
    pose (PP := (fun (i : Z) (d : dst) => d_stop d = Some 9 \/ (i <= a /\ running d = true /\ (i <= a0 -> d_pe d = -1 /\ d_f d = 0) /\ (a0 < i -> d_pe d = w /\ d_f d = i - a0)
        /\ (c_nfiles (d_st d) = -1 \/ c_nfiles (d_st d) = n)))).
    assert (Y : PP (o_start o + (e - o_start o + 1)) d1); [|destruct Y as [Y|(Y1 & Y2 & _)]; auto].
    revert E. apply (ofor_post PP); unfold PP; clear PP; [lia| |].
    - intros i s s1 Hi [P|(P1 & P2 & P3 & P4 & P5)] F; unfold do_num in F.
      + left. unfold running in F. rewrite P in F. cbn [negb] in F. injection F as <-. auto.
      + rewrite P2 in F. cbn [negb] in F. destruct (Z.lt_ge_cases i a0) as [Hlt|Hge].
        * destruct (P3 ltac:(lia)) as [P31 P32]. rewrite P31 in F. destruct (Hbefore i ltac:(lia)) as [B1 B2]. unfold detect, exists_ in F. rewrite B1, B2 in F. cbn in F. injection F as <-.
          right. split; [lia|]. split; auto. split; auto. split; [lia|auto].
        * assert (Hdet : detect fs (d_pe s) i = Some w).
          { destruct (Z.eq_dec i a0) as [->|]; [rewrite (proj1 (P3 ltac:(lia))); apply detect_first; auto|].
            rewrite (proj1 (P4 ltac:(lia))). apply detect_known. destruct Hw as [->|[-> _]]; lia. }
          rewrite Hdet in F. destruct (Z.eq_dec i a) as [->|Hne]; [left; eapply do_file_missing; eauto|].
          destruct (fs (NNum w i)) as [x|] eqn:Ex; [|left; eapply do_file_missing; eauto].
          pose proof (do_file_present _ _ _ _ _ _ _ _ Ex F) as (G1 & G2 & G3 & _ & _ & G6). destruct (G6 eq_refl) as [G7 G8]. cbn [with_pe d_pe d_f d_st] in *.
          assert (Hfi : d_f s = i - a0) by (destruct (Z.eq_dec i a0); [rewrite (proj2 (P3 ltac:(lia)))|rewrite (proj2 (P4 ltac:(lia)))]; lia).
          assert (G9 : c_nfiles (d_st s1) = -1 \/ c_nfiles (d_st s1) = n).
          { rewrite G2. destruct x as [fi|]; auto. rewrite (Hn i fi ltac:(lia) Ex). auto. }
          right. split; [lia|]. split.
          { unfold running. rewrite G1. destruct (d_break s1) eqn:Eb; auto. exfalso. destruct (G8 eq_refl) as [G|(d2 & _ & G)].
            - rewrite <- G2 in G. lia.
            - lia. }
          split; [lia|]. split; [intros _; rewrite G3, G7; split; [auto|lia]|auto].
    - right. split; [lia|]. split; [unfold running; cbn; rewrite Hs; auto|]. cbn. split; [auto|]. split; [lia|auto].
  Qed.
End M.
