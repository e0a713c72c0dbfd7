(** * Proofs: the whole run of mppnccombine on a complete set of pieces *)
From Verif Require Import Base Loops Spec_Hyperslab Shape Spec_Combine P_Assemble M_Combine P_Combine Spec_CombineSet P_CombineSet P_CombineRun.

Lemma flat_map_ext_in {A B} (f g : A -> list B) l : (forall x, In x l -> f x = g x) -> flat_map f l = flat_map g l.
Proof. induction l as [|a l IH]; cbn; intros H; auto. now rewrite H, IH by auto. Qed.

Lemma perm_flat_map {A B} (f g : A -> list B) l : (forall x, In x l -> Permutation (f x) (g x)) -> Permutation (flat_map f l) (flat_map g l).
Proof. induction l as [|a l IH]; cbn; intros H; auto. apply Permutation_app; auto. Qed.

Lemma perm_split {A B} (f g : A -> list B) l : Permutation (flat_map f l ++ flat_map g l) (flat_map (fun x => f x ++ g x) l).
Proof.
  induction l as [|a l IH]; cbn; auto. rewrite <- !app_assoc. apply Permutation_app_head.
  rewrite app_assoc. rewrite (Permutation_app_comm _ (g a)). rewrite <- app_assoc. now apply Permutation_app_head.
Qed.

Lemma flat_map_flat_map {A B C} (f : A -> list B) (g : B -> list C) l : flat_map g (flat_map f l) = flat_map (fun x => flat_map g (f x)) l.
Proof. induction l as [|a l IH]; cbn; auto. now rewrite flat_map_app, IH. Qed.

Lemma map_flat_map' {A B C} (f : A -> list B) (g : B -> C) l : map g (flat_map f l) = flat_map (fun x => map g (f x)) l.
Proof. induction l as [|a l IH]; cbn; auto. now rewrite map_app, IH. Qed.

Section Main.
  Context {A : Type} (zero : A) (S : cset) (HS : set_ok S).
  Context (first : @infile A) (rest : list (@infile A)).
  Let files := first :: rest.
  Let n := zlen files.
  Context (HF : Forall (piece S n) files).
  Context (o : copts).
  Let missing := o_missing o.
  Let k := Z.min MAX_BF (o_k o).

  Notation ent := (P_CombineRun.ent zero missing S first rest).
  Notation fullv := (P_CombineRun.fullv S).

  (** the log without the blocks *)
  Definition onelog : list (@wr A) :=
    map (fun '(vn, v, r) => ent vn v r) (slots S).

  Lemma Hk : k <= MAX_BF. Proof. unfold k. lia. Qed.

  Lemma brecs_all m : 0 <= m <= Nb S k -> flat_map (brecs S k) (zseq 0 m) = zseq 0 (Z.min (m * Bf S k) (s_nrecs S)).
  Proof.
    intros Hm. pose proof (Bf_range S HS first rest k Hk) as HB. pose proof (Nb_spec S HS first rest k Hk) as HN. pose proof (nrecs_pos S HS) as HP.
    assert (H0 : 0 <= m) by lia. revert Hm. pattern m. revert m H0. apply natlike_ind.
    - intros _. cbn. rewrite zseq_nonpos by lia. auto.
    - intros m Hm IH Hb. rewrite <- Z.add_1_r, zseq_snoc by lia. rewrite flat_map_app, IH by lia. cbn [flat_map]. rewrite app_nil_r.
      unfold brecs. rewrite Z.min_l by nia. rewrite Z.add_0_l.
      replace (m * Bf S k) with (0 + m * Bf S k) at 2 by lia. rewrite <- zseq_app by nia. f_equal. lia.
  Qed.

  Lemma logto_perm : Permutation (logto zero missing S first rest k (Nb S k)) onelog.
  Proof.
    unfold logto, onelog, ndb, decb, slots. pose proof (Nb_spec S HS first rest k Hk) as HN. pose proof (Nb_pos S HS first rest k Hk).
    rewrite (perm_flat_map _ (fun b => flat_map (fun r => ndl zero missing S first rest 0 r (svnums S) ++ decl zero missing S first rest r (svnums S)) (brecs S k b))).
    2: { intros b _. apply perm_split. }
    rewrite <- flat_map_flat_map, brecs_all by lia. rewrite Z.min_r by lia.
    rewrite map_flat_map'.
    apply perm_flat_map. intros r _. unfold ndl, decl. rewrite perm_split.
    induction (svnums S) as [|[vn v] l IH]; cbn; auto.
    unfold active at 1 2. destruct (sv_rec v || (r =? 0)); cbn [map app filter].
    - destruct (sv_dec S v); cbn; apply perm_skip; exact IH.
    - rewrite !andb_false_r. cbn. exact IH.
  Qed.

  Lemma ent_right : Forall2 (fun '(vn, v, r) w => right_write zero missing S files vn v r w) (slots S) onelog.
  Proof.
    assert (forall l, (forall x, In x l -> In x (slots S)) -> Forall2 (fun '(vn, v, r) w => right_write zero missing S files vn v r w) l
              (map (fun '(vn, v, r) => ent vn v r) l)) as K; [|apply K; auto].
    induction l as [|[[vn v] r] l IH]; cbn [map]; intros Hin; constructor; [|apply IH; intros; apply Hin; simpl; auto].
    specialize (Hin _ (or_introl eq_refl)). unfold slots in Hin. apply in_flat_map in Hin. destruct Hin as (r' & Hr & Hin).
    apply in_map_iff in Hin. destruct Hin as ([vn' v'] & E & Hin). injection E as -> -> ->. apply filter_In in Hin. destruct Hin as [Hin Ha].
    cbn [snd] in Ha. apply In_zseq in Hr.
    assert (Ev : zget (s_vars S) vn = Some v).
    { unfold svnums in Hin. apply In_zget in Hin. destruct Hin as (j & _ & Ej).
      assert (forall (l : list svar) lo j p, zget (combine (zseq lo (zlen l)) l) j = Some p -> fst p = lo + j /\ zget l j = Some (snd p)) as K.
      { clear. induction l as [|a l IHl]; intros lo j p Hj.
        - cbn in Hj. now rewrite zget_nil in Hj.
        - rewrite zlen_cons, zseq_S in Hj by (pose proof (zlen_nonneg l); lia). cbn [combine] in Hj.
          destruct (Z.eq_dec j 0) as [->|Hj0].
          + rewrite zget_cons_0 in Hj. injection Hj as <-. cbn [fst snd]. rewrite zget_cons_0. split; [lia|auto].
          + pose proof (zget_Some_range _ _ _ Hj). rewrite zget_cons_pos in Hj by lia. rewrite zget_cons_pos by lia.
            replace (zlen l + 1 - 1) with (zlen l) in Hj by lia. replace (1 + zlen l - 1) with (zlen l) in Hj by lia.
            apply IHl in Hj. destruct Hj. split; auto. lia. }
      apply K in Ej. cbn [fst snd] in Ej. destruct Ej as [-> Ej]. exact Ej. }
    unfold right_write. cbn [w_var w_start w_count w_vals P_CombineRun.ent]. do 3 (split; [reflexivity|]). exists first, rest. split; [reflexivity|].
    destruct (sv_dec S v) eqn:Ed; auto. apply (combined_assembled _ (fullv v) (map (tilev vn v r) files)).
    - apply (full_nonneg S HS n first); [|eapply zget_In; eauto]. rewrite Forall_forall in HF. apply HF. left. auto.
    - apply Forall_map. apply Forall_forall. intros fi Hfi. rewrite Forall_forall in HF. pose proof (HF _ Hfi) as HP.
      destruct (var_of S first rest fi vn v HP Ev) as (iv & Ei & HV).
      pose proof (active_record S first rest v r ltac:(lia) Ha) as Hrec.
      destruct (data_get S first rest fi vn v iv r HP Ev Ei HV Hrec) as [_ L].
      apply (tile_in S HS n fi HP); auto. eapply zget_In; eauto.
  Qed.

  Context (fs : @fsys A) (nargs : Z).
  Lemma remove_nums_known w lo m : 0 <= w ->
    remove_nums fs w lo (lo + m - 1) = filter (exists_ fs) (map (NNum w) (zseq lo m)).
  Proof.
    intros Hw. unfold remove_nums. replace (lo + m - 1 - lo + 1) with m by lia.
    assert (forall l acc, fold_left (fun '(pe, acc) a => match detect fs pe a with
           | None => (pe, acc) | Some w => (w, if exists_ fs (NNum w a) then acc ++ [NNum w a] else acc) end) l (w, acc)
         = (w, acc ++ filter (exists_ fs) (map (NNum w) l))) as K.
    { induction l as [|a l IH]; intros acc; cbn [fold_left map filter]; [now rewrite app_nil_r|].
      unfold detect at 2. destruct (Z.ltb_spec w 0); [lia|]. rewrite IH. destruct (exists_ fs (NNum w a)); auto. now rewrite <- app_assoc. }
    rewrite K. reflexivity.
  Qed.

  (** what -r deletes after a successful run *)
  Definition deleted (w : Z) : list fname :=
    let last := match o_end o with Some e => e | None => o_start o + n end in
    filter (exists_ fs) (map (NNum w) (zseq (o_start o) (last - o_start o + 1))).

  (** [m] of the n files are looked at, some of them do not exist *)
  Context (gap : Z -> bool) (Hg0 : gap 0 = false) (Hforce : forall i, gap i = true -> o_force o = true)
    (Hgap : forall i fi, gap i = true -> zget files i = Some fi -> void S fi)
    (m : Z) (Hm : 1 <= m <= n) (Hrest : forall j fi, m <= j -> zget files j = Some fi -> void S fi).
  Notation given := (given fs gap).
  Notation numbered := (numbered first rest o fs gap m).
  Definition supplied_g : Prop :=
    (nargs = m /\ forall i fi, i < m -> zget files i = Some fi -> given i (NArg i) fi)
    \/ (nargs = 0 /\ o_end o = None /\ m = n /\ exists w, numbered w)
    \/ (nargs = 0 /\ (exists w, numbered w) /\ exists e, o_end o = Some e /\ 0 <= e /\ o_start o + m - 1 <= e
         /\ (m = n \/ e = o_start o + m - 1)).

  Lemma main_gen : o_append o = false -> supplied_g ->
    exists r, main zero wok 0 o fs nargs false = Ok r /\ res_code r = (if gaps gap m then 1 else 0) /\ res_output r = true
      /\ complete_output zero missing S files (res_log r) /\ (o_remove o = false \/ gaps gap m = true -> res_removed r = [])
      /\ (o_remove o = true -> gaps gap m = false -> (nargs = m /\ res_removed r = map NArg (zseq 0 m))
            \/ (nargs = 0 /\ exists w, numbered w /\ res_removed r = deleted w)).
  Proof.
    intros Happ Hsup. unfold main. rewrite Happ. cbn [negb andb].
    destruct (save_ok missing S HS first rest HF) as (OI & HOI & _).
    set (d0 := {| d_st := _; d_app := _ |}).
    assert (HD : DInv zero missing S first rest k OI gap m 0 0 [] (start_block d0)).
    { constructor; cbn; auto. split; [|auto]. intros oi ->. constructor; cbn; auto. }
    assert (HN : 1 <= n). { unfold n, files. rewrite zlen_cons. pose proof (zlen_nonneg rest). lia. }
    assert (Hall : exists d', (if nargs >? 0 then all_blocks (block_args zero wok o fs nargs) d0
             else match o_end o with
                  | Some e => if e >? -1 then all_blocks (block_range zero wok o fs e) d0 else all_blocks (block_auto zero wok o fs) d0
                  | None => all_blocks (block_auto zero wok o fs) d0
                  end) = Ok (end_block d')
       /\ Post zero missing S first rest k OI gap m (Nb S k - 1) (logto zero missing S first rest k (Nb S k)) d'
       /\ ((nargs = m /\ forall i fi, i < m -> zget files i = Some fi -> given i (NArg i) fi)
           \/ (nargs = 0 /\ exists w, numbered w /\ d_pe (end_block d') = w
               /\ match o_end o with Some e => (e >? -1) = true | None => d_nend (end_block d') = o_start o + n end))).
    { destruct Hsup as [[Hn Hf]|[(Hn & He & Hmn & w & Hnum)|(Hn & (w & Hnum) & e & He & He0 & Hle & Hle')]].
      - rewrite Hn. destruct (Z.gtb_spec m 0); [|lia].
        destruct (all_blocks_ok zero missing S HS first rest k Hk OI HOI o eq_refl gap Hg0 Hforce Hgap m Hrest (block_args zero wok o fs m) (fun _ => True) d0) as (d' & E & HP & HQ'); auto.
        + intros b log d Hb HDb _ _.
          destruct (block_args_ok zero missing S HS first rest HF k Hk OI HOI o fs eq_refl gap Hg0 Hforce Hgap m Hm Hrest b log d) as (d' & E & HP); auto.
          * intros i Hi. destruct (zget_in_range files i ltac:(fold n; lia)) as (fi & Ei). exists fi. split; auto. apply Hf; auto; lia.
          * exists d'. auto.
        + exists d'. split; auto.
      - rewrite Hn, He. cbn [Z.gtb Z.compare].
        destruct (all_blocks_ok zero missing S HS first rest k Hk OI HOI o eq_refl gap Hg0 Hforce Hgap m Hrest (block_auto zero wok o fs) (fun d => d_pe d = w /\ d_nend d = o_start o + n) d0) as (d' & E & HP & [HQ1 HQ2]); auto.
        + intros b log d Hb HDb HQ H0.
          destruct (block_auto_ok zero missing S HS first rest HF k Hk OI HOI o fs eq_refl gap Hg0 Hforce Hgap m Hm Hrest w b log d) as (d' & E & HP & HW & HE); auto.
          * destruct HQ as [H|[H _]]; [right|left]; auto. split; auto. apply H0, H.
          * intros H. apply H0, H.
          * intros H. destruct HQ as [|[_ HQ]]; [lia|auto].
          * exists d'. auto.
        + exists d'. split; auto. split; auto. right. split; auto. exists w. auto.
      - rewrite Hn, He. cbn [Z.gtb Z.compare]. destruct (Z.gtb_spec e (-1)); [|lia].
        destruct (all_blocks_ok zero missing S HS first rest k Hk OI HOI o eq_refl gap Hg0 Hforce Hgap m Hrest (block_range zero wok o fs e) (fun d => d_pe d = w) d0) as (d' & E & HP & HQ1); auto.
        + intros b log d Hb HDb HQ H0.
          destruct (block_range_ok zero missing S HS first rest HF k Hk OI HOI o fs eq_refl gap Hg0 Hforce Hgap m Hm Hrest w e b log d) as (d' & E & HP & HW); auto.
          * destruct HQ as [HQ|HQ]; [right|left]; auto. split; auto. apply H0, HQ.
          * exists d'. auto.
        + exists d'. split; auto. split; auto. right. split; auto. exists w. split; auto. }
    destruct Hall as (d' & E & HP & HR). rewrite E. cbn [bind]. cbn [d_stop d_inerr d_outerr end_block].
    rewrite (po_stop _ _ _ _ _ _ _ _ _ _ _ _ HP), (po_inerr _ _ _ _ _ _ _ _ _ _ _ _ HP), (po_outerr _ _ _ _ _ _ _ _ _ _ _ _ HP).
    assert (HL : complete_output zero missing S files (c_log (d_st (end_block d')))).
    { cbn. rewrite (rd_log _ _ _ _ _ _ _ _ _ _ _ (po_st _ _ _ _ _ _ _ _ _ _ _ _ HP)).
      exists onelog. split; [apply logto_perm|apply ent_right]. }
    destruct ((0 + 0) mod 256 =? 0) eqn:E0; [|discriminate]. rewrite andb_true_r. destruct (gaps gap m) eqn:Eg; cbn [negb].
    { eexists. split; [reflexivity|]. cbn [res_code res_output res_log res_removed]. repeat split; auto. discriminate. }
    eexists. split; [reflexivity|]. cbn [res_code res_output res_log res_removed].
    split; auto. split; auto. split; [exact HL|].
    split; [intros [->|?]; [auto|discriminate]|]. intros -> _. destruct HR as [[Hn Hf]|[Hn (w & Hw & Hpe & He)]].
    + left. split; auto. rewrite Hn. destruct (Z.gtb_spec m 0); [|lia]. unfold remove_args.
      assert (K : forall l, (forall i, In i l -> 0 <= i < m) -> filter (exists_ fs) (map NArg l) = map NArg l).
      { induction l as [|i l IH]; intros Hl; cbn [map filter]; auto. pose proof (Hl i (or_introl eq_refl)) as Hi.
        destruct (zget_in_range files i ltac:(fold n; lia)) as (fi & Ei).
        assert (gap i = false) as Hgi.
        { destruct (gap i) eqn:Egi; auto. rewrite <- Eg. unfold gaps. symmetry. apply existsb_exists. exists i. split; auto. apply In_zseq. lia. }
        unfold exists_ at 1. pose proof (Hf i fi ltac:(lia) Ei) as Hfi. unfold P_CombineRun.given in Hfi. rewrite Hgi in Hfi. rewrite Hfi. f_equal. apply IH. intros. apply Hl. now right. }
      apply K. intros i Hi. apply In_zseq in Hi. lia.
    + right. split; auto. exists w. split; auto. rewrite Hn. cbn [Z.gtb Z.compare]. unfold deleted. cbn [d_pe d_nend end_block] in *.
      assert (0 <= w) by (destruct Hw as [_ [->|[-> _]]]; lia). rewrite Hpe.
      destruct (o_end o) as [e|].
      * rewrite He. rewrite <- remove_nums_known by auto. f_equal. lia.
      * rewrite He, <- remove_nums_known by auto. f_equal. lia.
  Qed.
End Main.

(** ** A complete set *)
Section Complete.
  Context {A : Type} (zero : A) (S : cset) (HS : set_ok S).
  Context (first : @infile A) (rest : list (@infile A)).
  Let files := first :: rest.
  Let n := zlen files.
  Context (HF : Forall (piece S n) files).
  Context (o : copts) (fs : @fsys A) (nargs : Z).
  Definition nogap : Z -> bool := fun _ => false.
  Lemma gaps_nogap m : gaps nogap m = false.
  Proof. unfold gaps. induction (zseq 0 m) as [|a l IH]; cbn; auto. Qed.
  Lemma n_pos' : 1 <= n. Proof. unfold n, files. rewrite zlen_cons. pose proof (zlen_nonneg rest). lia. Qed.

  Lemma main_ok : o_append o = false -> supplied o fs nargs files ->
    exists r, main zero wok 0 o fs nargs false = Ok r /\ res_code r = 0 /\ res_output r = true
      /\ complete_output zero (o_missing o) S files (res_log r) /\ (o_remove o = false -> res_removed r = [])
      /\ (o_remove o = true -> (nargs = n /\ res_removed r = map NArg (zseq 0 n))
            \/ (nargs = 0 /\ exists w, numbered first rest o fs nogap n w /\ res_removed r = deleted first rest o fs w)).
  Proof.
    intros Happ Hsup.
    destruct (main_gen zero S HS first rest HF o fs nargs nogap eq_refl ltac:(discriminate) ltac:(discriminate) n) as (r & E & C & O & L & R0 & R1); auto.
    - pose proof n_pos'. fold files n. lia.
    - intros j fi Hj Hz. apply zget_Some_range in Hz. fold files n in Hz. lia.
    - assert (Hnum : forall w, (forall i fi, zget files i = Some fi -> fs (NNum w (o_start o + i)) = Some (Some fi)) ->
         (w = 4 \/ (w = 6 /\ fs (NNum 4 (o_start o)) = None)) -> numbered first rest o fs nogap n w).
      { intros w H1 H2. split; auto. intros i Hi. destruct (zget_in_range files i Hi) as (fi & Ei). exists fi. split; auto. exact (H1 i fi Ei). }
      destruct Hsup as [[Hn Hf]|[(Hn & He & w & Hw1 & Hw2)|(Hn & (w & Hw1 & Hw2) & e & He & He0 & Hle)]].
      + left. split; auto. intros i fi _ Ei. exact (Hf i fi Ei).
      + right. left. repeat split; auto. exists w. auto.
      + right. right. split; auto. split; [exists w; auto|]. exists e. auto.
    - rewrite gaps_nogap in *. exists r. repeat (split; auto).
  Qed.
End Complete.
