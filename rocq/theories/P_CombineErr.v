(** * Proofs: a run with failing reads and writes compared with one without *)
From Verif Require Import Base Loops M_Combine P_CombineRun Spec_CombineErr.

(** ** Loops *)
Lemma ofold_two {S T B} (R : S -> T -> Prop) (f : S -> B -> outcome S) (g : T -> B -> outcome T) l : forall s t s1 t1,
  (forall i s t s1 t1, In i l -> R s t -> f s i = Ok s1 -> g t i = Ok t1 -> R s1 t1) ->
  R s t -> ofold f l s = Ok s1 -> ofold g l t = Ok t1 -> R s1 t1.
Proof.
  induction l as [|b l IH]; cbn [ofold]; intros s t s1 t1 H HR E1 E2.
  - injection E1 as <-. injection E2 as <-. auto.
  - destruct (f s b) as [s2| |] eqn:F1; try discriminate. destruct (g t b) as [t2| |] eqn:F2; try discriminate. cbn in E1, E2.
    eapply IH; [|eapply H; [left; reflexivity|exact HR|exact F1|exact F2]|exact E1|exact E2]. intros. eapply H; eauto. now right.
Qed.
Lemma ofor_two {S T} (R : Z -> S -> T -> Prop) (f : S -> Z -> outcome S) (g : T -> Z -> outcome T) lo n s t s1 t1 : 0 <= n ->
  (forall i s t s1 t1, lo <= i < lo + n -> R i s t -> f s i = Ok s1 -> g t i = Ok t1 -> R (i + 1) s1 t1) ->
  R lo s t -> ofor lo n f s = Ok s1 -> ofor lo n g t = Ok t1 -> R (lo + n) s1 t1.
Proof.
  intros Hn. revert lo s t. pattern n. revert n Hn. apply natlike_ind.
  - intros lo s t _ HR. unfold ofor. rewrite zseq_nonpos by lia. cbn. intros E1 E2. injection E1 as <-. injection E2 as <-. now rewrite Z.add_0_r.
  - intros n Hn IH lo s t H HR. unfold ofor. rewrite zseq_S by lia. replace (Z.succ n - 1) with n by lia. cbn [ofold]. intros E1 E2.
    destruct (f s lo) as [s2| |] eqn:F1; try discriminate. destruct (g t lo) as [t2| |] eqn:F2; try discriminate. cbn in E1, E2.
    replace (lo + Z.succ n) with (lo + 1 + n) by lia. eapply IH; [|eapply H; [lia|exact HR|exact F1|exact F2]|exact E1|exact E2].
    intros. eapply H; eauto. lia.
Qed.
Lemma ofor_both {S T} (R : S -> T -> Prop) (f : S -> Z -> outcome S) (g : T -> Z -> outcome T) lo n s t s1 t1 :
  (forall i s t s1 t1, lo <= i < lo + n -> R s t -> f s i = Ok s1 -> g t i = Ok t1 -> R s1 t1) ->
  R s t -> ofor lo n f s = Ok s1 -> ofor lo n g t = Ok t1 -> R s1 t1.
Proof.
  intros H. unfold ofor. apply ofold_two. intros i a b a1 b1 Hi. apply H. destruct (Z.le_gt_cases n 0); [rewrite zseq_nonpos in Hi by lia; destruct Hi|].
  apply In_zseq in Hi. lia.
Qed.
Lemma ofor_keep {S} (P : S -> Prop) (f : S -> Z -> outcome S) lo n s s1 :
  (forall i s s1, P s -> f s i = Ok s1 -> P s1) -> P s -> ofor lo n f s = Ok s1 -> P s1.
Proof.
  intros H HP E. eapply (ofor_both (fun a (_ : unit) => P a) f (fun u _ => Ok u) lo n s tt s1 tt); eauto.
  unfold ofor. generalize (zseq lo n). induction l as [|x l IH]; cbn; auto.
Qed.
Lemma bind_inv {S T} (e : outcome S) (f : S -> outcome T) t : bind e f = Ok t -> exists s, e = Ok s /\ f s = Ok t.
Proof. destruct e; cbn; try discriminate. eauto. Qed.

Section E.
  Context {A : Type} (zero : A).
  Notation infile := (@infile A).
  Notation cst := (@cst A).
  Notation dst := (@dst A).
  Context (wf : Z -> Z -> bool).

  Definition nolog (st : cst) : cst :=
    {| c_nfiles := c_nfiles st; c_nrecs := c_nrecs st; c_nblocks := c_nblocks st; c_bf := c_bf st;
       c_slots := c_slots st; c_buf := c_buf st; c_oi := c_oi st; c_log := [] |}.
  Definition K (b b' : list (@wr A)) (st st' : cst) : Prop :=
    nolog st = nolog st' /\ exists ext, c_log st = b ++ ext /\ c_log st' = b' ++ ext.
  Lemma nolog_eq st st' : nolog st = nolog st' -> c_nfiles st = c_nfiles st' /\ c_nrecs st = c_nrecs st' /\ c_nblocks st = c_nblocks st'
    /\ c_bf st = c_bf st' /\ c_slots st = c_slots st' /\ c_buf st = c_buf st' /\ c_oi st = c_oi st'.
  Proof. destruct st, st'. unfold nolog. cbn. intros H. injection H. auto 10. Qed.

  Lemma K_add b b' st st' w : K b b' st st' -> K b b' (add_log st w) (add_log st' w).
  Proof.
    intros [N (ext & L & L')]. split.
    - apply nolog_eq in N. destruct N as (N1 & N2 & N3 & N4 & N5 & N6 & N7). unfold nolog. cbn. congruence.
    - exists (ext ++ [w]). cbn. now rewrite L, L', <- !app_assoc.
  Qed.
  Lemma K_buf b b' st st' x : K b b' st st' -> K b b' (set_buf st x) (set_buf st' x).
  Proof.
    intros [N (ext & L & L')]. split.
    - apply nolog_eq in N. destruct N as (N1 & N2 & N3 & N4 & N5 & N6 & N7). unfold nolog. cbn. congruence.
    - exists ext. auto.
  Qed.
  Lemma K_oi b b' st st' n x : K b b' st st' -> K b b' (set_oi st n x) (set_oi st' n x).
  Proof.
    intros [N (ext & L & L')]. split.
    - apply nolog_eq in N. destruct N as (N1 & N2 & N3 & N4 & N5 & N6 & N7). unfold nolog. cbn. congruence.
    - exists ext. auto.
  Qed.
  Lemma K_rec b b' st st' x y z : K b b' st st' -> K b b' (set_rec st x y z) (set_rec st' x y z).
  Proof.
    intros [N (ext & L & L')]. split.
    - apply nolog_eq in N. destruct N as (N1 & N2 & N3 & N4 & N5 & N6 & N7). unfold nolog. cbn. congruence.
    - exists ext. auto.
  Qed.
  Lemma K_slots b b' st st' x : K b b' st st' -> K b b' (set_slots st x) (set_slots st' x).
  Proof.
    intros [N (ext & L & L')]. split.
    - apply nolog_eq in N. destruct N as (N1 & N2 & N3 & N4 & N5 & N6 & N7). unfold nolog. cbn. congruence.
    - exists ext. auto.
  Qed.

  (** *** pv_records *)
  Lemma records_two b b' n st st' o o' : K b b' st st' -> pv_records n st = Ok o -> pv_records n st' = Ok o' ->
    (o = None /\ o' = None) \/ exists s s', o = Some s /\ o' = Some s' /\ K b b' s s'.
  Proof.
    intros HK E E'. pose proof (nolog_eq _ _ (proj1 HK)) as (N1 & N2 & N3 & N4 & N5 & N6 & N7).
    unfold pv_records in *. rewrite <- N2, <- N4 in E'.
    set (bf := if 1 <=? c_bf st then _ else _) in *.
    assert (D : forall s s', K b b' s s' -> K b b' (match c_slots s with None => set_slots s (Some (c_bf s)) | Some _ => s end)
                 (match c_slots s' with None => set_slots s' (Some (c_bf s')) | Some _ => s' end)).
    { intros s s' Hs. pose proof (nolog_eq _ _ (proj1 Hs)) as (M1 & M2 & M3 & M4 & M5 & _). rewrite <- M5, <- M4. destruct (c_slots s); auto.
      now apply K_slots. }
    destruct (c_nrecs st =? 1).
    - destruct (bf =? 0); [discriminate|]. cbn [bind] in E, E'. injection E as <-. injection E' as <-. right. do 2 eexists. split; [reflexivity|].
      split; [reflexivity|]. exact (D _ _ (K_rec _ _ _ _ n (if negb (n mod bf =? 0) then n / bf + 1 else n / bf) bf HK)).
    - destruct (negb _); cbn [bind] in E, E'; injection E as <-; injection E' as <-; [now left|]. right. do 2 eexists. split; [reflexivity|].
      split; [reflexivity|]. exact (D _ _ HK).
  Qed.

  (** *** one variable *)
  Definition Rv b b' (x x' : Z * cst) : Prop := fst x <> 0 \/ (fst x = fst x' /\ K b b' (snd x) (snd x')).

  Lemma vdims_dam (fi fi' : infile) ids : damaged_file fi fi' -> vdims fi ids = vdims fi' ids.
  Proof. intros (_ & D & R & _). unfold vdims. rewrite D, R. auto. Qed.

  Lemma F2_get {X Y} (R : X -> Y -> Prop) l l' : Forall2 R l l' -> forall i x y, zget l i = Some x -> zget l' i = Some y -> R x y.
  Proof.
    induction 1 as [|a a' l l' Ha HF IH]; intros i x y E E'; [now rewrite zget_nil in E|].
    destruct (Z.eq_dec i 0) as [->|Hi].
    - rewrite zget_cons_0 in *. injection E as <-. injection E' as <-. auto.
    - pose proof (zget_Some_range _ _ _ E). rewrite zget_cons_pos in E by lia. rewrite zget_cons_pos in E' by lia. exact (IH _ _ _ E E').
  Qed.
  Lemma F2_len {X Y} (R : X -> Y -> Prop) l l' : Forall2 R l l' -> zlen l = zlen l'.
  Proof. induction 1; rewrite ?zlen_cons; auto. lia. Qed.

  Lemma pv_var_two missing fi fi' app r f b b' vn x x' y y' : damaged_file fi fi' -> Rv b b' x x' ->
    pv_var zero wf missing fi app r f x vn = Ok y -> pv_var zero wok missing fi' app r f x' vn = Ok y' -> Rv b b' y y'.
  Proof.
    intros HD HR E E'. destruct x as [c st], x' as [c' st']. unfold Rv in HR. cbn [fst snd] in HR. unfold pv_var in E, E'.
    destruct (Z.eq_dec c 0) as [->|Hc].
    2: { destruct (Z.eqb_spec c 0); [contradiction|]. injection E as <-. left. auto. }
    destruct HR as [?|[<- HK]]; [congruence|]. cbn [Z.eqb negb] in E, E'.
    apply bind_inv in E. destruct E as (v & Ev & E). apply bind_inv in E'. destruct E' as (v' & Ev' & E').
    apply oget_Ok in Ev. apply oget_Ok in Ev'. pose proof HD as (_ & _ & HR & HV). pose proof (F2_get _ _ _ HV _ _ _ Ev Ev') as (V1 & V2 & V3 & V4).
    rewrite (vdims_dam _ _ _ HD), V1 in E. apply bind_inv in E. destruct E as (ds & Ed & E). rewrite Ed in E'. cbn [bind] in E'.
    assert (ES : pv_skip fi app r f v ds = pv_skip fi' app r f v' ds) by (unfold pv_skip; now rewrite V2, HR).
    rewrite ES in E. destruct (pv_skip fi' app r f v' ds).
    { injection E as <-. injection E' as <-. right. auto. }
    destruct (V4 r) as [V|V]; rewrite V in E; [injection E as <-; left; cbn; lia|].
    destruct (v_data v' r) as [vals|]; [|injection E as <-; injection E' as <-; right; auto].
    pose proof (nolog_eq _ _ (proj1 HK)) as (N1 & N2 & N3 & N4 & N5 & N6 & N7).
    destruct (negb (vdecomp ds)).
    - unfold wok in E'. destruct (wf vn r); injection E as <-; injection E' as <-; [left; cbn; lia|right]. split; auto. now apply K_add.
    - rewrite <- N4, <- N5, <- N6, <- N7 in E'.
      apply bind_inv in E. destruct E as (ns & En & E). rewrite En in E'. cbn [bind] in E'.
      destruct (negb (r mod c_bf st <? ns)); [discriminate|].
      apply bind_inv in E. destruct E as (ob & Eb & E). rewrite Eb in E'. cbn [bind] in E'.
      destruct ob as [bb|]; [|injection E as <-; injection E' as <-; right; auto].
      apply bind_inv in E. destruct E as (b1 & Ep & E). rewrite Ep in E'. cbn [bind] in E'.
      injection E as <-. injection E' as <-. right. split; auto. now apply K_buf.
  Qed.

  Lemma process_vars_two missing fi fi' app r f b b' st st' y y' : damaged_file fi fi' -> K b b' st st' ->
    process_vars zero wf missing fi app r f st = Ok y -> process_vars zero wok missing fi' app r f st' = Ok y' -> Rv b b' y y'.
  Proof.
    intros HD HK E E'. unfold process_vars in E, E'. pose proof HD as (_ & D2 & D3 & D4). rewrite D2, D3 in E.
    apply bind_inv in E. destruct E as (n & En & E). rewrite En in E'. cbn [bind] in E'.
    apply bind_inv in E. destruct E as (o & Eo & E). apply bind_inv in E'. destruct E' as (o' & Eo' & E').
    destruct (records_two _ _ _ _ _ _ _ HK Eo Eo') as [[-> ->]|(s & s' & -> & -> & Hs)].
    - injection E as <-. injection E' as <-. right. auto.
    - rewrite (F2_len _ _ _ D4) in E. eapply (ofor_both (Rv b b')); [|right|exact E|exact E']; [|split; [reflexivity|exact Hs]].
      intros i x x' z z' _ HR F1 F2. eapply pv_var_two; eauto.
  Qed.

  (** *** ranges along the real run *)
  Definition BI (st : cst) : Prop := c_bf st <= MAX_BF /\ (1 <= c_bf st \/ (c_nblocks st <= 1 /\ c_nrecs st = 1)).
  Lemma pv_var_keeps w missing fi app r f x vn y : (fst x = 0 \/ fst x = 1) ->
    pv_var zero w missing fi app r f x vn = Ok y ->
    (fst y = 0 \/ fst y = 1) /\ c_bf (snd y) = c_bf (snd x) /\ c_nblocks (snd y) = c_nblocks (snd x) /\ c_nrecs (snd y) = c_nrecs (snd x)
    /\ exists ext, c_log (snd y) = c_log (snd x) ++ ext.
  Proof.
    intros Hx E. assert (HT : forall z : cst, exists ext, c_log z = c_log z ++ ext) by (intros z; exists []; now rewrite app_nil_r).
    destruct x as [c st]. cbn [fst snd] in *. unfold pv_var in E. destruct (negb (c =? 0)); [injection E as <-; auto|].
    apply bind_inv in E. destruct E as (v & _ & E). apply bind_inv in E. destruct E as (ds & _ & E).
    destruct (pv_skip _ _ _ _ _ _); [injection E as <-; cbn; auto|]. destruct (v_data v r); [|injection E as <-; cbn; auto 10].
    destruct (negb (vdecomp ds)).
    - destruct (w vn r); injection E as <-; cbn; eauto 10.
    - apply bind_inv in E. destruct E as (ns & _ & E). destruct (negb _); [discriminate|].
      apply bind_inv in E. destruct E as (ob & _ & E). destruct ob; [|injection E as <-; cbn; auto 10].
      apply bind_inv in E. destruct E as (b1 & _ & E). injection E as <-. cbn. auto 10.
  Qed.
  Lemma process_vars_keeps w missing fi app r f st y : BI st -> Forall (fun rd => 0 <= rd_len rd) (in_dims fi) ->
    process_vars zero w missing fi app r f st = Ok y ->
    (fst y = 0 \/ fst y = 1) /\ (fst y = 0 -> 1 <= c_bf (snd y)) /\ BI (snd y) /\ (1 <= c_bf st -> 1 <= c_bf (snd y) <= c_bf st)
    /\ exists ext, c_log (snd y) = c_log st ++ ext.
  Proof.
    intros HB HS E. unfold process_vars in E. apply bind_inv in E. destruct E as (n & En & E).
    assert (Hn : 0 <= n).
    { destruct (in_rec fi <? 0); [injection En as <-; lia|]. apply bind_inv in En. destruct En as (rd & Er & En). injection En as <-.
      apply oget_Ok, zget_In in Er. rewrite Forall_forall in HS. auto. }
    apply bind_inv in E. destruct E as (o & Eo & E).
    destruct o as [s|].
    2: { injection E as <-. cbn. split; [auto|]. split; [lia|]. split; auto. split; [lia|]. exists []. now rewrite app_nil_r. }
    assert (Hs : 1 <= c_bf s /\ BI s /\ (1 <= c_bf st -> c_bf s <= c_bf st) /\ c_log s = c_log st).
    { unfold pv_records in Eo. unfold BI, MAX_BF in *.
      assert (HSl : forall z z' : cst, match c_slots z with None => set_slots z (Some (c_bf z)) | Some _ => z end = z' ->
                 c_bf z' = c_bf z /\ c_nblocks z' = c_nblocks z /\ c_nrecs z' = c_nrecs z /\ c_log z' = c_log z)
        by (intros z z' <-; destruct (c_slots z); auto).
      destruct (Z.eqb_spec (c_nrecs st) 1).
      - set (bf := if 1 <=? c_bf st then _ else _) in *. destruct (Z.eqb_spec bf 0) as [|Hb]; [discriminate|].
        cbn [bind] in Eo. injection Eo as Eo. destruct (HSl (set_rec st n (if negb (n mod bf =? 0) then n / bf + 1 else n / bf) bf) s Eo) as (-> & -> & -> & ->). cbn.
        assert (0 <= bf <= 100 /\ (1 <= c_bf st -> bf <= c_bf st)).
        { unfold bf, MAX_BF. destruct (Z.leb_spec 1 (c_bf st)); [destruct (Z.gtb_spec (c_bf st) n)|]; lia. }
        repeat split; lia || auto.
      - destruct (Z.eqb_spec n (c_nrecs st)); [|discriminate]. cbn [negb bind] in Eo. injection Eo as Eo.
        destruct (HSl st s Eo) as (-> & -> & -> & ->). repeat split; lia || auto. }
    destruct Hs as (H1 & H2 & H3 & H4).
    assert (HP : (fst y = 0 \/ fst y = 1) /\ c_bf (snd y) = c_bf s /\ c_nblocks (snd y) = c_nblocks s /\ c_nrecs (snd y) = c_nrecs s
                 /\ exists ext, c_log (snd y) = c_log st ++ ext).
    { revert E. apply (ofor_keep (fun y => (fst y = 0 \/ fst y = 1) /\ c_bf (snd y) = c_bf s /\ c_nblocks (snd y) = c_nblocks s /\ c_nrecs (snd y) = c_nrecs s
                 /\ exists ext, c_log (snd y) = c_log st ++ ext)).
      - intros i x x1 (Q1 & Q2 & Q3 & Q4 & (e1 & Q5)) F. destruct (pv_var_keeps _ _ _ _ _ _ _ _ _ Q1 F) as (P1 & P2 & P3 & P4 & (e2 & P5)).
        split; auto. do 3 (split; [congruence|]). exists (e1 ++ e2). now rewrite P5, Q5, app_assoc.
      - cbn. split; auto. do 3 (split; auto). exists []. now rewrite app_nil_r. }
    destruct HP as (P1 & P2 & P3 & P4 & P5). split; auto. split; [lia|]. unfold BI in *. rewrite P2, P3, P4. auto.
  Qed.

  (** *** the records of a file *)
  Lemma rec_loop_keeps w missing fi app block f st y : BI st -> Forall (fun rd => 0 <= rd_len rd) (in_dims fi) ->
    rec_loop zero w missing fi app block f st = Ok y -> 
    BI (snd y) /\ (1 <= c_bf st -> 1 <= c_bf (snd y)) /\ exists ext, c_log (snd y) = c_log st ++ ext.
  Proof.
    intros HB HS E. unfold rec_loop in E. apply bind_inv in E. destruct E as ([e s] & E0 & E).
    apply process_vars_keeps in E0; auto.
    cbn [fst snd] in E0. destruct E0 as (P1 & P2 & P3 & P4 & P5).
    revert E. apply (ofor_keep (fun y => BI (snd y) /\ (1 <= c_bf st -> 1 <= c_bf (snd y)) /\ exists ext, c_log (snd y) = c_log st ++ ext)).
    2: { cbn. split; auto. split; auto. intros H. destruct (P4 H). auto. }
    intros r [e1 s1] y1 (Q1 & Q2 & (x1 & Q3)) F. apply bind_inv in F. destruct F as ([e2 s2] & F1 & F). injection F as <-. cbn [fst snd] in *.
    apply process_vars_keeps in F1; auto. cbn [fst snd] in F1. destruct F1 as (R1 & R2 & R3 & R4 & (x2 & R5)).
    split; auto. split; [intros; apply R4; auto|]. exists (x1 ++ x2). now rewrite R5, Q3, app_assoc.
  Qed.

  Lemma rec_loop_two missing fi fi' app block f b b' st st' y y' : damaged_file fi fi' -> K b b' st st' ->
    0 <= block -> (block = 0 \/ 1 <= c_bf st) -> BI st -> Forall (fun rd => 0 <= rd_len rd) (in_dims fi) ->
    rec_loop zero wf missing fi app block f st = Ok y -> rec_loop zero wok missing fi' app block f st' = Ok y' -> Rv b b' y y'.
  Proof.
    intros HD HK Hb HB0 HB HS E E'. unfold rec_loop in E, E'. pose proof (nolog_eq _ _ (proj1 HK)) as (N1 & N2 & N3 & N4 & N5 & N6 & N7).
    rewrite <- N4 in E'.
    apply bind_inv in E. destruct E as ([e s] & E0 & E). apply bind_inv in E'. destruct E' as ([e' s'] & E0' & E').
    pose proof (process_vars_two _ _ _ _ _ _ _ _ _ _ _ _ HD HK E0 E0') as HR.
    apply process_vars_keeps in E0; auto.
    cbn [fst snd] in E0. destruct E0 as (P1 & P2 & P3 & P4 & P5).
    set (r0 := block * c_bf st) in *. set (last := Z.min _ _) in E.
    assert (HL : last - (r0 + 1) <= 99).
    { unfold last, r0. destruct P3 as [P3 _]. unfold MAX_BF in P3. destruct HB0 as [->|HB0]; [lia|]. specialize (P4 HB0). nia. }
    set (Inv := fun (i : Z) (x : Z * cst) => 0 <= fst x <= i - r0 /\ BI (snd x)).
    assert (HI : Inv (r0 + 1) (e mod 256, s)).
    { unfold Inv. cbn [fst snd]. split; auto. destruct P1; subst; cbn; lia. }
    assert (step : forall i x y, r0 + 1 <= i < r0 + 100 -> Inv i x ->
      (fun '(e, st) r => do '(e1, st) <- process_vars zero wf missing fi true r f st ; Ok ((e + e1) mod 256, st)) x i = Ok y ->
      Inv (i + 1) y /\ (0 < fst x -> 0 < fst y)).
    { intros i [e1 s1] y1 Hi [I1 I2] F. cbn [fst snd] in *. apply bind_inv in F. destruct F as ([e2 s2] & F1 & F). injection F as <-.
      apply process_vars_keeps in F1; auto. cbn [fst snd] in F1. destruct F1 as (R1 & R2 & R3 & R4 & R5). unfold Inv. cbn [fst snd].
      rewrite Z.mod_small by lia. split; [split; [lia|auto]|lia]. }
    destruct (Z.le_gt_cases 0 (last - (r0 + 1))) as [Hn|Hn].
    2: { unfold ofor in E. rewrite zseq_nonpos in E by lia. cbn in E. injection E as <-. destruct HR as [HR|[HR1 HR2]]; cbn [fst snd] in *.
      - left. cbn. destruct P1; subst; [lia|]. cbn. lia.
      - assert (Z.min ((block + 1) * c_bf s') (c_nrecs s') = last).
        { pose proof (nolog_eq _ _ (proj1 HR2)) as (_ & M2 & _ & M4 & _). unfold last. now rewrite M2, M4. }
        rewrite H in E'. unfold ofor in E'. rewrite zseq_nonpos in E' by lia. cbn in E'. injection E' as <-. right. cbn. subst e'. auto. }
    (* the two loops *)
    destruct HR as [HR|[HR1 HR2]]; cbn [fst snd] in *.
    - left. assert (X : Inv (r0 + 1 + (last - (r0 + 1))) y /\ 0 < fst y); [|lia].
      eapply (ofor_two (fun i x (_ : unit) => Inv i x /\ 0 < fst x) _ (fun u _ => Ok u) _ _ _ tt _ tt); [exact Hn| | |exact E|].
      + intros i x _ x1 _ Hi [I1 I2] F _. destruct (step i x x1 ltac:(lia) I1 F). auto.
      + split; auto. destruct P1; subst; [lia|]. cbn. lia.
      + unfold ofor. generalize (zseq (r0 + 1) (last - (r0 + 1))). induction l; cbn; auto.
    - assert (Z.min ((block + 1) * c_bf s') (c_nrecs s') = last).
      { pose proof (nolog_eq _ _ (proj1 HR2)) as (_ & M2 & _ & M4 & _). unfold last. now rewrite M2, M4. }
      rewrite H in E'. subst e'.
      assert (X : Inv (r0 + 1 + (last - (r0 + 1))) y /\ (0 < fst y \/ (fst y = fst y' /\ K b b' (snd y) (snd y')))).
      { eapply (ofor_two (fun i x x' => Inv i x /\ (0 < fst x \/ (fst x = fst x' /\ K b b' (snd x) (snd x')))) _ _ _ _ _ _ _ _ Hn); [| |exact E|exact E'].
        - intros i x x' x1 x1' Hi [I1 I2] F F'. destruct (step i x x1 ltac:(lia) I1 F) as [J1 J2]. split; auto. destruct I2 as [I2|[I2 I3]]; [auto|].
          destruct x as [ex sx], x' as [ex' sx']. cbn [fst snd] in *. subst ex'.
          apply bind_inv in F. destruct F as ([e2 s2] & F1 & F). injection F as <-.
          apply bind_inv in F'. destruct F' as ([e2' s2'] & F1' & F'). injection F' as <-. cbn [fst snd] in *.
          pose proof (process_vars_two _ _ _ _ _ _ _ _ _ _ _ _ HD I3 F1 F1') as [HR|[HR1 HR3]]; cbn [fst snd] in *.
          + left. apply process_vars_keeps in F1; [|apply I1|auto]. cbn [fst snd] in F1. destruct F1 as ([R1|R1] & _); [lia|].
            destruct I1 as [I1 _]. cbn [fst] in I1. subst. rewrite Z.mod_small by lia. lia.
          + right. subst. auto.
        - split; auto. }
      destruct X as [X1 [X2|X2]]; [left; lia|right; auto].
  Qed.

  (** *** a file *)
  Lemma process_file_keeps w missing file app block f st y : BI st -> (forall fi, file = Some fi -> Forall (fun rd => 0 <= rd_len rd) (in_dims fi)) ->
    process_file zero w missing file app block f st = Ok y ->
    BI (snd y) /\ (1 <= c_bf st -> 1 <= c_bf (snd y)) /\ exists ext, c_log (snd y) = c_log st ++ ext.
  Proof.
    intros HB HS E. assert (HT : BI st /\ (1 <= c_bf st -> 1 <= c_bf st) /\ exists ext, c_log st = c_log st ++ ext).
    { split; auto. split; auto. exists []. now rewrite app_nil_r. }
    unfold process_file in E. destruct file as [fi|]; [|injection E as <-; auto].
    destruct (in_nfiles fi) as [n|]; [|destruct (c_nfiles st =? 1); [injection E as <-; auto|discriminate]].
    apply bind_inv in E. destruct E as (oi & _ & E). apply rec_loop_keeps in E; auto.
  Qed.
  Lemma process_file_two missing file file' app block f b b' st st' y y' :
    match file, file' with None, _ => True | Some fi, Some fi' => damaged_file fi fi' | _, _ => False end -> K b b' st st' ->
    0 <= block -> (block = 0 \/ 1 <= c_bf st) -> BI st -> (forall fi, file = Some fi -> Forall (fun rd => 0 <= rd_len rd) (in_dims fi)) ->
    process_file zero wf missing file app block f st = Ok y -> process_file zero wok missing file' app block f st' = Ok y' -> Rv b b' y y'.
  Proof.
    intros HD HK Hb HB0 HB HS E E'. pose proof (nolog_eq _ _ (proj1 HK)) as (N1 & N2 & N3 & N4 & N5 & N6 & N7). unfold process_file in E, E'.
    destruct file as [fi|]; [|injection E as <-; left; cbn; lia]. destruct file' as [fi'|]; [|contradiction].
    pose proof HD as (D1 & D2 & D3 & D4). rewrite D1 in E. rewrite <- N1, <- N7 in E'.
    destruct (in_nfiles fi') as [n|]; [|destruct (c_nfiles st =? 1); [injection E as <-; injection E' as <-; right; auto|discriminate]].
    assert (ES : save_oinfo missing fi = save_oinfo missing fi').
    { unfold save_oinfo. rewrite D2, D3, (F2_len _ _ _ D4).
      assert (X : forall acc, ofold (fun acc v => do o <- save_ovar missing fi v ; Ok (acc ++ [o])) (in_vars fi) acc
                   = ofold (fun acc v => do o <- save_ovar missing fi' v ; Ok (acc ++ [o])) (in_vars fi') acc); [|now rewrite X].
      clear -D4 HD. induction D4 as [|v v' l l' Hv HF IH]; intros acc; cbn [ofold]; auto.
      assert (Ev : save_ovar missing fi v = save_ovar missing fi' v').
      { destruct Hv as (V1 & V2 & V3 & V4). unfold save_ovar. now rewrite (vdims_dam _ _ _ HD), V1, V3. }
      rewrite Ev. destruct (save_ovar missing fi' v'); cbn; auto. }
    rewrite (F2_len _ _ _ D4), D3, ES in E. apply bind_inv in E. destruct E as (oi & Eo & E). rewrite Eo in E'. cbn [bind] in E'.
    eapply rec_loop_two; [exact HD| | | | | |exact E|exact E']; auto. now apply K_oi.
  Qed.

  (** *** the flush *)
  Lemma flush_var_shape w r oi (x : Z * cst) vn y : flush_var w r oi x vn = Ok y ->
    y = x \/ (fst x = 0 /\ exists e, (w vn r = true /\ y = (1, snd x)) \/ (w vn r = false /\ y = (0, add_log (snd x) e))).
  Proof.
    destruct x as [c st]. unfold flush_var. destruct (Z.eqb_spec c 0); cbn [negb]; [|intros E; injection E as <-; auto].
    subst. intros E. apply bind_inv in E. destruct E as (ov & _ & E). destruct (negb (ov_decomp ov)); [injection E as <-; auto|].
    destruct (_ && _); [injection E as <-; auto|]. apply bind_inv in E. destruct E as (cnt & _ & E).
    destruct (c_buf st (r mod c_bf st) vn) as [bb|]; [|discriminate].
    right. split; auto. eexists. destruct (w vn r); injection E as <-; [left|right]; auto.
  Qed.
  Lemma flush_var_wok r oi (st : cst) vn y : flush_var wok r oi (0, st) vn = Ok y -> fst y = 0.
  Proof. intros E. apply flush_var_shape in E. destruct E as [->|(_ & e & [[H _]|[_ ->]])]; auto. discriminate. Qed.

  Definition Rf b b' (x x' : Z * cst) : Prop :=
    fst x' = 0 /\ nolog (snd x) = nolog (snd x') /\ (exists e', c_log (snd x') = b' ++ e')
    /\ ((fst x = 0 /\ K b b' (snd x) (snd x')) \/ (fst x = 1 /\ zlen b' + 1 <= zlen (c_log (snd x')))).
  Lemma flush_var_two r oi b b' vn x x' y y' : Rf b b' x x' ->
    flush_var wf r oi x vn = Ok y -> flush_var wok r oi x' vn = Ok y' -> Rf b b' y y'.
  Proof.
    intros HR E E'. destruct x as [c st], x' as [c' st']. unfold Rf in HR. cbn [fst snd] in HR.
    destruct HR as (-> & HN & (e' & He') & HR). pose proof (flush_var_wok _ _ _ _ _ E') as H0.
    destruct HR as [[-> HK]|[-> HL]].
    2: { unfold flush_var in E. cbn [Z.eqb negb] in E. injection E as <-. apply flush_var_shape in E'.
         destruct E' as [->|(_ & e & [[H _]|[_ ->]])]; [|discriminate|].
         - unfold Rf. cbn [fst snd]. split; auto. split; auto. split; eauto.
         - unfold Rf. cbn [fst snd] in *. split; auto. split; [rewrite HN; unfold nolog; cbn; auto|]. split; [exists (e' ++ [e]); cbn; now rewrite He', app_assoc|].
           right. split; auto. cbn. rewrite zlen_app, zlen_cons, zlen_nil. lia. }
    pose proof (nolog_eq _ _ HN) as (N1 & N2 & N3 & N4 & N5 & N6 & N7). unfold flush_var in E, E'. cbn [Z.eqb negb] in E, E'.
    apply bind_inv in E. destruct E as (ov & Eo & E). rewrite Eo in E'. cbn [bind] in E'.
    assert (HT : Rf b b' (0, st) (0, st')) by (split; auto; split; auto; split; eauto).
    destruct (negb (ov_decomp ov)); [injection E as <-; injection E' as <-; auto|].
    destruct (_ && _); [injection E as <-; injection E' as <-; auto|].
    apply bind_inv in E. destruct E as (cnt & Ec & E). rewrite Ec in E'. cbn [bind] in E'. rewrite <- N4, <- N6 in E'.
    destruct (c_buf st (r mod c_bf st) vn) as [bb|]; [|discriminate]. cbn [wok] in E'. unfold wok in E'. injection E' as <-.
    set (e := {| w_var := vn |}) in *. unfold Rf. cbn [fst snd].
    split; auto. destruct (wf vn r); injection E as <-; cbn [fst snd].
    - split; [rewrite HN; unfold nolog; cbn; auto|]. split; [exists (e' ++ [e]); cbn; now rewrite He', app_assoc|]. right. split; auto. cbn. rewrite He', !zlen_app, zlen_cons, zlen_nil.
      pose proof (zlen_nonneg e'). lia.
    - pose proof (K_add _ _ _ _ e HK) as HK1. split; [apply HK1|]. split; [exists (e' ++ [e]); cbn; now rewrite He', app_assoc|]. left. auto.
  Qed.
  Lemma flush_decomp_two r b b' st st' y y' : K b b' st st' ->
    flush_decomp wf r st = Ok y -> flush_decomp wok r st' = Ok y' -> Rf b b' y y'.
  Proof.
    intros HK E E'. pose proof (nolog_eq _ _ (proj1 HK)) as (N1 & N2 & N3 & N4 & N5 & N6 & N7). unfold flush_decomp in E, E'. rewrite <- N7, <- N4 in E'.
    apply bind_inv in E. destruct E as (oi & Eo & E). rewrite Eo in E'. cbn [bind] in E'. destruct (c_bf st =? 0); [discriminate|].
    assert (H0 : Rf b b' (0, st) (0, st')).
    { split; auto. split; [apply HK|]. split; [|left; auto]. destruct HK as [_ (e & _ & L)]. cbn. eauto. }
    eapply (ofor_both (Rf b b')); [|exact H0|exact E|exact E'].
    intros i x x' z z' _ HR F1 F2. eapply flush_var_two; eauto.
  Qed.
  Lemma flush_decomp_keeps w r st y : flush_decomp w r st = Ok y -> (fst y = 0 \/ fst y = 1) /\ nolog (snd y) = nolog st /\ exists e, c_log (snd y) = c_log st ++ e.
  Proof.
    intros E. unfold flush_decomp in E. apply bind_inv in E. destruct E as (oi & _ & E). destruct (c_bf st =? 0); [discriminate|].
    revert E. apply (ofor_keep (fun y => (fst y = 0 \/ fst y = 1) /\ nolog (snd y) = nolog st /\ exists e, c_log (snd y) = c_log st ++ e)).
    2: { cbn. split; auto. split; auto. exists []. now rewrite app_nil_r. }
    intros i [c s] y1 (H1 & H2 & (e & H3)) F. cbn [fst snd] in *. apply flush_var_shape in F.
    destruct F as [->|(_ & e1 & [[_ ->]|[_ ->]])]; cbn [fst snd] in *; split; auto; split; eauto.
    exists (e ++ [e1]). cbn. now rewrite H3, app_assoc.
  Qed.

  (** outcome of the writes so far: the count of failed flushes is exact up to the
      number of writes of the run without failures *)
  Definition Ro (x x' : Z * cst) : Prop :=
    256 <= zlen (c_log (snd x')) \/
    (nolog (snd x) = nolog (snd x') /\ fst x' = 0
     /\ ((fst x = 0 /\ c_log (snd x) = c_log (snd x')) \/ 0 < fst x <= zlen (c_log (snd x')))).
  Lemma zlen_ext {X} (l e : list X) : zlen l <= zlen (l ++ e).
  Proof. rewrite zlen_app. pose proof (zlen_nonneg e). lia. Qed.
  Lemma flush_step_two r x x' y y' : Ro x x' ->
    (fun '(e, st) r => do '(e1, st) <- flush_decomp wf r st ; Ok ((e + e1) mod 256, st)) x r = Ok y ->
    (fun '(e, st) r => do '(e1, st) <- flush_decomp wok r st ; Ok ((e + e1) mod 256, st)) x' r = Ok y' -> Ro y y'.
  Proof.
    intros HR E E'. destruct x as [e st], x' as [e' st']. cbn [fst snd] in *.
    apply bind_inv in E. destruct E as ([e1 s1] & F & E). injection E as <-.
    apply bind_inv in E'. destruct E' as ([e1' s1'] & F' & E'). injection E' as <-.
    pose proof (flush_decomp_keeps _ _ _ _ F) as (G1 & G2 & (x1 & G3)). pose proof (flush_decomp_keeps _ _ _ _ F') as (_ & G2' & (x1' & G3')). cbn [fst snd] in *.
    unfold Ro in HR. cbn [fst snd] in HR. destruct HR as [HR|(HN & -> & HR)].
    { left. cbn [snd]. rewrite G3'. pose proof (zlen_ext (c_log st') x1'). lia. }
    destruct (Z.le_gt_cases 256 (zlen (c_log s1'))) as [Hbig|Hsm]; [left; auto|].
    assert (HK : K (c_log st) (c_log st') st st') by (split; auto; exists []; now rewrite !app_nil_r).
    destruct (flush_decomp_two _ _ _ _ _ _ _ HK F F') as (R1 & R2 & (x2 & R3) & R4). cbn [fst snd] in *. subst e1'.
    right. cbn [fst snd]. split; [auto|]. split; [reflexivity|].
    pose proof (zlen_ext (c_log st') x2) as Hx. rewrite <- R3 in Hx.
    destruct R4 as [[-> [_ (x3 & K1 & K2)]]|[-> R4]].
    - rewrite Z.add_0_r. destruct HR as [[-> HL]|HR].
      + left. split; auto. now rewrite K1, K2, HL.
      + right. rewrite Z.mod_small by lia. lia.
    - right. pose proof (zlen_nonneg (c_log st')). destruct HR as [[-> HL]|HR]; [cbn; lia|]. rewrite Z.mod_small by lia. lia.
  Qed.
  Lemma flush_block_two block x x' y y' : Ro x x' ->
    flush_block wf block (fst x) (snd x) = Ok y -> flush_block wok block (fst x') (snd x') = Ok y' -> Ro y y'.
  Proof.
    intros HR E E'. destruct x as [e st], x' as [e' st']. unfold flush_block in *. cbn [fst snd] in *.
    assert (mono : forall lo n e (s : cst) y, ofor lo n (fun '(e, st) r => do '(e1, st) <- flush_decomp wok r st ; Ok ((e + e1) mod 256, st)) (e, s) = Ok y ->
        256 <= zlen (c_log s) -> 256 <= zlen (c_log (snd y))).
    { intros lo n e2 s y2 E2 H2. revert E2. apply (ofor_keep (fun y => 256 <= zlen (c_log (snd y)))); auto.
      intros i [e3 s3] y3 H3 F. apply bind_inv in F. destruct F as ([e4 s4] & F & F1). injection F1 as <-.
      apply flush_decomp_keeps in F. destruct F as (_ & _ & (x & F)). cbn [fst snd] in *. rewrite F. pose proof (zlen_ext (c_log s3) x). lia. }
    destruct HR as [HR|(HN & HR)].
    - left. eapply mono; eauto.
    - pose proof (nolog_eq _ _ HN) as (N1 & N2 & N3 & N4 & N5 & N6 & N7). cbn [fst snd] in *. rewrite <- N4, <- N2 in E'.
      eapply (ofor_both Ro _ _ _ _ (e, st) (e', st')); [|right; split; [exact HN|exact HR]|exact E|exact E']. intros. eapply flush_step_two; eauto.
  Qed.

  (** *** the log only grows *)
  Lemma pv_var_log w missing fi app r f x vn y :
    pv_var zero w missing fi app r f x vn = Ok y -> exists ext, c_log (snd y) = c_log (snd x) ++ ext.
  Proof.
    intros E. assert (HT : forall z : cst, exists ext, c_log z = c_log z ++ ext) by (intros z; exists []; now rewrite app_nil_r).
    destruct x as [c st]. cbn [fst snd] in *. unfold pv_var in E. destruct (negb (c =? 0)); [injection E as <-; auto|].
    apply bind_inv in E. destruct E as (v & _ & E). apply bind_inv in E. destruct E as (ds & _ & E).
    destruct (pv_skip _ _ _ _ _ _); [injection E as <-; cbn; auto|]. destruct (v_data v r); [|injection E as <-; cbn; auto 10].
    destruct (negb (vdecomp ds)).
    - destruct (w vn r); injection E as <-; cbn; eauto 10.
    - apply bind_inv in E. destruct E as (ns & _ & E). destruct (negb _); [discriminate|].
      apply bind_inv in E. destruct E as (ob & _ & E). destruct ob; [|injection E as <-; cbn; auto 10].
      apply bind_inv in E. destruct E as (b1 & _ & E). injection E as <-. cbn. auto 10.
  Qed.
  Lemma process_vars_log w missing fi app r f st y :
    process_vars zero w missing fi app r f st = Ok y -> exists ext, c_log (snd y) = c_log st ++ ext.
  Proof.
    intros E. unfold process_vars in E. apply bind_inv in E. destruct E as (n & En & E).
    apply bind_inv in E. destruct E as (o & Eo & E). destruct o as [s|]; [|injection E as <-; exists []; now rewrite app_nil_r].
    assert (Hs : c_log s = c_log st).
    { unfold pv_records in Eo.
      assert (HSl : forall z z' : cst, match c_slots z with None => set_slots z (Some (c_bf z)) | Some _ => z end = z' -> c_log z' = c_log z)
        by (intros z z' <-; destruct (c_slots z); auto).
      destruct (c_nrecs st =? 1).
      - set (bf := if 1 <=? c_bf st then _ else _) in *. destruct (bf =? 0); [discriminate|]. cbn [bind] in Eo. injection Eo as Eo.
        now apply (HSl (set_rec st n (if negb (n mod bf =? 0) then n / bf + 1 else n / bf) bf)) in Eo.
      - destruct (negb _); [discriminate|]. cbn [bind] in Eo. injection Eo as Eo. now apply (HSl st) in Eo. }
    revert E. apply (ofor_keep (fun y => exists ext, c_log (snd y) = c_log st ++ ext)).
    - intros i x x1 (e & He) F. apply pv_var_log in F. destruct F as (e1 & F). exists (e ++ e1). now rewrite F, He, app_assoc.
    - exists []. cbn. now rewrite Hs, app_nil_r.
  Qed.
  Lemma process_file_log w missing file app block f st y :
    process_file zero w missing file app block f st = Ok y -> exists ext, c_log (snd y) = c_log st ++ ext.
  Proof.
    intros E. assert (HT : exists ext, c_log st = c_log st ++ ext) by (exists []; now rewrite app_nil_r).
    unfold process_file in E. destruct file as [fi|]; [|injection E as <-; auto].
    destruct (in_nfiles fi) as [n|]; [|destruct (c_nfiles st =? 1); [injection E as <-; auto|discriminate]].
    apply bind_inv in E. destruct E as (oi & _ & E). unfold rec_loop in E. apply bind_inv in E. destruct E as ([e s] & E0 & E).
    apply process_vars_log in E0. cbn [snd c_log set_oi] in E0.
    revert E. apply (ofor_keep (fun y => exists ext, c_log (snd y) = c_log st ++ ext)); auto.
    intros r [e1 s1] y1 (x1 & Q3) F. apply bind_inv in F. destruct F as ([e2 s2] & F1 & F). injection F as <-. cbn [fst snd] in *.
    apply process_vars_log in F1. destruct F1 as (x2 & F1). cbn [snd] in F1. exists (x1 ++ x2). now rewrite F1, Q3, app_assoc.
  Qed.
  Lemma flush_block_keeps w block e st y : flush_block w block e st = Ok y -> nolog (snd y) = nolog st /\ exists ext, c_log (snd y) = c_log st ++ ext.
  Proof.
    unfold flush_block. apply (ofor_keep (fun y => nolog (snd y) = nolog st /\ exists ext, c_log (snd y) = c_log st ++ ext)).
    2: { split; auto. exists []. now rewrite app_nil_r. }
    intros r [e1 s1] y1 (N & x1 & Q3) F. apply bind_inv in F. destruct F as ([e2 s2] & F1 & F). injection F as <-. cbn [fst snd] in *.
    apply flush_decomp_keeps in F1. destruct F1 as (_ & N1 & x2 & F1). cbn [snd] in *. split; [congruence|]. exists (x1 ++ x2). now rewrite F1, Q3, app_assoc.
  Qed.

  (** *** the driver *)
  Context (fs fs' : @fsys A) (Hfs : damaged fs fs') (Hsane : sane fs).
  Context (o : copts).

  Lemma exists_dam nm : exists_ fs nm = exists_ fs' nm.
  Proof. specialize (Hfs nm). unfold exists_. destruct (fs nm) as [[|]|], (fs' nm) as [[|]|]; auto; contradiction. Qed.
  Lemma detect_dam pe a : detect fs pe a = detect fs' pe a.
  Proof. unfold detect. now rewrite !exists_dam. Qed.

  (** the run has not gone wrong so far *)
  Record Same (block : Z) (d d' : dst) : Prop := {
    sm_app : d_app d = d_app d'; sm_f : d_f d = d_f d'; sm_pe : d_pe d = d_pe d'; sm_used : d_used d = d_used d';
    sm_nend : d_nend d = d_nend d'; sm_break : d_break d = d_break d'; sm_stop : d_stop d = d_stop d';
    sm_inerr : d_inerr d = d_inerr d';
    sm_out : Ro (d_outerr d, d_st d) (d_outerr d', d_st d'); sm_log : zlen (c_log (d_st d')) < 256;
    sm_bi : BI (d_st d); sm_bf : block = 0 \/ 1 <= c_bf (d_st d) }.
  Definition bad (d : dst) : Prop := d_inerr d = true.
  Definition full (d : dst) : Prop := 256 <= zlen (c_log (d_st d)).
  Definition Rd block (d d' : dst) : Prop := bad d \/ full d' \/ Same block d d'.

  Lemma do_file_bad w h nm block me first last d y : bad d -> do_file zero w o h nm block me first last d = Ok y -> bad y.
  Proof.
    unfold bad, do_file. intros H E. destruct (_ && _); [injection E as <-; auto|].
    apply bind_inv in E. destruct E as ([e st] & _ & E). cbv zeta in E. cbn [d_f d_outerr d_pe d_used d_inerr d_nend d_stop] in E. rewrite H in E. cbn [orb] in E.
    match type of E with (if ?c then _ else _) = _ => destruct c end; [|injection E as <-; auto].
    apply bind_inv in E. destruct E as ([oe s] & _ & E). injection E as <-. auto.
  Qed.
  Lemma do_file_full w h nm block me first last d y : full d -> do_file zero w o h nm block me first last d = Ok y -> full y.
  Proof.
    unfold full, do_file. intros H E. destruct (_ && _); [injection E as <-; auto|].
    apply bind_inv in E. destruct E as ([e st] & E0 & E). apply process_file_log in E0. destruct E0 as (ext & E0). cbn [snd] in E0.
    assert (H1 : 256 <= zlen (c_log st)) by (rewrite E0; pose proof (zlen_ext (c_log (d_st d)) ext); lia).
    cbv zeta in E.
    match type of E with (if ?c then _ else _) = _ => destruct c end; [|injection E as <-; auto].
    apply bind_inv in E. destruct E as ([oe s] & E1 & E). apply flush_block_keeps in E1. destruct E1 as (_ & ext1 & E1). cbn [snd] in E1.
    injection E as <-. cbn. rewrite E1. pose proof (zlen_ext (c_log st) ext1). lia.
  Qed.

  Lemma do_file_two nm block me first last last' d d' y y' : 0 <= block ->
    (forall d d', d_nend d = d_nend d' -> last d = last' d') -> Rd block d d' ->
    do_file zero wf o fs nm block me first last d = Ok y -> do_file zero wok o fs' nm block me first last' d' = Ok y' -> Rd block y y'.
  Proof.
    intros Hb Hlast [HR|[HR|HR]] E E'.
    - left. eapply do_file_bad; eauto.
    - right. left. eapply do_file_full; eauto.
    - unfold do_file in E, E'. pose proof (Hfs nm) as Hnm.
      assert (HM : match fs nm with None => true | _ => false end = match fs' nm with None => true | _ => false end).
      { pose proof (exists_dam nm) as X. unfold exists_ in X. destruct (fs nm), (fs' nm); auto; discriminate. }
      rewrite <- HM in E'. set (mf := match fs nm with None => true | _ => false end) in *.
      destruct (mf && negb (o_force o)).
      { injection E as <-. injection E' as <-. right. right. destruct HR. constructor; cbn; auto. }
      apply bind_inv in E. destruct E as ([e st] & E0 & E). apply bind_inv in E'. destruct E' as ([e' st'] & E0' & E').
      cbv zeta in E, E'. cbn [d_f d_outerr d_pe d_used d_inerr d_nend d_stop] in E, E'.
      pose proof (sm_out _ _ _ HR) as HO. destruct HO as [HO|(HN & HO1 & HO2)]; [cbn in HO; pose proof (sm_log _ _ _ HR); lia|]. cbn [fst snd] in HN, HO1, HO2.
      rewrite <- (sm_app _ _ _ HR), <- (sm_f _ _ _ HR) in E0'.
      assert (HK : K (c_log (d_st d)) (c_log (d_st d')) (d_st d) (d_st d')) by (split; auto; exists []; now rewrite !app_nil_r).
      assert (HS : forall fi, match fs nm with Some x => x | None => None end = Some fi -> Forall (fun rd => 0 <= rd_len rd) (in_dims fi)).
      { intros fi Hfi. apply (Hsane nm). destruct (fs nm); congruence. }
      assert (HX : match match fs nm with Some x => x | None => None end, match fs' nm with Some x => x | None => None end with
                   | None, _ => True | Some fi, Some fi' => damaged_file fi fi' | _, _ => False end).
      { clear -Hnm. destruct (fs nm) as [[|]|], (fs' nm) as [[|]|]; auto. }
      pose proof (process_file_two _ _ _ _ _ _ _ _ _ _ _ _ HX HK Hb (sm_bf _ _ _ HR) (sm_bi _ _ _ HR) HS E0 E0') as HP.
      apply process_file_keeps in E0; [|apply HR|auto]. destruct E0 as (G1 & G2 & _). cbn [snd] in G1, G2.
      apply process_file_log in E0'. destruct E0' as (ext' & E0'). cbn [snd] in E0'.
      destruct HP as [HP|[HP1 HP2]]; cbn [fst snd] in *.
      { (* an input error *)
        left. destruct (Z.eqb_spec e 0) as [|_]; [contradiction|]. cbn [negb] in E. rewrite orb_true_r in E.
        match type of E with (if ?c then _ else _) = _ => destruct c end; [|injection E as <-; reflexivity].
        apply bind_inv in E. destruct E as ([oe s] & _ & E). injection E as <-. reflexivity. }
      subst e'. destruct HP2 as [HN2 (ext & L & L')]. pose proof (nolog_eq _ _ HN2) as (N1 & N2 & N3 & N4 & N5 & N6 & N7).
      destruct (Z.le_gt_cases 256 (zlen (c_log st'))) as [Hbig|Hsmall].
      { right. left. match type of E' with (if ?c then _ else _) = _ => destruct c end.
        - apply bind_inv in E'. destruct E' as ([oe s] & E1 & E'). injection E' as <-. apply flush_block_keeps in E1. destruct E1 as (_ & x & E1). cbn [snd] in E1.
          unfold full. cbn. rewrite E1. pose proof (zlen_ext (c_log st') x). lia.
        - injection E' as <-. unfold full. cbn. lia. }
      assert (HRo : Ro (d_outerr d, st) (d_outerr d', st')).
      { right. cbn [fst snd]. split; auto. split; auto. destruct HO2 as [[HO2 HL]|HO2]; [left|right].
        - split; auto. now rewrite L, L', HL.
        - rewrite L'. pose proof (zlen_ext (c_log (d_st d')) ext). lia. }
      rewrite <- N1, <- (sm_nend _ _ _ HR), <- (sm_f _ _ _ HR), <- (sm_inerr _ _ _ HR), <- (sm_pe _ _ _ HR), <- (sm_used _ _ _ HR) in E'.
      set (nd := if first && (c_nfiles st >? 0) then o_start o + c_nfiles st else d_nend d) in *.
      set (d1 := {| d_st := st |}) in E. set (d1' := {| d_st := st' |}) in E'.
      assert (HL : last d1 = last' d1') by (apply Hlast; reflexivity). rewrite <- HL in E'.
      destruct ((d_f d + 1 =? c_nfiles st) || last d1).
      + apply bind_inv in E. destruct E as ([oe s] & E1 & E). apply bind_inv in E'. destruct E' as ([oe' s'] & E1' & E').
        injection E as <-. injection E' as <-.
        pose proof (flush_block_two _ _ _ _ _ HRo E1 E1') as HF. apply flush_block_keeps in E1. destruct E1 as (M1 & _). cbn [snd] in M1.
        apply nolog_eq in M1. destruct M1 as (M1 & M2 & M3 & M4 & _).
        destruct (Z.le_gt_cases 256 (zlen (c_log s'))); [right; left; unfold full; cbn; lia|].
        right. right. constructor; cbn; auto.
        * unfold BI in *. now rewrite M4, M3, M2.
        * rewrite M4. destruct (sm_bf _ _ _ HR); auto.
      + injection E as <-. injection E' as <-. right. right. constructor; cbn; auto. destruct (sm_bf _ _ _ HR); auto.
  Qed.

  Lemma do_num_bad w h block me first last d a y : bad d -> do_num zero w o h block me first last d a = Ok y -> bad y.
  Proof.
    intros H E. unfold do_num in E. destruct (negb (running d)); [injection E as <-; auto|].
    destruct (detect h (d_pe d) a); [|injection E as <-; auto]. apply do_file_bad in E; auto.
  Qed.
  Lemma do_num_full w h block me first last d a y : full d -> do_num zero w o h block me first last d a = Ok y -> full y.
  Proof.
    intros H E. unfold do_num in E. destruct (negb (running d)); [injection E as <-; auto|].
    destruct (detect h (d_pe d) a); [|injection E as <-; auto]. apply do_file_full in E; auto.
  Qed.
  Lemma do_num_two block me first last d d' a y y' : 0 <= block ->
    (forall d d', d_nend d = d_nend d' -> last a d = last a d') -> Rd block d d' ->
    do_num zero wf o fs block me first last d a = Ok y -> do_num zero wok o fs' block me first last d' a = Ok y' -> Rd block y y'.
  Proof.
    intros Hb Hl [HR|[HR|HR]] E E'.
    - left. eapply do_num_bad; eauto.
    - right. left. eapply do_num_full; eauto.
    - unfold do_num in E, E'. rewrite <- detect_dam in E'. unfold running in *. rewrite <- (sm_stop _ _ _ HR), <- (sm_break _ _ _ HR), <- (sm_pe _ _ _ HR) in E'.
      destruct (negb _); [injection E as <-; injection E' as <-; right; right; auto|].
      destruct (detect fs (d_pe d) a) as [w|]; [|injection E as <-; injection E' as <-; right; right; auto].
      eapply do_file_two; [exact Hb| | |exact E|exact E']; auto. right. right. destruct HR. constructor; cbn; auto.
  Qed.

  (** a block of each mode *)
  Definition respects (one one' : Z -> dst -> outcome dst) : Prop :=
    (forall b d y, bad d -> one b d = Ok y -> bad y) /\ (forall b d y, full d -> one' b d = Ok y -> full y)
    /\ (forall b d d' y y', 0 <= b -> Same b d d' -> one b d = Ok y -> one' b d' = Ok y' -> Rd b y y').

  Lemma start_same b d d' : Same b d d' -> Same b (start_block d) (start_block d').
  Proof. intros []. constructor; cbn; auto. Qed.
  Lemma free_Ro e e' (s s' : cst) : Ro (e, s) (e', s') -> Ro (e, free_bufs s) (e', free_bufs s').
  Proof.
    unfold Ro. cbn [fst snd]. intros [H|(H1 & H2 & H3)]; [left; auto|right]. split; auto.
    apply nolog_eq in H1. destruct H1 as (N1 & N2 & N3 & N4 & N5 & N6 & N7). unfold nolog, free_bufs. cbn. congruence.
  Qed.
  Lemma end_Rd b d d' : Rd b d d' -> Rd b (end_block d) (end_block d').
  Proof.
    intros [H|[H|H]]; [left; auto|right; left; auto|right; right]. destruct H. constructor; cbn; auto. now apply free_Ro.
  Qed.

  Lemma args_respects nargs : respects (block_args zero wf o fs nargs) (block_args zero wok o fs' nargs).
  Proof.
    split; [|split].
    - intros b d y H E. unfold block_args in E. apply bind_inv in E. destruct E as (d1 & E & E1). injection E1 as <-.
      change (bad d1). revert E. apply (ofor_keep bad); auto. intros i s s1 Hs F. destruct (negb (running s)); [injection F as <-; auto|].
      eapply do_file_bad; eauto.
    - intros b d y H E. unfold block_args in E. apply bind_inv in E. destruct E as (d1 & E & E1). injection E1 as <-.
      change (full d1). revert E. apply (ofor_keep full); auto. intros i s s1 Hs F. destruct (negb (running s)); [injection F as <-; auto|].
      eapply do_file_full; eauto.
    - intros b d d' y y' Hb HS E E'. unfold block_args in E, E'. apply bind_inv in E. destruct E as (d1 & E & E1). injection E1 as <-.
      apply bind_inv in E'. destruct E' as (d1' & E' & E1'). injection E1' as <-. apply end_Rd.
      eapply (ofor_both (Rd b)); [|right; right; apply start_same, HS|exact E|exact E'].
      intros i s s' t t' Hi HR F F'. cbv beta in F, F'. destruct HR as [HR|[HR|HR]].
      + left. destruct (negb (running s)); [injection F as <-; auto|]. eapply do_file_bad; eauto.
      + right. left. destruct (negb (running s')); [injection F' as <-; auto|]. eapply do_file_full; eauto.
      + unfold running in F, F'. rewrite <- (sm_stop _ _ _ HR), <- (sm_break _ _ _ HR) in F'.
        destruct (negb _); [injection F as <-; injection F' as <-; right; right; auto|].
        eapply do_file_two; [exact Hb| |right; right; exact HR|exact F|exact F']. auto.
  Qed.

  Lemma range_respects nend : respects (block_range zero wf o fs nend) (block_range zero wok o fs' nend).
  Proof.
    split; [|split].
    - intros b d y H E. unfold block_range in E. apply bind_inv in E. destruct E as (d1 & E & E1).
      assert (bad d1). { revert E. apply (ofor_keep bad); auto. intros i s s1 Hs F. eapply do_num_bad; eauto. }
      destruct (match d_stop d1 with None => _ | _ => _ end); injection E1 as <-; auto.
    - intros b d y H E. unfold block_range in E. apply bind_inv in E. destruct E as (d1 & E & E1).
      assert (full d1). { revert E. apply (ofor_keep full); auto. intros i s s1 Hs F. eapply do_num_full; eauto. }
      destruct (match d_stop d1 with None => _ | _ => _ end); injection E1 as <-; auto.
    - intros b d d' y y' Hb HS E E'. unfold block_range in E, E'. apply bind_inv in E. destruct E as (d1 & E & E1).
      apply bind_inv in E'. destruct E' as (d1' & E' & E1').
      assert (HR : Rd b d1 d1').
      { eapply (ofor_both (Rd b)); [|right; right; apply start_same, HS|exact E|exact E'].
        intros i s s' t t' Hi HR F F'. eapply do_num_two; [exact Hb| |exact HR|exact F|exact F']. auto. }
      destruct HR as [HR|[HR|HR]].
      + left. destruct (match d_stop d1 with None => _ | _ => _ end); injection E1 as <-; auto.
      + right. left. destruct (match d_stop d1' with None => _ | _ => _ end); injection E1' as <-; auto.
      + rewrite <- (sm_stop _ _ _ HR), <- (sm_used _ _ _ HR) in E1'.
        destruct (match d_stop d1 with None => _ | _ => _ end); injection E1 as <-; injection E1' as <-.
        * right. right. destruct HR. constructor; cbn; auto.
        * apply end_Rd. right. right. auto.
  Qed.

  Lemma auto_respects : respects (block_auto zero wf o fs) (block_auto zero wok o fs').
  Proof.
    split; [|split].
    - intros b d y H E. unfold block_auto in E. apply bind_inv in E. destruct E as (d0 & E0 & E). apply bind_inv in E. destruct E as (d1 & E & E1). injection E1 as <-.
      apply do_num_bad in E0; auto. change (bad d1). revert E. apply (ofor_keep bad); auto. intros i s s1 Hs F. eapply do_num_bad; eauto.
    - intros b d y H E. unfold block_auto in E. apply bind_inv in E. destruct E as (d0 & E0 & E). apply bind_inv in E. destruct E as (d1 & E & E1). injection E1 as <-.
      apply do_num_full in E0; auto. change (full d1). revert E. apply (ofor_keep full); auto. intros i s s1 Hs F. eapply do_num_full; eauto.
    - intros b d d' y y' Hb HS E E'. unfold block_auto in E, E'. apply bind_inv in E. destruct E as (d0 & E0 & E). apply bind_inv in E. destruct E as (d1 & E & E1). injection E1 as <-.
      apply bind_inv in E'. destruct E' as (d0' & E0' & E'). apply bind_inv in E'. destruct E' as (d1' & E' & E1'). injection E1' as <-. apply end_Rd.
      assert (H0 : Rd b d0 d0').
      { eapply do_num_two; [exact Hb| |right; right; apply start_same, HS|exact E0|exact E0']. intros x x' Hx; cbv beta; now rewrite Hx. }
      destruct H0 as [H0|[H0|H0]].
      + left. revert E. apply (ofor_keep bad); auto. intros i s s1 Hs F. eapply do_num_bad; eauto.
      + right. left. revert E'. apply (ofor_keep full); auto. intros i s s1 Hs F. eapply do_num_full; eauto.
      + rewrite <- (sm_nend _ _ _ H0) in E'.
        eapply (ofor_both (Rd b)); [|right; right; exact H0|exact E|exact E'].
        intros i s s' t t' Hi HR F F'. eapply do_num_two; [exact Hb| |exact HR|exact F|exact F']. intros x x' Hx; cbv beta; now rewrite Hx.
  Qed.

  Lemma all_blocks_two one one' d d' y y' : respects one one' -> Same 0 d d' ->
    all_blocks one d = Ok y -> all_blocks one' d' = Ok y' -> bad y \/ full y' \/ Same 0 y y'.
  Proof.
    intros (R1 & R2 & R3) HS E E'. unfold all_blocks in E, E'.
    apply bind_inv in E. destruct E as (d1 & E0 & E). apply bind_inv in E'. destruct E' as (d1' & E0' & E').
    assert (S1 : forall b d y, bad d -> match d_stop d with Some _ => Ok d | None => one b d end = Ok y -> bad y).
    { intros b x z Hx F. destruct (d_stop x); [injection F as <-; auto|]. eapply R1; eauto. }
    assert (S2 : forall b d y, full d -> match d_stop d with Some _ => Ok d | None => one' b d end = Ok y -> full y).
    { intros b x z Hx F. destruct (d_stop x); [injection F as <-; auto|]. eapply R2; eauto. }
    assert (S3 : forall b d d' y y', 0 <= b -> Same b d d' -> match d_stop d with Some _ => Ok d | None => one b d end = Ok y ->
             match d_stop d' with Some _ => Ok d' | None => one' b d' end = Ok y' -> Rd b y y').
    { intros b x x' z z' Hb HX F F'. rewrite <- (sm_stop _ _ _ HX) in F'. destruct (d_stop x); [injection F as <-; injection F' as <-; right; right; auto|].
      eapply R3; eauto. }
    assert (weak : forall b x x', Same b x x' -> Same 0 x x') by (intros b x x' []; constructor; auto).
    destruct (S3 0 _ _ _ _ ltac:(lia) HS E0 E0') as [H|[H|H]].
    - left. revert E. apply (ofor_keep bad); auto.
    - right. left. revert E'. apply (ofor_keep full); auto.
    - assert (HN : c_nblocks (d_st d1) = c_nblocks (d_st d1')).
      { destruct (sm_out _ _ _ H) as [HO|(HO & _)]; [cbn in HO; pose proof (sm_log _ _ _ H); lia|]. apply nolog_eq in HO. apply HO. }
      rewrite <- HN in E'. destruct (Z.le_gt_cases (c_nblocks (d_st d1)) 1) as [Hle|Hgt].
      { unfold ofor in E, E'. rewrite zseq_nonpos in E, E' by lia. cbn in E, E'. injection E as <-. injection E' as <-. auto. }
      assert (HB : 1 <= c_bf (d_st d1)) by (destruct (sm_bi _ _ _ H) as [_ [?|?]]; lia).
      assert (H1 : Same 1 d1 d1') by (destruct H; constructor; auto).
      assert (X : Rd 1 y y').
      { eapply (ofor_both (Rd 1)); [|right; right; exact H1|exact E|exact E'].
        intros i s s' t t' Hi HR F F'. cbv beta in F, F'. destruct HR as [HR|[HR|HR]]; [left; eapply S1; eauto|right; left; eapply S2; eauto|].
        assert (HI : Same i s s') by (destruct (sm_bf _ _ _ HR); [lia|destruct HR; constructor; auto]).
        destruct (S3 i _ _ _ _ ltac:(lia) HI F F') as [Y|[Y|Y]]; [left; auto|right; left; auto|right; right].
        destruct (sm_bf _ _ _ Y); [lia|destruct Y; constructor; auto]. }
      destruct X as [X|[X|X]]; auto. right. right. eapply weak; eauto.
  Qed.

  Lemma remove_dam pe a b : remove_nums fs pe a b = remove_nums fs' pe a b.
  Proof.
    unfold remove_nums. f_equal. generalize (zseq a (b - a + 1)) as l. intros l. generalize (pe, @nil fname) as p.
    induction l as [|x l IH]; intros [q acc]; cbn [fold_left]; auto. rewrite IH. f_equal. rewrite detect_dam. destruct (detect fs' q x); auto. now rewrite exists_dam.
  Qed.

  (** *** the status of a run that was stopped *)
  Definition stop_ok (d : dst) : Prop := forall c, d_stop d = Some c -> c <> 0.
  Lemma do_file_stop w h nm block me first last d y : stop_ok d -> do_file zero w o h nm block me first last d = Ok y -> stop_ok y.
  Proof.
    unfold stop_ok, do_file. intros H E. destruct (_ && _); [injection E as <-; cbn; intros c Hc; injection Hc as <-; lia|].
    apply bind_inv in E. destruct E as ([e st] & _ & E). cbv zeta in E.
    match type of E with (if ?c then _ else _) = _ => destruct c end; [|injection E as <-; cbn; discriminate].
    apply bind_inv in E. destruct E as ([oe s] & _ & E). injection E as <-. cbn. discriminate.
  Qed.
  Lemma do_num_stop w h block me first last d a y : stop_ok d -> do_num zero w o h block me first last d a = Ok y -> stop_ok y.
  Proof.
    intros H E. unfold do_num in E. destruct (negb (running d)); [injection E as <-; auto|].
    destruct (detect h (d_pe d) a); [|injection E as <-; auto]. apply do_file_stop in E; auto.
  Qed.
  Lemma all_blocks_stop one d y : (forall b d y, stop_ok d -> one b d = Ok y -> stop_ok y) -> stop_ok d -> all_blocks one d = Ok y -> stop_ok y.
  Proof.
    intros H HS E. unfold all_blocks in E. apply bind_inv in E. destruct E as (d1 & E0 & E).
    assert (S1 : forall b d y, stop_ok d -> match d_stop d with Some _ => Ok d | None => one b d end = Ok y -> stop_ok y).
    { intros b x z Hx F. destruct (d_stop x) eqn:Ex; [injection F as <-; auto|]. eapply H; eauto. }
    apply S1 in E0; auto. revert E. apply (ofor_keep stop_ok); eauto.
  Qed.
  Lemma args_stop w h nargs b d y : stop_ok d -> block_args zero w o h nargs b d = Ok y -> stop_ok y.
  Proof.
    intros H E. unfold block_args in E. apply bind_inv in E. destruct E as (d1 & E & E1). injection E1 as <-.
    change (stop_ok d1). revert E. apply (ofor_keep stop_ok); auto. intros i s s1 Hs F. destruct (negb (running s)); [injection F as <-; auto|].
    eapply do_file_stop; eauto.
  Qed.
  Lemma range_stop w h nend b d y : stop_ok d -> block_range zero w o h nend b d = Ok y -> stop_ok y.
  Proof.
    intros H E. unfold block_range in E. apply bind_inv in E. destruct E as (d1 & E & E1).
    assert (stop_ok d1). { revert E. apply (ofor_keep stop_ok); auto. intros i s s1 Hs F. eapply do_num_stop; eauto. }
    destruct (match d_stop d1 with None => _ | _ => _ end); injection E1 as <-; auto. intros c Hc. cbn in Hc. injection Hc as <-. lia.
  Qed.
  Lemma auto_stop w h b d y : stop_ok d -> block_auto zero w o h b d = Ok y -> stop_ok y.
  Proof.
    intros H E. unfold block_auto in E. apply bind_inv in E. destruct E as (d0 & E0 & E). apply bind_inv in E. destruct E as (d1 & E & E1). injection E1 as <-.
    apply do_num_stop in E0; auto. change (stop_ok d1). revert E. apply (ofor_keep stop_ok); auto. intros i s s1 Hs F. eapply do_num_stop; eauto.
  Qed.

  Lemma main_two cf nargs ex r r0 : 0 <= cf ->
    main zero wok 0 o fs' nargs ex = Ok r0 -> main zero wf cf o fs nargs ex = Ok r -> zlen (res_log r0) + cf < 256 ->
    res_code r = 0 -> cf = 0 /\ r = r0.
  Proof.
    intros Hcf E' E HL HC. unfold main in E, E'. destruct (negb (o_append o) && ex); [injection E as <-; discriminate|].
    destruct (o_append o && negb ex); [injection E as <-; discriminate|].
    set (d0 := {| d_st := _ |}) in E, E'. cbv zeta in E, E'.
    apply bind_inv in E. destruct E as (d & E1 & E). apply bind_inv in E'. destruct E' as (d' & E1' & E').
    assert (HS0 : Same 0 d0 d0).
    { constructor; cbn; auto; [right; cbn; auto|lia|]. split; cbn; unfold MAX_BF; lia. }
    assert (HR : bad d \/ full d' \/ Same 0 d d').
    { destruct (nargs >? 0); [eapply all_blocks_two; [apply args_respects|exact HS0|exact E1|exact E1']|].
      destruct (o_end o) as [e|]; [destruct (e >? -1)|]; first [eapply all_blocks_two; [apply range_respects|exact HS0|exact E1|exact E1']|eapply all_blocks_two; [apply auto_respects|exact HS0|exact E1|exact E1']]. }
    assert (HS : stop_ok d).
    { assert (stop_ok d0) by (intros c Hc; discriminate).
      destruct (nargs >? 0); [eapply all_blocks_stop; [|exact H|exact E1]; intros ? ? ?; apply args_stop|].
      destruct (o_end o) as [e|]; [destruct (e >? -1)|]; (eapply all_blocks_stop; [|exact H|exact E1]; intros ? ? ?; first [apply range_stop|apply auto_stop]). }
    destruct (d_stop d) as [c|] eqn:Es; [injection E as <-; cbn in HC; exfalso; eapply HS; eauto|].
    destruct HR as [HR|[HR|HR]].
    - rewrite HR in E. cbn [negb andb] in E. injection E as <-. discriminate.
    - unfold full in HR. assert (res_log r0 = c_log (d_st d')).
      { destruct (d_stop d'); [injection E' as <-; auto|]. destruct (_ && _); injection E' as <-; auto. }
      rewrite H in HL. lia.
    - rewrite <- (sm_stop _ _ _ HR), Es in E'. rewrite <- (sm_inerr _ _ _ HR), <- (sm_pe _ _ _ HR), <- (sm_nend _ _ _ HR) in E'.
      destruct (sm_out _ _ _ HR) as [HO|(HO1 & HO2 & HO3)]; [cbn in HO; pose proof (sm_log _ _ _ HR); lia|]. cbn [fst snd] in *.
      rewrite HO2 in E'. change ((0 + 0) mod 256 =? 0) with true in E'. rewrite andb_true_r in E'.
      destruct (d_inerr d); cbn [negb andb] in E; [injection E as <-; discriminate|].
      cbn [negb] in E'. injection E' as <-. cbn [res_log] in HL.
      destruct HO3 as [[HO3 HO4]|HO3].
      + rewrite HO3 in E. rewrite Z.add_0_l in E. pose proof (zlen_nonneg (c_log (d_st d'))). rewrite Z.mod_small in E by lia.
        destruct (Z.eqb_spec cf 0) as [->|]; [|injection E as <-; discriminate]. split; auto. injection E as <-. rewrite HO4. f_equal.
        destruct (o_remove o); auto. destruct (nargs >? 0); [|now rewrite remove_dam].
        unfold remove_args. apply filter_ext. intros a. apply exists_dam.
      + exfalso. rewrite Z.mod_small in E by lia. destruct (Z.eqb_spec (d_outerr d + cf) 0); [lia|]. injection E as <-. discriminate.
  Qed.
End E.
